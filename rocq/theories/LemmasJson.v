From Verif Require Import Base ModelStrconv ModelArray ModelUtf8 ModelEncoding SpecText SpecJson
  LemmasBase LemmasArray LemmasArray2.
Local Open Scope char_scope.
Local Open Scope list_scope.

(** An element text that reads as a JSON value in front of a comma or a closing bracket. *)
Definition json_elem (t : bytes) (j : json) : Prop :=
  (forall f c rest, c = ","%char \/ c = "]"%char -> value (S f) (t ++ c :: rest) = Some (j, c :: rest)) /\
  match t with [] => False | c :: _ => is_ws c = false /\ c <> "]"%char end.

Lemma eqb_neq a b : a <> b -> Ascii.eqb a b = false.
Proof. apply Ascii.eqb_neq. Qed.

Lemma elements_S f s : elements (S f) s =
    match value f s with
    | None => None
    | Some (v, r) =>
      match skip_ws r with
      | [] => None
      | c :: r' =>
        if Ascii.eqb c "," then
          match elements f r' with Some (l, rest) => Some (v :: l, rest) | None => None end
        else if Ascii.eqb c "]" then Some ([v], r') else None
      end
    end.
Proof. reflexivity. Qed.

Lemma value_arr f r : value (S f) ("[" :: r) =
        match skip_ws r with
        | [] => None
        | d :: r' => if Ascii.eqb d "]" then Some (JArr [], r')
                     else match elements f r with Some (l, rest) => Some (JArr l, rest) | None => None end
        end.
Proof. reflexivity. Qed.

Lemma elements_list {A} (enc : A -> bytes) (j : A -> json) : forall l, l <> [] ->
  Forall (fun a => json_elem (enc a) (j a)) l ->
  forall f rest, (length l < f)%nat ->
  elements f (join (B ",") (map enc l) ++ "]"%char :: rest) = Some (map j l, rest).
Proof.
  induction l as [|a l IH]; intros NE H f rest Hf; [contradiction|].
  inversion H as [|? ? [Ha Hh] Hl]; subst. cbn [length] in Hf.
  destruct f as [|f]; [lia|]. destruct f as [|f]; [lia|].
  destruct l as [|b l].
  - cbn [map join]. rewrite elements_S, Ha by (right; reflexivity). reflexivity.
  - change (map enc (a :: b :: l)) with (enc a :: map enc (b :: l)).
    change (join (B ",") (enc a :: map enc (b :: l)))
      with (enc a ++ B "," ++ join (B ",") (map enc (b :: l))).
    rewrite <- !app_assoc. change (B "," ++ ?x) with (","%char :: x).
    rewrite elements_S, Ha by (left; reflexivity). cbn [skip_ws].
    change (is_ws ",") with false. cbn iota. change (Ascii.eqb "," ",") with true. cbn iota.
    rewrite IH; [reflexivity | discriminate | exact Hl | cbn [length] in *; lia].
Qed.

Lemma join_length_ge {A} (enc : A -> bytes) l :
  Forall (fun a => enc a <> []) l -> (length l <= length (join (B ",") (map enc l)))%nat.
Proof.
  induction 1 as [|a l Ha Hl IH]; [cbn; lia|].
  destruct l as [|b l].
  - cbn. destruct (enc a); [contradiction|cbn; lia].
  - change (map enc (a :: b :: l)) with (enc a :: map enc (b :: l)).
    change (join (B ",") (enc a :: map enc (b :: l)))
      with (enc a ++ B "," ++ join (B ",") (map enc (b :: l))).
    rewrite !app_length. cbn [length] in *. change (length (B ",")) with 1.
    destruct (enc a); [contradiction|cbn [length]]. lia.
Qed.

Lemma read_json_list {A} (enc : A -> bytes) (j : A -> json) l :
  Forall (fun a => json_elem (enc a) (j a)) l ->
  read_json (list_text "["%char "]"%char (map enc l)) = Some (JArr (map j l)).
Proof.
  intro H. unfold read_json, list_text.
  destruct l as [|a l]; [reflexivity|].
  assert (L : (length (a :: l) <= length (join (B ",") (map enc (a :: l))))%nat).
  { apply join_length_ge. eapply Forall_impl; [|exact H]. intros x [_ Hx] E. rewrite E in Hx. exact Hx. }
  remember (S (length ("["%char :: join (B ",") (map enc (a :: l)) ++ ["]"%char]))) as f eqn:Ef.
  assert (Hf : (length (a :: l) < f)%nat).
  { rewrite Ef. cbn [length]. rewrite app_length. cbn [length] in *. lia. }
  pose proof (elements_list enc j (a :: l) ltac:(discriminate) H f [] Hf) as E.
  assert (Hh : match enc a with [] => False | c :: _ => is_ws c = false /\ c <> "]"%char end) by (inversion H as [|? ? [_ Hh] _]; exact Hh).
  assert (X : exists c r, join (B ",") (map enc (a :: l)) ++ ["]"%char] = c :: r /\ is_ws c = false /\ c <> "]"%char).
  { destruct (enc a) as [|c r] eqn:Ea; [contradiction|].
    destruct l as [|b l].
    - cbn [map join]. rewrite Ea. exists c. eexists. split; [reflexivity|exact Hh].
    - change (map enc (a :: b :: l)) with (enc a :: map enc (b :: l)).
      change (join (B ",") (enc a :: map enc (b :: l)))
        with (enc a ++ B "," ++ join (B ",") (map enc (b :: l))).
      rewrite Ea. exists c. eexists. split; [reflexivity|exact Hh]. }
  clear Ef. destruct X as (c & r & EX & Hws & Hnb).
  rewrite EX in E |- *. rewrite value_arr. cbn [skip_ws]. rewrite Hws, (eqb_neq _ _ Hnb), E. reflexivity.
Qed.

(** Numbers. *)
Lemma span_stop p t c rest : forallb p t = true -> p c = false -> span p (t ++ c :: rest) = (t, c :: rest).
Proof.
  intros H Hc. induction t as [|x t IH]; cbn [app span].
  - rewrite Hc. reflexivity.
  - cbn in H. apply andb_prop in H. destruct H as [Hx Ht]. rewrite Hx, IH by exact Ht. reflexivity.
Qed.
Lemma span_all p t : forallb p t = true -> span p t = (t, []).
Proof.
  intros H. induction t as [|x t IH]; cbn [span]; [reflexivity|].
  cbn in H. apply andb_prop in H. destruct H as [Hx Ht]. rewrite Hx, IH by exact Ht. reflexivity.
Qed.

Lemma digit_c_is c : digit_c c = is_digit c. Proof. reflexivity. Qed.

(** Heads that exclude the other kinds of values. *)
Definition plain_head (c : byte) : Prop := digit_c c = true \/ c = "-"%char.
Lemma plain_head_facts c : plain_head c ->
  is_ws c = false /\ Ascii.eqb c """" = false /\ Ascii.eqb c "[" = false /\ Ascii.eqb c "{" = false /\
  c <> "]"%char /\ Ascii.eqb "n" c = false /\ Ascii.eqb "t" c = false /\ Ascii.eqb "f" c = false.
Proof.
  intros [H|H].
  - destruct c as [[] [] [] [] [] [] [] []]; try discriminate H; repeat split; try reflexivity; discriminate.
  - subst. repeat split; try reflexivity; discriminate.
Qed.

Lemma number_elem t : number_ok t = true -> forallb num_c t = true ->
  match t with [] => False | c :: _ => plain_head c end -> json_elem t (JNum t).
Proof.
  intros H N P. destruct t as [|x t]; [contradiction|].
  destruct (plain_head_facts x P) as (W & Q & Br & Cu & NB & n1 & n2 & n3).
  split; [|split; assumption].
  intros f c rest Hc. cbn [app value skip_ws]. rewrite W. rewrite Q, Br, Cu.
  unfold literal. cbn [B list_ascii_of_string strip]. rewrite n1, n2, n3.
  rewrite app_comm_cons, span_stop.
  - rewrite H. reflexivity.
  - exact N.
  - destruct Hc; subst; reflexivity.
Qed.

Lemma format_uint_head n : match format_uint n with [] => False | c :: _ => digit_c c = true end.
Proof.
  pose proof (format_uint_nonempty n). pose proof (format_uint_digits n) as H0.
  destruct (format_uint n); [contradiction|]. inversion H0; subst. rewrite digit_c_is. assumption.
Qed.

(** No leading zero. *)
Lemma uint_bytes_nzhead u : match uint_bytes (Decimal.nzhead u) with
  | [] => True | c :: _ => c <> "0"%char end.
Proof. induction u; cbn; auto; discriminate. Qed.

Lemma format_uint_no_leading_zero n : n <> 0%N ->
  match format_uint n with [] => False | c :: _ => c <> "0"%char end.
Proof.
  intro H. unfold format_uint.
  assert (U : N.to_uint n = Decimal.unorm (N.to_uint n)).
  { symmetry. transitivity (N.to_uint (N.of_uint (N.to_uint n))).
    - symmetry. apply DecimalN.Unsigned.to_of.
    - f_equal. apply DecimalN.Unsigned.of_to. }
  rewrite U. unfold Decimal.unorm.
  pose proof (uint_bytes_nzhead (N.to_uint n)) as Z.
  destruct (Decimal.nzhead (N.to_uint n)) eqn:E; cbn in *; try exact Z; try discriminate.
  exfalso. apply H. rewrite <- (DecimalN.Unsigned.of_to n).
  assert (E2 : N.to_uint n = Decimal.D0 Decimal.Nil).
  { rewrite U. unfold Decimal.unorm. rewrite E. reflexivity. }
  rewrite E2. reflexivity.
Qed.

Lemma digits_num_c s : Forall (fun c => is_digit c = true) s -> forallb num_c s = true.
Proof.
  induction 1 as [|c s Hc Hs IH]; [reflexivity|]. cbn. rewrite IH. unfold num_c. rewrite digit_c_is, Hc. reflexivity.
Qed.
Lemma digits_digit_c s : Forall (fun c => is_digit c = true) s -> forallb digit_c s = true.
Proof. induction 1 as [|c s Hc Hs IH]; [reflexivity|]. cbn. rewrite IH, digit_c_is, Hc. reflexivity. Qed.

Lemma number_ok_uint n : number_ok (format_uint n) = true /\
  number_ok ("-"%char :: format_uint n) = true.
Proof.
  pose proof (format_uint_digits n) as D.
  pose proof (format_uint_head n) as HH.
  destruct (N.eq_dec n 0) as [->|NZ]; [split; reflexivity|].
  pose proof (format_uint_no_leading_zero n NZ) as NL.
  unfold number_ok. destruct (format_uint n) as [|c r]; [contradiction|].
  inversion D as [|? ? Dc Dr]; subst.
  assert (E : Ascii.eqb c "-" = false).
  { apply eqb_neq. intro; subst. discriminate. }
  rewrite E. change (Ascii.eqb "-" "-") with true. cbn iota.
  rewrite (eqb_neq _ _ NL), HH, (span_all digit_c r) by (apply digits_digit_c; exact Dr).
  split; reflexivity.
Qed.

Lemma uint_elem n : json_elem (format_uint n) (JNum (format_uint n)).
Proof.
  apply number_elem.
  - apply number_ok_uint.
  - apply digits_num_c, format_uint_digits.
  - pose proof (format_uint_head n). destruct (format_uint n); [contradiction|left; assumption].
Qed.
Lemma int_elem z : json_elem (format_int z) (JNum (format_int z)).
Proof.
  destruct z as [|p|p]; cbn [format_int]; try apply uint_elem.
  apply number_elem.
  - apply number_ok_uint.
  - cbn [forallb]. rewrite digits_num_c by apply format_uint_digits. reflexivity.
  - right. reflexivity.
Qed.

Lemma bool_elem b : json_elem (format_bool b) (JBool b).
Proof.
  destruct b; (split; [intros f c rest [->| ->]; reflexivity | split; [reflexivity|discriminate]]).
Qed.

(** Texts of format_int / format_uint denote their numbers. *)
Lemma fold_digits_acc s : Forall (fun c => is_digit c = true) s -> forall acc n, digits_val acc s = Some n ->
  Z.of_N n = fold_left (fun a c => a * 10 + (Z.of_N (N_of_ascii c) - 48))%Z s (Z.of_N acc).
Proof. intros _ acc n H. apply digits_val_spec in H. apply H. Qed.

Lemma format_uint_denotes n : denotes_int (format_uint n) (Z.of_N n).
Proof.
  pose proof (parse_digits_format n) as P. apply parse_digits_spec in P. destruct P as [A V].
  rewrite V. constructor. exact A.
Qed.
Lemma format_int_denotes z : denotes_int (format_int z) z.
Proof.
  destruct z as [|p|p]; cbn [format_int].
  - exact (format_uint_denotes 0).
  - exact (format_uint_denotes (Npos p)).
  - change (Zneg p) with (- Z.of_N (Npos p))%Z.
    pose proof (parse_digits_format (Npos p)) as P. apply parse_digits_spec in P. destruct P as [A V].
    rewrite V. apply DI_minus. exact A.
Qed.

(** Strings escaped by appendArrayQuotedBytes. *)
Definition no_control (s : bytes) : Prop := Forall (fun c => 32 <= N_of_ascii c)%N s.

Lemma string_body_cons_plain c r : (32 <= N_of_ascii c)%N -> c <> dquote -> c <> backslash ->
  string_body (c :: r) = match string_body r with Some (v, rest) => Some (c :: v, rest) | None => None end.
Proof.
  intros H1 H2 H3.
  cbn [string_body].
  destruct (N.eqb_spec (N_of_ascii c) 34) as [E|_].
  { exfalso. apply H2. rewrite <- (ascii_N_embedding c), E. reflexivity. }
  destruct (N.ltb_spec (N_of_ascii c) 32); [lia|].
  destruct (N.eqb_spec (N_of_ascii c) 92) as [E|_].
  { exfalso. apply H3. rewrite <- (ascii_N_embedding c), E. reflexivity. }
  reflexivity.
Qed.

Lemma string_body_esc e r : e = dquote \/ e = backslash ->
  string_body (backslash :: e :: r) = match string_body r with Some (v, rest) => Some (e :: v, rest) | None => None end.
Proof. intros [->| ->]; reflexivity. Qed.

Lemma string_body_escape v : no_control v -> forall rest,
  string_body (escape_elem v ++ dquote :: rest) = Some (v, rest).
Proof.
  induction 1 as [|c v Hc Hv IH]; intro rest; [reflexivity|].
  cbn [escape_elem]. destruct (beq c dquote || beq c backslash) eqn:E.
  - rewrite <- !app_comm_cons. rewrite string_body_esc.
    + rewrite IH. reflexivity.
    + apply orb_prop in E. destruct E as [E|E]; apply beq_eq in E; tauto.
  - apply orb_false_elim in E. destruct E as [E1 E2].
    rewrite <- app_comm_cons, string_body_cons_plain.
    + rewrite IH. reflexivity.
    + exact Hc.
    + intro; subst. rewrite beq_refl in E1. discriminate.
    + intro; subst. rewrite beq_refl in E2. discriminate.
Qed.

Lemma value_string f body v rest : string_body body = Some (v, rest) ->
  value (S f) (dquote :: body) = Some (JStr v, rest).
Proof.
  intro H. cbn [value skip_ws]. change (is_ws dquote) with false. cbn iota.
  change (Ascii.eqb dquote """") with true. cbn iota. rewrite H. reflexivity.
Qed.

Lemma quote_elem_json v : no_control v -> json_elem (quote_elem v) (JStr v).
Proof.
  intro H. unfold quote_elem. split; [|split; [reflexivity|discriminate]].
  intros f c rest Hc. rewrite <- app_comm_cons, <- app_assoc. apply value_string.
  change ([dquote] ++ c :: rest) with (dquote :: c :: rest). apply string_body_escape, H.
Qed.

(** The slice writers. *)
Lemma int_slice_json l t : int_value js (Some l) = Some t ->
  read_json t = Some (JArr (map (fun z => JNum (format_int z)) l)).
Proof.
  intro E. cbn in E. inversion E; subst. apply (read_json_list format_int).
  apply Forall_forall. intros z _. apply int_elem.
Qed.
Lemma uint_slice_json l t : uint_value js (Some l) = Some t ->
  read_json t = Some (JArr (map (fun z => JNum (format_uint (Z.to_N z))) l)).
Proof.
  intro E. cbn in E. inversion E; subst.
  apply (read_json_list (fun z => format_uint (Z.to_N z)) (fun z => JNum (format_uint (Z.to_N z)))).
  apply Forall_forall. intros z _. apply uint_elem.
Qed.
Lemma string_slice_json l t : Forall no_control l -> string_value js (Some l) = Some t ->
  read_json t = Some (JArr (map JStr l)).
Proof.
  intros H E. cbn in E. inversion E; subst. apply (read_json_list quote_elem JStr).
  eapply Forall_impl; [|exact H]. intros v Hv. apply quote_elem_json, Hv.
Qed.

(** A non-empty BoolSlice never is JSON. *)
Lemma value_tf f c r : (c = "t"%char \/ c = "f"%char) ->
  match r with [] => True | d :: _ => d = ","%char \/ d = "]"%char end ->
  value (S f) (c :: r) = None.
Proof.
  intros [->| ->] H.
  - destruct r as [|d r]; [reflexivity|]. destruct H; subst; reflexivity.
  - destruct r as [|d r]; [reflexivity|]. destruct H; subst; reflexivity.
Qed.
Lemma elements_tf f c r : (c = "t"%char \/ c = "f"%char) ->
  match r with [] => True | d :: _ => d = ","%char \/ d = "]"%char end ->
  elements f (c :: r) = None.
Proof.
  intros H1 H2. destruct f as [|[|f]]; try reflexivity. rewrite elements_S, value_tf by assumption. reflexivity.
Qed.
Lemma bool_slice_not_json l t : l <> [] -> bool_value js (Some l) = Some t -> read_json t = None.
Proof.
  intros NE E.
  assert (Et : t = list_text "[" "]" (map (fun b : bool => if b then B "t" else B "f") l))
    by (inversion E; reflexivity).
  rewrite Et. clear E Et t. destruct l as [|b l]; [contradiction|].
  unfold read_json, list_text.
  assert (X : exists c r, join (B ",") (map (fun b : bool => if b then B "t" else B "f") (b :: l)) ++ ["]"%char] = c :: r /\
    (c = "t"%char \/ c = "f"%char) /\ match r with [] => True | d :: _ => d = ","%char \/ d = "]"%char end).
  { destruct l as [|b' l].
    - destruct b; cbn; eexists; eexists; (split; [reflexivity|]); cbn; tauto.
    - change (map ?f (b :: b' :: l)) with (f b :: map f (b' :: l)).
      cbn [join]. destruct b; cbn; eexists; eexists; (split; [reflexivity|]); cbn; tauto. }
  destruct X as (c & r & EX & Hc & Hr).
  rewrite EX.
  rewrite value_arr.
  assert (Hw : is_ws c = false) by (destruct Hc; subst; reflexivity).
  assert (Hb : Ascii.eqb c "]" = false) by (destruct Hc; subst; reflexivity).
  cbn [skip_ws]. rewrite Hw, Hb, elements_tf by assumption. reflexivity.
Qed.

(** marshal_list is the bracketed list. *)
Lemma join_concat (x : bytes) r : join (B ",") (x :: r) = x ++ concat (map (fun y => B "," ++ y) r).
Proof.
  revert x. induction r as [|y r IH]; intro x; [cbn; rewrite app_nil_r; reflexivity|].
  change (join (B ",") (x :: y :: r)) with (x ++ B "," ++ join (B ",") (y :: r)).
  rewrite IH. cbn [map concat]. rewrite <- !app_assoc. reflexivity.
Qed.
Lemma marshal_list_text {A} (enc : A -> bytes) l :
  marshal_list enc l = list_text "["%char "]"%char (map enc l).
Proof.
  destruct l as [|x r]; [reflexivity|]. unfold marshal_list, list_text.
  cbn [map]. rewrite join_concat, map_map, <- app_assoc. reflexivity.
Qed.
