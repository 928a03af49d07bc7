(** The statements of the pager: reading them back. *)
From Verif Require Import Base ModelStrconv ModelCompiler ModelGen ModelRuntime ModelStmt ModelPager SpecSql SpecGen SpecRuntime SpecStmt SpecPager
  LemmasBase LemmasSql LemmasSql2 LemmasSql3 LemmasGen LemmasGen2 LemmasSql4 LemmasRuntime LemmasRuntime2 LemmasStmt LemmasStmt2 LemmasStmt3 LemmasStmt4.

Section P.
Context {V : Type}.
Notation tok := (tok V).
Notation wc := (where_clause V).
Implicit Types (fl : flavour) (ts r : list tok) (s : sqlstmt V).

(** ** Tokens *)
Definition page_toks (items : list (list tok)) (tbl wts ots : list tok) (n : N) : list tok :=
  ko "SELECT" :: commas items ++ ko "FROM" :: tbl ++ ko "WHERE" :: wts ++ ko "ORDER" :: ko "BY" :: ots ++ [ko "LIMIT"; Num (format_uint n); Sym ";"].

Lemma clause_bind {A} (ws : list bytes) (p : list tok -> option A) body rest :
  passes ends_clause body -> stops rest ->
  clause ws p (map Kw ws ++ body ++ rest) = obind (p body) (fun a => Some (Some a, rest)).
Proof.
  intros P S. unfold clause. rewrite strip_kws. rewrite until_stops by assumption. reflexivity.
Qed.
Lemma page_parse fl items tbl q wts ots n :
  items <> [] -> forallb is_expr items = true -> qname tbl = Some q -> passes ends_clause wts -> passes ends_clause ots ->
  parse fl (page_toks items tbl wts ots n) =
  obind (where_p wts) (fun c => obind (order_p fl ots) (fun o => Some (Select items q (Some c) [] o (Some n) None []))).
Proof.
  intros NE FI Q PW PO. unfold page_toks.
  assert (PS : forall x : list tok, parse fl (ko "SELECT" :: x) = parse_select fl x) by (intros x; destruct fl; reflexivity).
  rewrite PS. clear PS.
  destruct (qname_plain tbl q ends_clause Q) as (_ & P & _ & _ & _); [reflexivity|reflexivity|]. unfold parse_select.
  rewrite until_stop; [|apply exprs_passes_ends; exact FI|reflexivity|reflexivity].
  cbn [obind]. rewrite exprs_commas by assumption. cbn [obind].
  change (ko "FROM" :: tbl ++ ?x) with (map (Kw (V:=V)) [B "FROM"] ++ tbl ++ x). rewrite strip_kws. cbn [obind].
  rewrite until_stops; [|exact P|split; reflexivity]. cbn [obind]. rewrite Q. cbn [obind].
  change (ko "WHERE" :: wts ++ ?x) with (map (Kw (V:=V)) [B "WHERE"] ++ wts ++ x).
  rewrite clause_bind; [|exact PW|split; reflexivity]. destruct (where_p wts) as [c|]; [cbn [obind]|reflexivity].
  change (clause (map B ["GROUP"; "BY"]%string) exprs (ko "ORDER" :: ?x)) with (Some (@None (list (expr V)), ko (V:=V) "ORDER" :: x)). cbn [obind].
  change (ko "ORDER" :: ko "BY" :: ots ++ ?x) with (map (Kw (V:=V)) (map B ["ORDER"; "BY"]%string) ++ ots ++ x).
  rewrite clause_bind; [|exact PO|split; reflexivity]. destruct (order_p fl ots) as [o|]; [cbn [obind]|reflexivity].
  change [ko "LIMIT"; Num (format_uint n); Sym ";"] with (map (Kw (V:=V)) [B "LIMIT"] ++ [Num (V:=V) (format_uint n)] ++ [Sym ";"]).
  rewrite clause_bind; [|apply passes_one; reflexivity|split; reflexivity]. rewrite number_reads by exact fl. cbn [obind].
  clear. destruct fl; reflexivity.
Qed.

(** ** The key *)
Section Key.
Variables (d : driver) (m : model V) (ks : list (bytes * V)).
Notation fl := (flavour_of d).
Hypothesis K : keyed_by fl m ks.

Definition bound_toks (op : bytes) : list tok :=
  match m_key m with
  | CompKey _ _ _ => row_toks (name_toks (map fst ks)) ++ Op op :: row_toks (vals (map snd ks))
  | _ => match ks with (k, v) :: _ => [Name k; Op op; Val v] | [] => [] end
  end.
Definition boxed_bound (op : bytes) : list tok := Sym "(" :: bound_toks op ++ [Sym ")"].
Definition key_name_toks : list tok :=
  match m_key m with
  | CompKey _ _ _ => row_toks (name_toks (map fst ks))
  | _ => match ks with (k, _) :: _ => [Name k] | [] => [] end
  end.

Lemma bound_passes (sep : tok -> bool) op : (forall k, sep (Name k) = false) -> sep (Op op) = false -> (forall v, sep (Val v) = false) -> passes sep (bound_toks op).
Proof.
  intros SN SO SV. unfold bound_toks.
  assert (E : passes sep (match ks with (k, v) :: _ => [Name k; Op op; Val v] | [] => [] end)).
  { destruct ks as [|[k v] l]; [apply passes_nil|]. repeat (apply passes_cons; [reflexivity|auto|]). apply passes_nil. }
  destruct (m_key m); try exact E. apply passes_app; [apply row_passes, names_exprs|].
  apply passes_cons; [reflexivity|exact SO|]. apply row_passes, vals_exprs.
Qed.
Lemma bound_balanced op : balanced (bound_toks op).
Proof. apply bound_passes; reflexivity. Qed.
Lemma boxed_passes sep op : passes sep (boxed_bound op).
Proof. apply passes_paren, bound_balanced. Qed.

Lemma key_lengths : match m_key m with CompKey ns _ vs => length ns = length ks /\ vs = map snd ks /\ ks <> [] /\ Forall2 (denotes (V:=V) fl) ns (map fst ks) | _ => True end.
Proof.
  unfold keyed_by in K. destruct (m_key m) as [|n i v|n i v|ns is vs]; try exact I. destruct K as (KN & F & E). repeat split; auto.
  rewrite <- (map_length fst). clear -F. induction F; cbn; congruence.
Qed.

Lemma bound_writes op : comparison op = true -> (forall n, spells (V:=V) fl n (B " " ++ op ++ B " ") [] [Op op]) ->
  forall s, in_step d s -> exists text s', cursor_bound d op m s = Ok s' /\ in_step d s' /\ s_text s' = s_text s ++ text /\ s_args s' = s_args s ++ map snd ks /\
  spells fl (length (s_args s)) text (map snd ks) (boxed_bound op) /\ headed text = true /\ text <> [].
Proof.
  intros CO SO s IS. unfold cursor_bound, boxed_bound, bound_toks.
  assert (HO : forall x, headed (B " " ++ x) = true) by reflexivity.
  assert (TO : tailed (B " " ++ op ++ B " ") = true) by (rewrite app_assoc; apply tailed_snoc).
  assert (ONE : forall n k (v : V), denotes (V:=V) fl n k ->
    spells fl (length (s_args s)) (B "(" ++ n ++ B " " ++ op ++ B " " ++ quote_var d (S (s_pos s)) ++ B ")") [v]
      (Sym "(" :: [Name k; Op op; Val v] ++ [Sym ")"])).
  { intros n k v DN. change (Sym "(" :: ?x) with ([Sym (V:=V) "("] ++ x). apply spells_lr; [sconst| |reflexivity].
    change ([Name k; Op op; Val v] ++ [Sym ")"]) with ([Name k] ++ [Op op] ++ [Val v] ++ [Sym ")"]).
    apply spells_rr; [apply denotes_spells, DN| |reflexivity|discriminate].
    match goal with |- spells _ _ ?t _ _ => replace t with ((B " " ++ op ++ B " ") ++ quote_var d (S (s_pos s)) ++ B ")") by (rewrite <- !app_assoc; reflexivity) end.
    apply spells_lr; [apply SO| |exact TO].
    rewrite var_text by exact IS. eapply spells_eq; [eapply spells_app_r with (vs1 := [v]) (vs2 := [])|reflexivity|reflexivity|reflexivity];
      [apply spells_var|sconst|reflexivity|discriminate]. }
  pose proof key_lengths as KL. pose proof K as K'. unfold keyed_by in K'. destruct (m_key m) as [|n i v|n i v|ns is vs].
  - contradiction.
  - destruct K' as (k & DN & ->). unfold var. eexists. eexists. split; [reflexivity|]. cbn [put s_text s_args map snd].
    split; [unfold in_step; cbn; intros D; rewrite app_length, IS by exact D; cbn; lia|]. split; [reflexivity|]. split; [reflexivity|].
    split; [apply ONE, DN|]. split; [reflexivity|discriminate].
  - destruct K' as (k & DN & ->). unfold var. eexists. eexists. split; [reflexivity|]. cbn [put s_text s_args map snd].
    split; [unfold in_step; cbn; intros D; rewrite app_length, IS by exact D; cbn; lia|]. split; [reflexivity|]. split; [reflexivity|].
    split; [apply ONE, DN|]. split; [reflexivity|discriminate].
  - clear K'. destruct KL as (LN & EV & NK & F). subst vs. set (us := map snd ks) in *.
    assert (NU : us <> []) by (unfold us; destruct ks; [contradiction|discriminate]).
    assert (VS : exists s', vars d s us = Ok (s', B "(" ++ join (B ",") (places (flavour_of d) (length (s_args s)) (length us)) ++ B ")")
      /\ in_step d s' /\ s_text s' = s_text s /\ s_args s' = s_args s ++ us).
    { clear - NU IS. unfold vars. destruct d; cbn [flavour_of].
      - rewrite (repeat_tail_places MySQL (length (s_args s))); [|discriminate|destruct us; [contradiction|cbn; lia]].
        cbn [bind]. eexists. split; [reflexivity|]. split; [discriminate|]. auto.
      - exists {| s_text := s_text s; s_pos := s_pos s + length us; s_args := s_args s ++ us |}. split; [|split; [|split; [reflexivity|reflexivity]]].
        + do 3 f_equal. f_equal. rewrite <- IS by reflexivity. destruct us as [|u us']; [reflexivity|]. apply pg_vars; [cbn; lia|reflexivity].
        + intros _. cbn. rewrite app_length, IS by reflexivity. reflexivity.
      - rewrite (repeat_tail_places SQLite (length (s_args s))); [|discriminate|destruct us; [contradiction|cbn; lia]].
        cbn [bind]. eexists. split; [reflexivity|]. split; [discriminate|]. auto. }
    destruct VS as (s' & E & IS' & ET & EA). rewrite E. cbn [bind fst snd]. eexists. eexists. split; [reflexivity|].
    split; [exact IS'|]. cbn [put s_text s_args]. rewrite ET, EA. split; [reflexivity|]. split; [reflexivity|].
    split; [|split; [reflexivity|discriminate]].
    change (B "((") with (B "(" ++ B "("). change (Sym "(" :: ?x) with ([Sym (V:=V) "("] ++ x). rewrite <- app_assoc.
    apply spells_lr; [sconst| |reflexivity]. rewrite <- app_assoc. unfold row_toks at 1. cbn [app].
    change (Sym "(" :: ?x) with ([Sym (V:=V) "("] ++ x). apply spells_lr; [sconst| |reflexivity].
    rewrite <- !app_assoc. apply spells_rr; [apply denotes_list, F| |reflexivity|discriminate].
    change (B ") ") with (B ")" ++ B " "). rewrite <- !app_assoc. cbn [app].
    change (Sym ")" :: Op op :: ?x) with ([Sym (V:=V) ")"] ++ [Op op] ++ x).
    match goal with |- spells _ _ ?t _ _ => replace t with (B ")" ++ (B " " ++ op ++ B " ") ++ (B "(" ++ join (B ",") (places fl (length (s_args s)) (length us)) ++ B ")") ++ B ")") by (rewrite <- !app_assoc; reflexivity) end.
    apply spells_lr; [sconst| |reflexivity]. apply spells_lr; [apply SO| |exact TO].
    eapply spells_eq; [eapply spells_app_r with (vs1 := us) (vs2 := [])|reflexivity|apply app_nil_r|reflexivity]; [apply spells_row|sconst|reflexivity|discriminate].
Qed.

Lemma bound_den op f : comparison op = true -> condition (S f) (bound_toks op) = Some (Compare (key_columns m ks) op (key_values m ks)).
Proof.
  intros C. assert (L : where_p (bound_toks op) = Some (Compare (key_columns m ks) op (key_values m ks)) /\
    condition (S f) (bound_toks op) = predicate (bound_toks op) /\ where_p (bound_toks op) = predicate (bound_toks op)).
  { assert (PB : passes (one_of (map B ["AND"; "OR"; "BETWEEN"]%string)) (bound_toks op)) by (apply bound_passes; reflexivity).
    assert (U : unwrapped (bound_toks op)).
    { unfold bound_toks. destruct (m_key m); try (destruct ks as [|[? ?] ?]; exact I).
      unfold unwrapped, row_toks. cbn [app]. intros _ x. rewrite <- app_assoc. cbn [app]. rewrite group_close by apply names_balanced. discriminate. }
    split; [|split; [apply condition_pred; assumption|]].
    - unfold bound_toks, key_columns, key_values, keyed_by in *. destruct (m_key m) as [|n i v|n i v|ns is vs].
      + contradiction.
      + destruct K as (k & DN & ->). apply where_one; [reflexivity|reflexivity|exact C].
      + destruct K as (k & DN & ->). apply where_one; [reflexivity|reflexivity|exact C].
      + destruct K as (KN & F & ->). rewrite where_tuple.
        * unfold name_toks, vals. rewrite !map_map. reflexivity.
        * destruct ks; [contradiction|discriminate].
        * rewrite vals_length, !map_length. reflexivity.
        * apply vals_exprs.
        * exact C.
    - unfold where_p. destruct (length (bound_toks op)) eqn:E; [|apply condition_pred; assumption].
      exfalso. apply length_zero_iff_nil in E. revert E. unfold bound_toks, keyed_by in *. destruct (m_key m); [contradiction| | |discriminate]; destruct K as (k & _ & ->); discriminate. }
  destruct L as (A & E1 & E2). congruence.
Qed.
Lemma boxed_cuts op : cuts (boxed_bound op).
Proof. apply cuts_paren, bound_balanced. Qed.
Lemma boxed_den op : comparison op = true -> where_p (boxed_bound op) = Some (Compare (key_columns m ks) op (key_values m ks)).
Proof.
  intros C. unfold where_p. replace (length (boxed_bound op)) with (S (S (length (bound_toks op)))) by (unfold boxed_bound; cbn; rewrite app_length; cbn; lia).
  rewrite condition_one; [|apply boxed_passes|apply boxed_cuts]. unfold boxed_bound, atom. cbn [beq Ascii.eqb Bool.eqb].
  rewrite group_close by apply bound_balanced. apply bound_den, C.
Qed.

(** ** The order *)
Lemma key_names_spell n text : key_order m [] [] = Ok text -> spells fl n text [] key_name_toks.
Proof.
  pose proof key_lengths as KL. unfold key_order, key_name_toks, keyed_by in *. destruct (m_key m) as [|x i v|x i v|ns is vs].
  - contradiction.
  - destruct K as (k & DN & ->). intros [= <-]. rewrite app_nil_r. apply denotes_spells, DN.
  - destruct K as (k & DN & ->). intros [= <-]. rewrite app_nil_r. apply denotes_spells, DN.
  - destruct KL as (LN & EV & NK & F). intros [= <-]. rewrite ?app_nil_r. unfold row_toks.
    change (Sym "(" :: ?x) with ([Sym (V:=V) "("] ++ x). change ("("%char :: ?x) with (B "(" ++ x). apply spells_lr; [sconst| |reflexivity].
    apply spells_rr; [apply denotes_list, F|sconst|reflexivity|discriminate].
Qed.
Lemma key_order_split (a b : bytes) : key_order m a b = let* t := key_order m [] [] in Ok (t ++ match m_key m with CompKey _ _ _ => b | _ => a end).
Proof. unfold key_order. destruct (m_key m); cbn [bind]; try reflexivity; rewrite ?app_nil_r, <- ?app_assoc; reflexivity. Qed.
Lemma key_order_ok : exists t, key_order m [] [] = Ok t.
Proof. unfold key_order, keyed_by in *. destruct (m_key m); [contradiction| | |]; eexists; reflexivity. Qed.

Lemma names_passes (sep : tok -> bool) : (forall k, sep (Name k) = false) -> passes sep key_name_toks.
Proof.
  intros SN. unfold key_name_toks. assert (E : passes sep (match ks with (k, _) :: _ => [Name k] | [] => [] end)).
  { destruct ks as [|[k v] l]; [apply passes_nil|]. apply passes_one; [reflexivity|apply SN]. }
  destruct (m_key m); try exact E. apply row_passes, names_exprs.
Qed.
Definition dir_toks (fwd : bool) : list tok :=
  if fwd then match m_key m with CompKey _ _ _ => [ko "ASC"] | _ => [] end else [ko "DESC"].
Lemma key_order_item fwd : order_item fl (key_name_toks ++ dir_toks fwd) =
  if orderable fl (key_columns m ks) then Some (key_columns m ks, heading fwd) else None.
Proof.
  unfold keyed_by in K. unfold order_item, key_name_toks, dir_toks, key_columns, heading in *. destruct (m_key m) as [|x i v|x i v|ns is vs].
  - contradiction.
  - destruct K as (k & _ & ->). clear K. destruct fwd, d; reflexivity.
  - destruct K as (k & _ & ->). clear K. destruct fwd, d; reflexivity.
  - destruct K as (NK & F & _). assert (R : parse_operand (row_toks (name_toks (V:=V) (map fst ks))) = Some (Tuple (map (fun p => [Name (fst p)]) ks))).
    { unfold row_toks. rewrite parse_operand_tuple; [|destruct ks; [contradiction|discriminate]|apply names_exprs]. unfold name_toks. rewrite map_map. reflexivity. }
    destruct fwd; rewrite rev_app_distr; cbn [rev app]; unfold ko; rewrite rev_involutive.
    + change (bseq (B "ASC") (B "ASC")) with true. cbv iota beta. rewrite R. reflexivity.
    + change (bseq (B "DESC") (B "ASC")) with false. change (bseq (B "DESC") (B "DESC")) with true. cbv iota beta. rewrite R. reflexivity.
Qed.
Lemma dir_passes (sep : tok -> bool) fwd : (forall k, sep (Name k) = false) -> sep (ko "ASC") = false -> sep (ko "DESC") = false -> passes sep (key_name_toks ++ dir_toks fwd).
Proof.
  intros SN SA SD. apply passes_app; [apply names_passes, SN|]. unfold dir_toks.
  destruct fwd; [destruct (m_key m); try apply passes_nil|]; apply passes_one; auto.
Qed.
Lemma key_order_p fwd : order_p fl (key_name_toks ++ dir_toks fwd) =
  if orderable fl (key_columns m ks) then Some [(key_columns m ks, heading fwd)] else None.
Proof.
  unfold order_p. rewrite split_one by (apply dir_passes; reflexivity). cbn [map all_some]. rewrite key_order_item.
  destruct (orderable fl (key_columns m ks)); reflexivity.
Qed.
End Key.
End P.
