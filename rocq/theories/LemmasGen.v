(** Lemmas about the generated texts. *)
From Verif Require Import Base ModelStrconv ModelUtf8 ModelEncoding ModelCompiler ModelGen SpecSql SpecGo SpecGen
  LemmasBase LemmasUtf8 LemmasEncoding LemmasSql LemmasSql2 LemmasSql3 LemmasCompiler.

(** ** Go literals *)
Lemma ascii_utf8 s : Forall (fun c => code c < 128)%N s -> s = utf8 (map code s) /\ Forall (fun u => scalar u = true) (map code s).
Proof.
  intros F. assert (G : Forall (fun u => u < 128)%N (map code s)) by (apply Forall_map; exact F). split.
  - rewrite utf8_ascii by exact G. rewrite map_map. rewrite <- (map_id s) at 1. apply map_ext. intros c. symmetry. apply chr_code.
  - eapply Forall_impl; [|exact G]. intros u H. apply ascii_scalar. exact H.
Qed.
Lemma runes_ascii s : Forall (fun c => code c < 128)%N s -> runes s = map (fun c => (code c, [c], true)) s.
Proof.
  intros F. destruct (ascii_utf8 s F) as [E S]. rewrite E at 1. rewrite runes_utf8 by exact S. rewrite map_map.
  apply map_ext_in. intros c I. rewrite encode_low; [rewrite chr_code; reflexivity|].
  rewrite Forall_forall in F. apply F. exact I.
Qed.
Lemma gen_quote_ascii d s : Forall (fun c => code c < 128)%N s -> gen_quote d s = quote_char d :: s ++ [quote_char d].
Proof.
  intros F. unfold gen_quote. rewrite runes_ascii by exact F. rewrite map_map. cbn [fst snd hd]. rewrite map_id. reflexivity.
Qed.

Lemma utf8_ok_ascii s : Forall (fun c => code c < 128)%N s -> utf8_ok s = true.
Proof.
  induction 1 as [|c s H F IH]; [reflexivity|]. cbn [utf8_ok]. destruct (N.ltb_spec (code c) 128); [exact IH|lia].
Qed.
Lemma raw_body_plain s : Forall (fun c => c <> backtick /\ code c <> 13%N) s -> raw_body (s ++ [backtick]) = Some s.
Proof.
  induction 1 as [|c s [H1 H2] F IH]; [reflexivity|]. cbn [app raw_body].
  rewrite (proj2 (beq_neq c backtick)) by exact H1. rewrite IH. apply N.eqb_neq in H2. rewrite H2. reflexivity.
Qed.
Lemma interpreted_plain s : Forall (fun c => c <> dquote /\ c <> backslash /\ c <> LF) s -> interpreted_body (s ++ [dquote]) = Some s.
Proof.
  induction 1 as [|c s (H1 & H2 & H3) F IH]; [reflexivity|]. cbn [app interpreted_body].
  rewrite (proj2 (beq_neq c dquote)) by exact H1. rewrite (proj2 (beq_neq c LF)) by exact H3.
  rewrite (proj2 (beq_neq c backslash)) by exact H2. rewrite IH. reflexivity.
Qed.

Lemma literal_ascii d s : Forall (literal_char d) s -> Forall (fun c => code c < 128)%N s.
Proof. apply Forall_impl. intros c H. apply H. Qed.

Lemma gen_quote_literal d s : Forall (literal_char d) s -> go_literal (gen_quote d s) = Some s.
Proof.
  intros F. rewrite gen_quote_ascii by (eapply literal_ascii; exact F). unfold go_literal.
  rewrite utf8_ok_ascii.
  2:{ constructor; [destruct d; reflexivity|]. apply Forall_app. split; [eapply literal_ascii; exact F|]. constructor; [destruct d; reflexivity|constructor]. }
  cbn [negb orb].
  replace (existsb _ _) with false.
  2:{ symmetry. apply not_true_iff_false. intros E. apply existsb_exists in E. destruct E as (c & I & E). apply N.eqb_eq in E.
      destruct I as [<-|I]; [destruct d; discriminate|]. apply in_app_iff in I. destruct I as [I|[<-|[]]]; [|destruct d; discriminate].
      rewrite Forall_forall in F. destruct (F c I) as [? _]. lia. }
  destruct d; cbn [quote_char]; cbn [beq Ascii.eqb Bool.eqb backtick dquote].
  - apply interpreted_plain. eapply Forall_impl; [|exact F]. intros c (? & ? & ? & ?). auto.
  - apply raw_body_plain. eapply Forall_impl; [|exact F]. intros c (? & ? & ?). auto.
  - apply raw_body_plain. eapply Forall_impl; [|exact F]. intros c (? & ? & ?). auto.
Qed.

(** ** Identifiers *)
Lemma plain_quote_rune printable s : Forall plain_char s -> go_quote printable s = dquote :: s ++ [dquote].
Proof.
  intros F. unfold go_quote. rewrite runes_ascii.
  2:{ eapply Forall_impl; [|exact F]. intros c (H & _). lia. }
  f_equal. f_equal. rewrite map_map. induction F as [|c s (H & D & _ & S) F IH]; [reflexivity|].
  cbn [map concat]. rewrite IH. change (c :: s) with ([c] ++ s). f_equal.
  unfold quote_rune. cbn [negb].
  destruct (N.eqb_spec (code c) 34) as [E|E]; [exfalso; apply D; rewrite <- (chr_code c), E; reflexivity|].
  destruct (N.eqb_spec (code c) 92) as [E2|E2]; [exfalso; apply S; rewrite <- (chr_code c), E2; reflexivity|].
  cbn [orb]. destruct (N.ltb_spec (code c) 128); [|lia].
  rewrite (proj2 (N.leb_le 32 (code c))) by lia. rewrite (proj2 (N.leb_le (code c) 126)) by lia. reflexivity.
Qed.

Definition id_quote (d : driver) : byte := match d with DMySQL => backtick | _ => dquote end.
Lemma must_quote_plain printable d s : Forall plain_char s -> must_quote printable d s = id_quote d :: s ++ [id_quote d].
Proof. intros F. destruct d; [reflexivity| |]; apply plain_quote_rune; exact F. Qed.

Section Toks.
Context {V : Type}.
Notation tok := (tok V).

Lemma run_in_quote fl q i s : forall acc n (out : list tok), Forall (fun c => c <> q) s ->
  run fl (InQuote q i acc, n, out) (s ++ [q]) = (AfterQuote q i (rev s ++ acc), n, out).
Proof.
  induction s as [|c s IH]; intros acc n out F; cbn [app run step].
  - rewrite (proj2 (beq_eq q q)) by reflexivity. reflexivity.
  - inversion F; subst. rewrite (proj2 (beq_neq c q)) by assumption. rewrite IH by assumption.
    cbn [rev]. rewrite <- app_assoc. reflexivity.
Qed.

Lemma reads_ident d s n : s <> [] -> Forall (fun c => c <> id_quote d) s ->
  reads (flavour_of d) n (id_quote d :: s ++ [id_quote d]) [Name (V:=V) s] n.
Proof.
  intros NE F. assert (R : forall out : list tok, run (flavour_of d) (Idle, n, out) (id_quote d :: s ++ [id_quote d])
    = (AfterQuote (id_quote d) true (rev s), n, out)).
  { intros out. cbn [run step]. replace (start (flavour_of d) n out (id_quote d)) with (InQuote (id_quote d) true [], n, out)
      by (destruct d; reflexivity).
    rewrite run_in_quote by exact F. rewrite app_nil_r. reflexivity. }
  split.
  - unfold mode_after. rewrite R. exact I.
  - intros out. rewrite R. cbn [flush]. rewrite rev_involutive. unfold quoted_tok. destruct s; [contradiction|]. reflexivity.
Qed.

Lemma reads_id printable d s n : plain_name s -> reads (flavour_of d) n (must_quote printable d s) [Name (V:=V) s] n.
Proof.
  intros [NE F]. rewrite must_quote_plain by exact F. apply reads_ident; [exact NE|].
  eapply Forall_impl; [|exact F]. intros c (_ & D & T & _). destruct d; assumption.
Qed.

Lemma number_of_digits ds : forall acc v, digits_val acc ds = Some v ->
  fold_left (fun acc c => 10 * acc + (code c - 48))%N ds acc = v.
Proof.
  induction ds as [|c ds IH]; intros acc v H; cbn [digits_val fold_left] in *; [congruence|].
  destruct (is_digit c); [|discriminate]. apply IH. rewrite <- H. f_equal. unfold code. lia.
Qed.

Lemma run_dollar fl ds : forall acc n (out : list tok), all_digits ds ->
  run fl (InDollar acc, n, out) ds = (InDollar (rev ds ++ acc), n, out).
Proof.
  induction ds as [|c ds IH]; intros acc n out F; [reflexivity|]. inversion F; subst. cbn [run step].
  rewrite H1. rewrite IH by assumption. cbn [rev]. rewrite <- app_assoc. reflexivity.
Qed.

Lemma reads_dollar k n : reads Postgres n (B "$" ++ itoa k) [Param (V:=V) k] (S n).
Proof.
  assert (R : forall out : list tok, run Postgres (Idle, n, out) (B "$" ++ itoa k) = (InDollar (rev (itoa k)), n, out)).
  { intros out. change (B "$" ++ itoa k) with ("$"%char :: itoa k). cbn [run step].
    replace (start Postgres n out "$"%char) with (InDollar [], n, out) by reflexivity.
    rewrite run_dollar by apply format_uint_digits. rewrite app_nil_r. reflexivity. }
  split.
  - unfold mode_after. rewrite R. exact I.
  - intros out. rewrite R. cbn [flush]. pose proof (format_uint_nonempty (N.of_nat k)) as NE.
    destruct (rev (itoa k)) eqn:E.
    { exfalso. apply NE. unfold itoa in E. rewrite <- (rev_involutive (format_uint _)), E. reflexivity. }
    rewrite <- E, rev_involutive. unfold number_of. rewrite (number_of_digits _ _ (N.of_nat k)).
    + rewrite Nat2N.id. reflexivity.
    + apply digits_val_format.
Qed.

Lemma reads_var d n : reads (flavour_of d) n (quote_var d (S n)) [Param (V:=V) (S n)] (S n).
Proof.
  destruct d; [|apply reads_dollar|]; (split; [exact I|intros; reflexivity]).
Qed.

(** ** Wrapped placeholders and identifiers *)
Lemma plist_none (ts : list tok) : no_placeholder ts <-> plist ts = [].
Proof.
  split.
  - intros H. destruct (plist ts) as [|k l] eqn:E; [reflexivity|]. exfalso. apply (H k), plist_In. rewrite E. now left.
  - intros H k I. apply plist_In in I. rewrite H in I. contradiction.
Qed.
Lemma plist_params (ts : list tok) : params ts = length (plist ts).
Proof.
  unfold params, plist. induction ts as [|t ts IH]; [reflexivity|]. destruct t; cbn [filter flat_map app length]; auto.
Qed.

Lemma reads_wrapped d c (a b : list tok) i : wrapped d c a b ->
  reads (flavour_of d) i (sql_valuer d c i) (a ++ Param (S i) :: b) (S i).
Proof.
  intros (L & _ & NA & NB & BA & BB & _). specialize (L i).
  replace (fst (c_wrap c) ++ placeholder (flavour_of d) (S i) ++ snd (c_wrap c)) with (sql_valuer d c i) in L
    by (unfold sql_valuer; rewrite Nat.add_1_r; destruct d; reflexivity).
  assert (NBAD : ~ In Bad (lex_from (V:=V) (flavour_of d) i (sql_valuer d c i))).
  { rewrite L, in_app_iff. intros [I|[I|I]]; try discriminate; auto. }
  destruct (lex_reads _ _ _ NBAD) as [n' R]. rewrite L in R. pose proof (reads_count _ _ _ _ _ R) as C.
  rewrite plist_params, plist_app in C. change (plist (Param (S i) :: b)) with (S i :: plist b) in C.
  apply plist_none in NA, NB. rewrite NA, NB in C. cbn in C. replace (S i) with n' at 2 by lia. exact R.
Qed.

Lemma reads_selected printable d c (e : list tok) n : plain_name (c_name c) -> selected d c e ->
  reads (flavour_of d) n (sql_scanner printable d c) e n.
Proof.
  intros [_ P] (L & _ & NP & NB & _). apply lex_piece; [|assumption..]. rewrite <- L. unfold sql_scanner.
  rewrite must_quote_plain by exact P. destruct d; reflexivity.
Qed.

(** Columns without configured SQLValuer and SQLScanner. *)
Lemma wrapped_none d c : c_wrap c = ([], []) -> wrapped d c (V:=V) [] [].
Proof.
  intros W. unfold wrapped. rewrite W. cbn [app In fst snd].
  assert (NP : no_placeholder (V:=V) []) by (intros k []).
  split; [|split; [reflexivity|]; split; [exact NP|]; split; [exact NP|]; split; [tauto|]; split; [tauto|]; split; constructor].
  intros i. rewrite app_nil_r. replace (placeholder (flavour_of d) (S i)) with (quote_var d (S i)) by (destruct d; reflexivity).
  eapply reads_lex. apply reads_var.
Qed.
Lemma selected_none d c : c_unwrap c = ([], []) -> plain_name (c_name c) -> selected (V:=V) d c [Name (c_name c)].
Proof.
  intros W P. unfold selected. rewrite W. cbn [fst snd]. split.
  - cbn [app]. rewrite app_nil_r. pose proof (reads_id (fun _ => true) d (c_name c) 0 P) as R. apply reads_lex in R.
    rewrite must_quote_plain in R by apply P. rewrite <- R. destruct d; reflexivity.
  - split; [reflexivity|]. split; [intros k [H|[]]; discriminate|]. split; [intros [H|[]]; discriminate|]. auto.
Qed.

(** Placeholders and values are exchangeable inside expressions. *)
Lemma until_replace (sep : tok -> bool) (x y : tok) b : plain_tok x = true -> plain_tok y = true -> sep x = false -> sep y = false ->
  forall a e, until sep e (a ++ x :: b) = Some (a ++ x :: b, []) -> until sep e (a ++ y :: b) = Some (a ++ y :: b, []).
Proof.
  intros PX PY SX SY.
  assert (H0 : forall e, until sep e (x :: b) = Some (x :: b, []) -> until sep e (y :: b) = Some (y :: b, [])).
  { intros e. unfold plain_tok in PX, PY. apply andb_true_iff in PX, PY. destruct PX as [X1 X2], PY as [Y1 Y2].
    apply negb_true_iff in X1, X2, Y1, Y2. cbn [until]. rewrite X1, X2, Y1, Y2, SX, SY.
    destruct e; (destruct (until sep _ b) as [[u v]|]; [intros E; inversion E; reflexivity|discriminate]). }
  induction a as [|t a IH]; intros e; [apply H0|]. cbn [app until].
  assert (P : forall w w' : list tok, forall o o',
    (o = Some (w, []) -> o' = Some (w', [])) ->
    match o with Some (u, v) => Some (t :: u, v) | None => None end = Some (t :: w, @nil tok) ->
    match o' with Some (u, v) => Some (t :: u, v) | None => None end = Some (t :: w', @nil tok)).
  { intros w w' [[u v]|] o' H E; [|discriminate]. inversion E; subst. rewrite (H eq_refl). reflexivity. }
  destruct (is_sym "(" t); [apply P, IH|]. destruct (is_sym ")" t).
  { destruct e; [discriminate|apply P, IH]. }
  destruct e; [|apply P, IH]. destruct (sep t); [discriminate|apply P, IH].
Qed.
Lemma is_expr_replace (x y : tok) a b : plain_tok x = true -> plain_tok y = true -> separator x = false -> separator y = false -> (ends_value y = true -> ends_value x = true) ->
  is_expr (a ++ x :: b) = true -> is_expr (a ++ y :: b) = true.
Proof.
  intros PX PY SX SY EV H. apply is_expr_passes in H. destruct H as (_ & H & C). apply is_expr_passes. split; [destruct a; discriminate|]. split.
  - revert H. apply until_replace; assumption.
  - assert (O : is_sym "(" x = false /\ is_sym "(" y = false).
    { unfold plain_tok in PX, PY. apply andb_true_iff in PX, PY. destruct PX as [PX _], PY as [PY _]. apply negb_true_iff in PX, PY. split; assumption. }
    destruct O as [OX OY]. clear H. induction a as [|t a IH]; cbn [app calls_value] in *.
    + apply orb_false_iff in C. destruct C as [C1 C2]. rewrite C2, orb_false_r. destruct (ends_value y); [|reflexivity]. rewrite EV in C1 by reflexivity. exact C1.
    + apply orb_false_iff in C. destruct C as [C1 C2]. rewrite IH by exact C2. rewrite orb_false_r.
      destruct a; cbn [app] in *; [rewrite OY, andb_false_r; reflexivity|exact C1].
Qed.
Lemma wrapped_val d c (a b : list tok) v : wrapped d c a b -> is_expr (a ++ Val v :: b) = true.
Proof. intros (_ & X & _). revert X. apply is_expr_replace; try reflexivity; trivial. Qed.
Lemma wrapped_param d c (a b : list tok) k : wrapped d c a b -> is_expr (a ++ Param k :: b) = true.
Proof. intros (_ & X & _). revert X. apply is_expr_replace; try reflexivity; trivial. Qed.

(** ** Lists of placeholders *)
Variables (before after : column -> list tok).
Fixpoint valuer_toks (cs : list column) (i : nat) : list (list tok) :=
  match cs with [] => [] | c :: cs' => (before c ++ Param (S i) :: after c) :: valuer_toks cs' (S i) end.
Notation bound := (holding before after).

Section Cols.
Variable d : driver.
Variable cs0 : list column.
Hypothesis W : forall c, In c cs0 -> wrapped d c (before c) (after c).

Lemma reads_valuers cs : incl cs cs0 -> forall i, reads_all (flavour_of d) i (sql_valuers d cs i) (valuer_toks cs i) (i + length cs).
Proof.
  induction cs as [|c cs IH]; intros IN i; cbn [sql_valuers valuer_toks length].
  - rewrite Nat.add_0_r. constructor.
  - replace (i + S (length cs)) with (S i + length cs) by lia. econstructor.
    + apply reads_wrapped. apply W. apply IN. now left.
    + apply IH. intros x I. apply IN. now right.
Qed.

Lemma valuer_plist cs : incl cs cs0 -> forall i, flat_map plist (valuer_toks cs i) = seq (S i) (length cs).
Proof.
  induction cs as [|c cs IH]; intros IN i; [reflexivity|]. cbn [valuer_toks flat_map length seq].
  destruct (W c (IN c (or_introl eq_refl))) as (_ & _ & NA & NB & _). apply plist_none in NA, NB.
  rewrite plist_app, NA. change (plist (Param (S i) :: after c)) with (S i :: plist (after c)). rewrite NB. cbn [app].
  rewrite IH; [reflexivity|]. intros x I. apply IN. now right.
Qed.

Lemma valuer_bads cs : incl cs cs0 -> forall i, existsb bads (valuer_toks cs i) = false.
Proof.
  induction cs as [|c cs IH]; intros IN i; [reflexivity|]. cbn [valuer_toks existsb].
  destruct (W c (IN c (or_introl eq_refl))) as (_ & _ & _ & _ & BA & BB & _). apply bads_In in BA, BB.
  rewrite bads_app, BA. change (bads (Param (S i) :: after c)) with (bads (after c)). rewrite BB. cbn [orb].
  apply IH. intros x I. apply IN. now right.
Qed.

Lemma valuer_bound val cs : incl cs cs0 -> forall i (args : list V), firstn (length cs) (skipn i args) = map val cs ->
  map (map (bind_tok args)) (valuer_toks cs i) = map (bound val) cs.
Proof.
  induction cs as [|c cs IH]; intros IN i args E; [reflexivity|]. cbn [valuer_toks map].
  destruct (W c (IN c (or_introl eq_refl))) as (_ & _ & NA & NB & _). apply plist_none in NA, NB.
  assert (N : nth_error args i = Some (val c) /\ firstn (length cs) (skipn (S i) args) = map val cs).
  { clear -E. revert args E. induction i as [|i IHi]; intros args E.
    - destruct args as [|v args]; [discriminate|]. cbn [skipn length firstn map] in E. inversion E. split; reflexivity.
    - destruct args as [|v args]; [discriminate|]. cbn [skipn] in E. apply IHi in E. exact E. }
  destruct N as [N E2]. f_equal.
  - rewrite map_app. cbn [map bind_tok]. rewrite N, !bind_none by assumption. reflexivity.
  - apply IH; [|exact E2]. intros x I. apply IN. now right.
Qed.

Lemma bound_exprs val cs : incl cs cs0 -> forallb is_expr (map (bound val) cs) = true.
Proof.
  intros IN. apply forallb_forall. intros e I. apply in_map_iff in I. destruct I as (c & <- & I).
  eapply wrapped_val, W, IN, I.
Qed.
End Cols.
End Toks.

(** ** Roles *)
Lemma filter_sublist {A} p (l : list A) : sublist (filter p l) l.
Proof. induction l as [|x l IH]; cbn [filter]; [constructor|]. destruct (p x); constructor; exact IH. Qed.

Lemma insert_columns_spec t c : wf t -> In c (insert_columns t) <-> insertable t c.
Proof.
  intros W. unfold insert_columns, insertable. rewrite filter_In. split.
  - intros (I & E). apply andb_true_iff in E. destruct E as [R A]. split; [exact I|]. split; [destruct (c_readonly c); auto; discriminate|].
    intros X. apply (is_auto_spec t c W I) in X. rewrite X in A. discriminate.
  - intros (I & R & A). split; [exact I|]. rewrite R. cbn [negb andb]. destruct (is_auto t c) eqn:X; [|reflexivity].
    apply (is_auto_spec t c W I) in X. contradiction.
Qed.
Lemma columns_without_pk_spec t c : wf t -> In c (columns_without_pk t) <-> updatable t c.
Proof.
  intros W. unfold columns_without_pk, updatable, is_key. rewrite filter_In. split.
  - intros (I & E). apply negb_true_iff in E. apply orb_false_iff in E. destruct E as [E A]. apply orb_false_iff in E. destruct E as [K R].
    split; [exact I|]. split; [exact R|]. apply bmem_not_In in K. intros [X|X].
    + apply K. apply in_map. exact X.
    + apply (is_auto_spec t c W I) in X. congruence.
  - intros (I & R & NK). split; [exact I|]. apply negb_true_iff. apply orb_false_iff. split; [apply orb_false_iff; split; [|exact R]|].
    + apply bmem_not_In. intros X. apply in_map_iff in X. destruct X as (k & E & KI). apply NK. left.
      rewrite <- (wf_name_inj t k c W); auto. apply (wf_keys t W k KI).
    + destruct (is_auto t c) eqn:X; [|reflexivity]. exfalso. apply NK. right. apply (is_auto_spec t c W I). exact X.
Qed.
Lemma insert_incl t : incl (insert_columns t) (t_columns t).
Proof. intros c I. apply filter_In in I. apply I. Qed.
Lemma without_pk_incl t : incl (columns_without_pk t) (t_columns t).
Proof. intros c I. apply filter_In in I. apply I. Qed.
Lemma keys_incl t : wf t -> incl (t_keys t) (t_columns t).
Proof. intros W c I. apply (wf_keys t W c I). Qed.
Lemma key_columns_incl t : wf t -> incl (key_columns t) (t_columns t).
Proof.
  intros W c. unfold key_columns. destruct (t_auto t) as [a|] eqn:A; [|apply keys_incl; exact W].
  intros [<-|[]]. apply (wf_auto t W a A).
Qed.
