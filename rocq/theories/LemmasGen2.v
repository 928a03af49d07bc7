(** Reading the generated statements. *)
From Verif Require Import Base ModelStrconv ModelUtf8 ModelEncoding ModelCompiler ModelGen SpecSql SpecGo SpecGen
  LemmasBase LemmasSql LemmasSql2 LemmasSql3 LemmasCompiler LemmasGen.

(** ** Literal texts *)
Lemma lit_app d a b : Forall (literal_char d) a -> Forall (literal_char d) b -> Forall (literal_char d) (a ++ b).
Proof. intros. apply Forall_app. auto. Qed.
Lemma lit_join d sep l : Forall (literal_char d) sep -> Forall (Forall (literal_char d)) l -> Forall (literal_char d) (join sep l).
Proof.
  intros S. induction 1 as [|x l H F IH]; [constructor|]. destruct l as [|y l]; [rewrite join_one; exact H|].
  rewrite join_cons by discriminate. apply lit_app; [exact H|]. apply lit_app; assumption.
Qed.
Definition lit_charb (d : driver) (c : byte) : bool :=
  N.ltb 0 (code c) && N.ltb (code c) 128 && negb (beq c (quote_char d)) &&
  match d with DMySQL => negb (beq c backslash) && negb (beq c LF) | _ => negb (N.eqb (code c) 13) end.
Lemma lit_const d s : forallb (lit_charb d) s = true -> Forall (literal_char d) s.
Proof.
  intros H. apply Forall_forall. intros c I. rewrite forallb_forall in H. specialize (H c I). unfold lit_charb in H.
  repeat (apply andb_true_iff in H; let X := fresh in destruct H as [H X]).
  apply N.ltb_lt in H, H2. apply negb_true_iff in H1. apply beq_neq in H1. split; [lia|].
  destruct d.
  - apply andb_true_iff in H0. destruct H0 as [A C]. apply negb_true_iff in A, C. apply beq_neq in A, C. auto.
  - apply negb_true_iff in H0. apply N.eqb_neq in H0. auto.
  - apply negb_true_iff in H0. apply N.eqb_neq in H0. auto.
Qed.
Lemma plain_literal d c : plain_char c -> literal_char d c.
Proof.
  intros (H & D & T & S). split; [lia|]. destruct d; [|split; [assumption|lia]..].
  split; [exact D|]. split; [exact S|]. intros ->. cbn in H. lia.
Qed.
Lemma lit_id printable d s : plain_name s -> Forall (literal_char d) (must_quote printable d s).
Proof.
  intros [_ F]. rewrite must_quote_plain by exact F.
  change (id_quote d :: s ++ [id_quote d]) with ([id_quote d] ++ s ++ [id_quote d]). apply lit_app; [apply lit_const; destruct d; reflexivity|].
  apply lit_app; [eapply Forall_impl; [|exact F]; intros; apply plain_literal; assumption|].
  apply lit_const. destruct d; reflexivity.
Qed.
Lemma lit_digits d n : Forall (literal_char d) (itoa n).
Proof.
  pose proof (format_uint_digits (N.of_nat n)) as F. eapply Forall_impl; [|exact F]. intros c H. apply plain_literal.
  unfold is_digit, in_range in H. apply andb_true_iff in H. destruct H as [H1 H2]. apply N.leb_le in H1, H2.
  split; [lia|]. repeat split; intros ->; cbn in H1, H2; lia.
Qed.
Lemma lit_var d n : Forall (literal_char d) (quote_var d n).
Proof. destruct d; [| apply lit_app; [|apply lit_digits]|]; apply lit_const; reflexivity. Qed.

Lemma map_nonempty {A C} (f : A -> C) l : l <> [] -> map f l <> [].
Proof. destruct l; [contradiction|discriminate]. Qed.

Lemma filter_length_le {A} p (l : list A) : length (filter p l) <= length l.
Proof. induction l as [|x l IH]; cbn [filter length]; [lia|]. destruct (p x); cbn [length]; lia. Qed.

Section Stmts.
Context {V : Type}.
Notation tok := (tok V).
Variable printable : N -> bool.
Variable d : driver.
Variable t : table.
Variables (before after item : column -> list tok).
Hypothesis WF : wf t.
Hypothesis PN : forall c, In c (t_columns t) -> plain_name (c_name c).
Hypothesis W : forall c, In c (t_columns t) -> wrapped d c (before c) (after c).
Hypothesis SEL : forall c, In c (t_columns t) -> selected d c (item c).

Notation fl := (flavour_of d).
Notation ids cs := (map (fun c => must_quote printable d (c_name c)) cs).

Lemma reads_ids cs n : incl cs (t_columns t) -> reads fl n (join (B ",") (ids cs)) (commas (name_toks (V:=V) (map c_name cs))) n.
Proof.
  intros IN. apply reads_join. unfold name_toks. rewrite map_map. apply reads_all_map. intros c I. apply reads_id. apply PN, IN, I.
Qed.
Lemma reads_items cs n : incl cs (t_columns t) -> reads fl n (join (B ",") (map (sql_scanner printable d) cs)) (commas (map item cs)) n.
Proof. intros IN. apply reads_join. apply reads_all_map. intros c I. apply reads_selected; [apply PN, IN, I|apply SEL, IN, I]. Qed.
Lemma reads_vals cs i : incl cs (t_columns t) ->
  reads fl i (join (B ",") (sql_valuers d cs i)) (commas (valuer_toks before after cs i)) (i + length cs).
Proof. intros IN. apply reads_join. eapply reads_valuers; eauto. Qed.

Lemma items_exprs cs : incl cs (t_columns t) -> forallb is_expr (map item cs) = true.
Proof.
  intros IN. apply forallb_forall. intros e I. apply in_map_iff in I. destruct I as (c & <- & I). apply (SEL c (IN c I)).
Qed.
Lemma items_plist cs : incl cs (t_columns t) -> plist (commas (map item cs)) = [].
Proof.
  intros IN. rewrite plist_commas. induction cs as [|c cs IH]; [reflexivity|]. cbn [map flat_map].
  destruct (SEL c (IN c (or_introl eq_refl))) as (_ & _ & NP & _). apply plist_none in NP. rewrite NP. apply IH.
  intros x I. apply IN. now right.
Qed.
Lemma items_bads cs : incl cs (t_columns t) -> bads (commas (map item cs)) = false.
Proof.
  intros IN. rewrite bads_commas. induction cs as [|c cs IH]; [reflexivity|]. cbn [map existsb].
  destruct (SEL c (IN c (or_introl eq_refl))) as (_ & _ & _ & NB & _). apply bads_In in NB. rewrite NB. apply IH.
  intros x I. apply IN. now right.
Qed.
Lemma names_plist (l : list bytes) : plist (V:=V) (commas (name_toks l)) = [].
Proof. rewrite plist_commas. induction l; [reflexivity|exact IHl]. Qed.
Lemma names_bads (l : list bytes) : bads (V:=V) (commas (name_toks l)) = false.
Proof. rewrite bads_commas. induction l; [reflexivity|exact IHl]. Qed.

(** literal characters *)
Lemma lit_ids cs : incl cs (t_columns t) -> Forall (literal_char d) (join (B ",") (ids cs)).
Proof.
  intros IN. apply lit_join; [apply lit_const; destruct d; reflexivity|]. apply Forall_forall. intros x I.
  apply in_map_iff in I. destruct I as (c & <- & I). apply lit_id. apply PN, IN, I.
Qed.
Lemma lit_items cs : incl cs (t_columns t) -> Forall (literal_char d) (join (B ",") (map (sql_scanner printable d) cs)).
Proof.
  intros IN. apply lit_join; [apply lit_const; destruct d; reflexivity|]. apply Forall_forall. intros x I.
  apply in_map_iff in I. destruct I as (c & <- & I). destruct (SEL c (IN c I)) as (_ & _ & _ & _ & A & Z).
  apply lit_app; [exact A|]. apply lit_app; [apply lit_id, PN, IN, I|exact Z].
Qed.
Lemma lit_valuer c i : In c (t_columns t) -> Forall (literal_char d) (sql_valuer d c i).
Proof.
  intros I. destruct (W c I) as (_ & _ & _ & _ & _ & _ & A & Z).
  apply lit_app; [exact A|]. apply lit_app; [apply lit_var|exact Z].
Qed.
Lemma lit_valuers cs : incl cs (t_columns t) -> forall i, Forall (literal_char d) (join (B ",") (sql_valuers d cs i)).
Proof.
  intros IN i. apply lit_join; [apply lit_const; destruct d; reflexivity|]. revert i.
  induction cs as [|c cs IH]; intros i; cbn [sql_valuers]; constructor.
  - apply lit_valuer, IN. now left.
  - apply IH. intros x I. apply IN. now right.
Qed.

(** the table name *)
Variables (own : bool) (tn : bytes) (q : list bytes).
Hypothesis ADR : addresses (V:=V) d own t tn q.
Definition table_text : bytes := if own then tn else must_quote printable d (t_name t).
Lemma table_reads : exists tt : list tok, qname tt = Some q /\ forall n, reads fl n table_text tt n.
Proof.
  unfold addresses, table_text in *. destruct own.
  - exists (lex fl tn). split; [exact ADR|]. intros n.
    destruct (qname_plain _ _ (fun _ => false) ADR) as (_ & _ & P & NB & _); [reflexivity|reflexivity|].
    apply lex_piece; [reflexivity|apply bads_In; exact NB|apply plist_none; exact P].
  - destruct ADR as [PT ->]. exists [Name (t_name t)]. split; [reflexivity|]. intros n. apply reads_id. exact PT.
Qed.

Lemma eval_three pre post : Forall (literal_char d) pre -> Forall (literal_char d) post ->
  eval_pieces tn (if own then [Lit (gen_quote d pre); CallTableName; Lit (gen_quote d post)]
                  else [Lit (gen_quote d (pre ++ must_quote printable d (t_name t) ++ post))])
  = Some (pre ++ table_text ++ post).
Proof.
  intros A Z. unfold addresses, table_text in *. destruct own; cbn [eval_pieces].
  - rewrite !gen_quote_literal by assumption. rewrite app_nil_r. reflexivity.
  - destruct ADR as [PT _]. rewrite gen_quote_literal; [rewrite app_nil_r; reflexivity|].
    apply lit_app; [exact A|]. apply lit_app; [apply lit_id; exact PT|exact Z].
Qed.

Ltac rc := split; [destruct d; exact I|intros; destruct d; reflexivity].
Ltac rl := eapply reads_app_l; [rc| |destruct d; reflexivity].
Ltac rr := eapply reads_app_r; [| |reflexivity|discriminate].

(** *** INSERT *)
Definition returning_items : list (list tok) := match d with DPostgres => map item (t_columns t) | _ => [] end.

Lemma lit_insert_text : Forall (literal_char d) (insert_text printable d t).
Proof.
  unfold insert_text. repeat (apply lit_app; [first [apply lit_ids, insert_incl|apply lit_valuers, insert_incl|apply lit_const; destruct d; reflexivity|idtac]|]).
  - pose proof (lit_items (t_columns t) (incl_refl _)) as L. clear - L.
    destruct d; [constructor| |constructor]. apply lit_app; [apply lit_const; reflexivity|exact L].
  - apply lit_const; destruct d; reflexivity.
Qed.

Lemma insert_reads (tt : list tok) :
  (forall n, reads fl n table_text tt n) ->
  reads fl 0 (B "INSERT INTO " ++ table_text ++ insert_text printable d t)
    ([Kw (B "INSERT"); Kw (B "INTO")] ++ tt ++ [Sym "("] ++ commas (name_toks (map c_name (insert_columns t))) ++
     [Sym ")"; Kw (B "VALUES"); Sym "("] ++ commas (valuer_toks before after (insert_columns t) 0) ++ [Sym ")"] ++
     (match d with DPostgres => Kw (B "RETURNING") :: commas (map item (t_columns t)) | _ => [] end) ++ [Sym ";"])
    (length (insert_columns t)).
Proof.
  intros T. rl. unfold insert_text. rr; [apply T|]. rl. rr; [apply reads_ids, insert_incl|]. rl.
  rr; [apply (reads_vals _ 0), insert_incl|]. cbn [Nat.add]. rl.
  assert (RI : reads fl (length (insert_columns t)) (join (B ",") (map (sql_scanner printable d) (t_columns t))) (commas (map item (t_columns t))) (length (insert_columns t)))
    by (apply reads_items, incl_refl).
  clear - RI. destruct d; cbn [app]; try (split; [exact I|intros; reflexivity]).
  change (Kw (B "RETURNING") :: commas (map item (t_columns t)) ++ [Sym ";"])
    with ([Kw (B "RETURNING")] ++ commas (map item (t_columns t)) ++ [Sym (V:=V) ";"]).
  rewrite <- app_assoc. eapply reads_app_l; [split; [exact I|intros; reflexivity]| |reflexivity].
  eapply reads_app_r; [exact RI| |reflexivity|discriminate]. split; [exact I|intros; reflexivity].
Qed.

Lemma insert_read (val : column -> V) : insert_columns t <> [] ->
  read fl (B "INSERT INTO " ++ table_text ++ insert_text printable d t) (map val (insert_columns t))
  = Some (Insert q (map c_name (insert_columns t)) [map (holding before after val) (insert_columns t)] Fail returning_items).
Proof.
  intros NE. destruct table_reads as (tt & Q & T).
  destruct (qname_plain _ _ (fun _ => false) Q) as (_ & _ & TP & TB & _); [reflexivity|reflexivity|].
  pose proof (insert_incl t) as IN.
  erewrite read_parse; [| apply insert_reads, T | |].
  - rewrite !map_app. rewrite (bind_none _ tt) by exact TP. cbn [map bind_tok].
    rewrite (bind_none _ (commas (name_toks _))) by apply names_plist.
    rewrite map_commas by reflexivity. rewrite (valuer_bound before after d (t_columns t) W val) by (auto; cbn [skipn]; rewrite <- (map_length val) at 1; apply firstn_all).
    replace (map (bind_tok (map val (insert_columns t))) (match d with DPostgres => Kw (B "RETURNING") :: commas (map item (t_columns t)) | _ => [] end))
      with (match d with DPostgres => Kw (B "RETURNING") :: commas (map item (t_columns t)) | _ => [] end).
    2:{ symmetry. apply bind_none. pose proof (items_plist (t_columns t) (incl_refl _)) as L. clear - L. destruct d; try reflexivity. exact L. }
    cbn [app]. unfold parse.
    match goal with |- match strip _ (_ :: _ :: ?r) with _ => _ end = _ =>
      change (parse_insert fl false r = Some (Insert q (map c_name (insert_columns t)) [map (holding before after val) (insert_columns t)] Fail returning_items)) end.
    match goal with |- parse_insert _ _ (_ ++ _ :: _ ++ _ :: _ :: _ :: _ ++ _ :: ?rest) = _ => set (R := rest) end.
    replace (Sym "(" :: commas (map (holding before after val) (insert_columns t)) ++ Sym ")" :: R)
      with (commas (map row_toks [map (holding before after val) (insert_columns t)]) ++ R)
      by (unfold row_toks; cbn [map commas app]; rewrite <- app_assoc; reflexivity).
    assert (HR : returning_items = opt_list (match d with DPostgres => Some (map item (t_columns t)) | _ => None end))
      by (unfold returning_items; destruct d; reflexivity).
    rewrite HR.
    apply parse_insert_shape with (rest2 := R) (rest3 := [Sym ";"]); auto.
    + apply map_nonempty, NE.
    + apply NoDup_filter_map. apply (wf_names t WF).
    + discriminate.
    + intros x [<-|[]]. rewrite !map_length. split; [reflexivity|]. eapply bound_exprs; eauto.
    + unfold R. clear. destruct d; (split; reflexivity).
    + unfold R. clear. destruct d; reflexivity.
    + unfold R. pose proof (items_exprs (t_columns t) (incl_refl _)) as IE.
      assert (CN : t_columns t <> []) by (destruct (insert_columns t) as [|c l] eqn:E; [contradiction|]; intros X; rewrite X in IN; exact (IN c (or_introl eq_refl))).
      clear - IE CN. destruct d; try reflexivity. cbn [app].
      change (Kw (B "RETURNING") :: commas (map item (t_columns t)) ++ [Sym ";"])
        with (map Kw [B "RETURNING"] ++ commas (map item (t_columns t)) ++ [Sym (V:=V) ";"]).
      apply clause_some; [apply exprs_passes_ends; exact IE|split; reflexivity|].
      apply exprs_commas; [apply map_nonempty, CN|exact IE].
    + intros E. destruct d; try discriminate. reflexivity.
  - rewrite !plist_app, TP, names_plist, plist_commas. erewrite valuer_plist by eauto.
    replace (plist (match d with DPostgres => Kw (B "RETURNING") :: commas (map item (t_columns t)) | _ => [] end)) with (@nil nat).
    + cbn. rewrite app_nil_r, map_length. reflexivity.
    + symmetry. pose proof (items_plist (t_columns t) (incl_refl _)) as L. clear - L. destruct d; try reflexivity. exact L.
  - rewrite !bads_app, TB, names_bads, bads_commas. erewrite valuer_bads by eauto.
    replace (bads (match d with DPostgres => Kw (B "RETURNING") :: commas (map item (t_columns t)) | _ => [] end)) with false; [reflexivity|].
    symmetry. pose proof (items_bads (t_columns t) (incl_refl _)) as L. clear - L. destruct d; try reflexivity. exact L.
Qed.

(** *** Key conditions *)
Definition key_toks (k off : nat) : list tok :=
  match single_key t with
  | Some pk => [Name (c_name pk); Op (B "="); Param k]
  | None => row_toks (name_toks (map c_name (t_keys t))) ++ Op (B "=") :: row_toks (valuer_toks before after (t_keys t) off)
  end.

Lemma single_key_of pk : single_key t = Some pk -> key_of t = [pk] /\ key_columns t = [pk].
Proof.
  unfold single_key, key_of, key_columns. destruct (t_auto t); [intros E; inversion E; auto|].
  destruct (t_keys t) as [|k [|? ?]]; try discriminate. intros E; inversion E; auto.
Qed.
Lemma composite_key_of : single_key t = None -> t_auto t = None /\ key_of t = t_keys t /\ key_columns t = t_keys t.
Proof. unfold single_key, key_of, key_columns. destruct (t_auto t); [discriminate|auto]. Qed.
Lemma key_columns_of : key_columns t = key_of t.
Proof. reflexivity. Qed.
Lemma single_in pk : single_key t = Some pk -> In pk (t_columns t).
Proof. intros S. destruct (single_key_of pk S) as [_ K]. apply (key_columns_incl t WF). rewrite K. now left. Qed.

Lemma reads_var_at k n : (d = DPostgres \/ k = S n) -> reads fl n (quote_var d k) [Param (V:=V) k] (S n).
Proof. clear. intros [H | ->]; [|apply reads_var]. rewrite H. apply reads_dollar. Qed.

Lemma key_reads k off : (d = DPostgres \/ k = S off) ->
  reads fl off (key_condition printable d t k off) (key_toks k off) (off + length (key_columns t)).
Proof.
  intros K. unfold key_condition, key_toks. destruct (single_key t) as [pk|] eqn:S.
  - destruct (single_key_of pk S) as [_ ->]. cbn [length]. rewrite Nat.add_1_r.
    change [Name (c_name pk); Op (B "="); Param k] with ([Name (c_name pk)] ++ [Op (B "=")] ++ [Param (V:=V) k]).
    rr; [apply reads_id, PN, single_in, S|]. rl. apply reads_var_at, K.
  - destruct (composite_key_of S) as (_ & _ & ->).
    replace (row_toks (name_toks (map c_name (t_keys t))) ++ Op (B "=") :: row_toks (valuer_toks before after (t_keys t) off))
      with ([Sym "("] ++ commas (name_toks (map c_name (t_keys t))) ++ [Sym ")"] ++ [Op (B "=")] ++ [Sym "("] ++
            commas (valuer_toks before after (t_keys t) off) ++ [Sym ")"])
      by (unfold row_toks; cbn [app]; rewrite <- app_assoc; reflexivity).
    rl. rr; [apply reads_ids, keys_incl, WF|]. rl. rl. rl. rr; [apply reads_vals, keys_incl, WF|]. rc.
Qed.

Lemma key_toks_plist k off : plist (key_toks k off) =
  match single_key t with Some _ => [k] | None => seq (S off) (length (t_keys t)) end.
Proof.
  unfold key_toks. destruct (single_key t); [reflexivity|]. unfold row_toks.
  rewrite plist_app. change (plist (Sym "(" :: ?x)) with (plist x).
  cbn [app]. change (plist (Sym "(" :: commas (name_toks (map c_name (t_keys t))) ++ [Sym ")"]))
    with (plist (V:=V) (commas (name_toks (map c_name (t_keys t))) ++ [Sym ")"])).
  change (plist (Op (B "=") :: Sym "(" :: commas (valuer_toks before after (t_keys t) off) ++ [Sym ")"]))
    with (plist (commas (valuer_toks before after (t_keys t) off) ++ [Sym ")"])).
  rewrite !plist_app, names_plist, plist_commas. erewrite valuer_plist by (eauto using keys_incl).
  cbn. rewrite app_nil_r. reflexivity.
Qed.
Lemma key_toks_bads k off : bads (key_toks k off) = false.
Proof.
  unfold key_toks. destruct (single_key t); [reflexivity|]. unfold row_toks.
  rewrite bads_app. cbn [app]. change (bads (Sym "(" :: commas (name_toks (map c_name (t_keys t))) ++ [Sym ")"]))
    with (bads (V:=V) (commas (name_toks (map c_name (t_keys t))) ++ [Sym ")"])).
  change (bads (Op (B "=") :: Sym "(" :: commas (valuer_toks before after (t_keys t) off) ++ [Sym ")"]))
    with (bads (commas (valuer_toks before after (t_keys t) off) ++ [Sym ")"])).
  rewrite !bads_app, names_bads, bads_commas. erewrite valuer_bads by (eauto using keys_incl). reflexivity.
Qed.

Lemma key_passes val : passes ends_clause (match single_key t with
  | Some pk => [Name (c_name pk); Op (B "="); Val (val pk)]
  | None => row_toks (name_toks (map c_name (t_keys t))) ++ Op (B "=") :: row_toks (map (holding before after val) (t_keys t))
  end).
Proof.
  destruct (single_key t); [reflexivity|]. apply passes_app; [apply row_passes, names_exprs|].
  apply passes_cons; [reflexivity|reflexivity|]. apply row_passes. eapply bound_exprs; eauto. apply keys_incl, WF.
Qed.

Lemma key_bound val k off (args : list V) :
  (match single_key t with
   | Some pk => k = S off
   | None => True
   end) -> firstn (length (key_columns t)) (skipn off args) = map val (key_columns t) ->
  map (bind_tok args) (key_toks k off) =
  match single_key t with
  | Some pk => [Name (c_name pk); Op (B "="); Val (val pk)]
  | None => row_toks (name_toks (map c_name (t_keys t))) ++ Op (B "=") :: row_toks (map (holding before after val) (t_keys t))
  end.
Proof.
  intros K E. unfold key_toks. destruct (single_key t) as [pk|] eqn:S.
  - destruct (single_key_of pk S) as [_ KC]. rewrite KC in E. cbn [length map] in E. subst k. cbn [map bind_tok].
    assert (N : nth_error args off = Some (val pk)).
    { clear -E. revert args E. induction off as [|i IHi]; intros args E; destruct args as [|v args]; try discriminate.
      - cbn in *. congruence.
      - apply IHi. exact E. }
    rewrite N. reflexivity.
  - destruct (composite_key_of S) as (_ & _ & KC). rewrite KC in E.
    unfold row_toks. rewrite map_app. cbn [map bind_tok]. rewrite !map_app.
    rewrite (bind_none _ (commas (name_toks _))) by apply names_plist. rewrite map_commas by reflexivity.
    erewrite valuer_bound by (eauto using keys_incl). reflexivity.
Qed.

Lemma key_where val : has_pk t = true -> where_p (match single_key t with
  | Some pk => [Name (c_name pk); Op (B "="); Val (val pk)]
  | None => row_toks (name_toks (map c_name (t_keys t))) ++ Op (B "=") :: row_toks (map (holding before after val) (t_keys t))
  end) = Some (key_equals t before after val).
Proof.
  intros HP. unfold key_equals. destruct (single_key t) as [pk|] eqn:S.
  - destruct (single_key_of pk S) as [-> _]. apply where_one; reflexivity.
  - destruct (composite_key_of S) as (A & -> & _). unfold single_key in S. unfold has_pk in HP. rewrite A in S, HP.
    destruct (t_keys t) as [|k1 [|k2 l]] eqn:KE; try discriminate.
    replace (map (fun c : column => [Name (c_name c)]) (k1 :: k2 :: l)) with (name_toks (V:=V) (map c_name (k1 :: k2 :: l)))
      by (unfold name_toks; rewrite map_map; reflexivity).
    apply where_tuple; [discriminate|rewrite !map_length; reflexivity| |reflexivity].
    eapply bound_exprs; eauto. rewrite <- KE. apply keys_incl, WF.
Qed.

(** *** SELECT *)
Definition find_text : bytes :=
  B "SELECT " ++ join (B ",") (map (sql_scanner printable d) (t_columns t)) ++ B " FROM " ++ table_text
  ++ B " WHERE " ++ key_condition printable d t 1 0 ++ B " LIMIT 1;".

Lemma has_pk_columns : has_pk t = true -> t_columns t <> [].
Proof.
  intros HP E. unfold has_pk in HP. destruct (t_auto t) as [a|] eqn:A.
  - destruct (wf_auto t WF a A) as [I _]. rewrite E in I. exact I.
  - destruct (t_keys t) as [|k l] eqn:K; [discriminate|]. destruct (wf_keys t WF k) as [I _]; [rewrite K; now left|]. rewrite E in I. exact I.
Qed.

Lemma key_columns_single pk : single_key t = Some pk -> length (key_columns t) = 1.
Proof. intros S. destruct (single_key_of pk S) as [_ ->]. reflexivity. Qed.

Lemma find_read (val : column -> V) : has_pk t = true ->
  read fl find_text (map val (key_columns t))
  = Some (Select (map item (t_columns t)) q (Some (key_equals t before after val)) [] [] (Some 1%N) None []).
Proof.
  intros HP. destruct table_reads as (tt & Q & T).
  destruct (qname_plain _ _ (fun _ => false) Q) as (_ & _ & TP & TB & _); [reflexivity|reflexivity|].
  assert (R : reads fl 0 find_text ([Kw (B "SELECT")] ++ commas (map item (t_columns t)) ++ [Kw (B "FROM")] ++ tt ++
    [Kw (B "WHERE")] ++ key_toks 1 0 ++ [Kw (B "LIMIT"); Num (B "1"); Sym ";"]) (length (key_columns t))).
  { unfold find_text. rl. rr; [apply reads_items, incl_refl|]. rl. rr; [apply T|]. rl.
    rr; [apply (key_reads 1 0); now right|]. rc. }
  assert (KL : plist (key_toks 1 0) = seq 1 (length (key_columns t))).
  { rewrite key_toks_plist. destruct (single_key t) as [pk|] eqn:S.
    - rewrite (key_columns_single pk S). reflexivity.
    - destruct (composite_key_of S) as (_ & _ & ->). reflexivity. }
  erewrite read_parse; [|exact R| |].
  - rewrite !map_app. rewrite (bind_none _ tt) by exact TP.
    rewrite (bind_none _ (commas (map item _))) by apply items_plist, incl_refl.
    rewrite (key_bound val).
    2:{ destruct (single_key t); [reflexivity|exact I]. }
    2:{ cbn [skipn]. rewrite <- (map_length val) at 1. apply firstn_all. }
    cbn [app map bind_tok]. unfold parse.
    match goal with |- match strip _ (_ :: ?r) with _ => _ end = _ =>
      transitivity (parse_select fl r); [clear; destruct d; reflexivity|] end.
    pose proof (key_where val HP) as KW. pose proof (key_passes val) as KP.
    set (KT := match single_key t with Some _ => _ | None => _ end) in *.
    apply parse_select_shape with (rest1 := [Kw (B "LIMIT"); Num (B "1"); Sym ";"]) (rest2 := [Kw (B "LIMIT"); Num (B "1"); Sym ";"])
       (rest3 := [Kw (B "LIMIT"); Num (B "1"); Sym ";"]) (rest4 := [Sym ";"]) (rest5 := [Sym ";"]) (grp := None) (ord := None).
    + apply map_nonempty, has_pk_columns, HP.
    + apply items_exprs, incl_refl.
    + exact Q.
    + split; reflexivity.
    + change (Kw (B "WHERE") :: KT ++ ?x) with (map Kw [B "WHERE"] ++ KT ++ x).
      apply (clause_some [B "WHERE"] where_p KT); [exact KP|split; reflexivity|exact KW].
    + reflexivity.
    + clear; destruct d; reflexivity.
    + reflexivity.
    + reflexivity.
    + intros _ X. contradiction.
    + reflexivity.
    + reflexivity.
  - rewrite !plist_app, TP, items_plist by apply incl_refl. rewrite KL. cbn. rewrite app_nil_r, map_length. reflexivity.
  - rewrite !bads_app, TB, items_bads by apply incl_refl. rewrite key_toks_bads. reflexivity.
Qed.

(** *** UPDATE *)
Notation ups := (columns_without_pk t).
Definition update_body : bytes :=
  B " SET " ++ join (B ",") (assignments_text printable d ups 0) ++ B " WHERE "
  ++ key_condition printable d t (length (t_columns t)) (length ups) ++ B ";".
Fixpoint assign_list (cs : list column) (i : nat) : list (list tok) :=
  match cs with [] => [] | c :: cs' => (Name (c_name c) :: Op (B "=") :: before c ++ Param (S i) :: after c) :: assign_list cs' (S i) end.

Lemma reads_assigns cs : incl cs (t_columns t) -> forall i,
  reads_all fl i (assignments_text printable d cs i) (assign_list cs i) (i + length cs).
Proof.
  induction cs as [|c cs IH]; intros IN i; cbn [assignments_text assign_list length].
  - rewrite Nat.add_0_r. constructor.
  - replace (i + S (length cs)) with (S i + length cs) by lia. econstructor.
    + change (Name (c_name c) :: Op (B "=") :: before c ++ Param (S i) :: after c)
        with ([Name (c_name c)] ++ [Op (B "=")] ++ (before c ++ Param (S i) :: after c)).
      rr; [apply reads_id, PN, IN; now left|]. rl. apply reads_wrapped, W, IN. now left.
    + apply IH. intros x I. apply IN. now right.
Qed.
Lemma assign_plist cs : incl cs (t_columns t) -> forall i, flat_map plist (assign_list cs i) = seq (S i) (length cs).
Proof.
  intros IN i. rewrite <- (valuer_plist before after d (t_columns t) W cs IN i). revert i.
  induction cs as [|c cs IH]; intros i; [reflexivity|]. cbn [assign_list valuer_toks flat_map].
  rewrite IH by (intros x I; apply IN; now right). reflexivity.
Qed.
Lemma assign_bads cs : incl cs (t_columns t) -> forall i, existsb bads (assign_list cs i) = false.
Proof.
  intros IN i. rewrite <- (valuer_bads before after d (t_columns t) W cs IN i). revert i.
  induction cs as [|c cs IH]; intros i; [reflexivity|]. cbn [assign_list valuer_toks existsb].
  rewrite IH by (intros x I; apply IN; now right). reflexivity.
Qed.
Lemma assign_bound val cs : incl cs (t_columns t) -> forall i (args : list V), firstn (length cs) (skipn i args) = map val cs ->
  map (map (bind_tok args)) (assign_list cs i) = map assign_toks (map (fun c => (c_name c, holding before after val c)) cs).
Proof.
  intros IN i args E. pose proof (valuer_bound before after d (t_columns t) W val cs IN i args E) as H. clear E.
  revert i H. induction cs as [|c cs IH]; intros i H; [reflexivity|]. cbn [assign_list valuer_toks map] in *.
  injection H as H1 H2. f_equal.
  - cbn [map bind_tok assign_toks fst snd]. rewrite H1. reflexivity.
  - apply IH; [intros x I; apply IN; now right|exact H2].
Qed.

Lemma lit_key k off : Forall (literal_char d) (key_condition printable d t k off).
Proof.
  unfold key_condition. destruct (single_key t) as [pk|] eqn:S.
  - apply lit_app; [apply lit_id, PN, single_in, S|]. apply lit_app; [apply lit_const; clear; destruct d; reflexivity|apply lit_var].
  - repeat (apply lit_app; [first [apply lit_ids, keys_incl, WF|apply lit_valuers, keys_incl, WF|apply lit_const; clear; destruct d; reflexivity]|]).
    apply lit_const; clear; destruct d; reflexivity.
Qed.
Lemma lit_assigns cs : incl cs (t_columns t) -> forall i, Forall (literal_char d) (join (B ",") (assignments_text printable d cs i)).
Proof.
  intros IN i. apply lit_join; [apply lit_const; clear; destruct d; reflexivity|]. revert i.
  induction cs as [|c cs IH]; intros i; cbn [assignments_text]; constructor.
  - apply lit_app; [apply lit_id, PN, IN; now left|]. apply lit_app; [apply lit_const; clear; destruct d; reflexivity|].
    apply lit_valuer, IN. now left.
  - apply IH. intros x I. apply IN. now right.
Qed.
Lemma lit_update_body : Forall (literal_char d) update_body.
Proof.
  unfold update_body. repeat (apply lit_app; [first [apply lit_assigns, without_pk_incl|apply lit_key|apply lit_const; clear; destruct d; reflexivity]|]).
  apply lit_const; clear; destruct d; reflexivity.
Qed.

Lemma quote_var_static k j : d <> DPostgres -> quote_var d k = quote_var d j.
Proof. clear. intros H. destruct d; try reflexivity. contradiction. Qed.
Lemma key_condition_static k j off : d <> DPostgres -> key_condition printable d t k off = key_condition printable d t j off.
Proof. intros H. unfold key_condition. destruct (single_key t); [|reflexivity]. rewrite (quote_var_static k j H). reflexivity. Qed.

Definition update_toks (tt : list tok) (k : nat) : list tok :=
  [Kw (B "UPDATE")] ++ tt ++ [Kw (B "SET")] ++ commas (assign_list ups 0) ++ [Kw (B "WHERE")] ++ key_toks k (length ups) ++ [Sym ";"].
Lemma update_reads tt k : (forall n, reads fl n table_text tt n) ->
  (d = DPostgres /\ k = length (t_columns t)) \/ (d <> DPostgres /\ k = S (length ups)) ->
  reads fl 0 (B "UPDATE " ++ table_text ++ update_body) (update_toks tt k) (length ups + length (key_columns t)).
Proof.
  intros T K. unfold update_toks, update_body. rl. rr; [apply T|]. rl.
  rr; [apply reads_join, (reads_assigns ups (without_pk_incl t) 0)|]. rl.
  rr; [|rc]. cbn [Nat.add]. destruct K as [[D ->]|[D ->]].
  - apply key_reads. now left.
  - rewrite (key_condition_static _ (S (length ups))) by exact D. apply key_reads. now right.
Qed.

Lemma update_read (val : column -> V) : has_pk t = true -> ups <> [] ->
  (d = DPostgres -> single_key t <> None -> length (t_columns t) = S (length ups)) ->
  read fl (B "UPDATE " ++ table_text ++ update_body) (map val (ups ++ key_columns t))
  = Some (Update q (map (fun c => (c_name c, holding before after val c)) ups) (Some (key_equals t before after val)) [] None).
Proof.
  intros HP NE COUNT. destruct table_reads as (tt & Q & T).
  destruct (qname_plain _ _ (fun _ => false) Q) as (_ & _ & TP & TB & _); [reflexivity|reflexivity|].
  assert (KK : exists k, ((d = DPostgres /\ k = length (t_columns t)) \/ (d <> DPostgres /\ k = S (length ups))) /\
                         (single_key t <> None -> k = S (length ups))).
  { assert (DD : d = DPostgres \/ d <> DPostgres) by (clear; destruct d; (now left) || (right; discriminate)).
    destruct DD as [D|D].
    - exists (length (t_columns t)). split; [now left|]. intros S. apply COUNT; assumption.
    - exists (S (length ups)). split; [now right|auto]. }
  destruct KK as (k & K & KS).
  assert (KL : plist (key_toks k (length ups)) = seq (S (length ups)) (length (key_columns t))).
  { rewrite key_toks_plist. destruct (single_key t) as [pk|] eqn:S.
    - rewrite (key_columns_single pk S), KS by discriminate. reflexivity.
    - destruct (composite_key_of S) as (_ & _ & ->). reflexivity. }
  erewrite read_parse; [|apply update_reads; [exact T|exact K]| |].
  - unfold update_toks. rewrite !map_app. rewrite (bind_none _ tt) by exact TP.
    rewrite map_commas by reflexivity.
    rewrite (assign_bound val) by (try apply without_pk_incl; cbn [skipn]; rewrite <- (map_length val ups) at 1; rewrite firstn_app, Nat.sub_diag, firstn_all, app_nil_r; reflexivity).
    rewrite (key_bound val).
    2:{ destruct (single_key t) eqn:S; [apply KS; discriminate|exact I]. }
    2:{ rewrite <- (map_length val ups) at 1. rewrite skipn_app, skipn_all, Nat.sub_diag. cbn [skipn app].
        rewrite <- (map_length val) at 1. apply firstn_all. }
    cbn [app map bind_tok]. unfold parse.
    match goal with |- match strip _ (_ :: ?r) with _ => _ end = _ =>
      transitivity (parse_update fl r); [clear; destruct d; reflexivity|] end.
    pose proof (key_where val HP) as KW. pose proof (key_passes val) as KP.
    set (KT := match single_key t with Some _ => _ | None => _ end) in *.
    apply parse_update_shape.
    + exact Q.
    + apply map_nonempty, NE.
    + apply forallb_forall. intros p I. apply in_map_iff in I. destruct I as (c & <- & I). cbn [snd].
      eapply wrapped_val, W, (without_pk_incl t c I).
    + split; reflexivity.
    + change (@nil (operand V * direction)) with (opt_list (A:=operand V * direction) None).
      apply parse_tail_shape with (rest1 := [Sym ";"]) (rest2 := [Sym ";"]) (rest3 := [Sym ";"]).
      * apply (clause_some [B "WHERE"] where_p KT); [exact KP|split; reflexivity|exact KW].
      * clear; destruct d; reflexivity.
      * reflexivity.
      * reflexivity.
      * auto.
  - unfold update_toks. rewrite !plist_app, TP, plist_commas, (assign_plist ups (without_pk_incl t)), KL.
    cbn [plist flat_map app]. rewrite app_nil_r, map_length, app_length, seq_app. reflexivity.
  - unfold update_toks. rewrite !bads_app, TB, bads_commas, (assign_bads ups (without_pk_incl t)), key_toks_bads. reflexivity.
Qed.

(** PostgreSQL, a single key column and not exactly one column left out of the assignments: the statement is
    refused whatever the record holds. *)
Lemma update_refused (args : list V) : d = DPostgres -> single_key t <> None ->
  length (t_columns t) <> S (length ups) -> length args = length (ups ++ key_columns t) ->
  read fl (B "UPDATE " ++ table_text ++ update_body) args = None.
Proof.
  intros D SOME N L. destruct table_reads as (tt & Q & T).
  destruct (qname_plain _ _ (fun _ => false) Q) as (_ & _ & TP & TB & _); [reflexivity|reflexivity|].
  unfold read, lex. erewrite reads_lex by (apply update_reads; [exact T|left; eauto]).
  unfold bind_args. destruct (Nat.eqb_spec (highest (update_toks tt (length (t_columns t)))) (length args)) as [E|E]; [|reflexivity].
  exfalso. rewrite highest_plist in E. unfold update_toks in E.
  rewrite !plist_app, TP, plist_commas, (assign_plist ups (without_pk_incl t)), key_toks_plist in E.
  destruct (single_key t) as [pk|] eqn:SK; [|contradiction].
  cbn [plist flat_map app] in E. rewrite app_length, (key_columns_single pk SK) in L. rewrite L in E.
  assert (LE : length ups <= length (t_columns t)) by (unfold columns_without_pk; apply filter_length_le).
  rewrite fold_right_app in E. cbn [app fold_right] in E. rewrite Nat.max_0_r in E.
  assert (M : forall m a b, b <= a -> a + m <= S (length (t_columns t)) -> 1 <= a ->
              fold_right Nat.max (length (t_columns t)) (seq a m) = length (t_columns t)).
  { clear. induction m as [|m IH]; intros a b H1 H2 H3; [reflexivity|]. cbn [seq fold_right]. rewrite (IH (S a) b) by lia. lia. }
  rewrite (M _ 1 0) in E by lia. lia.
Qed.

(** The statement before binding: which columns it assigns. *)
Lemma assign_combine cs : forall i, assign_list cs i = map assign_toks (combine (map c_name cs) (valuer_toks before after cs i)).
Proof. induction cs as [|c cs IH]; intros i; [reflexivity|]. cbn [assign_list map valuer_toks combine]. rewrite IH. reflexivity. Qed.
Lemma valuer_exprs cs : incl cs (t_columns t) -> forall i, forallb is_expr (valuer_toks before after cs i) = true.
Proof.
  induction cs as [|c cs IH]; intros IN i; [reflexivity|]. cbn [valuer_toks forallb].
  rewrite (wrapped_param d c) by (apply W, IN; now left). apply IH. intros x I. apply IN. now right.
Qed.
Lemma valuer_length cs : forall i, length (valuer_toks before after cs i) = length cs.
Proof. induction cs; intros i; cbn [valuer_toks length]; auto. Qed.

Lemma key_toks_where k off : has_pk t = true -> passes ends_clause (key_toks k off) /\ exists wh, where_p (key_toks k off) = Some wh.
Proof.
  intros HP. unfold key_toks. destruct (single_key t) as [pk|] eqn:S.
  - split; [reflexivity|]. eexists. apply where_one; reflexivity.
  - destruct (composite_key_of S) as (A & _ & _). unfold has_pk in HP. rewrite A in HP.
    assert (KN : t_keys t <> []) by (destruct (t_keys t); discriminate).
    pose proof (valuer_exprs (t_keys t) (keys_incl t WF) off) as X. split.
    + apply passes_app; [apply row_passes, names_exprs|]. apply passes_cons; [reflexivity|reflexivity|]. apply row_passes, X.
    + eexists. apply where_tuple; [apply map_nonempty, KN|rewrite valuer_length, map_length; reflexivity|exact X|reflexivity].
Qed.

Lemma update_parse : has_pk t = true -> ups <> [] ->
  exists sets wh, parse fl (lex fl (B "UPDATE " ++ table_text ++ update_body)) = Some (Update (V:=V) q sets (Some wh) [] None)
                  /\ map fst sets = map c_name ups.
Proof.
  intros HP NE. destruct table_reads as (tt & Q & T).
  assert (KK : exists k, ((d = DPostgres /\ k = length (t_columns t)) \/ (d <> DPostgres /\ k = S (length ups)))).
  { assert (DD : d = DPostgres \/ d <> DPostgres) by (clear; destruct d; (now left) || (right; discriminate)).
    destruct DD; eauto. }
  destruct KK as (k & K). unfold lex. erewrite reads_lex by (apply update_reads; [exact T|exact K]).
  destruct (key_toks_where k (length ups) HP) as (KP & wh & KW).
  exists (combine (map c_name ups) (valuer_toks before after ups 0)), wh. split.
  - unfold update_toks. rewrite assign_combine. cbn [app]. unfold parse.
    match goal with |- match strip _ (_ :: ?r) with _ => _ end = _ =>
      transitivity (parse_update fl r); [clear; destruct d; reflexivity|] end.
    apply parse_update_shape.
    + exact Q.
    + destruct ups; [contradiction|discriminate].
    + apply forallb_forall. intros [n e] I. apply in_combine_r in I. cbn [snd].
      pose proof (valuer_exprs ups (without_pk_incl t) 0) as X. rewrite forallb_forall in X. apply X, I.
    + split; reflexivity.
    + change (@nil (operand V * direction)) with (opt_list (A:=operand V * direction) None).
      apply parse_tail_shape with (rest1 := [Sym ";"]) (rest2 := [Sym ";"]) (rest3 := [Sym ";"]).
      * apply (clause_some [B "WHERE"] where_p (key_toks k (length ups))); [exact KP|split; reflexivity|exact KW].
      * clear; destruct d; reflexivity.
      * reflexivity.
      * reflexivity.
      * auto.
  - assert (G : forall (l : list bytes) (m : list (list tok)), length l = length m -> map fst (combine l m) = l).
    { clear. induction l as [|x l IH]; intros [|y m] H; try discriminate; [reflexivity|]. cbn. f_equal. apply IH. cbn in H. lia. }
    apply G. rewrite map_length, valuer_length. reflexivity.
Qed.
End Stmts.
