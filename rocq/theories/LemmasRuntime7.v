(** The models that are generated, as the data-access functions see them. *)
From Coq Require Import Sorted.
From Verif Require Import Base ModelStrconv ModelUtf8 ModelCompiler ModelGen ModelRuntime SpecSql SpecGen SpecRuntime
  LemmasBase LemmasSql LemmasSql2 LemmasSql3 LemmasSql4 LemmasCompiler LemmasGen LemmasGen2 LemmasGen3
  LemmasRuntime LemmasRuntime2 LemmasRuntime3 LemmasRuntime4 LemmasRuntime5 LemmasRuntime6.

(** ** Key positions are in order *)
Definition sorted_keys (t : table) : Prop :=
  StronglySorted lt (map c_pos (t_keys t)) /\ forall k, In k (t_keys t) -> c_pos k < length (t_columns t).
Lemma sorted_snoc l x : StronglySorted lt l -> (forall y, In y l -> y < x) -> StronglySorted lt (l ++ [x]).
Proof.
  induction 1 as [|y l SS IH F]; intros L; cbn [app]; [constructor; constructor|]. constructor.
  - apply IH. intros z I. apply L. now right.
  - apply Forall_app. split; [exact F|]. constructor; [|constructor]. apply L. now left.
Qed.
Lemma sorted_extend t c name keys auto ro : sorted_keys t -> c_pos c = length (t_columns t) -> (keys = t_keys t \/ keys = t_keys t ++ [c]) ->
  sorted_keys {| t_name := name; t_keys := keys; t_columns := t_columns t ++ [c]; t_readonly := ro; t_auto := auto |}.
Proof.
  intros [SS L] P K. split; cbn [t_keys t_columns].
  - destruct K as [->| ->]; [exact SS|]. rewrite map_app. apply sorted_snoc; [exact SS|].
    intros y I. apply in_map_iff in I. destruct I as (k & <- & I). cbn. rewrite P. apply L, I.
  - intros k I. rewrite app_length. cbn [length]. destruct K as [->| ->]; [specialize (L k I); lia|].
    apply in_app_iff in I. destruct I as [I|[<-|[]]]; [specialize (L k I); lia|lia].
Qed.
Lemma add_field_sorted rename wrap unwrap t f t' : sorted_keys t -> add_field rename wrap unwrap t f = Ok t' -> sorted_keys t'.
Proof.
  intros W. unfold add_field. destruct (Nat.ltb 1 _); [discriminate|].
  destruct (read_tag rename f) as [tr| |]; cbn [bind]; try discriminate.
  destruct tr as [|name opts]; [intros E; inversion E; subst; exact W|].
  destruct (Nat.eqb _ 0 && bseq _ _).
  { intros E; inversion E; subst. destruct name; [exact W|]. exact W. }
  destruct (negb (f_exported f)); [intros E; inversion E; subst; exact W|].
  destruct (f_embedded f); [intros E; inversion E; subst; exact W|].
  destruct (bmem name _) eqn:M; [discriminate|].
  set (c := {| c_name := name |}).
  destruct (has_opts (parse_tag opts) [B "auto_increment"; B "primary_key"; B "pk"]).
  - destruct (has_opts (parse_tag opts) [B "auto_increment"]).
    + destruct (t_auto t) eqn:A; [discriminate|].
      destruct (c_readonly c) eqn:R; [discriminate|]. intros E; inversion E; subst t'. apply sorted_extend; auto.
    + destruct (c_readonly c) eqn:R; [discriminate|]. intros E; inversion E; subst t'. apply sorted_extend; auto.
  - intros E; inversion E; subst t'. apply sorted_extend; auto.
Qed.
Lemma build_table_sorted rename wrap unwrap s ro fs t : build_table rename wrap unwrap s ro fs = Ok t -> sorted_keys t.
Proof.
  unfold build_table. assert (W : sorted_keys {| t_name := rename s; t_keys := []; t_columns := []; t_readonly := ro; t_auto := None |}).
  { split; [constructor|intros ? []]. }
  revert W. generalize {| t_name := rename s; t_keys := []; t_columns := []; t_readonly := ro; t_auto := None |}.
  induction fs as [|f fs IH]; intros t0 W; cbn [add_fields]; [intros E; inversion E; subst; exact W|].
  destruct (add_field rename wrap unwrap t0 f) as [t1| |] eqn:E; cbn [bind]; try discriminate.
  apply IH. eapply add_field_sorted; eassumption.
Qed.

(** ** Columns that are inserted *)
Lemma insert_all t : wf t -> t_auto t = None -> (forall c, In c (t_columns t) -> c_readonly c = false) -> insert_columns t = t_columns t.
Proof.
  intros W A R. unfold insert_columns, is_auto. rewrite A. revert R. induction (t_columns t) as [|c l IH]; intros R; [reflexivity|].
  cbn [filter]. rewrite (R c (or_introl eq_refl)). change (negb false && negb false) with true. cbv iota. f_equal. apply IH. intros x I. apply R. now right.
Qed.
Lemma filter_less {A} (p : A -> bool) l x : In x l -> p x = false -> length (filter p l) < length l.
Proof.
  intros I P. induction l as [|y l IH]; [contradiction|]. cbn [filter]. destruct I as [->|I].
  - rewrite P. cbn [length]. pose proof (filter_length_le p l). lia.
  - specialize (IH I). destruct (p y); cbn [length]; lia.
Qed.
Lemma insert_fewer t : wf t -> t_auto t <> None \/ (exists c, In c (t_columns t) /\ c_readonly c = true) -> length (insert_columns t) < length (t_columns t).
Proof.
  intros W [A|(c & I & R)]; unfold insert_columns.
  - destruct (t_auto t) as [a|] eqn:E; [|contradiction]. destruct (wf_auto t W a E) as (I & _).
    apply filter_less with (x := a); [exact I|]. rewrite (proj2 (is_auto_spec t a W I) E). apply andb_false_r.
  - apply filter_less with (x := c); [exact I|]. rewrite R. reflexivity.
Qed.

Section G.
Context {V : Type}.
Notation tok := (tok V).
Variables (printable : N -> bool) (d : driver) (on : bool) (t : table).
Variables (db : option bytes) (tn : bytes) (sqlc : option (list bytes)) (dup omit : option (list bytes)).
Variables (ins find upd : (column -> V) -> option (request V)).
Variables (q : list bytes) (items : list (expr V)).
Notation fl := (flavour_of d).
Notation cols := (map c_name (t_columns t)).
Hypothesis W : wf t.
Hypothesis NAMES : forall c, In c (t_columns t) -> if on then plain_name (c_name c) else lex (V:=V) fl (c_name c) = [Name (c_name c)].
Hypothesis LOC : qname (V:=V) (lex fl (match db with Some x => x ++ B "." ++ tn | None => tn end)) = Some q.
Hypothesis ITEMS : match sqlc with
            | Some texts => texts <> [] /\ Forall2 (itemises fl) texts items
            | None => items = map (fun c => [Name c]) cols
            end.
Hypothesis INS : exists c, insertable t c.
Definition gm (val : column -> V) : model V := gen_model printable d on t db tn sqlc dup omit (ins val) (find val) (upd val) val.

Lemma gen_denotes c : In c (t_columns t) -> denotes (V:=V) fl (quote_id printable d on (c_name c)) (c_name c).
Proof.
  intros I. specialize (NAMES c I). unfold denotes, quote_id. destruct on; [|exact NAMES].
  apply (reads_lex _ 0 _ _ 0). apply (reads_id printable d (c_name c) 0 NAMES).
Qed.
Lemma gen_some : 0 < length (insert_columns t).
Proof. destruct INS as [c H]. apply insert_columns_spec in H; [|exact W]. destruct (insert_columns t); [contradiction|cbn; lia]. Qed.
Lemma gen_described val : described fl (gm val) q cols items.
Proof.
  constructor; cbn [gm gen_model m_db m_table m_columns m_sqlcolumns].
  - exact LOC.
  - pose proof gen_denotes as GD. revert GD. generalize (t_columns t). clear. intros l GD. induction l as [|c l IH]; constructor; [apply GD; now left|].
    apply IH. intros x I. apply GD. now right.
  - apply W.
  - destruct INS as (c & I & _). destruct (t_columns t); [contradiction|discriminate].
  - exact ITEMS.
Qed.
Lemma gen_numbered val : numbered fl (gm val) (length (insert_columns t)).
Proof.
  intros row. cbn [gm gen_model m_places]. rewrite (reads_lex _ _ _ _ _ (reads_row d t row gen_some)).
  rewrite listed_commas. reflexivity.
Qed.
Lemma gen_length val : length (m_values (gm val)) = length (insert_columns t).
Proof. cbn [gm gen_model m_values]. apply map_length. Qed.
Lemma gen_lengths val vals : forall x, In x (gm val :: map gm vals) -> length (m_values x) = length (insert_columns t).
Proof. intros x [<-|I]; [apply gen_length|]. apply in_map_iff in I. destruct I as (v & <- & _). apply gen_length. Qed.
Lemma gen_at val i : generated_at (gm val) = Some i -> exists a, t_auto t = Some a /\ i = c_pos a /\ i < length cols.
Proof.
  unfold generated_at, gm, gen_model. cbn [m_key]. unfold gen_mkey. destruct (t_auto t) as [a|] eqn:A; [|destruct (t_keys t) as [|k [|]]; discriminate].
  intros E. injection E as <-. exists a. repeat split. rewrite map_length. apply nth_error_Some. rewrite (wf_nth t a W); [discriminate|].
  apply (wf_auto t W a A).
Qed.
Lemma gen_at_none val : t_auto t = None -> generated_at (gm val) = None.
Proof. intros A. unfold generated_at, gm, gen_model. cbn [m_key]. unfold gen_mkey. rewrite A. destruct (t_keys t) as [|k [|]]; reflexivity. Qed.
Lemma gen_left val : omit_at (generated_at (gm val)) cols <> [].
Proof.
  destruct INS as (c & I & _ & A). destruct (generated_at (gm val)) as [i|] eqn:G; cbn [omit_at]; [|intros E; apply (in_map c_name) in I; rewrite E in I; contradiction].
  destruct (gen_at _ _ G) as (a & EA & EI & L). intros E. apply app_eq_nil in E. destruct E as [E1 E2].
  apply (f_equal (length (A:=bytes))) in E1, E2. rewrite firstn_length_le in E1 by lia. rewrite skipn_length in E2. cbn in E1, E2.
  rewrite map_length in *. pose proof (wf_nth t c W I) as N1. destruct (wf_auto t W a EA) as (IA & _). pose proof (wf_nth t a W IA) as N2.
  assert (c_pos c < length (t_columns t)) by (apply nth_error_Some; congruence).
  assert (c_pos c = c_pos a) by lia. congruence.
Qed.

Section Plain.
Hypothesis AUTO : t_auto t = None.
Hypothesis RO : forall c, In c (t_columns t) -> c_readonly c = false.
Lemma plain_length : length (insert_columns t) = length cols.
Proof. rewrite insert_all by assumption. symmetry. apply map_length. Qed.
Lemma plain_values val : m_values (gm val) = map val (t_columns t).
Proof. cbn [gm gen_model m_values]. unfold gen_values. rewrite insert_all by assumption. reflexivity. Qed.

Lemma gen_insert_ok val vals : exists text args, insert d (map gm (val :: vals)) = Ok (Some (text, args)) /\
  read fl text args = Some (Insert q cols (map (fun r => row_of (map r (t_columns t))) (val :: vals)) Fail (ret_items d items)).
Proof.
  pose proof (insert_reads_back d (gm val) (map gm vals) q cols items (generated_at (gm val)) (gen_described val) eq_refl) as R.
  rewrite (gen_at_none val AUTO) in R. specialize (R ltac:(discriminate)).
  destruct R as (text & args & E & RD).
  - cbn [omit_at]. apply (gen_described val).
  - intros x I. rewrite (gen_lengths _ _ x I). apply plain_length.
  - intros _. cbn [omit_at]. rewrite <- plain_length. apply gen_numbered.
  - exists text, args. split; [exact E|]. rewrite RD. do 2 f_equal. cbn [omit_at map]. rewrite plain_values. f_equal.
    rewrite map_map. apply map_ext. intros v. rewrite plain_values. reflexivity.
Qed.
End Plain.

Section Short.
Hypothesis SHORT : t_auto t <> None \/ exists c, In c (t_columns t) /\ c_readonly c = true.

Lemma gen_bad val k : match d with DPostgres => k = length (insert_columns t) | _ => k = length (omit_at (generated_at (gm val)) cols) end ->
  shorter (generated_at (gm val)) (length (insert_columns t)) <> k \/ k <> length (omit_at (generated_at (gm val)) cols).
Proof.
  intros K. pose proof gen_some as POS. pose proof (insert_fewer t W SHORT) as FEW.
  destruct (generated_at (gm val)) as [i|] eqn:G; cbn [shorter omit_at] in *.
  - destruct (gen_at _ _ G) as (a & EA & EI & L).
    assert (LO : length (firstn i cols ++ skipn (S i) cols) = length cols - 1) by (rewrite app_length, firstn_length_le, skipn_length by lia; lia).
    rewrite LO in *. rewrite map_length in *. left. clear - K POS FEW. destruct d; lia.
  - rewrite map_length in *. clear - K POS FEW. destruct d; lia.
Qed.

Lemma gen_insert_bad val vals : insert d (map gm (val :: vals)) = Panic \/
  exists text args, insert d (map gm (val :: vals)) = Ok (Some (text, args)) /\ read fl text args = None.
Proof.
  pose proof INS as [c0 _].
  apply (insert_refused d (gm val) (map gm vals) q cols items (val c0)
    (match d with DPostgres => length (insert_columns t) | _ => length (omit_at (generated_at (gm val)) cols) end) (length (insert_columns t))).
  - apply gen_described.
  - apply gen_left.
  - apply gen_lengths.
  - pose proof (gen_numbered val) as NUM. revert NUM. clear. destruct d; [reflexivity|exact (fun x => x)|reflexivity].
  - pose proof (gen_left val) as NL. pose proof gen_some as POS. clear - NL POS. assert (0 < length (omit_at (generated_at (gm val)) cols)) by (destruct (omit_at _ _); [contradiction|cbn; lia]).
    destruct d; assumption.
  - apply gen_bad. clear. destruct d; reflexivity.
Qed.
End Short.

(** ** Keys *)
Hypothesis KEYS : key_of t <> [].
(** The names of composite keys are never quoted. *)
Hypothesis BARE : single_key t = None -> forall k, In k (t_keys t) -> lex (V:=V) fl (c_name k) = [Name (c_name k)].

Lemma key_in k : In k (key_of t) -> In k (t_columns t).
Proof. apply (key_columns_incl t W). Qed.
Lemma gen_key_cases val : (exists k, single_key t = Some k /\ key_of t = [k] /\ key_texts (gm val) = [quote_id printable d on (c_name k)] /\
    (m_key (gm val) = AutoKey (quote_id printable d on (c_name k)) (c_pos k) (val k) /\ t_auto t = Some k
     \/ m_key (gm val) = SingleKey (quote_id printable d on (c_name k)) (c_pos k) (val k) /\ t_auto t = None))
  \/ (single_key t = None /\ t_auto t = None /\ 2 <= length (t_keys t) /\ key_of t = t_keys t /\ key_texts (gm val) = map c_name (t_keys t) /\
      m_key (gm val) = CompKey (map c_name (t_keys t)) (map c_pos (t_keys t)) (map val (t_keys t))).
Proof.
  unfold key_texts, gm, gen_model. cbn [m_key]. unfold gen_mkey, single_key, key_of. destruct (t_auto t) as [a|] eqn:A.
  - left. exists a. repeat split. left. split; reflexivity.
  - destruct (t_keys t) as [|k [|k2 ks]] eqn:KS.
    + exfalso. apply KEYS. unfold key_of. rewrite A. exact KS.
    + left. exists k. repeat split. right. split; reflexivity.
    + right. repeat split. cbn. lia.
Qed.
Lemma gen_key_some val : m_key (gm val) <> NoKey.
Proof. destruct (gen_key_cases val) as [(k & _ & _ & _ & [[E _]|[E _]])|(_ & _ & _ & _ & _ & E)]; rewrite E; discriminate. Qed.
Lemma gen_key_texts val : Forall2 (denotes (V:=V) fl) (key_texts (gm val)) (map c_name (key_of t)).
Proof.
  destruct (gen_key_cases val) as [(k & _ & KO & E & _)|(SK & _ & _ & KO & E & _)]; rewrite E, KO; cbn [map].
  - constructor; [|constructor]. apply gen_denotes, key_in. rewrite KO. now left.
  - specialize (BARE SK). revert BARE. clear. generalize (t_keys t). intros l BB. induction l as [|k l IH]; constructor; [apply BB; now left|]. apply IH. intros x I. apply BB. now right.
Qed.
Lemma gen_keyed val : keyed_by fl (gm val) (map (fun k => (c_name k, val k)) (key_of t)).
Proof.
  pose proof (gen_key_texts val) as F. unfold keyed_by, key_texts in *.
  destruct (gen_key_cases val) as [(k & _ & KO & _ & [[E _]|[E _]])|(SK & _ & _ & KO & _ & E)]; rewrite E in *; rewrite KO in *; cbn [map] in *.
  - exists (c_name k). split; [|reflexivity]. inversion F; assumption.
  - exists (c_name k). split; [|reflexivity]. inversion F; assumption.
  - split; [intros X; apply map_eq_nil in X; apply KEYS; congruence|]. rewrite !map_map. cbn [fst snd]. split; [exact F|reflexivity].
Qed.
Lemma quote_inj c1 c2 : In c1 (t_columns t) -> In c2 (t_columns t) -> quote_id printable d on (c_name c1) = quote_id printable d on (c_name c2) -> c1 = c2.
Proof.
  intros I1 I2 E. pose proof (gen_denotes c1 I1) as D1. pose proof (gen_denotes c2 I2) as D2. unfold denotes in *. rewrite E in D1.
  assert (N : c_name c1 = c_name c2) by congruence. eapply wf_name_inj; eassumption.
Qed.

(** Columns picked by position and text *)
Lemma gen_chosen val pick sets : chosen (m_columns (gm val)) cols pick sets ->
  sublist sets cols /\ forall c, In c (t_columns t) -> (In (c_name c) sets <-> pick (c_pos c) (quote_id printable d on (c_name c))).
Proof.
  intros [SB H]. split; [exact SB|]. intros c I. rewrite H. cbn [gm gen_model m_columns]. pose proof (wf_nth t c W I) as N. split.
  - intros (i & text & E1 & E2 & P). rewrite nth_error_map in E1, E2. destruct (nth_error (t_columns t) i) as [c'|] eqn:E; [|discriminate].
    cbn in E1, E2. injection E1 as <-. assert (N2 : c_name c' = c_name c) by congruence.
    assert (c' = c) by (eapply wf_name_inj; [exact W| |exact I|exact N2]; eapply nth_error_In, E). subst c'.
    assert (c_pos c = i); [|subst i; exact P].
    pose proof (wf_pos t W) as WP. assert (NP : nth_error (map c_pos (t_columns t)) i = Some (c_pos c)) by (rewrite nth_error_map, E; reflexivity).
    rewrite WP in NP. rewrite nth_error_nth' with (d := 0) in NP; [|rewrite seq_length; apply nth_error_Some; congruence].
    injection NP as NP. rewrite seq_nth in NP by (apply nth_error_Some; congruence). symmetry. exact NP.
  - intros P. exists (c_pos c), (quote_id printable d on (c_name c)). rewrite !nth_error_map, N. cbn. auto.
Qed.
Lemma sublist_full {A} (l m : list A) : sublist l m -> (forall x, In x m -> In x l) -> NoDup m -> l = m.
Proof.
  induction 1 as [|x l m S IH|x l m S IH]; intros F N; [reflexivity| |].
  - inversion N; subst. f_equal. apply IH; [|assumption]. intros y I. destruct (F y (or_intror I)) as [->|I2]; [contradiction|exact I2].
  - exfalso. inversion N; subst. apply H1. clear -S F. specialize (F x (or_introl eq_refl)). induction S; [contradiction|destruct F; [now left|right; auto]|right; auto].
Qed.

(** ** Find, lock, delete *)
Lemma gen_match val before after : (forall k, In k (key_of t) -> before k = [] /\ after k = []) ->
  key_match (gm val) (map (fun k => (c_name k, val k)) (key_of t)) = key_equals t before after val.
Proof.
  intros BA. unfold key_match, key_equals.
  destruct (gen_key_cases val) as [(k & _ & KO & _ & [[E _]|[E _]])|(SK & _ & TWO & KO & _ & E)]; rewrite E, KO; cbn [map]; try reflexivity.
  assert (BA2 : forall k, In k (t_keys t) -> before k = [] /\ after k = []) by (rewrite <- KO; exact BA).
  clear E KO. destruct (t_keys t) as [|k [|k2 ks]]; [cbn in TWO; lia|cbn in TWO; lia|]. cbn [map fst snd]. rewrite !map_map. cbn [fst snd].
  destruct (BA2 k) as [-> ->]; [now left|]. destruct (BA2 k2) as [-> ->]; [right; now left|]. cbn [app].
  do 4 f_equal. apply map_ext_in. intros x I. destruct (BA2 x) as [-> ->]; [right; right; exact I|]. reflexivity.
Qed.

(** ** Upserts *)
Section PlainUpsert.
Hypothesis AUTO : t_auto t = None.
Hypothesis RO : forall c, In c (t_columns t) -> c_readonly c = false.
Variables (o : upsert_opts).
Hypothesis ODUP : o_dup o = [].
Hypothesis DUP : dup = None.

Lemma gen_target val : Forall2 (denotes (V:=V) fl) (target_texts (gm val) o) (map c_name (key_of t)).
Proof. unfold target_texts. rewrite ODUP. cbn [gm gen_model m_dup]. rewrite DUP. apply gen_key_texts. Qed.
Lemma keys_distinct : NoDup (map c_name (key_of t)).
Proof. unfold key_of. rewrite AUTO. apply keys_names_nodup, W. Qed.
Lemma keys_named : map c_name (key_of t) <> [].
Proof. intros E. apply map_eq_nil in E. exact (KEYS E). Qed.

(** What a generated model keeps out of the update list *)
Lemma gen_omitted val c : (on = false \/ single_key t <> None) -> In c (t_columns t) ->
  omitted_text (gm val) o (quote_id printable d on (c_name c)) <->
  is_key t c \/ In (quote_id printable d on (c_name c)) (o_omit o) \/ exists l, omit = Some l /\ In (quote_id printable d on (c_name c)) l.
Proof.
  intros ON I. unfold omitted_text. cbn [gm gen_model m_dup m_omit]. rewrite DUP.
  assert (KK : In (quote_id printable d on (c_name c)) (key_texts (gm val)) <-> is_key t c).
  { unfold is_key. rewrite AUTO.
    assert (KI : forall k, In k (key_of t) -> In k (t_columns t)) by exact key_in.
    destruct (gen_key_cases val) as [(k & _ & KO & E & _)|(SK & _ & _ & KO & E & _)]; rewrite E; unfold key_of in KO; rewrite AUTO in KO.
    - rewrite KO. cbn [In]. split.
      + intros [X|[]]. left. left. apply quote_inj in X; [exact X| |exact I]. apply KI. unfold key_of. rewrite AUTO, KO. now left.
      + intros [[->|[]]|X]; [now left|discriminate].
    - destruct ON as [ON|ON]; [|contradiction]. rewrite in_map_iff. unfold quote_id. rewrite ON. split.
      + intros (k & N & IK). left. assert (k = c); [|subst; exact IK]. eapply wf_name_inj; [exact W| |exact I|exact N]. apply (wf_keys t W k IK).
      + intros [IK|X]; [|discriminate]. exists c. auto. }
  rewrite KK. split.
  - intros [H|[H|[(_ & ks & E & _)|H]]]; [auto|auto|discriminate|auto].
  - intros [H|[H|H]]; auto.
Qed.

Lemma gen_upsert_pg_ok val vals : d = DPostgres -> (on = false \/ single_key t <> None) ->
  exists text args sets, upsert_pg (map gm (val :: vals)) o = Ok (Some (text, args)) /\
    sublist sets cols /\
    (forall c, In c (t_columns t) -> (In (c_name c) sets <-> ~ (is_key t c \/ In (quote_id printable d on (c_name c)) (o_omit o) \/ exists l, omit = Some l /\ In (quote_id printable d on (c_name c)) l))) /\
    ((o_nothing o = false -> sets <> []) ->
     read fl text args = Some (Insert q cols (map (fun r => row_of (map r (t_columns t))) (val :: vals)) (conflict_of (o_nothing o) (map c_name (key_of t)) sets) items)).
Proof.
  intros PG ON. assert (FL : fl = Postgres) by (rewrite PG; reflexivity).
  pose proof (upsert_pg_reads (gm val) q cols items o (map c_name (key_of t)) (generated_at (gm val))) as R.
  rewrite <- FL in R. specialize (R (gen_described val) (gen_key_some val) (gen_target val) eq_refl).
  rewrite (gen_at_none val AUTO) in R. specialize (R ltac:(discriminate)). cbn [omit_at] in R. specialize (R (d_some _ _ _ _ _ (gen_described val)) (map gm vals)).
  destruct R as (text & args & sets & E & CH & RD & _).
  - intros x I. rewrite (gen_lengths _ _ x I). apply plain_length; assumption.
  - rewrite <- plain_length by assumption. apply gen_numbered.
  - exists text, args, sets. split; [exact E|]. apply gen_chosen in CH. destruct CH as [SB CH]. split; [exact SB|]. split.
    + intros c I. rewrite (CH c I). rewrite gen_omitted by assumption. reflexivity.
    + intros SN. rewrite (RD keys_named keys_distinct SN). do 2 f_equal. cbn [omit_at map]. rewrite plain_values by assumption. f_equal.
      rewrite map_map. apply map_ext. intros v. rewrite plain_values by assumption. reflexivity.
Qed.
Lemma gen_upsert_one_pg_ok val : d = DPostgres -> (on = false \/ single_key t <> None) ->
  exists text args sets, upsert_one_pg (gm val) o = Ok (text, args) /\
    sublist sets cols /\
    (forall c, In c (t_columns t) -> (In (c_name c) sets <-> ~ (is_key t c \/ In (quote_id printable d on (c_name c)) (o_omit o) \/ exists l, omit = Some l /\ In (quote_id printable d on (c_name c)) l))) /\
    ((o_nothing o = false -> sets <> []) ->
     read fl text args = Some (Insert q cols [row_of (map val (t_columns t))] (conflict_of (o_nothing o) (map c_name (key_of t)) sets) items)).
Proof.
  intros PG ON. assert (FL : fl = Postgres) by (rewrite PG; reflexivity).
  pose proof (upsert_one_pg_reads (gm val) q cols items o (map c_name (key_of t)) (generated_at (gm val))) as R.
  rewrite <- FL in R. specialize (R (gen_described val) (gen_key_some val) (gen_target val) eq_refl).
  rewrite (gen_at_none val AUTO) in R. specialize (R ltac:(discriminate)). cbn [omit_at] in R. specialize (R (d_some _ _ _ _ _ (gen_described val))).
  destruct R as (text & sets & E & CH & RD & _).
  - rewrite gen_length. apply plain_length; assumption.
  - rewrite <- plain_length by assumption. apply gen_numbered.
  - exists text, (m_values (gm val)), sets. split; [exact E|]. apply gen_chosen in CH. destruct CH as [SB CH]. split; [exact SB|]. split.
    + intros c I. rewrite (CH c I). rewrite gen_omitted by assumption. reflexivity.
    + intros SN. rewrite (RD keys_named keys_distinct SN). do 2 f_equal. cbn [omit_at map]. rewrite plain_values by assumption. reflexivity.
Qed.
(** With quoted identifiers the columns of a composite key are updated too *)
Lemma gen_upsert_pg_keys_set val vals : d = DPostgres -> on = true -> single_key t = None -> o_omit o = [] -> omit = None ->
  (forall c k, In c (t_columns t) -> In k (t_keys t) -> quote_id printable d on (c_name c) <> c_name k) -> o_nothing o = false ->
  exists text args, upsert_pg (map gm (val :: vals)) o = Ok (Some (text, args)) /\
    read fl text args = Some (Insert q cols (map (fun r => row_of (map r (t_columns t))) (val :: vals)) (conflict_of false (map c_name (key_of t)) cols) items).
Proof.
  intros PG ON SK OO OM NQ NO. assert (FL : fl = Postgres) by (rewrite PG; reflexivity).
  pose proof (upsert_pg_reads (gm val) q cols items o (map c_name (key_of t)) (generated_at (gm val))) as R.
  rewrite <- FL in R. specialize (R (gen_described val) (gen_key_some val) (gen_target val) eq_refl).
  rewrite (gen_at_none val AUTO) in R. specialize (R ltac:(discriminate)). cbn [omit_at] in R. specialize (R (d_some _ _ _ _ _ (gen_described val)) (map gm vals)).
  destruct R as (text & args & sets & E & CH & RD & _).
  - intros x I. rewrite (gen_lengths _ _ x I). apply plain_length; assumption.
  - rewrite <- plain_length by assumption. apply gen_numbered.
  - exists text, args. split; [exact E|]. apply gen_chosen in CH. destruct CH as [SB CH].
    assert (ALL : sets = cols).
    { apply sublist_full; [exact SB| |apply W]. intros x I. apply in_map_iff in I. destruct I as (c & <- & I). apply (CH c I).
      unfold omitted_text. cbn [gm gen_model m_dup m_omit]. rewrite DUP, OO, OM.
      destruct (gen_key_cases val) as [(k & SK2 & _)|(_ & _ & _ & _ & E2 & _)]; [congruence|]. rewrite E2.
      intros [X|[X|[(_ & ks & X & _)|(l & X & _)]]]; [contradiction| |discriminate|discriminate].
      apply in_map_iff in X. destruct X as (k & X & IK). apply (NQ c k I IK). symmetry. exact X. }
    subst sets. rewrite NO in RD. rewrite (RD keys_named keys_distinct (fun _ => d_some _ _ _ _ _ (gen_described val))). do 2 f_equal. cbn [omit_at map]. rewrite plain_values by assumption. f_equal.
    rewrite map_map. apply map_ext. intros v. rewrite plain_values by assumption. reflexivity.
Qed.
End PlainUpsert.

Section PlainUpsertMy.
Hypothesis AUTO : t_auto t = None.
Hypothesis RO : forall c, In c (t_columns t) -> c_readonly c = false.
Hypothesis SORTED : sorted_keys t.
Variables (override : bool) (omitted : list bytes).

Lemma gen_upsert_my_ok val vals : d = DMySQL ->
  exists text args sets, upsert_my (map gm (val :: vals)) override omitted = Ok (Some (text, args)) /\
    sublist sets cols /\
    (forall c, In c (t_columns t) -> (In (c_name c) sets <-> ~ (is_key t c \/ In (quote_id printable d on (c_name c)) omitted))) /\
    ((override = true -> sets <> []) ->
     read fl text args = Some (Insert q cols (map (fun r => row_of (map r (t_columns t))) (val :: vals)) (my_conflict override sets) [])).
Proof.
  intros MY. assert (FL : fl = MySQL) by (rewrite MY; reflexivity).
  pose proof (upsert_my_reads (gm val) q cols items) as R. rewrite <- FL in R.
  specialize (R (gen_described val) (map gm vals) override omitted).
  destruct R as (text & args & sets & E & CH & RD & _).
  - destruct (gen_key_cases val) as [(k & _ & _ & _ & [[E A]|[E _]])|(_ & _ & _ & _ & _ & E)]; [congruence|rewrite E; exact I|]. rewrite E.
    destruct SORTED as [SS SL]. split; [exact SS|]. intros i I. apply in_map_iff in I. destruct I as (k & <- & I). rewrite map_length. apply SL, I.
  - intros x I. rewrite (gen_lengths _ _ x I). apply plain_length; assumption.
  - rewrite <- plain_length by assumption. apply gen_numbered.
  - exists text, args, sets. split; [exact E|]. apply gen_chosen in CH. destruct CH as [SB CH]. split; [exact SB|]. split.
    + intros c I. rewrite (CH c I). unfold my_pick, is_key. rewrite AUTO.
      destruct (gen_key_cases val) as [(k & _ & KO & _ & [[E2 A]|[E2 A]])|(_ & _ & _ & KO & _ & E2)]; [congruence| |]; rewrite E2; unfold key_of in KO; rewrite AUTO in KO.
      * rewrite KO. cbn [In]. split.
        -- intros [NO NK] [[[->|[]]|X]|X]; [now apply NK|discriminate|contradiction].
        -- intros X. split; [tauto|]. intros Y. apply X. left. left. left. symmetry. apply quote_inj; [exact I| |exact Y]. apply key_in. unfold key_of. rewrite AUTO, KO. now left.
      * split.
        -- intros [NO NK] [[X|X]|X]; [apply NK, in_map, X|discriminate|contradiction].
        -- intros X. split; [tauto|]. intros Y. apply in_map_iff in Y. destruct Y as (k & EP & IK). apply X. left. left.
           assert (k = c); [|subst; exact IK]. pose proof (wf_nth t c W I) as N1. pose proof (wf_nth t k W (proj1 (wf_keys t W k IK))) as N2. congruence.
    + intros SN. rewrite (RD SN). do 2 f_equal. cbn [map]. rewrite plain_values by assumption. f_equal.
      rewrite map_map. apply map_ext. intros v. rewrite plain_values by assumption. reflexivity.
Qed.

Lemma gen_upsert_one_my_ok val : d = DMySQL -> single_key t <> None ->
  exists text args sets, upsert_one_my (gm val) override omitted = Ok (text, args) /\
    sublist sets cols /\
    (forall c, In c (t_columns t) -> (In (c_name c) sets <-> ~ (is_key t c \/ In (quote_id printable d on (c_name c)) omitted))) /\
    ((override = true -> sets <> []) ->
     read fl text args = Some (Insert q cols [row_of (map val (t_columns t))] (my_conflict override sets) [])).
Proof.
  intros MY SK. assert (FL : fl = MySQL) by (rewrite MY; reflexivity).
  destruct (gen_key_cases val) as [(k & _ & KO & KT & KE)|(SK2 & _)]; [|contradiction].
  destruct KE as [[_ A]|[KE _]]; [congruence|].
  pose proof (upsert_one_my_reads (gm val) q cols items) as R. rewrite <- FL in R.
  specialize (R (gen_described val) override omitted (quote_id printable d on (c_name k)) KT).
  destruct R as (text & sets & E & CH & RD & _).
  - rewrite KE. discriminate.
  - rewrite gen_length. apply plain_length; assumption.
  - exists text, (m_values (gm val)), sets. split; [exact E|]. apply gen_chosen in CH. destruct CH as [SB CH]. split; [exact SB|]. split.
    + intros c I. rewrite (CH c I). unfold is_key. rewrite AUTO. unfold key_of in KO. rewrite AUTO in KO. rewrite KO. cbn [In]. split.
      * intros [NK NO] [[[->|[]]|X]|X]; [now apply NK|discriminate|contradiction].
      * intros X. split; [|tauto]. intros Y. apply X. left. left. left. symmetry. apply quote_inj; [exact I| |exact Y]. apply key_in. unfold key_of. rewrite AUTO, KO. now left.
    + intros SN. rewrite (RD SN). rewrite plain_values by assumption. reflexivity.
Qed.
End PlainUpsertMy.

Section ShortUpsert.
Hypothesis SHORT : t_auto t <> None \/ exists c, In c (t_columns t) /\ c_readonly c = true.
Lemma gen_upsert_pg_bad val vals o : d = DPostgres -> o_dup o = [] -> dup = None ->
  upsert_pg (map gm (val :: vals)) o = Panic \/ exists text args, upsert_pg (map gm (val :: vals)) o = Ok (Some (text, args)) /\ read fl text args = None.
Proof.
  intros PG OD DU. assert (FL : fl = Postgres) by (rewrite PG; reflexivity). pose proof INS as [c0 _].
  pose proof (upsert_pg_refused (gm val) (map gm vals) q cols items o (map c_name (key_of t)) (val c0) (length (insert_columns t)) (length (insert_columns t))) as R.
  rewrite <- FL in R. apply R; clear R.
  - apply gen_described.
  - apply gen_key_some.
  - apply gen_target; assumption.
  - intros i E. destruct (gen_at _ _ E) as (a & _ & _ & L). exact L.
  - apply gen_left.
  - apply gen_numbered.
  - apply gen_some.
  - apply gen_bad; [exact SHORT|]. rewrite PG. reflexivity.
  - apply gen_lengths.
Qed.
Lemma gen_upsert_one_pg_bad val o : d = DPostgres -> o_dup o = [] -> dup = None ->
  upsert_one_pg (gm val) o = Panic \/ exists text args, upsert_one_pg (gm val) o = Ok (text, args) /\ read fl text args = None.
Proof.
  intros PG OD DU. assert (FL : fl = Postgres) by (rewrite PG; reflexivity). pose proof INS as [c0 _].
  pose proof (upsert_one_pg_refused (gm val) q cols items o (map c_name (key_of t)) (val c0) (length (insert_columns t)) (length (insert_columns t))) as R.
  rewrite <- FL in R. apply R; clear R.
  - apply gen_described.
  - apply gen_key_some.
  - apply gen_target; assumption.
  - intros i E. destruct (gen_at _ _ E) as (a & _ & _ & L). exact L.
  - apply gen_left.
  - apply gen_numbered.
  - apply gen_some.
  - apply gen_bad; [exact SHORT|]. rewrite PG. reflexivity.
  - apply gen_length.
Qed.
Lemma gen_short_values val : length (m_values (gm val)) <> length cols.
Proof. rewrite gen_length, map_length. pose proof (insert_fewer t W SHORT). lia. Qed.
Lemma gen_upsert_one_my_bad val override omitted : d = DMySQL ->
  upsert_one_my (gm val) override omitted = Panic \/ exists text args, upsert_one_my (gm val) override omitted = Ok (text, args) /\ read fl text args = None.
Proof.
  intros MY. assert (FL : fl = MySQL) by (rewrite MY; reflexivity). pose proof INS as [c0 _].
  pose proof (gen_described val) as D. pose proof (gen_short_values val) as SV.
  destruct (gen_key_cases val) as [(k & _ & _ & KT & KE)|(_ & _ & TWO & _ & _ & KE)].
  - right. destruct (upsert_one_my_refused fl (gm val) q cols items ltac:(rewrite FL; discriminate) D override omitted _ KT) as (text & E & R); [|exact SV|].
    + destruct KE as [[KE _]|[KE _]]; rewrite KE; discriminate.
    + exists text, (m_values (gm val)). auto.
  - destruct override.
    + left. eapply upsert_one_my_comp_panics; [exact KE|]. destruct (t_keys t); [cbn in TWO; lia|discriminate].
    + right. rewrite FL in D. destruct (upsert_one_my_comp_short (gm val) q cols items omitted _ _ _ (val c0) D KE SV) as (text & E & R).
      exists text, (m_values (gm val)). rewrite FL. auto.
Qed.
Lemma gen_upsert_my_bad val vals override omitted : d = DMySQL ->
  upsert_my (map gm (val :: vals)) override omitted = Panic \/ exists text args, upsert_my (map gm (val :: vals)) override omitted = Ok (Some (text, args)) /\ read fl text args = None.
Proof.
  intros MY. assert (FL : fl = MySQL) by (rewrite MY; reflexivity). pose proof INS as [c0 _].
  pose proof (gen_described val) as D. pose proof (gen_numbered val) as NUM. rewrite FL in D, NUM |- *. pose proof (insert_fewer t W SHORT) as FEW.
  destruct (gen_key_cases val) as [(k & _ & _ & KT & [[KE _]|[KE _]])|(_ & _ & TWO & _ & _ & KE)].
  - cbn [map]. assert (X : (exists r, upsert_my (gm val :: map gm vals) override omitted = Ok (Some r)) \/ upsert_my (gm val :: map gm vals) override omitted = Panic).
    { unfold upsert_my. rewrite KE. destruct (remove_at (c_pos k) (m_columns (gm val))) as [rc| |] eqn:RC; cbn [bind];
        [|unfold remove_at in RC; destruct (Nat.ltb _ _); discriminate|now right].
      destruct (repeat_tail _ _) as [r| |] eqn:RT; cbn [bind]; [|unfold repeat_tail in RT; destruct (length (m_columns (gm val))); discriminate|now right].
      destruct (map_without_ok (Some (c_pos k)) (gm val :: map gm vals)) as [[valss MV]|MV]; cbn [without] in MV; rewrite MV; cbn [bind]; [left; eexists; reflexivity|now right]. }
    destruct X as [[[text args] X]|X]; [right|now left]. exists text, args. split; [exact X|].
    eapply upsert_my_auto_refused; [exact D|exact KE| |exact X]. intros x I. rewrite (gen_lengths _ _ x I), map_length. lia.
  - cbn [map]. apply (upsert_my_short (gm val) (map gm vals) q cols items override omitted (length (insert_columns t)) (length (insert_columns t)) (val c0) D); [rewrite KE; exact I|exact NUM|apply gen_some|apply gen_lengths|].
    right. rewrite map_length. lia.
  - cbn [map]. apply (upsert_my_short (gm val) (map gm vals) q cols items override omitted (length (insert_columns t)) (length (insert_columns t)) (val c0) D); [rewrite KE; exact I|exact NUM|apply gen_some|apply gen_lengths|].
    right. rewrite map_length. lia.
Qed.
End ShortUpsert.
End G.
