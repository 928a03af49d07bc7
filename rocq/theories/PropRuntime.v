(** Properties C25-C29 and C40: the statements sent by the data-access functions.

    A model is seen through its methods.  [described] says what its texts mean; a hand-written model is any
    such model, a generated one is [gm ... r] for a table built by the parser and a record [r], a function from
    field paths to values.  The statement of a request is what [SpecSql.read] makes of its text and arguments;
    [None] means that the database rejects it. *)
From Coq Require Import Sorted.
From Verif Require Import Base ModelStrconv ModelUtf8 ModelCompiler ModelGen ModelRuntime SpecSql SpecGen SpecRuntime
  LemmasBase LemmasSql LemmasSql2 LemmasSql3 LemmasSql4 LemmasCompiler LemmasGen LemmasGen2 LemmasGen3
  LemmasRuntime LemmasRuntime2 LemmasRuntime3 LemmasRuntime4 LemmasRuntime5 LemmasRuntime6 LemmasRuntime7.

Lemma plain_nameb n : negb (bseq n []) && forallb (fun c => N.leb 32 (code c) && N.leb (code c) 126 && negb (beq c dquote) && negb (beq c backtick) && negb (beq c backslash)) n = true -> plain_name n.
Proof.
  intros H. apply andb_true_iff in H. destruct H as [NE H]. split.
  - intros ->. discriminate.
  - apply Forall_forall. intros c I. rewrite forallb_forall in H. specialize (H c I).
    repeat (apply andb_true_iff in H; let X := fresh in destruct H as [H X]; try (apply negb_true_iff, beq_neq in X)).
    apply N.leb_le in H, H3. repeat split; assumption.
Qed.
Lemma items_names {V} (t : table) (sqlc : option (list bytes)) (fl : flavour) (items : list (expr V)) :
  match sqlc with Some texts => texts <> [] /\ Forall2 (itemises fl) texts items | None => items = map (fun c => [Name (c_name c)]) (t_columns t) end ->
  match sqlc with Some texts => texts <> [] /\ Forall2 (itemises fl) texts items | None => items = map (fun c => [Name c]) (map c_name (t_columns t)) end.
Proof. destruct sqlc; [exact (fun x => x)|]. rewrite map_map. exact (fun x => x). Qed.
Lemma bare_single (V : Type) d t : bare_keys V d t -> single_key t = None -> forall k, In k (t_keys t) -> lex (V:=V) (flavour_of d) (c_name k) = [Name (c_name k)].
Proof.
  unfold bare_keys, single_key, key_of. destruct (t_auto t); [discriminate|]. destruct (t_keys t) as [|k [|k2 ks]]; intros H E.
  - intros ? [].
  - discriminate.
  - apply H. cbn. lia.
Qed.
Lemma not_written t : wf t -> ~ all_written t -> t_auto t <> None \/ exists c, In c (t_columns t) /\ c_readonly c = true.
Proof.
  intros W N. destruct (t_auto t) as [a|] eqn:A; [left; discriminate|right].
  destruct (existsb c_readonly (t_columns t)) eqn:E; [apply existsb_exists in E; exact E|].
  exfalso. apply N. split; [exact A|]. intros c I. destruct (c_readonly c) eqn:R; [|reflexivity].
  assert (existsb c_readonly (t_columns t) = true) by (apply existsb_exists; eauto). congruence.
Qed.

Section Handwritten.
Context {V : Type}.
Variables (d : driver) (m : model V) (q cols : list bytes) (items : list (expr V)).
Notation fl := (flavour_of d).
Hypothesis D : described fl m q cols items.
Let a := generated_at m.

(** ** C25.  Missing part: models whose Values() does not list every column of Columns(), which is what the
    generator writes for tables with an auto-increment or read-only column (refuted below). *)
Theorem C25_bulk_insert_partial (data : list (model V)) :
  (forall i, a = Some i -> i < length cols) -> omit_at a cols <> [] ->
  (forall x, In x (m :: data) -> length (m_values x) = length cols) ->
  (d = DPostgres -> numbered fl m (length (omit_at a cols))) ->
  exists text args, insert d (m :: data) = Ok (Some (text, args)) /\
    read fl text args
    = Some (Insert q (omit_at a cols) (map (fun x => row_of (omit_at a (m_values x))) (m :: data)) Fail (ret_items d items)).
Proof. intros IN NE L NUM. apply (insert_reads_back d m data q cols items a D eq_refl IN NE L NUM). Qed.

Theorem C25_insert_one_partial : m_insert m = None -> length (m_values m) = length cols ->
  exists text args, insert_one d m = Ok (text, args) /\
  read fl text args = Some (Insert q cols [row_of (m_values m)] Fail (ret_items d items)).
Proof. apply insert_one_reads_back, D. Qed.

(** ** C29.  The model's own statement is used as it is. *)
Variable ks : list (bytes * V).
Hypothesis K : keyed_by fl m ks.

Theorem C29_find_partial : m_find m = None ->
  exists text args, find_by_pk d m = Ok (text, args) /\
  read fl text args = Some (Select items q (Some (key_match m ks)) [] [] (Some 1%N) None []).
Proof.
  intros N. unfold find_by_pk. rewrite N. eapply select_reads_back with (words := []); [exact D|exact K|contradiction|intros; sconst|reflexivity|discriminate].
Qed.
Theorem C29_delete_partial : m_delete m = None ->
  exists text args, delete_by_pk d m = Ok (text, args) /\ read fl text args = Some (Delete q (Some (key_match m ks)) [] None).
Proof. eapply delete_reads_back; [exact D|exact K]. Qed.
Theorem C29_lock_partial mode : In mode (lock_modes d) -> d <> DSQLite ->
  exists words, In (mode, words) (locks d) /\
  exists text args, lock_by_pk d m mode = Ok (text, args) /\
  read fl text args = Some (Select items q (Some (key_match m ks)) [] [] (Some 1%N) None words).
Proof.
  intros IM NS. unfold lock_by_pk.
  assert (G : forall words, (words <> [] -> d <> DSQLite) -> (forall n, spells fl n (B " LIMIT 1 " ++ mode ++ B ";") [] ([Kw (V:=V) (B "LIMIT"); Num (B "1")] ++ lock_toks words ++ [Sym ";"])) ->
    exists text args, keyed d m (select_head m) (B " LIMIT 1 " ++ mode ++ B ";") = Ok (text, args) /\
    read fl text args = Some (Select items q (Some (key_match m ks)) [] [] (Some 1%N) None words)).
  { intros words SL SP. eapply select_reads_back; [exact D|exact K|exact SL|exact SP|reflexivity|discriminate]. }
  clear - G IM NS. revert G IM NS. destruct d; intros G IM NS; [| |contradiction]; cbn [lock_modes map In] in IM;
    repeat (destruct IM as [<-|IM]); try contradiction.
  - exists [B "UPDATE"]. split; [now left|]. apply G; [intros _; discriminate|intros; sconst].
  - exists [B "SHARE"]. split; [right; now left|]. apply G; [intros _; discriminate|intros; sconst].
  - exists [B "UPDATE"]. split; [now left|]. apply G; [intros _; discriminate|intros; sconst].
  - exists [B "NO"; B "KEY"; B "UPDATE"]. split; [right; now left|]. apply G; [intros _; discriminate|intros; sconst].
  - exists [B "SHARE"]. split; [do 2 right; now left|]. apply G; [intros _; discriminate|intros; sconst].
  - exists [B "KEY"; B "SHARE"]. split; [do 3 right; now left|]. apply G; [intros _; discriminate|intros; sconst].
Qed.

(** SQLite has no lock clause: every lock statement is rejected. *)
Theorem C29_lock_sqlite_refuted mode : In mode (lock_modes d) -> d = DSQLite ->
  exists text args, lock_by_pk d m mode = Ok (text, args) /\ read fl text args = None.
Proof.
  intros IM SL. unfold lock_by_pk.
  assert (G : forall words, words <> [] -> (forall n, spells fl n (B " LIMIT 1 " ++ mode ++ B ";") [] ([Kw (V:=V) (B "LIMIT"); Num (B "1")] ++ lock_toks words ++ [Sym ";"])) ->
    exists text args, keyed d m (select_head m) (B " LIMIT 1 " ++ mode ++ B ";") = Ok (text, args) /\ read fl text args = None).
  { intros words NE SP. destruct (select_reads_lock d m q cols items ks D K _ words SP) as (text & args & E & R); [reflexivity|discriminate|].
    exists text, args. split; [exact E|]. rewrite R, SL. destruct words; [contradiction|reflexivity]. }
  clear - G IM SL. revert G IM. rewrite SL. intros G IM. cbn [lock_modes map In] in IM.
  repeat (destruct IM as [<-|IM]); try contradiction; [apply (G [B "UPDATE"])|apply (G [B "SHARE"])]; try discriminate; intros; sconst.
Qed.

(** ** C28.  Only a composite key of a single column works, on PostgreSQL; every other model with a value per
    column gets a statement that the database rejects. *)
Hypothesis FALL : m_update m = None.
Hypothesis FULL : length (m_values m) = length cols.

Theorem C28_single_key_refuted pk idx v : (m_key m = AutoKey pk idx v \/ m_key m = SingleKey pk idx v) ->
  idx < length cols -> 2 <= length cols ->
  exists text args, update_by_pk d m = Ok (text, args) /\ read fl text args = None.
Proof.
  intros KE. assert (DN : exists kc, denotes (V:=V) fl pk kc).
  { unfold keyed_by in K. destruct KE as [KE|KE]; rewrite KE in K; destruct K as (kc & DN & _); eauto. }
  destruct DN as (kc & DN). eapply update_single_refused; eauto.
Qed.
Theorem C28_composite_key_refuted names idxs vs : m_key m = CompKey names idxs vs -> length idxs < length cols ->
  (d = DPostgres -> 2 <= length ks) -> rejected fl (update_by_pk d m).
Proof.
  intros KE LT TWO. unfold rejected. assert (PG : d = DPostgres \/ d <> DPostgres) by (clear; destruct d; [right; discriminate|now left|right; discriminate]).
  destruct PG as [PG|NPG].
  - eapply update_comp_pg_refused; eauto.
  - eapply update_comp_static_refused; eauto.
Qed.
Theorem C28_composite_of_one_partial n i v k : d = DPostgres -> m_key m = CompKey [n] [i] [v] -> denotes (V:=V) fl n k ->
  i < length cols -> 2 <= length cols ->
  exists text args, update_by_pk d m = Ok (text, args) /\
    read fl text args = Some (Update q (combine (omit_at (Some i) cols) (row_of (omit_at (Some i) (m_values m))))
                                (Some (Compare (Tuple [[Name k]]) (B "=") (Tuple [[Val v]]))) [] None).
Proof. intros. eapply update_comp_pg_one; eauto. Qed.
End Handwritten.

(** ** C26 and C27, hand-written models.  Missing part: models whose Values() does not list every column
    (refuted below), an update list that is empty (refuted here), and what follows. *)
Section UpsertPostgres.
Context {V : Type}.
Variables (m : model V) (q cols : list bytes) (items : list (expr V)) (o : upsert_opts) (tgt : list bytes).
Hypothesis D : described Postgres m q cols items.
Hypothesis KEY : m_key m <> NoKey.
Hypothesis TGT : Forall2 (denotes (V:=V) Postgres) (target_texts m o) tgt.
Hypothesis TN : tgt <> [].
Hypothesis TD : NoDup tgt.
Let a := generated_at m.
Hypothesis IN : forall i, a = Some i -> i < length cols.
Hypothesis NE : omit_at a cols <> [].
Hypothesis NUM : numbered Postgres m (length (omit_at a cols)).

(** [sets] are the columns that take the proposed value, in the order of the columns. *)
Theorem C27_upsert_pg_partial data : (forall x, In x (m :: data) -> length (m_values x) = length cols) ->
  exists text args sets, upsert_pg (m :: data) o = Ok (Some (text, args)) /\
    chosen (m_columns m) cols (fun _ x => ~ omitted_text m o x) sets /\
    (o_nothing o = true \/ sets <> [] ->
     read Postgres text args = Some (Insert q (omit_at a cols) (map (fun x => row_of (omit_at a (m_values x))) (m :: data))
                                       (conflict_of (o_nothing o) tgt sets) items)).
Proof.
  intros L. destruct (upsert_pg_reads m q cols items o tgt a D KEY TGT eq_refl IN NE data L NUM) as (text & args & sets & E & CH & R & _).
  exists text, args, sets. split; [exact E|]. split; [exact CH|]. intros SN. apply R; [exact TN|exact TD|]. intros NO. destruct SN; [congruence|assumption].
Qed.
Theorem C27_upsert_one_pg_partial : length (m_values m) = length cols ->
  exists text args sets, upsert_one_pg m o = Ok (text, args) /\
    chosen (omit_at a (m_columns m)) (omit_at a cols) (fun _ x => ~ omitted_text m o x) sets /\
    (o_nothing o = true \/ sets <> [] ->
     read Postgres text args = Some (Insert q (omit_at a cols) [row_of (omit_at a (m_values m))] (conflict_of (o_nothing o) tgt sets) items)).
Proof.
  intros L. destruct (upsert_one_pg_reads m q cols items o tgt a D KEY TGT eq_refl IN NE L NUM) as (text & sets & E & CH & R & _).
  exists text, (omit_at a (m_values m)), sets. split; [exact E|]. split; [exact CH|]. intros SN. apply R; [exact TN|exact TD|]. intros NO. destruct SN; [congruence|assumption].
Qed.
(** When every column is a key or omitted, the statement ends in an empty SET list. *)
Theorem C27_upsert_pg_empty_refuted data : (forall x, In x (m :: data) -> length (m_values x) = length cols) ->
  o_nothing o = false -> (forall x, In x (m_columns m) -> omitted_text m o x) ->
  exists text args, upsert_pg (m :: data) o = Ok (Some (text, args)) /\ read Postgres text args = None.
Proof.
  intros L NO ALL. destruct (upsert_pg_reads m q cols items o tgt a D KEY TGT eq_refl IN NE data L NUM) as (text & args & sets & E & [_ CH] & _ & R).
  exists text, args. split; [exact E|]. apply R; [exact NO|]. destruct sets as [|c sets]; [reflexivity|exfalso].
  destruct (proj1 (CH c) (or_introl eq_refl)) as (i & x & E1 & _ & N). apply N, ALL. eapply nth_error_In, E1.
Qed.
Theorem C26_upsert_pg_partial data : (forall x, In x (m :: data) -> length (m_values x) = length cols) ->
  (o_nothing o = true \/ exists x, In x (m_columns m) /\ ~ omitted_text m o x) ->
  exists text args c, upsert_pg (m :: data) o = Ok (Some (text, args)) /\
    read Postgres text args = Some (Insert q (omit_at a cols) (map (fun x => row_of (omit_at a (m_values x))) (m :: data)) c items).
Proof.
  intros L H. destruct (C27_upsert_pg_partial data L) as (text & args & sets & E & CH & R). exists text, args, (conflict_of (o_nothing o) tgt sets).
  split; [exact E|]. apply R. destruct H as [H|(x & I & NO)]; [now left|right]. intros ->. destruct CH as [_ CH].
  apply In_nth_error in I. destruct I as [i I]. pose proof (Forall2_length _ _ _ (d_columns _ _ _ _ _ D)) as LE.
  destruct (nth_error cols i) as [c|] eqn:N.
  - apply (proj2 (CH c)). eauto.
  - apply nth_error_None in N. assert (i < length (m_columns m)) by (apply nth_error_Some; congruence). lia.
Qed.
Theorem C26_upsert_one_pg_partial : length (m_values m) = length cols ->
  (o_nothing o = true \/ exists x, In x (omit_at a (m_columns m)) /\ ~ omitted_text m o x) ->
  exists text args c, upsert_one_pg m o = Ok (text, args) /\
    read Postgres text args = Some (Insert q (omit_at a cols) [row_of (omit_at a (m_values m))] c items).
Proof.
  intros L H. destruct (C27_upsert_one_pg_partial L) as (text & args & sets & E & CH & R). exists text, args, (conflict_of (o_nothing o) tgt sets).
  split; [exact E|]. apply R. destruct H as [H|(x & I & NO)]; [now left|right]. intros ->. destruct CH as [_ CH].
  apply In_nth_error in I. destruct I as [i I]. pose proof (Forall2_length _ _ _ (omit_Forall2 _ a _ _ (d_columns _ _ _ _ _ D))) as LE.
  destruct (nth_error (omit_at a cols) i) as [c|] eqn:N.
  - apply (proj2 (CH c)). eauto.
  - apply nth_error_None in N. assert (i < length (omit_at a (m_columns m))) by (apply nth_error_Some; congruence). lia.
Qed.
End UpsertPostgres.

Section UpsertMySQL.
Context {V : Type}.
Variables (m : model V) (q cols : list bytes) (items : list (expr V)).
Hypothesis D : described MySQL m q cols items.
Variables (override : bool) (omitted : list bytes).

(** UpsertOne by a single key. *)
Theorem C27_upsert_one_mysql_partial k : key_texts m = [k] -> (forall ns is vs, m_key m <> CompKey ns is vs) -> length (m_values m) = length cols ->
  exists text args sets, upsert_one_my m override omitted = Ok (text, args) /\
    chosen (m_columns m) cols (fun _ x => x <> k /\ ~ In x omitted) sets /\
    (override = false \/ sets <> [] ->
     read MySQL text args = Some (Insert q cols [row_of (m_values m)] (my_conflict override sets) [])).
Proof.
  intros KT NC L. destruct (upsert_one_my_reads m q cols items D override omitted k KT NC L) as (text & sets & E & CH & R & _).
  exists text, (m_values m), sets. split; [exact E|]. split; [exact CH|]. intros SN. apply R. intros OV. destruct SN; [congruence|assumption].
Qed.
(** UpsertOne by a composite key works when it does not override, and panics when it does. *)
Theorem C26_upsert_one_mysql_composite_partial ns is vs : m_key m = CompKey ns is vs -> length (m_values m) = length cols -> override = false ->
  exists text args, upsert_one_my m override omitted = Ok (text, args) /\
    read MySQL text args = Some (Insert q cols [row_of (m_values m)] (DoNothing []) []).
Proof.
  intros KE L OV. destruct (upsert_one_my_comp_ignored m q cols items D omitted ns is vs KE L) as (text & E & R). rewrite OV.
  exists text, (m_values m). auto.
Qed.
Theorem C26_upsert_one_mysql_composite_refuted ns is vs : m_key m = CompKey ns is vs -> ns <> [] -> override = true ->
  upsert_one_my m override omitted = Panic.
Proof. intros KE NE ->. eapply upsert_one_my_comp_panics; eassumption. Qed.

(** Upsert by a single key, or by a composite key whose positions are in order. *)
Theorem C27_upsert_mysql_partial data :
  match m_key m with SingleKey _ _ _ => True | CompKey _ idxs _ => StronglySorted lt idxs /\ (forall i, In i idxs -> i < length cols) | _ => False end ->
  (forall x, In x (m :: data) -> length (m_values x) = length cols) -> numbered MySQL m (length cols) ->
  exists text args sets, upsert_my (m :: data) override omitted = Ok (Some (text, args)) /\
    chosen (m_columns m) cols (fun i x => ~ In x omitted /\ match m_key m with CompKey _ idxs _ => ~ In i idxs | AutoKey k _ _ | SingleKey k _ _ => x <> k | NoKey => True end) sets /\
    (override = false \/ sets <> [] ->
       read MySQL text args = Some (Insert q cols (map (fun x => row_of (m_values x)) (m :: data)) (my_conflict override sets) [])).
Proof.
  intros KE L NUM. destruct (upsert_my_reads m q cols items D data override omitted KE L NUM) as (text & args & sets & E & CH & R & _).
  exists text, args, sets. split; [exact E|]. split; [exact CH|]. intros SN. apply R. intros OV. destruct SN; [congruence|assumption].
Qed.
(** When every column is a key or omitted, the update list is empty. *)
Theorem C27_upsert_one_mysql_empty_refuted k : key_texts m = [k] -> (forall ns is vs, m_key m <> CompKey ns is vs) -> length (m_values m) = length cols ->
  override = true -> (forall x, In x (m_columns m) -> x = k \/ In x omitted) ->
  exists text args, upsert_one_my m override omitted = Ok (text, args) /\ read MySQL text args = None.
Proof.
  intros KT NC L OV ALL. destruct (upsert_one_my_reads m q cols items D override omitted k KT NC L) as (text & sets & E & [_ CH] & _ & R).
  exists text, (m_values m). split; [exact E|]. apply R; [exact OV|]. destruct sets as [|c sets]; [reflexivity|exfalso].
  destruct (proj1 (CH c) (or_introl eq_refl)) as (i & x & E1 & _ & N1 & N2). destruct (ALL x (nth_error_In _ _ E1)); contradiction.
Qed.
(** Upsert by an auto-increment key always sends more placeholders than arguments. *)
Theorem C26_upsert_mysql_auto_refuted data k i v text args : m_key m = AutoKey k i v ->
  (forall x, In x (m :: data) -> length (m_values x) <= length cols) ->
  upsert_my (m :: data) override omitted = Ok (Some (text, args)) -> read MySQL text args = None.
Proof. intros KE L E. eapply upsert_my_auto_refused; eassumption. Qed.
End UpsertMySQL.

(** On SQLite the upserts are those of MySQL, and none is accepted. *)
Theorem C26_upsert_sqlite_refuted : forall V (m : model V) q cols items (v0 : V) override omitted data k,
  described SQLite m q cols items -> key_texts m <> [] -> omit_at (generated_at m) cols <> [] -> numbered SQLite m k -> 0 < k ->
  rejected SQLite (upsert_one_my m override omitted) /\ rejected_opt SQLite (upsert_my (m :: data) override omitted).
Proof.
  intros V m q cols items v0 override omitted data k D KT OM NUM POS. split.
  - apply (upsert_one_sqlite_refused m q cols items v0 D override omitted KT).
  - apply (upsert_sqlite_refused m q cols items v0 D data override omitted k KT OM NUM POS).
Qed.

(** ** Generated models *)
Section Generated.
Context {V : Type}.
Variables (printable : N -> bool) (rename : bytes -> bytes) (wrap unwrap : gotype -> bytes * bytes).
Variables (sname : bytes) (ro : bool) (fs : list sfield) (t : table).
Hypothesis BUILT : build_table rename wrap unwrap sname ro fs = Ok t.
Variables (d : driver) (on : bool) (db : option bytes) (tn : bytes) (sqlc dup omit : option (list bytes)).
Variables (ins find upd : (column -> V) -> option (request V)) (q : list bytes) (items : list (expr V)).
Hypothesis U : usable d on t db tn sqlc q items.
Notation fl := (flavour_of d).
Notation value r := (fun c : column => r (c_gopath c)).
Definition record_model (r : bytes -> V) : model V := gm printable d on t db tn sqlc dup omit ins find upd (value r).
Let W : wf t := build_table_wf _ _ _ _ _ _ _ BUILT.
Let IT := items_names t sqlc fl items (u_items _ _ _ _ _ _ _ _ U).

Lemma records_are r rs : map record_model (r :: rs) = map (gm printable d on t db tn sqlc dup omit ins find upd) ((fun c => r (c_gopath c)) :: map (fun r c => r (c_gopath c)) rs).
Proof. cbn [map]. rewrite map_map. reflexivity. Qed.

(** C25: all rows, in order, each column with the record's value. *)
Theorem C25_generated_partial r rs : all_written t ->
  exists text args, insert d (map record_model (r :: rs)) = Ok (Some (text, args)) /\
  read fl text args = Some (Insert q (map c_name (t_columns t)) (map (fun r => row_of (map (value r) (t_columns t))) (r :: rs)) Fail (ret_items d items)).
Proof.
  intros [A RO]. rewrite records_are.
  destruct (gen_insert_ok printable d on t db tn sqlc dup omit ins find upd q items W (u_names _ _ _ _ _ _ _ _ U) (u_table _ _ _ _ _ _ _ _ U) IT (u_insert _ _ _ _ _ _ _ _ U) A RO
    (value r) (map (fun r c => r (c_gopath c)) rs)) as (text & args & E & R).
  exists text, args. split; [exact E|]. rewrite R. cbn [map]. rewrite map_map. reflexivity.
Qed.
(** Otherwise no non-empty list can be inserted at all. *)
Theorem C25_generated_refuted r rs : ~ all_written t -> rejected_opt fl (insert d (map record_model (r :: rs))).
Proof.
  intros N. rewrite records_are. unfold rejected_opt.
  apply (gen_insert_bad printable d on t db tn sqlc dup omit ins find upd q items W (u_names _ _ _ _ _ _ _ _ U) (u_table _ _ _ _ _ _ _ _ U) IT (u_insert _ _ _ _ _ _ _ _ U) (not_written t W N)).
Qed.

Section Keyed.
Hypothesis HASKEY : key_of t <> [].
Hypothesis BARE : bare_keys V d t.
Let BS := bare_single V d t BARE.
Let value_of := fun (r : bytes -> V) (c : column) => r (c_gopath c).

(** C29 *)
Theorem C29_generated_partial r : find (value r) = None ->
  let key := key_equals t (fun _ => []) (fun _ => []) (value r) in
  (exists text args, find_by_pk d (record_model r) = Ok (text, args) /\ read fl text args = Some (Select items q (Some key) [] [] (Some 1%N) None [])) /\
  (exists text args, delete_by_pk d (record_model r) = Ok (text, args) /\ read fl text args = Some (Delete q (Some key) [] None)) /\
  (forall mode, In mode (lock_modes d) -> d <> DSQLite -> exists words, In (mode, words) (locks d) /\
     exists text args, lock_by_pk d (record_model r) mode = Ok (text, args) /\ read fl text args = Some (Select items q (Some key) [] [] (Some 1%N) None words)).
Proof.
  intros NF key. assert (D := gen_described printable d on t db tn sqlc dup omit ins find upd q items W (u_names _ _ _ _ _ _ _ _ U) (u_table _ _ _ _ _ _ _ _ U) IT (u_insert _ _ _ _ _ _ _ _ U) (value r)).
  assert (K := gen_keyed printable d on t db tn sqlc dup omit ins find upd W (u_names _ _ _ _ _ _ _ _ U) HASKEY BS (value r)).
  unfold key. rewrite <- (gen_match printable d on t db tn sqlc dup omit ins find upd (u_names _ _ _ _ _ _ _ _ U) HASKEY BS (value r)) by (intros; split; reflexivity).
  split; [|split].
  - eapply C29_find_partial; [exact D|exact K|exact NF].
  - eapply C29_delete_partial; [exact D|exact K|reflexivity].
  - intros mode. eapply C29_lock_partial; [exact D|exact K].
Qed.

(** C26 and C27, PostgreSQL.  Missing part: composite keys with quoted identifiers (refuted below). *)
Variable o : upsert_opts.
Hypothesis ODUP : o_dup o = [].
Hypothesis DUP : dup = None.
(** A column is omitted when the caller or the model lists its text. *)
Definition left_out (c : column) : Prop :=
  let text := if on then id_quote d :: c_name c ++ [id_quote d] else c_name c in
  In text (o_omit o) \/ exists l, omit = Some l /\ In text l.
Lemma quote_text c : In c (t_columns t) -> quote_id printable d on (c_name c) = if on then id_quote d :: c_name c ++ [id_quote d] else c_name c.
Proof.
  intros I. pose proof (u_names _ _ _ _ _ _ _ _ U c I) as P. unfold quote_id. destruct on; [|reflexivity].
  apply (must_quote_plain printable d (c_name c)), P.
Qed.

Theorem C27_generated_pg_partial r rs : d = DPostgres -> all_written t -> on = false \/ length (key_of t) < 2 ->
  exists text args sets, upsert_pg (map record_model (r :: rs)) o = Ok (Some (text, args)) /\
    sublist sets (map c_name (t_columns t)) /\
    (forall c, In c (t_columns t) -> (In (c_name c) sets <-> ~ is_key t c /\ ~ left_out c)) /\
    (o_nothing o = true \/ sets <> [] ->
     read fl text args = Some (Insert q (map c_name (t_columns t)) (map (fun r => row_of (map (value r) (t_columns t))) (r :: rs))
                                 (conflict_of (o_nothing o) (map c_name (key_of t)) sets) items)).
Proof.
  intros PG [A RO] ON. rewrite records_are.
  assert (ON2 : on = false \/ single_key t <> None).
  { destruct ON as [ON|ON]; [now left|right]. clear - ON HASKEY. unfold single_key, key_of in *. destruct (t_auto t); [discriminate|].
    destruct (t_keys t) as [|k [|k2 ks]]; [contradiction|discriminate|cbn in ON; lia]. }
  destruct (gen_upsert_pg_ok printable d on t db tn sqlc dup omit ins find upd q items W (u_names _ _ _ _ _ _ _ _ U) (u_table _ _ _ _ _ _ _ _ U) IT (u_insert _ _ _ _ _ _ _ _ U) HASKEY BS A RO o ODUP DUP
    (value r) (map (fun r c => r (c_gopath c)) rs) PG ON2) as (text & args & sets & E & SB & CH & R).
  exists text, args, sets. split; [exact E|]. split; [exact SB|]. split.
  - intros c I. rewrite (CH c I). rewrite quote_text by exact I. unfold left_out. cbv zeta. tauto.
  - intros SN. rewrite R; [cbn [map]; rewrite map_map; reflexivity|]. intros NO. destruct SN; [congruence|assumption].
Qed.
Theorem C27_generated_one_pg_partial r : d = DPostgres -> all_written t -> on = false \/ length (key_of t) < 2 ->
  exists text args sets, upsert_one_pg (record_model r) o = Ok (text, args) /\
    sublist sets (map c_name (t_columns t)) /\
    (forall c, In c (t_columns t) -> (In (c_name c) sets <-> ~ is_key t c /\ ~ left_out c)) /\
    (o_nothing o = true \/ sets <> [] ->
     read fl text args = Some (Insert q (map c_name (t_columns t)) [row_of (map (value r) (t_columns t))]
                                 (conflict_of (o_nothing o) (map c_name (key_of t)) sets) items)).
Proof.
  intros PG [A RO] ON.
  assert (ON2 : on = false \/ single_key t <> None).
  { destruct ON as [ON|ON]; [now left|right]. clear - ON HASKEY. unfold single_key, key_of in *. destruct (t_auto t); [discriminate|].
    destruct (t_keys t) as [|k [|k2 ks]]; [contradiction|discriminate|cbn in ON; lia]. }
  destruct (gen_upsert_one_pg_ok printable d on t db tn sqlc dup omit ins find upd q items W (u_names _ _ _ _ _ _ _ _ U) (u_table _ _ _ _ _ _ _ _ U) IT (u_insert _ _ _ _ _ _ _ _ U) HASKEY BS A RO o ODUP DUP
    (value r) PG ON2) as (text & args & sets & E & SB & CH & R).
  exists text, args, sets. split; [exact E|]. split; [exact SB|]. split.
  - intros c I. rewrite (CH c I). rewrite quote_text by exact I. unfold left_out. cbv zeta. tauto.
  - intros SN. rewrite R; [reflexivity|]. intros NO. destruct SN; [congruence|assumption].
Qed.
(** With quoted identifiers the columns of a composite key are assigned like the others. *)
Theorem C27_generated_pg_composite_refuted r rs : d = DPostgres -> all_written t -> on = true -> 2 <= length (key_of t) ->
  o_omit o = [] -> omit = None -> o_nothing o = false ->
  exists text args, upsert_pg (map record_model (r :: rs)) o = Ok (Some (text, args)) /\
    read fl text args = Some (Insert q (map c_name (t_columns t)) (map (fun r => row_of (map (value r) (t_columns t))) (r :: rs))
                                (DoUpdate (map c_name (key_of t)) (map (fun c => (c_name c, c_name c)) (t_columns t))) items).
Proof.
  intros PG [A RO] ON TWO OO OM NO. rewrite records_are.
  assert (SK : single_key t = None).
  { clear - A TWO. unfold single_key, key_of in *. rewrite A in *. destruct (t_keys t) as [|k [|k2 ks]]; [reflexivity|cbn in TWO; lia|reflexivity]. }
  destruct (gen_upsert_pg_keys_set printable d on t db tn sqlc dup omit ins find upd q items W (u_names _ _ _ _ _ _ _ _ U) (u_table _ _ _ _ _ _ _ _ U) IT (u_insert _ _ _ _ _ _ _ _ U) HASKEY BS A RO o ODUP DUP
    (value r) (map (fun r c => r (c_gopath c)) rs) PG ON SK OO OM) as (text & args & E & R).
  - intros c k I IK X. rewrite quote_text in X by exact I. rewrite ON in X.
    destruct (wf_keys t W k IK) as [IC _]. pose proof (u_names _ _ _ _ _ _ _ _ U k IC) as P. rewrite ON in P. destruct P as [_ P].
    rewrite <- X, PG in P. cbn [id_quote] in P. inversion P as [|x l PC]. revert PC. clear. intros PC. unfold plain_char in PC. vm_compute in PC. 
    decompose [and] PC; congruence.
  - exact NO.
  - exists text, args. split; [exact E|]. rewrite R. cbn [map]. rewrite map_map. unfold conflict_of. rewrite map_map. reflexivity.
Qed.

(** C26, PostgreSQL.  Missing part: an empty update list, composite keys with quoted identifiers. *)
Theorem C26_generated_pg_partial r rs : d = DPostgres -> all_written t -> on = false \/ length (key_of t) < 2 ->
  (o_nothing o = true \/ exists c, In c (t_columns t) /\ ~ is_key t c /\ ~ left_out c) ->
  (exists text args conflict, upsert_pg (map record_model (r :: rs)) o = Ok (Some (text, args)) /\
     read fl text args = Some (Insert q (map c_name (t_columns t)) (map (fun r => row_of (map (value r) (t_columns t))) (r :: rs)) conflict items)) /\
  (exists text args conflict, upsert_one_pg (record_model r) o = Ok (text, args) /\
     read fl text args = Some (Insert q (map c_name (t_columns t)) [row_of (map (value r) (t_columns t))] conflict items)).
Proof.
  intros PG A ON H. split.
  - destruct (C27_generated_pg_partial r rs PG A ON) as (text & args & sets & E & _ & CH & R). exists text, args, (conflict_of (o_nothing o) (map c_name (key_of t)) sets).
    split; [exact E|]. apply R. destruct H as [H|(c & I & N)]; [now left|right]. intros ->. apply (proj2 (CH c I) N).
  - destruct (C27_generated_one_pg_partial r PG A ON) as (text & args & sets & E & _ & CH & R). exists text, args, (conflict_of (o_nothing o) (map c_name (key_of t)) sets).
    split; [exact E|]. apply R. destruct H as [H|(c & I & N)]; [now left|right]. intros ->. apply (proj2 (CH c I) N).
Qed.
(** A table with an auto-increment or read-only column cannot be upserted at all. *)
Theorem C26_generated_pg_refuted r rs : d = DPostgres -> ~ all_written t ->
  rejected fl (upsert_one_pg (record_model r) o) /\ rejected_opt fl (upsert_pg (map record_model (r :: rs)) o).
Proof.
  intros PG N. rewrite records_are. apply (not_written t W) in N. split.
  - apply (gen_upsert_one_pg_bad printable d on t db tn sqlc dup omit ins find upd q items W (u_names _ _ _ _ _ _ _ _ U) (u_table _ _ _ _ _ _ _ _ U) IT (u_insert _ _ _ _ _ _ _ _ U) HASKEY BS N (value r) o PG ODUP DUP).
  - apply (gen_upsert_pg_bad printable d on t db tn sqlc dup omit ins find upd q items W (u_names _ _ _ _ _ _ _ _ U) (u_table _ _ _ _ _ _ _ _ U) IT (u_insert _ _ _ _ _ _ _ _ U) HASKEY BS N (value r) _ o PG ODUP DUP).
Qed.

(** C26 and C27, MySQL *)
Variables (override : bool) (omitted : list bytes).
Definition left_out_my (c : column) : Prop := In (if on then id_quote d :: c_name c ++ [id_quote d] else c_name c) omitted.

Theorem C27_generated_mysql_partial r rs : d = DMySQL -> all_written t ->
  exists text args sets, upsert_my (map record_model (r :: rs)) override omitted = Ok (Some (text, args)) /\
    sublist sets (map c_name (t_columns t)) /\
    (forall c, In c (t_columns t) -> (In (c_name c) sets <-> ~ is_key t c /\ ~ left_out_my c)) /\
    (override = false \/ sets <> [] ->
     read fl text args = Some (Insert q (map c_name (t_columns t)) (map (fun r => row_of (map (value r) (t_columns t))) (r :: rs)) (my_conflict override sets) [])).
Proof.
  intros MY [A RO]. rewrite records_are.
  destruct (gen_upsert_my_ok printable d on t db tn sqlc dup omit ins find upd q items W (u_names _ _ _ _ _ _ _ _ U) (u_table _ _ _ _ _ _ _ _ U) IT (u_insert _ _ _ _ _ _ _ _ U) HASKEY BS A RO (build_table_sorted _ _ _ _ _ _ _ BUILT) override omitted
    (value r) (map (fun r c => r (c_gopath c)) rs) MY) as (text & args & sets & E & SB & CH & R).
  exists text, args, sets. split; [exact E|]. split; [exact SB|]. split.
  - intros c I. rewrite (CH c I). rewrite quote_text by exact I. unfold left_out_my. tauto.
  - intros SN. rewrite R; [cbn [map]; rewrite map_map; reflexivity|]. intros NO. destruct SN; [congruence|assumption].
Qed.
Theorem C27_generated_one_mysql_partial r : d = DMySQL -> all_written t -> length (key_of t) < 2 ->
  exists text args sets, upsert_one_my (record_model r) override omitted = Ok (text, args) /\
    sublist sets (map c_name (t_columns t)) /\
    (forall c, In c (t_columns t) -> (In (c_name c) sets <-> ~ is_key t c /\ ~ left_out_my c)) /\
    (override = false \/ sets <> [] ->
     read fl text args = Some (Insert q (map c_name (t_columns t)) [row_of (map (value r) (t_columns t))] (my_conflict override sets) [])).
Proof.
  intros MY [A RO] ONE.
  assert (SK : single_key t <> None).
  { clear - ONE HASKEY. unfold single_key, key_of in *. destruct (t_auto t); [discriminate|].
    destruct (t_keys t) as [|k [|k2 ks]]; [contradiction|discriminate|cbn in ONE; lia]. }
  destruct (gen_upsert_one_my_ok printable d on t db tn sqlc dup omit ins find upd q items W (u_names _ _ _ _ _ _ _ _ U) (u_table _ _ _ _ _ _ _ _ U) IT (u_insert _ _ _ _ _ _ _ _ U) HASKEY BS A RO override omitted
    (value r) MY SK) as (text & args & sets & E & SB & CH & R).
  exists text, args, sets. split; [exact E|]. split; [exact SB|]. split.
  - intros c I. rewrite (CH c I). rewrite quote_text by exact I. unfold left_out_my. tauto.
  - intros SN. rewrite R; [reflexivity|]. intros NO. destruct SN; [congruence|assumption].
Qed.
Theorem C26_generated_mysql_partial r rs : d = DMySQL -> all_written t ->
  (override = false \/ exists c, In c (t_columns t) /\ ~ is_key t c /\ ~ left_out_my c) ->
  exists text args conflict, upsert_my (map record_model (r :: rs)) override omitted = Ok (Some (text, args)) /\
     read fl text args = Some (Insert q (map c_name (t_columns t)) (map (fun r => row_of (map (value r) (t_columns t))) (r :: rs)) conflict []).
Proof.
  intros MY A H. destruct (C27_generated_mysql_partial r rs MY A) as (text & args & sets & E & _ & CH & R). exists text, args, (my_conflict override sets).
  split; [exact E|]. apply R. destruct H as [H|(c & I & N)]; [now left|right]. intros ->. apply (proj2 (CH c I) N).
Qed.
Theorem C26_generated_mysql_refuted r rs : d = DMySQL -> ~ all_written t ->
  rejected fl (upsert_one_my (record_model r) override omitted) /\ rejected_opt fl (upsert_my (map record_model (r :: rs)) override omitted).
Proof.
  intros MY N. rewrite records_are. apply (not_written t W) in N. split.
  - apply (gen_upsert_one_my_bad printable d on t db tn sqlc dup omit ins find upd q items W (u_names _ _ _ _ _ _ _ _ U) (u_table _ _ _ _ _ _ _ _ U) IT (u_insert _ _ _ _ _ _ _ _ U) HASKEY BS N (value r) override omitted MY).
  - apply (gen_upsert_my_bad printable d on t db tn sqlc dup omit ins find upd q items W (u_names _ _ _ _ _ _ _ _ U) (u_table _ _ _ _ _ _ _ _ U) IT (u_insert _ _ _ _ _ _ _ _ U) HASKEY BS N (value r) _ override omitted MY).
Qed.
End Keyed.
End Generated.

(** ** C40 *)
(** [exec] is any database: a state and a result for each request. *)
Theorem C40_empty_batch : forall V W (exec : W -> request V -> W * res (N * N)) (w : W) d o override omitted,
  execute exec w (insert d []) = (w, Ok (0%N, 0%N)) /\
  execute exec w (upsert_pg [] o) = (w, Ok (0%N, 0%N)) /\
  execute exec w (upsert_my [] override omitted) = (w, Ok (0%N, 0%N)).
Proof. intros. repeat split. Qed.
Lemma sends_bind {A V} (r : res A) (k : A -> res (option (request V))) : (forall a, k a <> Ok None) -> bind r k <> Ok None.
Proof. destruct r; cbn; [auto|discriminate|discriminate]. Qed.
(** Conversely a non-empty batch is never dropped: it is sent, or the call panics. *)
Theorem C40_only_empty : forall V d (m : model V) data o override omitted,
  insert d (m :: data) <> Ok None /\ upsert_pg (m :: data) o <> Ok None /\ upsert_my (m :: data) override omitted <> Ok None.
Proof.
  intros. repeat split.
  - unfold insert. apply sends_bind. intros cs. destruct d; repeat (apply sends_bind; intros); discriminate.
  - unfold upsert_pg. repeat (apply sends_bind; intros); discriminate.
  - unfold upsert_my. repeat (first [apply sends_bind; intros ?|discriminate|match goal with |- context [match ?x with _ => _ end] => destruct x end]).
Qed.

(** ** Concrete cases *)
Definition ex_build (fs : list sfield) : res table := build_table (fun n => n) (fun _ => ([], [])) (fun _ => ([], [])) (B "Users") false fs.
Definition ex_of (r : res table) : table :=
  match r with Ok t => t | _ => {| t_name := []; t_keys := []; t_columns := []; t_readonly := true; t_auto := None |} end.
Definition ex_fld (name base tag : string) : sfield :=
  {| f_name := B name; f_type := {| ty_base := B base; ty_ptr := 0 |}; f_exported := true; f_embedded := false;
     f_tag := B tag; f_paths := [(B name, false)] |}.
Definition ex_one := [ex_fld "ID" "int64" "id,pk"; ex_fld "Name" "string" "name"; ex_fld "Age" "int" "age"].
Definition ex_two := [ex_fld "A" "int64" "a,pk"; ex_fld "B" "string" "b,pk"; ex_fld "Name" "string" "name"].
Definition ex_auto := [ex_fld "ID" "int64" "id,auto_increment"; ex_fld "Name" "string" "name"; ex_fld "Seen" "time.Time" "seen,readonly"].
Definition ex_words := [ex_fld "A" "int64" "from,pk"; ex_fld "B" "string" "to,pk"; ex_fld "Name" "string" "name"].
Definition t_one := Eval vm_compute in ex_of (ex_build ex_one).
Definition t_two := Eval vm_compute in ex_of (ex_build ex_two).
Definition t_auto_ro := Eval vm_compute in ex_of (ex_build ex_auto).
Definition t_words := Eval vm_compute in ex_of (ex_build ex_words).
Definition ex_none {V} : (column -> V) -> option (request V) := fun _ => None.
Definition ex_rec (n : nat) : bytes -> bytes := fun path => itoa n ++ path.

Definition ex_words_of (t : table) : list (expr bytes) := map (fun c => [Name (c_name c)]) (t_columns t).
Ltac ex_names := intros c I; cbn [t_columns In] in I;
  repeat (destruct I as [<-|I]; [first [reflexivity|apply plain_nameb; reflexivity]|]); destruct I.
Ltac ex_usable := constructor;
  [ex_names|reflexivity|reflexivity|].
Example usable_case : forall d on,
  ex_build ex_one = Ok t_one /\ ex_build ex_two = Ok t_two /\ ex_build ex_auto = Ok t_auto_ro /\
  usable d on t_one None (B "users") None [B "users"] (ex_words_of t_one) /\
  usable d on t_two (Some (B "app")) (B "users") None [B "app"; B "users"] (ex_words_of t_two) /\
  usable d on t_auto_ro None (B "users") None [B "users"] (ex_words_of t_auto_ro) /\
  all_written t_one /\ all_written t_two /\ ~ all_written t_auto_ro /\
  length (key_of t_one) = 1 /\ length (key_of t_two) = 2 /\ bare_keys bytes d t_one /\ bare_keys bytes d t_two.
Proof.
  intros d on. split; [reflexivity|]. split; [reflexivity|]. split; [reflexivity|].
  split; [unfold t_one; destruct d, on; ex_usable; (eexists; split; [right; left; reflexivity|split; [reflexivity|discriminate]])|].
  split; [unfold t_two; destruct d, on; ex_usable; (eexists; split; [right; left; reflexivity|split; [reflexivity|discriminate]])|].
  split; [unfold t_auto_ro; destruct d, on; ex_usable; (eexists; split; [right; left; reflexivity|split; [reflexivity|discriminate]])|].
  split; [split; [reflexivity|intros c I; cbn in I; repeat destruct I as [<-|I]; reflexivity || contradiction]|].
  split; [split; [reflexivity|intros c I; cbn in I; repeat destruct I as [<-|I]; reflexivity || contradiction]|].
  split; [intros [A _]; discriminate|].
  split; [reflexivity|]. split; [reflexivity|].
  split; intros L k I; cbn in I; repeat destruct I as [<-|I]; try contradiction; destruct d; reflexivity.
Qed.

(** The statements themselves, on two records. *)
Definition ex_model (d : driver) (on : bool) (t : table) (r : bytes -> bytes) : model bytes :=
  record_model (fun _ => true) t d on None (B "users") None None None ex_none ex_none ex_none r.
Definition ex_read (d : driver) (r : res (option (request bytes))) : option (stmt bytes) :=
  match r with Ok (Some (text, args)) => read (flavour_of d) text args | _ => None end.
Definition ex_read1 (d : driver) (r : res (request bytes)) : option (stmt bytes) :=
  match r with Ok (text, args) => read (flavour_of d) text args | _ => None end.
Definition ex_opts := {| o_nothing := false; o_omit := [B "age"]; o_dup := [] |}.

Example C25_case : forall d, ex_read d (insert d (map (ex_model d false t_one) [ex_rec 1; ex_rec 2]))
  = Some (Insert [B "users"] [B "id"; B "name"; B "age"]
      [[[Val (B "1.ID")]; [Val (B "1.Name")]; [Val (B "1.Age")]]; [[Val (B "2.ID")]; [Val (B "2.Name")]; [Val (B "2.Age")]]]
      Fail (match d with DPostgres => [[Name (B "id")]; [Name (B "name")]; [Name (B "age")]] | _ => [] end)).
Proof. intros []; vm_compute; reflexivity. Qed.
Example C25_refuted_case : forall d,
  match insert d (map (ex_model d false t_auto_ro) [ex_rec 1; ex_rec 2]) with Ok (Some (text, args)) => read (flavour_of d) text args = None | Panic => True | _ => False end.
Proof. intros []; vm_compute; auto. Qed.
Example C26_C27_case :
  ex_read DPostgres (upsert_pg (map (ex_model DPostgres false t_one) [ex_rec 1; ex_rec 2]) ex_opts)
  = Some (Insert [B "users"] [B "id"; B "name"; B "age"]
      [[[Val (B "1.ID")]; [Val (B "1.Name")]; [Val (B "1.Age")]]; [[Val (B "2.ID")]; [Val (B "2.Name")]; [Val (B "2.Age")]]]
      (DoUpdate [B "id"] [(B "name", B "name")]) [[Name (B "id")]; [Name (B "name")]; [Name (B "age")]]) /\
  ex_read DMySQL (upsert_my (map (ex_model DMySQL true t_two) [ex_rec 1]) true [])
  = Some (Insert [B "users"] [B "a"; B "b"; B "name"] [[[Val (B "1.A")]; [Val (B "1.B")]; [Val (B "1.Name")]]]
      (DoUpdate [] [(B "name", B "name")]) []).
Proof. split; vm_compute; reflexivity. Qed.
Example C28_case : forall d,
  (match update_by_pk d (ex_model d false t_one (ex_rec 1)) with Ok (text, args) => read (flavour_of d) text args = None | _ => False end) /\
  length (m_values (ex_model d false t_one (ex_rec 1))) = 3 /\ length (m_columns (ex_model d false t_one (ex_rec 1))) = 3 /\
  m_update (ex_model d false t_one (ex_rec 1)) = None.
Proof. intros []; vm_compute; auto. Qed.
Example C29_case : forall d,
  ex_read1 d (find_by_pk d (ex_model d true t_two (ex_rec 1)))
  = Some (Select [[Name (B "a")]; [Name (B "b")]; [Name (B "name")]] [B "users"]
      (Some (Compare (Tuple [[Name (B "a")]; [Name (B "b")]]) (B "=") (Tuple [[Val (B "1.A")]; [Val (B "1.B")]]))) [] [] (Some 1%N) None []).
Proof. intros []; vm_compute; reflexivity. Qed.
(** Composite keys are never quoted: with reserved words for names, the fallbacks are rejected although
    identifiers are quoted and the generated statements are right. *)
Theorem C29_composite_words_refuted : exists t, ex_build ex_words = Ok t /\ forall d r,
  usable d true t None (B "users") None [B "users"] (ex_words_of t) /\
  ex_read1 d (find_by_pk d (ex_model d true t r)) = None /\ ex_read1 d (delete_by_pk d (ex_model d true t r)) = None.
Proof.
  exists t_words. split; [reflexivity|]. intros d r. split.
  - unfold t_words. destruct d; ex_usable; (eexists; split; [right; left; reflexivity|split; [reflexivity|discriminate]]).
  - destruct d; split; reflexivity.
Qed.

Print Assumptions C25_bulk_insert_partial.
Print Assumptions C25_insert_one_partial.
Print Assumptions C29_find_partial.
Print Assumptions C29_delete_partial.
Print Assumptions C29_lock_partial.
Print Assumptions C29_lock_sqlite_refuted.
(** A model that carries a statement of its own (the generated InsertOneStmt, FindOneByPKStmt,
    UpdateOneByPKStmt and DeleteOneByPKStmt) has exactly that statement sent, with its arguments. *)
Theorem C25_own_insert : forall (V : Type) d (m : model V) text args,
  m_insert m = Some (text, args) -> insert_one d m = Ok (text, args).
Proof. intros V d m text args E. unfold insert_one. rewrite E. reflexivity. Qed.
Theorem C28_own_statement : forall (V : Type) d (m : model V) text args,
  m_update m = Some (text, args) -> update_by_pk d m = Ok (text, args).
Proof. intros V d m text args E. unfold update_by_pk. rewrite E. reflexivity. Qed.
Theorem C29_own_statements : forall (V : Type) d (m : model V) text args,
  (m_find m = Some (text, args) -> find_by_pk d m = Ok (text, args)) /\
  (m_delete m = Some (text, args) -> delete_by_pk d m = Ok (text, args)).
Proof. intros V d m text args. split; intros E; unfold find_by_pk, delete_by_pk; rewrite E; reflexivity. Qed.
Example C29_own_case : let r := Some (B "SELECT 1", [B "x"]) in
  let m := {| m_table := B "users"; m_db := None; m_columns := [B "id"]; m_sqlcolumns := None; m_values := [B "x"]; m_places := fun _ => B "(?)";
     m_key := SingleKey (B "id") 0 (B "x"); m_dup := None; m_omit := None; m_insert := r; m_find := r; m_update := r; m_delete := r |} in
  find_by_pk DMySQL m = Ok (B "SELECT 1", [B "x"]).
Proof. reflexivity. Qed.

Print Assumptions C28_single_key_refuted.
Print Assumptions C28_composite_key_refuted.
Print Assumptions C28_composite_of_one_partial.
Print Assumptions C27_upsert_pg_partial.
Print Assumptions C27_upsert_one_pg_partial.
Print Assumptions C27_upsert_pg_empty_refuted.
Print Assumptions C26_upsert_pg_partial.
Print Assumptions C26_upsert_one_pg_partial.
Print Assumptions C27_upsert_one_mysql_partial.
Print Assumptions C26_upsert_one_mysql_composite_partial.
Print Assumptions C26_upsert_one_mysql_composite_refuted.
Print Assumptions C27_upsert_mysql_partial.
Print Assumptions C27_upsert_one_mysql_empty_refuted.
Print Assumptions C26_upsert_mysql_auto_refuted.
Print Assumptions C26_upsert_sqlite_refuted.
Print Assumptions C25_generated_partial.
Print Assumptions C25_generated_refuted.
Print Assumptions C29_generated_partial.
Print Assumptions C27_generated_pg_partial.
Print Assumptions C27_generated_one_pg_partial.
Print Assumptions C27_generated_pg_composite_refuted.
Print Assumptions C26_generated_pg_partial.
Print Assumptions C26_generated_pg_refuted.
Print Assumptions C27_generated_mysql_partial.
Print Assumptions C27_generated_one_mysql_partial.
Print Assumptions C26_generated_mysql_partial.
Print Assumptions C26_generated_mysql_refuted.
Print Assumptions C40_empty_batch.
Print Assumptions C40_only_empty.
Print Assumptions C29_composite_words_refuted.
Print Assumptions C25_own_insert.
Print Assumptions C28_own_statement.
Print Assumptions C29_own_statements.
