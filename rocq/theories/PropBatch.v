(** C89, with batches and upserts: under any sequence of Insert, InsertOne, UpsertOne, Upsert, UpdateByPK, DeleteByPK and FindByPK a table with a key behaves as a map from keys to records. *)
From Coq Require Import List Bool ZArith Lia.
From Verif Require Import Base ModelCompiler ModelGen ModelRuntime ModelRows ModelWrite ModelHistory ModelBatch SpecSql SpecGen SpecRuntime SpecDb SpecStore SpecRows SpecConflict SpecWrite SpecHistory SpecBatch
  LemmasBase LemmasCompiler LemmasGen LemmasRuntime7 LemmasStore LemmasRows LemmasConflict PropRuntime PropRows PropGen PropConflict PropQuery PropWrite PropHistory LemmasBatch.
Import SpecRows ListNotations.

Section Programs.
Context {V St : Type}.
(** As in PropHistory *)
Variables (printable : N -> bool) (rename : bytes -> bytes) (wrap unwrap : gotype -> bytes * bytes).
Variables (sname : bytes) (ro : bool) (fs : list sfield) (t : table).
Hypothesis BUILT : build_table rename wrap unwrap sname ro fs = Ok t.
Hypothesis PATHS : NoDup (map c_gopath (t_columns t)).
Variables (d : driver) (on own : bool) (db : option bytes) (tn own_tn : bytes) (dup omit : option (list bytes)) (q : list bytes).
Hypothesis WRITTEN : all_written t.
Notation nothing := (fun _ : column => [] : list (tok V)).
Notation name := (fun c : column => [Name (c_name c)] : list (tok V)).
Hypothesis READ : readable d t nothing nothing name.
Hypothesis ADR : addresses (V:=V) d own t own_tn q.
Hypothesis U : usable (V:=V) d on t db tn None q (map name (t_columns t)).
Hypothesis BARE : bare_keys V d t.
Variables (pi pf pu : list piece) (ci cf cu : list column) (ti tf tu : bytes).
Hypothesis GI : gen_insert_one printable d own t = Some (pi, ci).
Hypothesis GF : gen_find_by_pk printable d own t = Some (pf, cf).
Hypothesis GU : gen_update_by_pk printable d own t = Some (pu, cu).
Hypothesis TI : eval_pieces own_tn pi = Some ti.
Hypothesis TF : eval_pieces own_tn pf = Some tf.
Hypothesis TU : eval_pieces own_tn pu = Some tu.
Notation fi := (fun val : column -> V => Some (ti, map val ci)).
Notation ff := (fun val : column -> V => Some (tf, map val cf)).
Notation fu := (fun val : column -> V => Some (tu, map val cu)).
Notation model_of := (record_model printable t d on db tn None dup omit fi ff fu).
Variables (D : semantics V) (held : St -> list (row V)) (fresh : St -> row V) (down : St -> Prop).
Hypothesis EQ : equality D.
Variables (conv : column -> V -> option V) (ask : St -> bytes -> list V -> option (St * rows (V:=V))) (exec : St -> bytes -> list V -> option (St * option Z)).
Hypothesis EXEC : obeys_exec D t (flavour_of d) q held fresh down exec.
Hypothesis ASK : obeys_ask D t (flavour_of d) q held fresh down ask.
Hypothesis LOSSLESS : forall c v, In c (t_columns t) -> conv c v = Some v.
Variables (int_type : column -> bool * Z) (num : Z -> V) (selects : bytes -> bytes).
Variable pass : St -> St.
Hypothesis PASS : forall s, held (pass s) = held s.
(** Upserts *)
Hypothesis UPASK : d = DPostgres -> obeys_upsert_ask D t (flavour_of d) q held fresh down ask.
Hypothesis UPEXEC : d = DMySQL -> obeys_upsert_exec D t (flavour_of d) q held fresh down exec.
Hypothesis DUP : d = DPostgres -> dup = None.
Hypothesis PLAIN : d = DPostgres -> on = false \/ length (key_of t) < 2.
(** The columns that the caller, or the model in PostgreSQL, leaves out *)
Definition leaves (o : upsert_opts) (c : column) : bool :=
  bmem (if on then id_quote d :: c_name c ++ [id_quote d] else c_name c) (o_omit o ++ match d, omit with DPostgres, Some l => l | _, _ => [] end).
(** SQLite has no upsert that it understands (C26), and UpsertOne for MySQL none for a composite key (C27) *)
Definition sensible (a : action V) : Prop :=
  match a with
  | Single _ | AddAll _ => True
  | Put o x => d <> DSQLite /\ (d = DMySQL -> length (key_of t) < 2) /\ overwrites D t leaves o [x]
  | PutAll o xs => d <> DSQLite /\ overwrites D t leaves o xs
  end.
Notation run_action := (run_action conv ask exec int_type num selects d model_of (gen_addrs t) (t_auto t)).
Notation program := (program conv ask exec int_type num selects d model_of (gen_addrs t) (t_auto t) pass).
Notation value r := (fun c : column => r (c_gopath c)).
Notation fl := (flavour_of d).
Notation key := (map c_name (key_of t)).
Notation unique := (unique_on D key).
Notation stands := (stands D t).
Notation then_ := (then_ D t leaves).
Notation once := (d = DPostgres).
Let W : wf t := build_table_wf _ _ _ _ _ _ _ BUILT.
Let HASKEY : key_of t <> [].
Proof. clear -GF. unfold gen_find_by_pk, has_pk in GF. unfold key_of. destruct (t_auto t); [discriminate|]. destruct (t_keys t); discriminate. Qed.
Lemma keys_are k : In k (t_columns t) -> is_key t k -> In k (key_of t).
Proof. intros _. unfold key_of, is_key. destruct WRITTEN as [-> _]. intros [I|I]; [exact I|discriminate]. Qed.
Lemma leaves_pg o c : d = DPostgres -> (leaves o c = false <-> ~ left_out DPostgres on omit o c).
Proof.
  intros E. unfold leaves, left_out. rewrite E. rewrite bmem_not_In, in_app_iff. split.
  - intros N [I|(l & -> & I)]; apply N; auto.
  - intros N [I|I]; apply N; [left; exact I|]. destruct omit as [l|]; [right; exists l; auto|destruct I].
Qed.
Lemma leaves_my o c : d = DMySQL -> (leaves o c = false <-> ~ left_out_my DMySQL on (o_omit o) c).
Proof. intros E. unfold leaves, left_out_my. rewrite E, app_nil_r. apply bmem_not_In. Qed.
Lemma distinct_iff ys : distinct_keys D t ys <-> ForallOrdPairs (fun x x' => ~ same_key D t x x') ys.
Proof.
  unfold distinct_keys. assert (X : forall x y, key_eq D t x y = false <-> ~ same_key D t x y) by (intros x y; rewrite <- key_eq_iff; destruct (key_eq D t x y); split; congruence).
  split; (induction 1 as [|a l F G IH]; constructor; [|exact IH]); apply Forall_forall; rewrite Forall_forall in F; intros y I; apply X, F, I.
Qed.

(** *** One action *)
Notation step_ok s m a := (let '(s', r) := run_action s a in fair_action D t once (down s) m a r /\ stands (held s') (fun z => then_ z (m z) a r)).
Lemma single s m c : stands (held s) m -> step_ok s m (Single c).
Proof.
  intros ST. cbn [ModelBatch.run_action].
  pose proof (one_call printable rename wrap unwrap sname ro fs t BUILT PATHS d on own db tn own_tn dup omit q WRITTEN READ ADR U BARE pi pf pu ci cf cu ti tf tu GI GF GU TI TF TU D held fresh down EQ conv ask exec EXEC ASK LOSSLESS int_type num selects m [] s c ST) as H.
  destruct (run_call _ _ _ _ _ _ _ _ _ _ s c) as [s' r]. destruct H as [F ST']. split; [right; exact F|]. eapply stands_same; [|exact ST']. intros z. cbn. unfold SpecBatch.then_. destruct r; reflexivity.
Qed.
Lemma failed s m a : stands (held s) m -> (forall c, a <> Single c) -> stands (held s) (fun z => then_ z (m z) a Failed).
Proof. intros ST N. eapply stands_same; [|exact ST]. intros z. destruct a as [c|ys|o y|o ys]; [destruct (N c eq_refl)|reflexivity..]. Qed.

Lemma insert_change s batch ret : change D unique (fresh s) (held s) (Insert q (map c_name (t_columns t)) (map (fun r => row_of (map (value r) (t_columns t))) batch) Fail ret)
  = if unique (held s ++ map (row_for D t (fresh s)) batch) then Some (held s ++ map (row_for D t (fresh s)) batch) else None.
Proof. unfold change. rewrite (lengths_ok t batch). cbn [andb]. rewrite map_map. reflexivity. Qed.
Lemma add_all s m ys : stands (held s) m -> step_ok s m (AddAll ys).
Proof.
  intros ST. cbn [ModelBatch.run_action]. destruct ys as [|y ys].
  { assert (E : fair_action D t once (down s) m (AddAll []) Done /\ stands (held s) (fun z => then_ z (m z) (AddAll []) Done)).
    { split; [|exact ST]. right. left. split; [split; [constructor|intros y []]|reflexivity]. }
    cbn [map insert]. unfold run_insert_pg. cbn [map insert write_rows send_all all_done]. destruct d; exact E. }
  destruct (C25_generated_partial printable rename wrap unwrap sname ro fs t BUILT d on db tn None dup omit fi ff fu q _ U y ys WRITTEN) as (text & args & E & R).
  assert (YES : unique (held s ++ map (row_for D t (fresh s)) (y :: ys)) = true -> forall s', held s' = held s ++ map (row_for D t (fresh s)) (y :: ys) ->
    fair_action D t once (down s) m (AddAll (y :: ys)) Done /\ stands (held s') (fun z => then_ z (m z) (AddAll (y :: ys)) Done)).
  { intros UN s' HS. destruct (adds_step D t W (fresh s) (y :: ys) (held s) m ST UN) as [ST' NEW]. split; [right; left; auto|]. rewrite HS. exact ST'. }
  assert (NO : down s \/ unique (held s ++ map (row_for D t (fresh s)) (y :: ys)) = false -> fair_action D t once (down s) m (AddAll (y :: ys)) Failed /\ stands (held s) (fun z => then_ z (m z) (AddAll (y :: ys)) Failed)).
  { intros H. split; [|apply failed; [exact ST|discriminate]]. destruct H as [H|H]; [left; auto|]. right. right. split; [|reflexivity]. intros NEW. rewrite (adds_free D t W (fresh s) (y :: ys) (held s) m ST NEW) in H. discriminate. }
  assert (OTHERS : d <> DPostgres -> let '(s', r) := send_all exec s (insert d (map model_of (y :: ys))) in fair_action D t once (down s) m (AddAll (y :: ys)) r /\ stands (held s') (fun z => then_ z (m z) (AddAll (y :: ys)) r)).
  { intros _. unfold record in *. rewrite E. cbn [send_all send]. pose proof (EXEC s text args _ R Logic.eq_refl) as P. cbv beta iota in P. rewrite insert_change in P. destruct (exec s text args) as [[s' id]|].
    - destruct (unique _) eqn:UN in P; [|discriminate P]. apply YES; [exact UN|congruence].
    - apply NO. destruct P as [P|P]; [left; exact P|]. right. destruct (unique _) in P |- *; [discriminate P|reflexivity]. }
  destruct d eqn:DD; [apply OTHERS; discriminate| |apply OTHERS; discriminate]. clear OTHERS.
  unfold run_insert_pg. unfold record in *. rewrite E. cbn [write_rows]. pose proof (ASK s text args _ R Logic.eq_refl) as P. cbv beta iota in P. rewrite insert_change in P. destruct (ask s text args) as [[s' rs]|].
  - destruct P as [P ->]. destruct (unique _) eqn:UN in P; [|discriminate P]. rewrite map_map.
    pose proof (filled_by D t conv PATHS (map (row_for D t (fresh s)) (y :: ys)) (y :: ys) (map_length _ _)) as F. rewrite map_map in F. change (ret_items DPostgres (map name (t_columns t))) with (map name (t_columns t)).
    change (fun x : bytes -> V => map (eval D (proposed D (fresh s) (map c_name (t_columns t)) (row_of (map (value x) (t_columns t))))) (map name (t_columns t))) with (fun x : bytes -> V => map (eval D (row_for D t (fresh s) x)) (map name (t_columns t))).
    destruct (fill_rows _ _ _ _) as [recs [n| |]]; cbn [all_done]; [apply YES; [exact UN|congruence]| |contradiction].
    exfalso. destruct F as (r & _ & c & I & F). rewrite (LOSSLESS c _ I) in F. discriminate.
  - cbn [all_done]. apply NO. destruct P as [P|P]; [left; exact P|]. right. destruct (unique _) in P |- *; [discriminate P|reflexivity].
Qed.

Notation conflict tgt sets := (DoUpdate tgt (map (fun c : bytes => (c, c)) sets)).
Notation stmt_of batch tgt sets items := (Insert q (map c_name (t_columns t)) (map (fun r : bytes -> V => row_of (map (value r) (t_columns t))) batch) (conflict tgt sets) items).
(** PostgreSQL: the rows are put one after the other, unless two have the same key *)
Lemma pg_puts s batch sets items : (forall c, In c (t_columns t) -> (In (c_name c) sets -> ~ is_key t c)) -> unique (held s) = true -> (forall x, In x batch -> has_value D t x) ->
  match pg_insert D [key] (fresh s) (held s) (stmt_of batch key sets items) with
  | Some (rows', vs) => distinct_keys D t batch /\ rows' = puts D key (conflict key sets) (held s) (map (row_for D t (fresh s)) batch) /\
      exists ys, length ys = length batch /\ vs = map (fun y => map (eval D y) items) ys
  | None => ~ distinct_keys D t batch
  end.
Proof.
  intros SE UN A. set (c := conflict key sets).
  assert (K : keeps key c). { intros k I. cbn. rewrite map_map. cbn [fst]. rewrite map_id. apply in_map_iff in I as (cc & <- & I). intros J. apply (SE cc (key_in t W cc I) J), key_of_is, I. }
  unfold pg_insert. rewrite (lengths_ok t batch), (proposals D t (fresh s) batch), (arbiter_key t [key] c (or_introl Logic.eq_refl) Logic.eq_refl). cbn [andb].
  assert (AL : Forall (alive D key) (map (row_for D t (fresh s)) batch)) by (apply Forall_forall; intros p I; apply in_map_for in I as (x & I & ->); apply (alive_iff D t (fresh s) W), A, I).
  assert (UN' : unique_on D key (map snd (map (fun r => (false, r)) (held s))) = true) by (rewrite unmarked; exact UN).
  destruct (pg_rows D [key] c _ _) as [[st ys]|] eqn:P.
  - destruct (pg_distinct D EQ key [key] _ _ K AL _ _ _ UN' P) as (F & F2). pose proof (pg_rows_puts D key [key] c _ Logic.eq_refl _ _ _ P) as PP. rewrite unmarked in PP. split; [apply distinct_iff, (pairs_for D t (fresh s) W), F|]. split; [exact PP|].
    exists ys. split; [|reflexivity]. rewrite <- (map_length (row_for D t (fresh s)) batch). clear -F2. induction F2; [reflexivity|]. cbn [length]. f_equal. assumption.
  - intros DK. apply distinct_iff in DK.
    destruct (pg_succeeds D EQ key c (map (row_for D t (fresh s)) batch) Logic.eq_refl K (fun _ _ _ => proj2 (pairs_for D t (fresh s) W batch) DK) _ UN') as (r & P').
    + intros tgt s0 _ x p I M _. apply in_map_iff in I as (r & <- & _). discriminate M.
    + rewrite P in P'. discriminate P'.
Qed.
Lemma my_puts s batch sets items : (forall c, In c (t_columns t) -> (In (c_name c) sets -> ~ is_key t c)) -> unique (held s) = true ->
  my_insert D [key] (fresh s) (held s) (stmt_of batch [] sets items) = Some (puts D key (conflict [] sets) (held s) (map (row_for D t (fresh s)) batch)).
Proof.
  intros SE UN. set (c := conflict [] sets).
  assert (K : keeps key c). { intros k I. cbn. rewrite map_map. cbn [fst]. rewrite map_id. apply in_map_iff in I as (cc & <- & I). intros J. apply (SE cc (key_in t W cc I) J), key_of_is, I. }
  unfold my_insert. rewrite (lengths_ok t batch), (proposals D t (fresh s) batch). apply (my_rows_puts D EQ key); [discriminate|exact K|exact UN].
Qed.
Lemma put_one s m o x : stands (held s) m -> sensible (Put o x) -> step_ok s m (Put o x).
Proof.
  intros ST (NS & ONE & NO & OD & HV & c & IC & NK & NL). cbn [ModelBatch.run_action]. pose proof ST as [UN _].
  assert (FAIL : down s -> fair_action D t once (down s) m (Put o x) Failed /\ stands (held s) (fun z => then_ z (m z) (Put o x) Failed)) by (intros H; split; [left; auto|apply failed; [exact ST|discriminate]]).
  destruct d eqn:DD; [| |contradiction].
  - rewrite NO. cbn [negb].
    destruct (C27_generated_one_mysql_partial printable rename wrap unwrap sname ro fs t BUILT DMySQL on db tn None dup omit fi ff fu q _ U HASKEY BARE true (o_omit o) x Logic.eq_refl WRITTEN (ONE Logic.eq_refl)) as (text & args & sets & E & SB & SE & R).
    assert (SN : sets <> []) by (intros ->; apply (proj2 (SE c IC)); split; [exact NK|apply (leaves_my o c DD), NL]). specialize (R (or_intror SN)). unfold my_conflict in R.
    unfold record in *. rewrite E. cbn [send]. pose proof (UPEXEC Logic.eq_refl s text args _ _ _ _ _ R) as P. change [row_of (map (value x) (t_columns t))] with (map (fun r : bytes -> V => row_of (map (value r) (t_columns t))) [x]) in P.
    rewrite (my_puts s [x] sets []) in P; [|intros k I J; apply (SE k I) in J; apply J|exact UN]. destruct (exec s text args) as [[s' id]|].
    + split; [right; reflexivity|]. injection P as P. rewrite <- P. refine (puts_step D t leaves o W EQ PATHS (fresh s) sets [] _ keys_are [x] (held s) m ST). intros k I. rewrite (leaves_my o k DD). apply SE, I.
    + destruct P as [P|P]; [apply FAIL, P|discriminate P].
  - destruct (C27_generated_one_pg_partial printable rename wrap unwrap sname ro fs t BUILT DPostgres on db tn None dup omit fi ff fu q _ U HASKEY BARE o OD (DUP Logic.eq_refl) x Logic.eq_refl WRITTEN (PLAIN Logic.eq_refl)) as (text & args & sets & E & SB & SE & R).
    assert (SN : sets <> []) by (intros ->; apply (proj2 (SE c IC)); split; [exact NK|apply (leaves_pg o c DD), NL]). specialize (R (or_intror SN)). unfold conflict_of in R. rewrite NO in R.
    unfold run_upsert_one_pg. unfold record in *. rewrite E. cbn [write_row]. pose proof (UPASK Logic.eq_refl s text args _ _ _ _ _ R) as P. change [row_of (map (value x) (t_columns t))] with (map (fun r : bytes -> V => row_of (map (value r) (t_columns t))) [x]) in P.
    pose proof (pg_puts s [x] sets (map name (t_columns t)) (fun k I J => proj1 (proj1 (SE k I) J)) UN HV) as Q. destruct (pg_insert _ _ _ _ _) as [[rows' vs]|].
    + destruct Q as (_ & -> & ys & L & ->). destruct (ask s text args) as [[s' rs]|].
      * destruct P as (vs & P & ->). injection P as P <-.
        pose proof (scanned_by D t conv PATHS ys x) as F. destruct (row_scan _ _ _ _) as [rec [[]| |]]; cbn [all_done]; [| |contradiction].
        -- split; [right; reflexivity|]. rewrite <- P. refine (puts_step D t leaves o W EQ PATHS (fresh s) sets key _ keys_are [x] (held s) m ST). intros k I. rewrite (leaves_pg o k DD). apply SE, I.
        -- exfalso. destruct F as [->|(y & rest & _ & k & I & F)]; [discriminate L|]. rewrite (LOSSLESS k _ I) in F. discriminate.
      * cbn [all_done]. destruct P as [P|P]; [apply FAIL, P|discriminate P].
    + exfalso. apply Q. repeat constructor.
Qed.
Lemma put_all s m o xs : stands (held s) m -> sensible (PutAll o xs) -> step_ok s m (PutAll o xs).
Proof.
  intros ST (NS & NO & OD & HV & c & IC & NK & NL). cbn [ModelBatch.run_action]. pose proof ST as [UN _].
  destruct xs as [|x xs].
  { assert (E : fair_action D t once (down s) m (PutAll o []) Done /\ stands (held s) (fun z => then_ z (m z) (PutAll o []) Done)).
    { split; [|exact ST]. right. left. split; [constructor|reflexivity]. }
    unfold run_upsert_pg. cbn [map upsert_pg upsert_my write_rows send_all all_done]. destruct d; exact E. }
  assert (FAIL : down s \/ once /\ ~ distinct_keys D t (x :: xs) -> fair_action D t once (down s) m (PutAll o (x :: xs)) Failed /\ stands (held s) (fun z => then_ z (m z) (PutAll o (x :: xs)) Failed)).
  { intros H; split; [|apply failed; [exact ST|discriminate]]. destruct H as [H|[H1 H2]]; [left; auto|right; right; auto]. }
  destruct d eqn:DD; [| |contradiction].
  - rewrite NO. cbn [negb].
    destruct (C27_generated_mysql_partial printable rename wrap unwrap sname ro fs t BUILT DMySQL on db tn None dup omit fi ff fu q _ U HASKEY BARE true (o_omit o) x xs Logic.eq_refl WRITTEN) as (text & args & sets & E & SB & SE & R).
    assert (SN : sets <> []) by (intros ->; apply (proj2 (SE c IC)); split; [exact NK|apply (leaves_my o c DD), NL]). specialize (R (or_intror SN)). unfold my_conflict in R.
    unfold record in *. rewrite E. cbn [send_all send]. pose proof (UPEXEC Logic.eq_refl s text args _ _ _ _ _ R) as P.
    rewrite (my_puts s (x :: xs) sets []) in P; [|intros k I J; apply (SE k I) in J; apply J|exact UN]. destruct (exec s text args) as [[s' id]|].
    + split; [right; left; split; [discriminate|reflexivity]|]. injection P as P. rewrite <- P. refine (puts_step D t leaves o W EQ PATHS (fresh s) sets [] _ keys_are (x :: xs) (held s) m ST). intros k I. rewrite (leaves_my o k DD). apply SE, I.
    + destruct P as [P|P]; [apply FAIL; left; exact P|discriminate P].
  - destruct (C27_generated_pg_partial printable rename wrap unwrap sname ro fs t BUILT DPostgres on db tn None dup omit fi ff fu q _ U HASKEY BARE o OD (DUP Logic.eq_refl) x xs Logic.eq_refl WRITTEN (PLAIN Logic.eq_refl)) as (text & args & sets & E & SB & SE & R).
    assert (SN : sets <> []) by (intros ->; apply (proj2 (SE c IC)); split; [exact NK|apply (leaves_pg o c DD), NL]). specialize (R (or_intror SN)). unfold conflict_of in R. rewrite NO in R.
    unfold run_upsert_pg. unfold record in *. rewrite E. cbn [write_rows]. pose proof (UPASK Logic.eq_refl s text args _ _ _ _ _ R) as P.
    pose proof (pg_puts s (x :: xs) sets (map name (t_columns t)) (fun k I J => proj1 (proj1 (SE k I) J)) UN HV) as Q. destruct (pg_insert _ _ _ _ _) as [[rows' vs]|].
    + destruct Q as (DK & -> & ys & L & ->). destruct (ask s text args) as [[s' rs]|].
      * destruct P as (vs & P & ->). injection P as P <-.
        pose proof (filled_by D t conv PATHS ys (x :: xs) L) as F. destruct (fill_rows _ _ _ _) as [recs [n| |]]; cbn [all_done]; [| |contradiction].
        -- split; [right; left; split; [intros _; exact DK|reflexivity]|]. rewrite <- P. refine (puts_step D t leaves o W EQ PATHS (fresh s) sets key _ keys_are (x :: xs) (held s) m ST). intros k I. rewrite (leaves_pg o k DD). apply SE, I.
        -- exfalso. destruct F as (y & _ & k & I & F). rewrite (LOSSLESS k _ I) in F. discriminate.
      * cbn [all_done]. destruct P as [P|P]; [apply FAIL; left; exact P|discriminate P].
    + destruct (ask s text args) as [[s' rs]|]; [destruct P as (vs & P & _); discriminate P|]. cbn [all_done]. apply FAIL. right. split; [reflexivity|exact Q].
Qed.
Lemma one_action s m a : stands (held s) m -> sensible a -> step_ok s m a.
Proof. intros ST OK. destruct a as [c|ys|o x|o xs]; [apply single, ST|apply add_all, ST|apply put_one; assumption|apply put_all; assumption]. Qed.

(** *** Programs *)
Notation contents := (contents (St:=St) D t leaves).
Lemma all_actions start acts : forall tr s, Forall sensible acts -> stands (held s) (contents start tr) -> let '(tr', last) := program s acts in stands (held last) (contents start (tr ++ tr')) /\
  forall pre s1 a r post, tr' = pre ++ (s1, a, r) :: post -> fair_action D t once (down s1) (contents start (tr ++ pre)) a r.
Proof.
  induction acts as [|a acts IH]; intros tr s OK ST; cbn [ModelBatch.program].
  - rewrite app_nil_r. split; [exact ST|]. intros [|e pre]; discriminate.
  - inversion OK as [|a' l OA OK']; subst. pose proof (one_action s _ a ST OA) as ONE. destruct (run_action s a) as [s' r]. destruct ONE as [F ST'].
    assert (ST2 : stands (held (pass s')) (contents start (tr ++ [(s, a, r)]))). { rewrite PASS. eapply stands_same; [|exact ST']. intros z. unfold SpecBatch.contents. rewrite fold_left_app. reflexivity. }
    specialize (IH _ _ OK' ST2). destruct (program (pass s') acts) as [tr' last]. destruct IH as [IH1 IH2]. rewrite <- app_assoc in IH1. split; [exact IH1|].
    intros [|e pre] s1 a1 r1 post E; cbn [app] in E.
    + injection E as <- <- <- <-. rewrite app_nil_r. exact F.
    + injection E as <- E. specialize (IH2 _ _ _ _ _ E). rewrite <- app_assoc in IH2. exact IH2.
Qed.
(** Every call replies what the map says: Insert succeeds exactly when all keys are new and no two are the same; Upsert always, in PostgreSQL when no two keys are the same;
    only when the database cannot be reached does a call fail otherwise.
    Missing: DO NOTHING, where UpsertOne fails for a key that is there (C86_one_nothing_refuted), upserts of a table whose columns are all in the key or left out (C27), composite keys of UpsertOne in MySQL, SQLite, and what is said at C89_replies_partial. *)
Theorem C89_upserts_partial start s0 acts pre s a r post : Forall sensible acts -> stands (held s0) start ->
  fst (program s0 acts) = pre ++ (s, a, r) :: post -> fair_action D t once (down s) (contents start pre) a r.
Proof. intros OK ST E. pose proof (all_actions start acts [] s0 OK ST) as H. destruct (program s0 acts) as [tr last]. destruct H as [_ H]. exact (H _ _ _ _ _ E). Qed.
(** The table at the end holds the map *)
Theorem C89_upserted_table_partial start s0 acts : Forall sensible acts -> stands (held s0) start -> let '(tr, last) := program s0 acts in
  forall x, match contents start tr x with Some y => one_row D t (held last) x (whole t y) | None => forall r, In r (held last) -> ~ has_key_of D t r x end.
Proof.
  intros OK ST. pose proof (all_actions start acts [] s0 OK ST) as H. destruct (program s0 acts) as [tr last]. destruct H as [H _]. cbn [app] in H. intros x. pose proof H as [UN H']. specialize (H' x). destruct (contents start tr x) as [y|] eqn:C; [|exact H'].
  destruct H' as (r & I & K & WH). exists r. split; [exact I|]. split; [exact K|]. split; [|exact WH]. intros r' I' K'. pose proof (has_same D t EQ r r' x K K') as S1. apply unique_iff in UN. clear -EQ UN I I' S1.
  induction UN as [|a rows F UN IH]; [destruct I|]. rewrite Forall_forall in F. destruct I as [->|I], I' as [->|I']; [reflexivity| | |apply IH; assumption].
  - rewrite (F r' I') in S1. discriminate.
  - rewrite (same_sym D EQ), (F r I) in S1. discriminate.
Qed.
(** What was upserted last is found *)
Theorem C89_upserted_found_partial s0 acts s o x s1 y r post pre : Forall sensible acts -> held s0 = [] ->
  fst (program s0 acts) = pre ++ (s, Put o x, Done) :: (s1, Single (Looks y), r) :: post -> key_eq D t x y = true -> ~ down s1 ->
  exists z, r = Found z /\ forall c, In c (t_columns t) -> ~ In c (key_of t) -> leaves o c = false -> z (c_gopath c) = x (c_gopath c).
Proof.
  intros OK H0 E K UP. assert (ST : stands (held s0) (fun _ => None)) by (rewrite H0; split; [reflexivity|intros z r0 []]).
  assert (E' : fst (program s0 acts) = (pre ++ [(s, Put o x, Done)]) ++ (s1, Single (Looks y), r) :: post) by (rewrite <- app_assoc; exact E).
  pose proof (C89_upserts_partial (fun _ => None) s0 acts _ s1 (Single (Looks y)) r post OK ST E') as H. destruct H as [[DN _]|H]; [contradiction|]. destruct H as [[DN _]|H]; [contradiction|]. cbn [about] in H.
  unfold SpecBatch.contents in H. rewrite fold_left_app in H. cbn [fold_left snd fst SpecBatch.then_] in H. unfold put_in in H. rewrite K in H.
  destruct H as (z & -> & AL & _). exists z. split; [reflexivity|]. intros c IC NK L. rewrite <- (AL c IC). destruct (fold_left _ pre None) as [old|]; [|reflexivity].
  unfold put_over. destruct (bmem (c_gopath c) _) eqn:M; [|reflexivity]. exfalso. apply bmem_In in M. apply in_map_iff in M as (k & EP & IK). apply in_app_iff in IK as [IK|IK].
  - apply NK. rewrite <- (path_inj t PATHS k c (key_in t W k IK) IC EP). exact IK.
  - apply filter_In in IK as [IK L']. rewrite (path_inj t PATHS k c IK IC EP) in L'. congruence.
Qed.
End Programs.

(** *** A concrete case: the database of C89_case with upserts *)
Definition ba_exec (d : driver) (s : hi_state) (text : bytes) (args : list Z) : option (hi_state * option Z) :=
  match read (flavour_of d) text args with
  | Some (Insert q cols rs (DoUpdate tgt sets) ret) =>
      if hd false (snd s) then None else match my_insert wr_db [[B "id"]] (hi_fresh s) (fst s) (Insert q cols rs (DoUpdate tgt sets) ret) with Some rows' => Some ((rows', snd s), None) | None => None end
  | _ => hi_exec d s text args
  end.
Definition ba_ask (d : driver) (s : hi_state) (text : bytes) (args : list Z) : option (hi_state * rows (V:=Z)) :=
  match read (flavour_of d) text args with
  | Some (Insert q cols rs (DoUpdate tgt sets) ret) =>
      if hd false (snd s) then None else match pg_insert wr_db [[B "id"]] (hi_fresh s) (fst s) (Insert q cols rs (DoUpdate tgt sets) ret) with Some (rows', vs) => Some ((rows', snd s), complete vs false) | None => None end
  | _ => hi_ask d s text args
  end.
Definition ba_opts (l : list bytes) : upsert_opts := {| o_nothing := false; o_dup := []; o_omit := l |}.
Definition ba_run (d : driver) := program (fun _ v => Some v) (ba_ask d) (ba_exec d) (fun _ => (true, 64%Z)) (fun z => z) (fun n => n) d (hi_model d) (gen_addrs t_one) (t_auto t_one) hi_pass.
(** The table, the texts and the database without upserts are those of C89_hypotheses *)
Example C89_upsert_hypotheses : forall d,
  obeys_exec wr_db t_one (flavour_of d) [B "users"] fst hi_fresh hi_down (ba_exec d) /\ obeys_ask wr_db t_one (flavour_of d) [B "users"] fst hi_fresh hi_down (ba_ask d) /\
  obeys_upsert_exec wr_db t_one (flavour_of d) [B "users"] fst hi_fresh hi_down (ba_exec d) /\ obeys_upsert_ask wr_db t_one (flavour_of d) [B "users"] fst hi_fresh hi_down (ba_ask d) /\
  length (key_of t_one) < 2 /\ (d <> DSQLite -> forall x xs, sensible t_one d false None wr_db (Put (ba_opts [B "name"]) x) /\ sensible t_one d false None wr_db (PutAll (ba_opts []) xs)).
Proof.
  intros d. destruct (C89_hypotheses d) as (_ & _ & _ & _ & _ & _ & _ & _ & EX & AS & _).
  split; [|split; [|split; [|split; [|split; [cbn; lia|]]]]].
  - intros s text args st R T. specialize (EX s text args st R T). unfold ba_exec. rewrite R. destruct st as [? ? ? [] ?|? ? ? ? ? ? ? ?|? ? ? [] []|? ? [] []]; try exact I; exact EX.
  - intros s text args st R T. specialize (AS s text args st R T). unfold ba_ask. rewrite R. destruct st as [? ? ? [] ?|? ? ? [] [] ? ? ?|? ? ? [] []|? ? [] []]; try exact I; exact AS.
  - intros s text args cols rs tgt sets ret st R. unfold ba_exec, hi_down. rewrite R. unfold st. destruct (hd false (snd s)); [left; reflexivity|]. change (map c_name (key_of t_one)) with [B "id"]. destruct (my_insert _ _ _ _ _) as [rows'|] eqn:C; auto.
  - intros s text args cols rs tgt sets ret st R. unfold ba_ask, hi_down. rewrite R. unfold st. destruct (hd false (snd s)); [left; reflexivity|]. change (map c_name (key_of t_one)) with [B "id"]. destruct (pg_insert _ _ _ _ _) as [[rows' vs]|] eqn:C; [|auto]. exists vs. auto.
  - assert (HV : forall x, has_value wr_db t_one x) by apply C88_hypotheses. intros NS x xs. split.
    + split; [exact NS|]. split; [intros _; cbn; lia|]. split; [reflexivity|]. split; [reflexivity|]. split; [auto|]. destruct d; [| |contradiction]; (eexists; split; [right; right; left; reflexivity|split; [intros [H|H]; vm_compute in H; [destruct H as [H|[]]; discriminate H|discriminate H]|reflexivity]]).
    + split; [exact NS|]. split; [reflexivity|]. split; [reflexivity|]. split; [auto|]. destruct d; [| |contradiction]; (eexists; split; [right; right; left; reflexivity|split; [intros [H|H]; vm_compute in H; [destruct H as [H|[]]; discriminate H|discriminate H]|reflexivity]]).
Qed.
(** Insert 1 and 2; insert 3 and 1, refused as a whole; upsert 2 without its name, and 4; upsert 4 and 5; find 2, 4 and 3; with the database away an upsert fails; upsert 5 twice at once *)
Example C89_upsert_case : forall d, d <> DSQLite -> let '(tr, last) := ba_run d ([], [false; false; false; false; false; false; false; false; true]) [AddAll [wr_rec 1 5 50; wr_rec 2 6 60]; AddAll [wr_rec 3 7 70; wr_rec 1 8 80]; Put (ba_opts [B "name"]) (wr_rec 2 9 90); Put (ba_opts [B "name"]) (wr_rec 4 4 40);
    PutAll (ba_opts []) [wr_rec 4 1 10; wr_rec 5 2 20]; Single (Looks (wr_rec 2 0 0)); Single (Looks (wr_rec 4 0 0)); Single (Looks (wr_rec 3 0 0)); Put (ba_opts []) (wr_rec 1 0 0); PutAll (ba_opts []) [wr_rec 5 3 30; wr_rec 5 4 40]] in
  let last_reply := match d with DPostgres => [(-1)%Z] | _ => [] end in
  map (fun e => match snd e with Done => [] | Found x => wr_read x | Failed => [(-1)%Z] | Panicked => [(-2)%Z] end) tr = ([[]; [-1]; []; []; []; [2; 6; 90]; [4; 1; 10]; [-1]; [-1]; last_reply]%Z) /\
  map wr_show (fst last) = [[1; 5; 50]; [2; 6; 90]; [4; 1; 10]; match d with DPostgres => [5; 2; 20] | _ => [5; 4; 40] end]%Z.
Proof. intros [] N; [| |contradiction]; vm_compute; split; reflexivity. Qed.
Print Assumptions C89_upserts_partial.
Print Assumptions C89_upserted_table_partial.
Print Assumptions C89_upserted_found_partial.
