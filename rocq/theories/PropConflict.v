(** C86: an upsert leaves one row for each key, with the values of the record. *)
From Coq Require Import List Bool.
From Verif Require Import Base ModelCompiler ModelGen ModelRuntime SpecSql SpecGen SpecRuntime SpecDb SpecStore SpecConflict LemmasBase LemmasCompiler LemmasRuntime7 LemmasStore LemmasConflict PropRuntime ModelRows.
Import ListNotations.

Section Rows.
Context {V : Type}.
Variables (D : semantics V) (t : table) (defaults : row V).
Hypothesis EQ : equality D.
Hypothesis W : wf t.
Notation value x := (fun c : column => x (c_gopath c)).
Notation cols := (map c_name (t_columns t)).
Notation key := (map c_name (key_of t)).
Definition row_for (x : bytes -> V) : row V := proposed D defaults cols (row_of (map (value x) (t_columns t))).
Lemma row_for_is x : row_for x = assigned (map (fun c => (c_name c, x (c_gopath c))) (t_columns t)) defaults.
Proof. unfold row_for, proposed, row_of. rewrite !map_map. f_equal. induction (t_columns t) as [|c l IH]; [reflexivity|]. cbn [map combine]. rewrite IH. reflexivity. Qed.
Lemma row_for_whole x : whole t x (row_for x).
Proof.
  intros c I. rewrite row_for_is. pose proof (wf_names t W) as ND. revert I ND. induction (t_columns t) as [|c' l IH]; [intros []|]. intros I ND. cbn [map] in ND. inversion ND as [|a b NI ND']; subst. cbn [map assigned]. destruct I as [->|I]; [rewrite bseq_refl; reflexivity|].
  destruct (bseq (c_name c) (c_name c')) eqn:E; [|apply IH; assumption]. apply bseq_eq in E. exfalso. apply NI. rewrite <- E. apply in_map, I.
Qed.
Lemma key_column k : In k (key_of t) -> In k (t_columns t).
Proof. apply (key_in t W). Qed.
Lemma key_iff y x : same_on D key y (row_for x) = true <-> has_key_of D t y x.
Proof.
  rewrite same_iff. split.
  - intros H k I. rewrite <- (row_for_whole x k (key_column k I)). apply H, in_map, I.
  - intros H n I. apply in_map_iff in I as (k & <- & I). rewrite (row_for_whole x k (key_column k I)). apply H, I.
Qed.
Lemma same_key_iff x x' : same_on D key (row_for x) (row_for x') = true <-> same_key D t x x'.
Proof. rewrite key_iff. unfold has_key_of, has_key, same_key. split; intros H k I; specialize (H k I); rewrite (row_for_whole x k (key_column k I)) in *; exact H. Qed.
Lemma key_false y x : same_on D key y (row_for x) = false <-> ~ has_key_of D t y x.
Proof. rewrite <- key_iff. destruct (same_on D key y (row_for x)); split; congruence. Qed.
Lemma same_key_false x x' : same_on D key (row_for x) (row_for x') = false <-> ~ same_key D t x x'.
Proof. rewrite <- same_key_iff. destruct (same_on D key (row_for x) (row_for x')); split; congruence. Qed.
Lemma alive_iff x : alive D key (row_for x) <-> has_value D t x.
Proof. apply same_key_iff. Qed.
Lemma in_map_for x l : In x (map row_for l) -> exists y, In y l /\ x = row_for y.
Proof. intros I. apply in_map_iff in I as (y & <- & I). eauto. Qed.

Lemma one_row_of rows x y (P : row V -> Prop) : unique_on D key rows = true -> look D key (row_for x) rows = Some y -> P y -> one_row D t rows x P.
Proof.
  intros U L HP. destruct (look_some D key _ _ _ L) as (I & S). exists y. split; [exact I|]. split; [apply key_iff, S|]. split; [|exact HP]. intros y' I' K. apply key_iff in K. rewrite (look_only D EQ key rows _ _ U I' K) in L. congruence.
Qed.
Lemma look_old rows x old : unique_on D key rows = true -> In old rows -> has_key_of D t old x -> look D key (row_for x) rows = Some old.
Proof. intros U I H. apply (look_only D EQ key); [exact U|exact I|apply key_iff, H]. Qed.
Lemma look_new rows x : (forall old, In old rows -> ~ has_key_of D t old x) -> look D key (row_for x) rows = None.
Proof. intros N. apply look_none. destruct (existsb _ rows) eqn:E; [|reflexivity]. apply existsb_exists in E as (r & I & S). exfalso. apply (N r I), key_iff, S. Qed.

Section Batch.
Variables (left : column -> Prop) (sets : list bytes).
Hypothesis SUB : sublist sets cols.
Hypothesis SETS : forall c, In c (t_columns t) -> (In (c_name c) sets <-> ~ is_key t c /\ ~ left c).
Lemma key_is_key k : In k (key_of t) -> is_key t k.
Proof. unfold key_of, is_key. destruct (t_auto t) as [a|]; [intros [<-|[]]; right; reflexivity|intros I; left; exact I]. Qed.
Lemma sets_keep tgt : keeps key (DoUpdate tgt (map (fun c => (c, c)) sets)).
Proof. intros k I. cbn. rewrite map_map. cbn [fst]. rewrite map_id. apply in_map_iff in I as (c & <- & I). intros J. apply (proj1 (proj1 (SETS c (key_column c I)) J)). apply key_is_key, I. Qed.
Lemma sublist_in {A} (l l' : list A) x : sublist l l' -> In x l -> In x l'.
Proof. induction 1; cbn [In]; intuition. Qed.
Lemma updated_merged x old : merged t left x old (updated (map (fun c => (c, c)) sets) (row_for x) old).
Proof.
  split.
  - intros c I NK NL. rewrite updated_same by (apply SETS; auto). apply row_for_whole, I.
  - intros n H. apply updated_other. rewrite map_map. cbn [fst]. rewrite map_id. intros J. pose proof (sublist_in _ _ _ SUB J) as C. apply in_map_iff in C as (c & E & I). rewrite <- E in J. apply SETS in J as (NK & NL); [|exact I]. exact (H c I NK NL E).
Qed.
Lemma puts_upserted tgt batch rows : unique_on D key rows = true -> (forall x, In x batch -> has_value D t x) ->
  upserted D t left batch rows (puts D key (DoUpdate tgt (map (fun c => (c, c)) sets)) rows (map row_for batch)).
Proof.
  intros U A. set (c := DoUpdate tgt (map (fun c => (c, c)) sets)). assert (K : keeps key c) by apply sets_keep. split.
  - intros f F. assert (X : forall qs, (forall x, In x qs -> In x batch) -> forall rows, filter f (puts D key c rows (map row_for qs)) = filter f rows).
    { induction qs as [|x qs IH]; intros H rows0; [reflexivity|]. cbn [map puts fold_left]. fold (puts D key c (put D key c rows0 (row_for x)) (map row_for qs)). rewrite IH by (intros y I; apply H; right; exact I). pose proof (H x (or_introl eq_refl)) as HX.
      apply (put_others D key); [exact K| |apply alive_iff, A, HX]. intros r S. apply (F r x HX), key_iff, S. }
    apply X. auto.
  - intros l1 x l2 -> N. assert (AX : alive D key (row_for x)) by (apply alive_iff, A, in_app_iff; right; left; reflexivity). rewrite map_app. cbn [map].
    destruct (puts_last D EQ key c (map row_for l1) (row_for x) (map row_for l2) rows K AX) as (o & L & O); [intros q I; apply in_map_for in I as (x' & I & ->); apply same_key_false, N, I|].
    eapply one_row_of; [apply (puts_unique D EQ key); assumption|exact L|]. split.
    + intros cc I NK NL. destruct o as [old|]; [|apply row_for_whole, I]. cbn [overlay c]. rewrite updated_same by (apply SETS; auto). apply row_for_whole, I.
    + intros N1. assert (O' : o = look D key (row_for x) rows). { rewrite <- O. rewrite (puts_look D EQ key) by exact K. apply seen_others. intros q I. apply in_map_for in I as (x' & I & ->). apply same_key_false, N1, I. }
      split.
      * intros old I H. rewrite (look_old rows x old U I H) in O'. rewrite O'. cbn [overlay c]. apply updated_merged.
      * intros NO. rewrite (look_new rows x NO) in O'. rewrite O'. apply row_for_whole.
Qed.
End Batch.
Lemma puts_added tgt batch rows : unique_on D key rows = true -> (forall x, In x batch -> has_value D t x) -> added_only D t batch rows (puts D key (DoNothing tgt) rows (map row_for batch)).
Proof.
  intros U A. set (c := DoNothing tgt). assert (K : keeps key c) by exact I. split.
  - clear U A. generalize (map row_for batch). intros ps. revert rows. induction ps as [|p ps IH]; intros rows; [exists []; rewrite app_nil_r; reflexivity|]. cbn [puts fold_left]. fold (puts D key c (put D key c rows p) ps). destruct (IH (put D key c rows p)) as (more & ->).
    unfold put. destruct (existsb _ rows); [|rewrite <- app_assoc; eexists; reflexivity]. exists more. f_equal. rewrite <- (map_id rows) at 2. apply map_ext. intros r. destruct (same_on D key r p); reflexivity.
  - intros l1 x l2 -> N. assert (AX : alive D key (row_for x)) by (apply alive_iff, A, in_app_iff; right; left; reflexivity). rewrite map_app. cbn [map].
    pose proof (puts_first D EQ key c (map row_for l1) (row_for x) (map row_for l2) rows ltac:(discriminate) K AX ltac:(intros q I; apply in_map_for in I as (x' & I & ->); apply same_key_false, N, I)) as L.
    eapply one_row_of; [apply (puts_unique D EQ key); assumption|exact L|]. split; [intros old I H; rewrite (look_old rows x old U I H); reflexivity|]. intros NO. rewrite (look_new rows x NO). apply row_for_whole.
Qed.
Lemma lengths_ok (batch : list (bytes -> V)) : forallb (fun es => Nat.eqb (length es) (length cols)) (map (fun x => row_of (map (value x) (t_columns t))) batch) = true.
Proof. apply forallb_forall. intros es I. apply in_map_iff in I as (x & <- & _). unfold row_of. rewrite !map_length. apply Nat.eqb_refl. Qed.
Lemma proposals (batch : list (bytes -> V)) : map (proposed D defaults cols) (map (fun x => row_of (map (value x) (t_columns t))) batch) = map row_for batch.
Proof. rewrite map_map. reflexivity. Qed.
Lemma names_same (l : list bytes) : same_names l l = true.
Proof. unfold same_names. rewrite andb_diag. apply forallb_forall. intros x I. apply bmem_In, I. Qed.
Lemma arbiter_key idxs c : In key idxs -> at_key key c -> arbiter idxs c = true.
Proof. intros I A. destruct c as [|tgt|tgt sets]; cbn [at_key] in A; [contradiction| |]; subst tgt; apply existsb_exists; exists key; (split; [exact I|apply names_same]). Qed.
Lemma unmarked (rows : list (row V)) : map snd (map (fun r => (false, r)) rows) = rows.
Proof. rewrite map_map. apply map_id. Qed.
Lemma pairs_for batch : ForallOrdPairs (fun a b => same_on D key a b = false) (map row_for batch) <-> ForallOrdPairs (fun x x' => ~ same_key D t x x') batch.
Proof.
  induction batch as [|x batch IH]; [split; constructor|]. cbn [map]. split; intros H; inversion H as [|a b F G]; subst; (constructor; [|apply IH, G]); rewrite Forall_forall in *.
  - intros x' I. apply same_key_false, F, in_map, I.
  - intros p I. apply in_map_for in I as (x' & I & ->). apply same_key_false, F, I.
Qed.
End Rows.

(** ** Generated models *)
Section Generated.
Context {V : Type}.
Variables (printable : N -> bool) (rename : bytes -> bytes) (wrap unwrap : gotype -> bytes * bytes).
Variables (sname : bytes) (ro : bool) (fs : list sfield) (t : table).
Hypothesis BUILT : build_table rename wrap unwrap sname ro fs = Ok t.
Variables (d : driver) (on : bool) (db : option bytes) (tn : bytes) (sqlc dup omit : option (list bytes)).
Variables (ins find upd : (column -> V) -> option (request V)) (q : list bytes) (items : list (expr V)).
Hypothesis U : usable d on t db tn sqlc q items.
Hypothesis HASKEY : key_of t <> [].
Hypothesis BARE : bare_keys V d t.
Hypothesis WRITTEN : all_written t.
(** The database: how values compare, the defaults of the table, its unique indexes *)
Variables (D : semantics V) (defaults : row V) (idxs : list (list bytes)).
Hypothesis EQ : equality D.
Notation fl := (flavour_of d).
Notation key := (map c_name (key_of t)).
Notation model_of := (record_model printable t d on db tn sqlc dup omit ins find upd).
Let W : wf t := build_table_wf _ _ _ _ _ _ _ BUILT.

(** *** PostgreSQL *)
Section Pg.
Variable o : upsert_opts.
Hypothesis ODUP : o_dup o = [].
Hypothesis DUP : dup = None.
Hypothesis PG : d = DPostgres.
Hypothesis PLAIN : on = false \/ length (key_of t) < 2.
Hypothesis INDEXED : In key idxs.
Notation left := (left_out d on omit o).

Lemma pg_table batch rows sets text args : unique_on D key rows = true -> (forall x, In x batch -> has_value D t x) -> sublist sets (map c_name (t_columns t)) ->
  (forall c, In c (t_columns t) -> (In (c_name c) sets <-> ~ is_key t c /\ ~ left c)) -> o_nothing o = false ->
  read fl text args = Some (Insert q (map c_name (t_columns t)) (map (fun r => row_of (map (fun c => r (c_gopath c)) (t_columns t))) batch) (conflict_of (o_nothing o) key sets) items) ->
  exists s, read fl text args = Some s /\
    (forall rows' out, pg_insert D idxs defaults rows s = Some (rows', out) -> upserted D t left batch rows rows' /\
       exists ys, Forall2 (fun x y => In y rows' /\ has_key_of D t y x) batch ys /\ out = map (fun y => map (eval D y) items) ys) /\
    ((exists r, pg_insert D idxs defaults rows s = Some r) -> ForallOrdPairs (fun x x' => ~ same_key D t x x') batch) /\
    (idxs = [key] -> ForallOrdPairs (fun x x' => ~ same_key D t x x') batch -> exists r, pg_insert D idxs defaults rows s = Some r).
Proof.
  intros UN A SB SE NO R. rewrite R. eexists. split; [reflexivity|]. unfold conflict_of. rewrite NO. set (c := DoUpdate key (map (fun c => (c, c)) sets)). assert (K : keeps key c) by (apply (sets_keep t W left sets SE)).
  unfold pg_insert. rewrite (lengths_ok t batch), (proposals D t defaults batch), (arbiter_key t idxs c INDEXED eq_refl). cbn [andb].
  assert (AL : Forall (alive D key) (map (row_for D t defaults) batch)) by (apply Forall_forall; intros p I; apply in_map_for in I as (x & I & ->); apply (alive_iff D t defaults W), A, I).
  assert (UN' : unique_on D key (map snd (map (fun r => (false, r)) rows)) = true) by (rewrite unmarked; exact UN).
  split; [|split].
  - intros rows' out E. destruct (pg_rows D idxs c _ _) as [[st ys]|] eqn:P; [|discriminate]. injection E as <- <-. pose proof (pg_rows_puts D key idxs c _ eq_refl _ _ _ P) as PP. rewrite unmarked in PP. split.
    + rewrite PP. apply (puts_upserted D t defaults EQ W left sets SB SE key batch rows UN A).
    + exists ys. split; [|reflexivity]. destruct (pg_distinct D EQ key idxs _ _ K AL _ _ _ UN' P) as (_ & F). clear -F W. remember (map (row_for D t defaults) batch) as ps eqn:E. revert batch E. induction F as [|p y ps ys (S & I) F IH]; intros [|x batch] E; try discriminate; [constructor|].
      cbn [map] in E. injection E as -> ->. constructor; [split; [exact I|apply (key_iff D t defaults W), S]|]. apply IH. reflexivity.
  - intros (r & E). destruct (pg_rows D idxs c _ _) as [[st ys]|] eqn:P; [|discriminate]. destruct (pg_distinct D EQ key idxs _ _ K AL _ _ _ UN' P) as (F & _). apply (pairs_for D t defaults W) in F. exact F.
  - intros -> F. destruct (pg_succeeds D EQ key c (map (row_for D t defaults) batch) eq_refl K (fun _ _ _ => proj2 (pairs_for D t defaults W batch) F) _ UN') as ([st ys] & P).
    + intros tgt s _ x p I M _. apply in_map_iff in I as (r & <- & _). discriminate M.
    + rewrite P. eexists. reflexivity.
Qed.
(** Upsert: rows with other keys stay as they are, each record has its row, which is returned. Success means that no two records have the same key; without another unique index it follows from it.
    Missing: two records with the same key (refuted below), a table whose columns are all in the key or left out, columns filled in by the database, quoted composite keys (C26, C27). *)
Theorem C86_pg_partial r rs rows : o_nothing o = false -> (exists c, In c (t_columns t) /\ ~ is_key t c /\ ~ left c) -> unique_on D key rows = true -> (forall x, In x (r :: rs) -> has_value D t x) ->
  exists text args s, upsert_pg (map model_of (r :: rs)) o = Ok (Some (text, args)) /\ read fl text args = Some s /\
    (forall rows' out, pg_insert D idxs defaults rows s = Some (rows', out) -> upserted D t left (r :: rs) rows rows' /\
       exists ys, Forall2 (fun x y => In y rows' /\ has_key_of D t y x) (r :: rs) ys /\ out = map (fun y => map (eval D y) items) ys) /\
    ((exists res, pg_insert D idxs defaults rows s = Some res) -> ForallOrdPairs (fun x x' => ~ same_key D t x x') (r :: rs)) /\
    (idxs = [key] -> ForallOrdPairs (fun x x' => ~ same_key D t x x') (r :: rs) -> exists res, pg_insert D idxs defaults rows s = Some res).
Proof.
  intros NO (c & IC & NK & NL) UN A. destruct (C27_generated_pg_partial printable rename wrap unwrap sname ro fs t BUILT d on db tn sqlc dup omit ins find upd q items U HASKEY BARE o ODUP DUP r rs PG WRITTEN PLAIN) as (text & args & sets & E & SB & SE & R).
  assert (SN : sets <> []) by (intros ->; apply (proj2 (SE c IC) (conj NK NL))). destruct (pg_table (r :: rs) rows sets text args UN A SB SE NO (R (or_intror SN))) as (s & RD & REST). exists text, args, s. split; [exact E|]. split; [exact RD|exact REST].
Qed.
Theorem C86_one_pg_partial r rows : o_nothing o = false -> (exists c, In c (t_columns t) /\ ~ is_key t c /\ ~ left c) -> unique_on D key rows = true -> has_value D t r ->
  exists text args s, upsert_one_pg (model_of r) o = Ok (text, args) /\ read fl text args = Some s /\
    (forall rows' out, pg_insert D idxs defaults rows s = Some (rows', out) -> upserted D t left [r] rows rows' /\
       exists y, In y rows' /\ has_key_of D t y r /\ out = [map (eval D y) items]) /\
    (idxs = [key] -> exists res, pg_insert D idxs defaults rows s = Some res).
Proof.
  intros NO (c & IC & NK & NL) UN A. destruct (C27_generated_one_pg_partial printable rename wrap unwrap sname ro fs t BUILT d on db tn sqlc dup omit ins find upd q items U HASKEY BARE o ODUP DUP r PG WRITTEN PLAIN) as (text & args & sets & E & SB & SE & R).
  assert (SN : sets <> []) by (intros ->; apply (proj2 (SE c IC) (conj NK NL))). destruct (pg_table [r] rows sets text args UN ltac:(intros x [<-|[]]; exact A) SB SE NO (R (or_intror SN))) as (s & RD & H1 & _ & H3). exists text, args, s. split; [exact E|]. split; [exact RD|]. split.
  - intros rows' out P. destruct (H1 rows' out P) as (UP & ys & F & ->). split; [exact UP|]. inversion F as [|a y b l (IY & KY) F']; subst. inversion F'; subst. exists y. auto.
  - intros X. apply H3; [exact X|]. repeat constructor.
Qed.
(** Two records with the same key: the database refuses the whole batch *)
Theorem C86_pg_twice_refuted l1 x l2 x' l3 r rs rows : r :: rs = l1 ++ x :: l2 ++ x' :: l3 -> same_key D t x x' ->
  o_nothing o = false -> (exists c, In c (t_columns t) /\ ~ is_key t c /\ ~ left c) -> unique_on D key rows = true -> (forall x, In x (r :: rs) -> has_value D t x) ->
  exists text args s, upsert_pg (map model_of (r :: rs)) o = Ok (Some (text, args)) /\ read fl text args = Some s /\ pg_insert D idxs defaults rows s = None.
Proof.
  intros E SK NO C UN A. destruct (C86_pg_partial r rs rows NO C UN A) as (text & args & s & EU & R & _ & H & _). exists text, args, s. split; [exact EU|]. split; [exact R|]. destruct (pg_insert D idxs defaults rows s) as [res|]; [|reflexivity]. exfalso.
  specialize (H (ex_intro _ res eq_refl)). rewrite E in H. clear -H SK. induction l1 as [|y l1 IH]; cbn [app] in H; inversion H as [|a b F G]; subst; [|apply IH, G]. rewrite Forall_forall in F. apply (F x'); [|exact SK]. apply in_app_iff. right. left. reflexivity.
Qed.
(** DO NOTHING: existing rows stay, records with a new key are added *)
Theorem C86_pg_nothing_partial r rs rows : o_nothing o = true -> unique_on D key rows = true -> (forall x, In x (r :: rs) -> has_value D t x) ->
  exists text args s, upsert_pg (map model_of (r :: rs)) o = Ok (Some (text, args)) /\ read fl text args = Some s /\
    (forall rows' out, pg_insert D idxs defaults rows s = Some (rows', out) -> added_only D t (r :: rs) rows rows') /\
    (idxs = [key] -> exists res, pg_insert D idxs defaults rows s = Some res).
Proof.
  intros NO UN A. destruct (C27_generated_pg_partial printable rename wrap unwrap sname ro fs t BUILT d on db tn sqlc dup omit ins find upd q items U HASKEY BARE o ODUP DUP r rs PG WRITTEN PLAIN) as (text & args & sets & E & SB & SE & R).
  specialize (R (or_introl NO)). unfold conflict_of in R. rewrite NO in R. eexists. exists args. eexists. split; [exact E|]. split; [exact R|]. set (c := DoNothing key). assert (K : keeps key c) by exact I.
  unfold pg_insert. rewrite (lengths_ok t (r :: rs)), (proposals D t defaults (r :: rs)), (arbiter_key t idxs c INDEXED eq_refl). cbn [andb]. split.
  - intros rows' out X. destruct (pg_rows D idxs c _ _) as [[st ys]|] eqn:P; [|discriminate]. injection X as <- <-. pose proof (pg_rows_puts D key idxs c _ eq_refl _ _ _ P) as PP. rewrite unmarked in PP. rewrite PP. apply (puts_added D t defaults EQ W key (r :: rs) rows UN A).
  - intros ->. destruct (pg_succeeds D EQ key c (map (row_for D t defaults) (r :: rs)) eq_refl K ltac:(discriminate) (map (fun r => (false, r)) rows) ltac:(rewrite unmarked; exact UN) ltac:(discriminate)) as ([st ys] & P). rewrite P. eexists. reflexivity.
Qed.
(** UpsertOne with DO NOTHING gives an error when there is nothing to do: the record is stored already, no row is returned, Scan reports that *)
Theorem C86_one_nothing_refuted r rows old : o_nothing o = true -> In old rows -> has_key_of D t old r ->
  exists text args s, upsert_one_pg (model_of r) o = Ok (text, args) /\ read fl text args = Some s /\ pg_insert D idxs defaults rows s = Some (rows, []) /\
    forall conv cols x broken closed fails, snd (row_scan conv cols x {| r_pending := @nil (list V); r_broken := broken; r_closed := closed; r_close_fails := fails |}) = Err.
Proof.
  intros NO IO H. destruct (C27_generated_one_pg_partial printable rename wrap unwrap sname ro fs t BUILT d on db tn sqlc dup omit ins find upd q items U HASKEY BARE o ODUP DUP r PG WRITTEN PLAIN) as (text & args & sets & E & SB & SE & R).
  specialize (R (or_introl NO)). unfold conflict_of in R. rewrite NO in R. eexists. exists args. eexists. split; [exact E|]. split; [exact R|]. split; [|reflexivity].
  unfold pg_insert. change ([row_of (map (fun c => r (c_gopath c)) (t_columns t))]) with (map (fun x : bytes -> V => row_of (map (fun c => x (c_gopath c)) (t_columns t))) [r]). rewrite (lengths_ok t [r]), (proposals D t defaults [r]), (arbiter_key t idxs (DoNothing key) INDEXED eq_refl). cbn [andb map pg_rows pg_row].
  replace (existsb _ _) with true; [rewrite unmarked; reflexivity|]. symmetry. apply existsb_exists. exists (false, old). split; [apply in_map_iff; eauto|]. apply (key_iff D t defaults W), H.
Qed.
End Pg.

(** *** MySQL *)
Section My.
Variables (override : bool) (omitted : list bytes).
Hypothesis MY : d = DMySQL.
Notation left := (left_out_my d on omitted).
Lemma my_table batch rows sets text args : unique_on D key rows = true -> (forall x, In x batch -> has_value D t x) -> sublist sets (map c_name (t_columns t)) ->
  (forall c, In c (t_columns t) -> (In (c_name c) sets <-> ~ is_key t c /\ ~ left c)) ->
  read fl text args = Some (Insert q (map c_name (t_columns t)) (map (fun r => row_of (map (fun c => r (c_gopath c)) (t_columns t))) batch) (my_conflict override sets) []) ->
  exists s rows', read fl text args = Some s /\ my_insert D [key] defaults rows s = Some rows' /\ if override then upserted D t left batch rows rows' else added_only D t batch rows rows'.
Proof.
  intros UN A SB SE R. rewrite R. unfold my_conflict. destruct override; eexists; eexists; (split; [reflexivity|]); unfold my_insert; rewrite (lengths_ok t batch), (proposals D t defaults batch).
  - rewrite (my_rows_puts D EQ key); [|discriminate|apply (sets_keep t W left sets SE)|exact UN]. split; [reflexivity|]. apply (puts_upserted D t defaults EQ W left sets SB SE [] batch rows UN A).
  - rewrite (my_rows_puts D EQ key); [|discriminate|exact I|exact UN]. split; [reflexivity|]. apply (puts_added D t defaults EQ W [] batch rows UN A).
Qed.
(** Upsert, when the key is the only unique index: as in PostgreSQL, but records with the same key are taken one after the other.
    Missing: further unique indexes (refuted below), and what is said at C86_pg_partial. *)
Theorem C86_mysql_partial r rs rows : override = false \/ (exists c, In c (t_columns t) /\ ~ is_key t c /\ ~ left c) -> unique_on D key rows = true -> (forall x, In x (r :: rs) -> has_value D t x) ->
  exists text args s rows', upsert_my (map model_of (r :: rs)) override omitted = Ok (Some (text, args)) /\ read fl text args = Some s /\ my_insert D [key] defaults rows s = Some rows' /\
    if override then upserted D t left (r :: rs) rows rows' else added_only D t (r :: rs) rows rows'.
Proof.
  intros C UN A. destruct (C27_generated_mysql_partial printable rename wrap unwrap sname ro fs t BUILT d on db tn sqlc dup omit ins find upd q items U HASKEY BARE override omitted r rs MY WRITTEN) as (text & args & sets & E & SB & SE & R).
  destruct (my_table (r :: rs) rows sets text args UN A SB SE) as (s & rows' & RD & X).
  - apply R. destruct C as [C|(c & IC & N)]; [left; exact C|]. right. intros ->. apply (proj2 (SE c IC) N).
  - exists text, args, s, rows'. split; [exact E|]. split; [exact RD|exact X].
Qed.
Theorem C86_one_mysql_partial r rows : length (key_of t) < 2 -> override = false \/ (exists c, In c (t_columns t) /\ ~ is_key t c /\ ~ left c) -> unique_on D key rows = true -> has_value D t r ->
  exists text args s rows', upsert_one_my (model_of r) override omitted = Ok (text, args) /\ read fl text args = Some s /\ my_insert D [key] defaults rows s = Some rows' /\
    if override then upserted D t left [r] rows rows' else added_only D t [r] rows rows'.
Proof.
  intros ONE C UN A. destruct (C27_generated_one_mysql_partial printable rename wrap unwrap sname ro fs t BUILT d on db tn sqlc dup omit ins find upd q items U HASKEY BARE override omitted r MY WRITTEN ONE) as (text & args & sets & E & SB & SE & R).
  destruct (my_table [r] rows sets text args UN ltac:(intros x [<-|[]]; exact A) SB SE) as (s & rows' & RD & X).
  - apply R. destruct C as [C|(c & IC & N)]; [left; exact C|]. right. intros ->. apply (proj2 (SE c IC) N).
  - exists text, args, s, rows'. split; [exact E|]. split; [exact RD|exact X].
Qed.
(** With a second unique index, a record with a new key that has the values of another row in that index overwrites the other row, which keeps its key; no row has the key of the record *)
Theorem C86_mysql_index_refuted r rows i other : override = true -> (exists c, In c (t_columns t) /\ ~ is_key t c /\ ~ left c) ->
  (forall y, In y rows -> ~ has_key_of D t y r) -> In other rows -> (forall c, In c i -> exists k, In k (t_columns t) /\ c = c_name k /\ cmp D (other c) (r (c_gopath k)) = Some Eq) ->
  exists text args s, upsert_my [model_of r] override omitted = Ok (Some (text, args)) /\ read fl text args = Some s /\
    forall rows', my_insert D [key; i] defaults rows s = Some rows' -> (forall y, In y rows' -> ~ has_key_of D t y r) /\
      exists y, In y rows' /\ merged t left r other y.
Proof.
  intros OV (c & IC & NK & NL) NO IO SI. destruct (C27_generated_mysql_partial printable rename wrap unwrap sname ro fs t BUILT d on db tn sqlc dup omit ins find upd q items U HASKEY BARE override omitted r [] MY WRITTEN) as (text & args & sets & E & SB & SE & R).
  assert (SN : sets <> []) by (intros ->; apply (proj2 (SE c IC) (conj NK NL))). specialize (R (or_intror SN)). cbn [map] in E. eexists. exists args. eexists. split; [exact E|]. split; [exact R|]. intros rows'.
  unfold my_insert. rewrite (lengths_ok t [r]), (proposals D t defaults [r]). cbn [map my_rows]. unfold my_conflict. rewrite OV. unfold my_row.
  assert (F1 : existsb (fun y => same_on D key y (row_for D t defaults r)) rows = false). { destruct (existsb _ rows) eqn:X; [|reflexivity]. apply existsb_exists in X as (y & I & S). exfalso. apply (NO y I). apply (key_iff D t defaults W) in S. exact S. }
  assert (SO : same_on D i other (row_for D t defaults r) = true). { apply same_iff. intros n I. destruct (SI n I) as (k & IK & -> & H). rewrite (row_for_whole D t defaults W r k IK). exact H. }
  assert (F2 : existsb (fun y => same_on D i y (row_for D t defaults r)) rows = true) by (apply existsb_exists; eauto).
  cbn [List.find]. rewrite F1, F2. cbn zeta. set (new := map _ rows). destruct (uniques D [key; i] new); [|discriminate]. intros X. injection X as <-. split.
  - intros y I H. apply in_map_iff in I as (z & Z & I). apply (NO z I). apply (key_iff D t defaults W). apply (key_iff D t defaults W) in H. rewrite <- Z in H. destruct (same_on D i z _) in H; [|exact H].
    rewrite <- (overlay_same D key (DoUpdate [] (map (fun c => (c, c)) sets)) (row_for D t defaults r) z _ (sets_keep t W left sets SE [])). exact H.
  - exists (updated (map (fun c => (c, c)) sets) (row_for D t defaults r) other). split; [apply in_map_iff; exists other; rewrite SO; auto|]. apply (updated_merged D t defaults W left sets SB SE).
Qed.
End My.
End Generated.

(** ** A concrete case: a table of three columns with the key id *)
Definition up_db : semantics nat := {| cmp := fun a b => if Nat.eqb a 0 || Nat.eqb b 0 then None else Some (Nat.compare a b); sort_cmp := Nat.compare; like := fun _ _ => None; other := fun _ _ => 0 |}.
Definition up_rec (i n a : nat) (path : bytes) : nat := if bseq path (B ".ID") then i else if bseq path (B ".Name") then n else a.
Definition up_row (i n a : nat) : row nat := fun c => if bseq c (B "id") then i else if bseq c (B "name") then n else if bseq c (B "age") then a else 0.
Definition up_show (x : row nat) : list nat := [x (B "id"); x (B "name"); x (B "age")].
Definition up_model (d : driver) (r : bytes -> nat) : model nat := record_model (fun _ => true) t_one d false None (B "users") None None None ex_none ex_none ex_none r.
Definition up_send (d : driver) (r : res (option (request nat))) : option (stmt nat) := match r with Ok (Some (text, args)) => read (flavour_of d) text args | _ => None end.
Example C86_hypotheses : forall d, ex_build ex_one = Ok t_one /\ usable d false t_one None (B "users") None [B "users"] (map (fun c => [Name (c_name c)] : expr nat) (t_columns t_one)) /\
  key_of t_one <> [] /\ bare_keys nat d t_one /\ all_written t_one /\ equality up_db /\ length (key_of t_one) < 2 /\
  (exists c, In c (t_columns t_one) /\ ~ is_key t_one c /\ ~ left_out d false None {| o_nothing := false; o_omit := [B "age"]; o_dup := [] |} c) /\
  (exists c, In c (t_columns t_one) /\ ~ is_key t_one c /\ ~ left_out_my d false [B "age"] c) /\
  unique_on up_db [B "id"] [up_row 1 5 50; up_row 2 6 60] = true /\ (forall x, In x [up_rec 2 7 70; up_rec 3 8 80] -> has_value up_db t_one x).
Proof.
  intros d. split; [reflexivity|]. split; [unfold t_one; destruct d; ex_usable; (eexists; split; [right; left; reflexivity|split; [reflexivity|discriminate]])|].
  split; [discriminate|]. split; [intros L; cbn in L; inversion L as [|n H]; inversion H|]. split; [apply (usable_case d false)|]. split.
  { assert (X : forall x y, cmp up_db x y = Some Eq <-> x <> 0 /\ x = y).
    { intros x y. cbn. destruct x as [|x]; [split; [discriminate|intros [H _]; destruct H; reflexivity]|]. destruct y as [|y]; [split; [discriminate|intros [_ H]; discriminate]|]. cbn [Nat.eqb orb]. split.
      - intros E. injection E as E. apply Nat.compare_eq in E. split; [discriminate|congruence].
      - intros (_ & ->). rewrite Nat.compare_refl. reflexivity. }
    split; [intros x y H; apply X in H as (H & <-); apply X; auto|intros x y z H H'; apply X in H as (H & <-); exact H']. }
  split; [repeat constructor|]. split; [|split].
  - eexists. split; [right; left; reflexivity|]. split; [intros [[H|[]]|H]; discriminate|]. intros [[H|[]]|(l & H & _)]; discriminate.
  - eexists. split; [right; left; reflexivity|]. split; [intros [[H|[]]|H]; discriminate|]. intros [H|[]]; discriminate.
  - split; [reflexivity|]. intros x [<-|[<-|[]]] k [<-|[]]; reflexivity.
Qed.

Example C86_case :
  (forall os, os = {| o_nothing := false; o_omit := [B "age"]; o_dup := [] |} ->
   exists s, up_send DPostgres (upsert_pg (map (up_model DPostgres) [up_rec 2 7 70; up_rec 3 8 80]) os) = Some s /\
   option_map (fun r => (map up_show (fst r), snd r)) (pg_insert up_db [[B "id"]; [B "name"]] (fun _ => 0) [up_row 1 5 50; up_row 2 6 60] s) = Some ([[1; 5; 50]; [2; 7; 60]; [3; 8; 80]], [[2; 7; 60]; [3; 8; 80]]) /\
   pg_insert up_db [[B "id"]; [B "name"]] (fun _ => 0) [up_row 1 8 50; up_row 2 6 60] s = None) /\
  (exists s, up_send DMySQL (upsert_my (map (up_model DMySQL) [up_rec 2 7 70; up_rec 3 8 80; up_rec 3 9 90]) true [B "age"]) = Some s /\
   option_map (map up_show) (my_insert up_db [[B "id"]] (fun _ => 0) [up_row 1 5 50; up_row 2 6 60] s) = Some [[1; 5; 50]; [2; 7; 60]; [3; 9; 80]]).
Proof. split; [intros os ->; eexists; split; [vm_compute; reflexivity|split; vm_compute; reflexivity]|eexists; split; [vm_compute; reflexivity|vm_compute; reflexivity]]. Qed.
(** The other row is changed, and nothing is stored under the key 3 *)
Example C86_index_case : exists s, up_send DMySQL (upsert_my [up_model DMySQL (up_rec 3 5 80)] true []) = Some s /\
  option_map (map up_show) (my_insert up_db [[B "id"]; [B "name"]] (fun _ => 0) [up_row 1 5 50; up_row 2 6 60] s) = Some [[1; 5; 80]; [2; 6; 60]].
Proof. eexists. split; [vm_compute; reflexivity|vm_compute; reflexivity]. Qed.
Example C86_twice_case : exists s, up_send DPostgres (upsert_pg (map (up_model DPostgres) [up_rec 3 7 70; up_rec 3 8 80]) {| o_nothing := false; o_omit := []; o_dup := [] |}) = Some s /\
  pg_insert up_db [[B "id"]] (fun _ => 0) [up_row 1 5 50] s = None /\ same_key up_db t_one (up_rec 3 7 70) (up_rec 3 8 80).
Proof. eexists. split; [vm_compute; reflexivity|]. split; [vm_compute; reflexivity|]. intros k [<-|[]]. reflexivity. Qed.
Example C86_nothing_case : exists s, up_send DPostgres (upsert_pg (map (up_model DPostgres) [up_rec 1 7 70; up_rec 3 8 80; up_rec 3 9 90]) {| o_nothing := true; o_omit := []; o_dup := [] |}) = Some s /\
  option_map (fun r => map up_show (fst r)) (pg_insert up_db [[B "id"]] (fun _ => 0) [up_row 1 5 50] s) = Some [[1; 5; 50]; [3; 8; 80]] /\ has_key_of up_db t_one (up_row 1 5 50) (up_rec 1 7 70).
Proof. eexists. split; [vm_compute; reflexivity|]. split; [vm_compute; reflexivity|]. intros k [<-|[]]. reflexivity. Qed.
Print Assumptions C86_pg_partial.
Print Assumptions C86_one_pg_partial.
Print Assumptions C86_pg_twice_refuted.
Print Assumptions C86_pg_nothing_partial.
Print Assumptions C86_one_nothing_refuted.
Print Assumptions C86_mysql_partial.
Print Assumptions C86_one_mysql_partial.
Print Assumptions C86_mysql_index_refuted.
