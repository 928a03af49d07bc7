(** C88: after a write, the records in memory are the rows of the table. *)
From Coq Require Import List Bool ZArith Lia.
From Verif Require Import Base ModelCompiler ModelGen ModelRuntime ModelRows ModelWrite SpecSql SpecGen SpecRuntime SpecDb SpecStore SpecRows SpecConflict SpecWrite
  LemmasBase LemmasCompiler LemmasRuntime7 LemmasStore LemmasRows LemmasConflict PropRuntime PropRows PropGen PropConflict PropQuery.
Import SpecRows ListNotations.

Section Fill.
Context {V : Type}.
Variables (D : semantics V) (t : table) (conv : column -> V -> option V).
Hypothesis PATHS : NoDup (map c_gopath (t_columns t)).
Notation names := (map (fun c => [Name (c_name c)] : expr V) (t_columns t)).
Notation shown y := (map (eval D y) names).
Lemma holds_reflects y old rec : holds conv (gen_addrs t) (shown y) old rec <-> reflects t conv y old rec.
Proof. apply (holds_filled t D conv). Qed.
Lemma unreadable_unfit y : ~ readable_row conv (gen_addrs t) (shown y) <-> unfit t conv y.
Proof. apply (not_readable t D conv). Qed.
Lemma scan_cases y x : match scan conv (gen_addrs t) (shown y) x with (x', true) => reflects t conv y x x' | (_, false) => unfit t conv y end.
Proof.
  destruct (scan conv (gen_addrs t) (shown y) x) as [x' [|]] eqn:E.
  - apply holds_reflects, (scan_holds conv (gen_addrs t) PATHS), E.
  - apply unreadable_unfit. intros R. destruct (scan_readable conv (gen_addrs t) _ x R) as (x1 & E1). congruence.
Qed.
Lemma nth_middle {A} (pre : list A) x l : nth_error (pre ++ x :: l) (length pre) = Some x.
Proof. induction pre; [reflexivity|assumption]. Qed.
Lemma update_middle {A} (pre : list A) x x' l : update_nth (length pre) x' (pre ++ x :: l) = (pre ++ [x']) ++ l.
Proof. induction pre as [|a pre IH]; [reflexivity|]. cbn [length app update_nth]. rewrite IH. reflexivity. Qed.
Lemma fill_split ys : forall pre data, length ys = length data -> match for_rows (fill_body conv (gen_addrs t)) (map (fun y => shown y) ys) (pre ++ data, length pre) with
  | (d', i', None) => exists data', d' = pre ++ data' /\ i' = length pre + length ys /\ paired (fun x y x' => reflects t conv y x x') data ys data'
  | (_, _, Some SErr) => exists y, In y ys /\ unfit t conv y
  | (_, _, Some SPanic) => False
  end.
Proof.
  induction ys as [|y ys IH]; intros pre [|x data] L; try discriminate.
  - cbn. exists []. split; [reflexivity|]. split; [lia|constructor].
  - cbn [map for_rows fill_body]. rewrite nth_middle. pose proof (scan_cases y x) as SC. destruct (scan conv (gen_addrs t) (shown y) x) as [x' [|]]; [|exists y; split; [left; reflexivity|exact SC]].
    rewrite update_middle. replace (S (length pre)) with (length (pre ++ [x'])) by (rewrite app_length; cbn; lia). specialize (IH (pre ++ [x']) data ltac:(injection L; auto)).
    destruct (for_rows _ _ _) as [[d' i'] [[]|]]; [destruct IH as (z & I & N); exists z; split; [right; exact I|exact N]|exact IH|].
    destruct IH as (data' & -> & -> & P). exists (x' :: data'). rewrite <- app_assoc. split; [reflexivity|]. split; [rewrite app_length; cbn; lia|]. constructor; assumption.
Qed.
Lemma filled_by ys data : length ys = length data -> match fill_rows conv (gen_addrs t) data {| r_pending := map (fun y => shown y) ys; r_broken := false; r_closed := false; r_close_fails := false |} with
  | (data', Ok n) => n = length data /\ paired (fun x y x' => reflects t conv y x x') data ys data'
  | (_, Err) => exists y, In y ys /\ unfit t conv y
  | (_, Panic) => False
  end.
Proof.
  intros L. pose proof (fill_split ys [] data L) as H. unfold fill_rows. cbn [r_pending]. cbn [app length] in H. destruct (for_rows _ _ _) as [[d' i'] [[]|]]; [exact H|exact H|]. destruct H as (data' & -> & -> & P). cbn. split; [exact L|exact P].
Qed.
Lemma scanned_by ys x : match row_scan conv (gen_addrs t) x {| r_pending := map (fun y => shown y) ys; r_broken := false; r_closed := false; r_close_fails := false |} with
  | (rec, Ok tt) => exists y rest, ys = y :: rest /\ reflects t conv y x rec
  | (_, Err) => ys = [] \/ exists y rest, ys = y :: rest /\ unfit t conv y
  | (_, Panic) => False
  end.
Proof.
  unfold row_scan. cbn [r_pending]. destruct ys as [|y rest]; [left; reflexivity|]. cbn [map]. pose proof (scan_cases y x) as SC. destruct (scan conv (gen_addrs t) (shown y) x) as [x' [|]]; cbn; [eauto|right; eauto].
Qed.
Lemma paired_in (P : (bytes -> V) -> row V -> (bytes -> V) -> Prop) (Q : (bytes -> V) -> row V -> Prop) xs ys xs' : paired P xs ys xs' -> Forall2 Q xs ys -> paired (fun x y x' => Q x y /\ P x y x') xs ys xs'.
Proof. induction 1 as [|x y x' xs ys xs' H HP IH]; intros F; [constructor|]. inversion F; subst. constructor; auto. Qed.
Lemma forall2_len {A C} (Q : A -> C -> Prop) xs ys : Forall2 Q xs ys -> length ys = length xs.
Proof. induction 1; cbn; congruence. Qed.
End Fill.

(** ** Generated models on PostgreSQL *)
Section Postgres.
Context {V St : Type}.
Variables (printable : N -> bool) (rename : bytes -> bytes) (wrap unwrap : gotype -> bytes * bytes).
Variables (sname : bytes) (ro : bool) (fs : list sfield) (t : table).
Hypothesis BUILT : build_table rename wrap unwrap sname ro fs = Ok t.
Hypothesis PATHS : NoDup (map c_gopath (t_columns t)).
Variables (on : bool) (db : option bytes) (tn : bytes) (dup omit : option (list bytes)) (ins find upd : (column -> V) -> option (request V)) (q : list bytes).
Notation names := (map (fun c => [Name (c_name c)] : expr V) (t_columns t)).
Hypothesis U : usable (V:=V) DPostgres on t db tn None q names.
Hypothesis WRITTEN : all_written t.
Variables (D : semantics V) (idxs : list (list bytes)) (held : St -> list (row V)) (fresh : St -> row V) (conv : column -> V -> option V).
Variable ask : St -> bytes -> list V -> option (St * rows (V:=V)).
Hypothesis PERFORMS : performs D (flavour_of DPostgres) q idxs held fresh ask.
Notation model_of := (record_model printable t DPostgres on db tn None dup omit ins find upd).
Notation key := (map c_name (key_of t)).
Let W : wf t := build_table_wf _ _ _ _ _ _ _ BUILT.

Lemma pg_fail ps : forall st st' out, pg_rows D idxs Fail st ps = Some (st', out) -> map snd st' = map snd st ++ ps /\ out = ps.
Proof.
  induction ps as [|p ps IH]; intros st st' out E; cbn [pg_rows] in E; [injection E as <- <-; rewrite app_nil_r; auto|].
  cbn [pg_row] in E. unfold checked in E. destruct (uniques D idxs (map snd (st ++ [(true, p)]))); [|discriminate]. destruct (pg_rows D idxs Fail (st ++ [(true, p)]) ps) as [[st2 out2]|] eqn:R; [|discriminate].
  injection E as <- <-. destruct (IH _ _ _ R) as (-> & ->). rewrite map_app, <- app_assoc. auto.
Qed.
(** Insert: the records are added to the table, in order, and each then is its row. An error: nothing has been done, or a row cannot be put into the fields.
    Missing: columns filled in by the database (C25), functions around columns, a stream that breaks off (C38). *)
Theorem C88_insert_pg_partial s r rs : match run_insert_pg conv ask s (map model_of (r :: rs)) (gen_addrs t) (r :: rs) with
  | (s', (recs, Ok n)) => n = length (r :: rs) /\ exists ys, held s' = held s ++ ys /\ paired (fun x y x' => whole t x y /\ reflects t conv y x x') (r :: rs) ys recs
  | (s', (recs, Err)) => s' = s /\ recs = r :: rs \/ exists y, In y (held s') /\ unfit t conv y
  | (_, (_, Panic)) => False
  end.
Proof.
  destruct (C25_generated_partial printable rename wrap unwrap sname ro fs t BUILT DPostgres on db tn None dup omit ins find upd q names U r rs WRITTEN) as (text & args & E & R).
  unfold run_insert_pg. rewrite E. cbn [write_rows]. pose proof (PERFORMS s text args) as P. destruct (ask s text args) as [[s' rs']|]; [|left; auto].
  destruct P as (st & out & R' & _ & P & ->). match type of R with _ = Some ?z => assert (st = z) as -> by congruence end. unfold pg_insert in P. rewrite (lengths_ok t (r :: rs)), (proposals D t (fresh s) (r :: rs)) in P. cbn [andb arbiter ret_items] in P.
  destruct (pg_rows D idxs Fail _ _) as [[st' ys]|] eqn:X; [|discriminate]. injection P as P <-. destruct (pg_fail _ _ _ _ X) as (H & ->). rewrite unmarked in H.
  pose proof (filled_by D t conv PATHS (map (row_for D t (fresh s)) (r :: rs)) (r :: rs) (map_length _ _)) as F. rewrite !map_map in *. destruct (fill_rows _ _ _ _) as [recs [n| |]]; [| |exact F].
  - destruct F as (-> & F). split; [reflexivity|]. exists (map (row_for D t (fresh s)) (r :: rs)). split; [rewrite <- P; exact H|].
    eapply (paired_in (fun x y x' => reflects t conv y x x') (fun x y => whole t x y)); [exact F|]. clear -W. induction (r :: rs) as [|x l IH]; constructor; [apply row_for_whole, W|exact IH].
  - destruct F as (y & I & N). right. exists y. split; [|exact N]. rewrite <- P, H. apply in_app_iff. right. exact I.
Qed.

(** *** Upserts *)
Section Upsert.
Hypothesis EQ : equality D.
Hypothesis HASKEY : key_of t <> [].
Hypothesis BARE : bare_keys V DPostgres t.
Variable o : upsert_opts.
Hypothesis ODUP : o_dup o = [].
Hypothesis DUP : dup = None.
Hypothesis PLAIN : on = false \/ length (key_of t) < 2.
Hypothesis INDEXED : In key idxs.
Notation left := (left_out DPostgres on omit o).
(** Upsert: the table is as in C86, and each record then is the row with its key, also in the columns that were left as they were. *)
Theorem C88_upsert_pg_partial s r rs : o_nothing o = false -> (exists c, In c (t_columns t) /\ ~ is_key t c /\ ~ left c) -> unique_on D key (held s) = true -> (forall x, In x (r :: rs) -> has_value D t x) ->
  match run_upsert_pg conv ask s (map model_of (r :: rs)) o (gen_addrs t) (r :: rs) with
  | (s', (recs, Ok n)) => n = length (r :: rs) /\ upserted D t left (r :: rs) (held s) (held s') /\ exists ys, paired (fun x y x' => (In y (held s') /\ has_key_of D t y x) /\ reflects t conv y x x') (r :: rs) ys recs
  | (s', (recs, Err)) => s' = s /\ recs = r :: rs \/ exists y, In y (held s') /\ unfit t conv y
  | (_, (_, Panic)) => False
  end.
Proof.
  intros NO C UN A. destruct (C86_pg_partial printable rename wrap unwrap sname ro fs t BUILT DPostgres on db tn None dup omit ins find upd q names U HASKEY BARE WRITTEN D (fresh s) idxs EQ o ODUP DUP eq_refl PLAIN INDEXED r rs (held s) NO C UN A) as (text & args & st & E & R & H & _).
  unfold run_upsert_pg. rewrite E. cbn [write_rows]. pose proof (PERFORMS s text args) as P. destruct (ask s text args) as [[s' rs']|]; [|left; auto].
  destruct P as (st' & out & R' & _ & P & ->). rewrite R in R'. injection R' as <-. destruct (H _ _ P) as (UP & ys & F2 & ->).
  pose proof (filled_by D t conv PATHS ys (r :: rs) (forall2_len _ _ _ F2)) as F. destruct (fill_rows _ _ _ _) as [recs [n| |]]; [| |exact F].
  - destruct F as (-> & F). split; [reflexivity|]. split; [exact UP|]. exists ys. eapply (paired_in (fun x y x' => reflects t conv y x x')); [exact F|exact F2].
  - destruct F as (y & I & N). right. exists y. split; [|exact N]. clear -F2 I. induction F2 as [|x z xs zs (J & _) F2 IH]; [destruct I|]. destruct I as [->|I]; [exact J|apply IH, I].
Qed.
Theorem C88_upsert_one_pg_partial s r : o_nothing o = false -> (exists c, In c (t_columns t) /\ ~ is_key t c /\ ~ left c) -> unique_on D key (held s) = true -> has_value D t r ->
  match run_upsert_one_pg conv ask s (model_of r) o (gen_addrs t) r with
  | (s', (rec, Ok tt)) => upserted D t left [r] (held s) (held s') /\ exists y, In y (held s') /\ has_key_of D t y r /\ reflects t conv y r rec
  | (s', (rec, Err)) => s' = s /\ rec = r \/ exists y, In y (held s') /\ unfit t conv y
  | (_, (_, Panic)) => False
  end.
Proof.
  intros NO C UN A. destruct (C86_one_pg_partial printable rename wrap unwrap sname ro fs t BUILT DPostgres on db tn None dup omit ins find upd q names U HASKEY BARE WRITTEN D (fresh s) idxs EQ o ODUP DUP eq_refl PLAIN INDEXED r (held s) NO C UN A) as (text & args & st & E & R & H & _).
  unfold run_upsert_one_pg. rewrite E. cbn [write_row]. pose proof (PERFORMS s text args) as P. destruct (ask s text args) as [[s' rs']|]; [|left; auto].
  destruct P as (st' & out & R' & _ & P & ->). rewrite R in R'. injection R' as <-. destruct (H _ _ P) as (UP & y & I & K & ->).
  pose proof (scanned_by D t conv PATHS [y] r) as F. cbn [map] in F. cbn [map]. destruct (row_scan _ _ _ _) as [rec [[]| |]]; [| |exact F].
  - destruct F as (y' & rest & X & F). injection X as <- <-. eauto 6.
  - destruct F as [F|(y' & rest & X & F)]; [discriminate|]. injection X as <- <-. right. eauto.
Qed.
(** With DO NOTHING the records no longer are their rows: when the first of two is stored already, it becomes the second. *)
Theorem C88_nothing_refuted s r r2 : o_nothing o = true -> idxs = [key] -> unique_on D key (held s) = true -> has_value D t r -> has_value D t r2 -> ~ same_key D t r2 r ->
  (exists old, In old (held s) /\ has_key_of D t old r) -> (forall old, In old (held s) -> ~ has_key_of D t old r2) ->
  match run_upsert_pg conv ask s (map model_of [r; r2]) o (gen_addrs t) [r; r2] with
  | (s', (recs, Ok n)) => n = 1 /\ exists y r', held s' = held s ++ [y] /\ whole t r2 y /\ recs = [r'; r2] /\ reflects t conv y r r'
  | (s', (recs, Err)) => exists y, In y (held s') /\ unfit t conv y
  | (_, (_, Panic)) => False
  end.
Proof.
  intros NO IX UN A A2 NS (old & IO & HO) NEW. destruct (C27_generated_pg_partial printable rename wrap unwrap sname ro fs t BUILT DPostgres on db tn None dup omit ins find upd q names U HASKEY BARE o ODUP DUP r [r2] eq_refl WRITTEN PLAIN) as (text & args & sets & E & SB & SE & R).
  specialize (R (or_introl NO)). unfold conflict_of in R. rewrite NO in R. unfold run_upsert_pg. rewrite E. cbn [write_rows]. pose proof (PERFORMS s text args) as P.
  set (c := DoNothing key) in *.
  assert (X : forall ret, pg_insert D idxs (fresh s) (held s) (Insert q (map c_name (t_columns t)) (map (fun r => row_of (map (fun c => r (c_gopath c)) (t_columns t))) [r; r2]) c ret) = Some (held s ++ [row_for D t (fresh s) r2], [map (eval D (row_for D t (fresh s) r2)) ret])).
  { intros ret. unfold pg_insert. rewrite (lengths_ok t [r; r2]), (proposals D t (fresh s) [r; r2]), (arbiter_key t idxs c INDEXED eq_refl). cbn [andb map pg_rows pg_row c].
    assert (E1 : existsb (fun x => same_on D key (snd x) (row_for D t (fresh s) r)) (map (fun r => (false, r)) (held s)) = true) by (apply existsb_exists; exists (false, old); split; [apply in_map_iff; eauto|]; apply (key_iff D t (fresh s) W), HO).
    assert (E2 : existsb (fun x => same_on D key x (row_for D t (fresh s) r2)) (held s) = false). { destruct (existsb _ (held s)) eqn:X; [|reflexivity]. apply existsb_exists in X as (y & I & Y). exfalso. apply (NEW y I). apply (key_iff D t (fresh s) W) in Y. exact Y. }
    assert (E3 : existsb (fun x => same_on D key (snd x) (row_for D t (fresh s) r2)) (map (fun r => (false, r)) (held s)) = false) by (rewrite <- (existsb_snd D key), unmarked; exact E2).
    rewrite E1, E3. unfold checked. rewrite map_app, unmarked. cbn [map snd]. rewrite IX. unfold uniques. cbn [forallb]. rewrite (unique_app D key _ _ UN E2). cbn. rewrite map_app, unmarked. reflexivity. }
  destruct (ask s text args) as [[s' rs']|].
  2:{ exfalso. specialize (P _ R eq_refl). rewrite X in P. discriminate. }
  destruct P as (st' & out & R' & _ & P & ->). match type of R with _ = Some ?z => assert (st' = z) as -> by congruence end. rewrite X in P. assert (P1 : held s' = held s ++ [row_for D t (fresh s) r2]) by congruence. match type of P with Some (_, ?z) = _ => assert (out = z) as -> by congruence end. clear P. symmetry in P1. rename P1 into P.
  set (y := row_for D t (fresh s) r2) in *. unfold fill_rows. cbn [r_pending for_rows fill_body nth_error]. pose proof (scan_cases D t conv PATHS y r) as SC. destruct (scan conv (gen_addrs t) _ r) as [r' [|]].
  - cbn. split; [reflexivity|]. exists y, r'. split; [symmetry; exact P|]. split; [apply row_for_whole, W|]. split; [reflexivity|exact SC].
  - exists y. split; [rewrite <- P; apply in_app_iff; right; left; reflexivity|exact SC].
Qed.
End Upsert.
End Postgres.

(** ** InsertOne with the generated statement *)
Section Own.
Context {V St : Type}.
Variables (printable : N -> bool) (rename : bytes -> bytes) (wrap unwrap : gotype -> bytes * bytes).
Variables (sname : bytes) (ro : bool) (fs : list sfield) (t : table).
Hypothesis BUILT : build_table rename wrap unwrap sname ro fs = Ok t.
Variables (d : driver) (before after item : column -> list (tok V)).
Hypothesis READ : readable d t before after item.
Variables (own : bool) (tn : bytes) (q : list bytes).
Hypothesis ADR : addresses (V:=V) d own t tn q.
Variables (D : semantics V) (idxs : list (list bytes)) (held : St -> list (row V)) (fresh : St -> row V).
Hypothesis WRAP : wrappers_are_functions D t before after.
Notation fl := (flavour_of d).
Notation value r := (fun c : column => r (c_gopath c)).
Let W : wf t := build_table_wf _ _ _ _ _ _ _ BUILT.
(** The statement, and what InsertOneStmt of the record returns *)
Variables (pi : list piece) (ci : list column) (text : bytes) (r : bytes -> V) (m : model V).
Hypothesis GEN : gen_insert_one printable d own t = Some (pi, ci).
Hypothesis TEXT : eval_pieces tn pi = Some text.
Hypothesis SENT : m_insert m = Some (text, map (value r) ci).

Lemma own_insert s : exists ret new, read fl text (map (value r) ci) = Some (Insert q (map c_name ci) [map (holding before after (value r)) ci] Fail ret) /\
  (d = DPostgres -> ret = map item (t_columns t)) /\ proposed D (fresh s) (map c_name ci) (map (holding before after (value r)) ci) = new /\
  rewritten D before after (insertable t) (value r) (fresh s) new.
Proof.
  destruct (C17_insert_one_of_tables printable rename wrap unwrap sname ro fs t BUILT d before after item READ own tn q ADR pi ci GEN) as (CI & SB & ND & text' & E & R). assert (text' = text) as -> by congruence.
  eexists _, _. split; [apply (R r)|]. split; [intros ->; reflexivity|]. split; [reflexivity|].
  assert (IN : incl ci (t_columns t)) by (intros c I; apply CI in I; apply I).
  destruct (rewritten_assigned D t before after (fresh s) (fresh s) ci (value r) WRAP IN ND) as [R1 R2]. unfold proposed. rewrite map_map, combine_map.
  split; [intros c I; apply R1, CI, I|]. intros n H. apply R2. intros c I. apply H, CI, I.
Qed.
Lemma one_length : forallb (fun es : list (expr V) => Nat.eqb (length es) (length (map c_name ci))) [map (holding before after (value r)) ci] = true.
Proof. cbn [forallb]. rewrite !map_length, Nat.eqb_refl. reflexivity. Qed.
(** The columns that the statement leaves to the database: an auto-increment key, columns that are only read *)
Definition left_to_database (c : column) : Prop := In c (t_columns t) /\ ~ insertable t c.
Lemma left_fresh c y x : left_to_database c -> rewritten D before after (insertable t) (value r) x y -> y (c_name c) = x (c_name c).
Proof. intros (I & N) (_ & H). apply H. intros c' IC E. apply N. replace c with c'; [exact IC|]. apply (wf_name_inj t c' c W); [apply IC|exact I|exact E]. Qed.

Section Pg.
Hypothesis PG : d = DPostgres.
Variables (conv : column -> V -> option V) (ask : St -> bytes -> list V -> option (St * rows (V:=V))).
Hypothesis PERFORMS : performs D fl q idxs held fresh ask.
Hypothesis PATHS : NoDup (map c_gopath (t_columns t)).
(** PostgreSQL: one row more, made of the record and the values of the database; the record then is that row. *)
Theorem C88_insert_one_pg_partial s : match run_insert_one_pg conv ask s m (gen_addrs t) r with
  | (s', (rec, Ok tt)) => exists y, held s' = held s ++ [y] /\ rewritten D before after (insertable t) (value r) (fresh s) y /\
      holds conv (t_columns t) (map (fun c => eval D y (item c)) (t_columns t)) r rec
  | (s', (rec, Err)) => s' = s /\ rec = r \/ exists y, held s' = held s ++ [y] /\ rewritten D before after (insertable t) (value r) (fresh s) y /\
      ~ readable_row conv (t_columns t) (map (fun c => eval D y (item c)) (t_columns t))
  | (_, (_, Panic)) => False
  end.
Proof.
  destruct (own_insert s) as (ret & new & R & RET & PRO & RW). specialize (RET PG). unfold run_insert_one_pg, insert_one. rewrite SENT. cbn [write_row]. pose proof (PERFORMS s text (map (value r) ci)) as P.
  destruct (ask s text _) as [[s' rs]|]; [|left; auto]. destruct P as (st & out & R' & _ & P & ->). match type of R with _ = Some ?z => assert (st = z) as -> by congruence end.
  unfold pg_insert in P. rewrite one_length in P. cbn [andb arbiter map pg_rows pg_row] in P. rewrite PRO in P. unfold checked in P. destruct (uniques D idxs _); [|discriminate]. rewrite map_app, unmarked in P. cbn [map snd app] in P. injection P as P <-.
  pose proof (C38_one_row_partial conv (gen_addrs t) PATHS r (complete [map (eval D new) ret] false)) as F. unfold complete in F. rewrite RET, map_map in *. destruct (row_scan _ _ _ _) as [rec [[]| |]]; [| |exact F].
  - destruct F as (row & rest & X & F). cbn [r_pending] in X. injection X as <- _. exists new. split; [symmetry; exact P|]. split; [exact RW|exact F].
  - right. exists new. split; [symmetry; exact P|]. split; [exact RW|]. destruct F as [F|[F|(row & rest & X & F)]]; [discriminate|discriminate|]. cbn [r_pending] in X. injection X as <- _. exact F.
Qed.
(** In particular the key that the database has generated is in the record. *)
Theorem C88_generated_key_pg_partial s s' rec a : run_insert_one_pg conv ask s m (gen_addrs t) r = (s', (rec, Ok tt)) -> left_to_database a -> item a = [Name (c_name a)] ->
  exists y, In y (held s') /\ y (c_name a) = fresh s (c_name a) /\ conv a (y (c_name a)) = Some (rec (c_gopath a)).
Proof.
  intros E LD IT. pose proof (C88_insert_one_pg_partial s) as H. rewrite E in H. destruct H as (y & HS & RW & HO & _). exists y. split; [rewrite HS; apply in_app_iff; right; left; reflexivity|]. split; [exact (left_fresh a y _ LD RW)|].
  destruct LD as (I & _). clear -HO I IT. induction (t_columns t) as [|c l IH]; [destruct I|]. cbn [map] in HO. inversion HO as [|x1 x2 l1 l2 H1 H2]; subst. destruct I as [->|I]; [|apply IH; assumption]. rewrite IT in H1. exact H1.
Qed.
End Pg.

Section Others.
Variables (num : Z -> V) (int_type : column -> bool * Z) (selects : bytes -> bytes) (exec : St -> bytes -> list V -> option (St * option Z)).
Hypothesis EXECUTES : executes D fl q idxs held fresh num (t_auto t) exec.
Notation run := (run_insert_one exec int_type num selects).
Hypothesis INT : forall a, t_auto t = Some a -> (0 < snd (int_type a))%Z.
Lemma convert_fits ty z : (0 < snd ty)%Z -> fits ty z -> convert ty z = z.
Proof.
  destruct ty as [sg bits]. unfold fits, convert. cbn [fst snd]. intros P F. assert (PP : (2 ^ bits = 2 * 2 ^ (bits - 1))%Z) by (rewrite <- Z.pow_succ_r by lia; f_equal; lia). assert (P0 : (0 < 2 ^ (bits - 1))%Z) by (apply Z.pow_pos_nonneg; lia).
  destruct sg; cbn [andb].
  - destruct (Z.leb_spec 0 z).
    + rewrite Z.mod_small by lia. destruct (Z.leb_spec (2 ^ (bits - 1)) z); lia.
    + replace (z mod 2 ^ bits)%Z with (z + 2 ^ bits)%Z by (rewrite <- (Z.mod_add z 1) by lia; rewrite Z.mod_small; lia). destruct (Z.leb_spec (2 ^ (bits - 1)) (z + 2 ^ bits)); lia.
  - rewrite Z.mod_small by lia. reflexivity.
Qed.
Lemma convert_range ty z : (0 < snd ty)%Z -> fits ty (convert ty z).
Proof.
  destruct ty as [sg bits]. unfold fits, convert. cbn [fst snd]. intros P. assert (PP : (2 ^ bits = 2 * 2 ^ (bits - 1))%Z) by (rewrite <- Z.pow_succ_r by lia; f_equal; lia). assert (P0 : (0 < 2 ^ (bits - 1))%Z) by (apply Z.pow_pos_nonneg; lia).
  pose proof (Z.mod_pos_bound z (2 ^ bits) ltac:(lia)) as M. destruct sg; cbn [andb]; [|lia]. destruct (Z.leb_spec (2 ^ (bits - 1)) (z mod 2 ^ bits)); lia.
Qed.
Lemma own_run s : exists ret new, read fl text (map (value r) ci) = Some (Insert q (map c_name ci) [map (holding before after (value r)) ci] Fail ret) /\ rewritten D before after (insertable t) (value r) (fresh s) new /\
  (forall rows', my_insert D idxs (fresh s) (held s) (Insert q (map c_name ci) [map (holding before after (value r)) ci] Fail ret) = Some rows' -> rows' = held s ++ [new]).
Proof.
  destruct (own_insert s) as (ret & new & R & _ & PRO & RW). exists ret, new. split; [exact R|]. split; [exact RW|]. intros rows'. unfold my_insert. rewrite one_length. cbn [map my_rows]. rewrite PRO. unfold my_row. destruct (List.find _ idxs); [discriminate|]. intros X. injection X as <-. reflexivity.
Qed.
(** MySQL and SQLite: one row more. A record without an auto-increment key stays as it is; otherwise the key of the new row is put into the record, if the type of the field has room for it. An error: the database has
    refused the row, or does not say what the key is.
    Missing: keys that do not fit and fields that are hidden (refuted below); values that the database fills in elsewhere are not read back. *)
Theorem C88_insert_one_partial s : (forall a, t_auto t = Some a -> selects (c_goname a) = c_gopath a) ->
  match run s d m (t_auto t) r with
  | (s', (rec, Ok tt)) => exists y, held s' = held s ++ [y] /\ rewritten D before after (insertable t) (value r) (fresh s) y /\
      match t_auto t with
      | None => rec = r
      | Some a => (exists z, y (c_name a) = num z /\ (fits (int_type a) z -> rec (c_gopath a) = y (c_name a))) /\ forall path, path <> c_gopath a -> rec path = r path
      end
  | (s', (rec, Err)) => rec = r /\ (s' = s \/ exists y, held s' = held s ++ [y] /\ rewritten D before after (insertable t) (value r) (fresh s) y /\ exists a, t_auto t = Some a /\ exec s text (map (value r) ci) = Some (s', None))
  | (_, (_, Panic)) => False
  end.
Proof.
  intros SEL. destruct (own_run s) as (ret & new & R & RW & MY). unfold run_insert_one, insert_one. rewrite SENT. pose proof (EXECUTES s text (map (value r) ci)) as P. destruct (exec s text _) as [[s' id]|]; [|auto].
  destruct P as (st & R' & _ & P & ID). match type of R with _ = Some ?z => assert (st = z) as -> by congruence end. apply MY in P. destruct (t_auto t) as [a|] eqn:A; [|exists new; auto].
  destruct id as [z|]; [|split; [reflexivity|right; exists new; split; [exact P|]; split; [exact RW|eauto]]].
  exists new. split; [exact P|]. split; [exact RW|].
  assert (Y : new (c_name a) = num z). { rewrite <- (ID a z eq_refl eq_refl). apply (left_fresh a new _); [|exact RW]. split; [apply (key_in t W); unfold key_of; rewrite A; left; reflexivity|]. intros (_ & _ & N). apply N. exact A. }
  unfold scan_auto. split.
  - exists z. split; [exact Y|]. intros F. rewrite (SEL a eq_refl), bseq_refl, Y. f_equal. apply convert_fits; [apply INT; reflexivity|exact F].
  - intros path N. rewrite (SEL a eq_refl), (proj2 (bseq_neq _ _) N). reflexivity.
Qed.
(** A key that the type of the field has no room for: the record gets another key, without an error. *)
Theorem C88_narrow_refuted s s' rec a : (forall x y, num x = num y -> x = y) -> t_auto t = Some a -> selects (c_goname a) = c_gopath a -> run s d m (t_auto t) r = (s', (rec, Ok tt)) ->
  (forall z, fresh s (c_name a) = num z -> ~ fits (int_type a) z) -> exists y, held s' = held s ++ [y] /\ rec (c_gopath a) <> y (c_name a).
Proof.
  intros INJ A SEL. destruct (own_run s) as (ret & new & R & RW & MY). unfold run_insert_one, insert_one. rewrite SENT, A. pose proof (EXECUTES s text (map (value r) ci)) as P. destruct (exec s text _) as [[s1 id]|]; [|discriminate].
  destruct P as (st & R' & _ & P & ID). match type of R with _ = Some ?z => assert (st = z) as -> by congruence end. apply MY in P. destruct id as [z|]; [|discriminate]. intros E NF. injection E as <- <-.
  exists new. split; [exact P|]. pose proof (ID a z A eq_refl) as Z1.
  assert (Y : new (c_name a) = num z). { rewrite <- Z1. apply (left_fresh a new _); [|exact RW]. split; [apply (key_in t W); unfold key_of; rewrite A; left; reflexivity|]. intros (_ & _ & N). apply N. exact A. }
  unfold scan_auto. rewrite SEL, bseq_refl, Y. intros X. apply INJ in X. apply (NF z Z1). rewrite <- X. apply convert_range, INT, A.
Qed.
(** When v.Name is another field than the key (a field of the outer struct hides the embedded key): the key stays as it was and the other field is overwritten. *)
Theorem C88_hidden_refuted s s' rec a : t_auto t = Some a -> selects (c_goname a) <> c_gopath a -> run s d m (t_auto t) r = (s', (rec, Ok tt)) ->
  rec (c_gopath a) = r (c_gopath a) /\ exists z, fresh s (c_name a) = num z /\ rec (selects (c_goname a)) = num (convert (int_type a) z).
Proof.
  intros A SEL. unfold run_insert_one, insert_one. rewrite SENT, A. pose proof (EXECUTES s text (map (value r) ci)) as P. destruct (exec s text _) as [[s1 id]|]; [|discriminate]. destruct P as (st & _ & _ & _ & ID).
  destruct id as [z|]; [|discriminate]. intros E. injection E as <- <-. unfold scan_auto. split; [rewrite (proj2 (bseq_neq _ _)) by congruence; reflexivity|]. exists z. split; [apply ID; auto|]. rewrite bseq_refl. reflexivity.
Qed.
End Others.
End Own.

(** ** Concrete cases: databases of integers; the state is the rows and the next number of the sequence *)
Definition wr_db : semantics Z := {| cmp := fun a b => Some (Z.compare a b); sort_cmp := Z.compare; like := fun _ _ => None; other := fun _ _ => 0%Z |}.
Definition wr_state : Type := list (row Z) * Z.
Definition wr_fresh (s : wr_state) : row Z := fun c => if bseq c (B "id") then snd s else 77%Z.
Definition wr_ask (idxs : list (list bytes)) (s : wr_state) (text : bytes) (args : list Z) : option (wr_state * rows (V:=Z)) :=
  match read (flavour_of DPostgres) text args with
  | Some st => if same_words (target st) [B "users"] then match pg_insert wr_db idxs (wr_fresh s) (fst s) st with Some (rows', out) => Some ((rows', (snd s + 1)%Z), complete out false) | None => None end else None
  | None => None
  end.
Definition wr_exec (d : driver) (idxs : list (list bytes)) (s : wr_state) (text : bytes) (args : list Z) : option (wr_state * option Z) :=
  match read (flavour_of d) text args with
  | Some st => if same_words (target st) [B "users"] then match my_insert wr_db idxs (wr_fresh s) (fst s) st with Some rows' => Some ((rows', (snd s + 1)%Z), Some (snd s)) | None => None end else None
  | None => None
  end.
Example C88_performs idxs : performs wr_db (flavour_of DPostgres) [B "users"] idxs fst wr_fresh (wr_ask idxs).
Proof.
  intros s text args. unfold wr_ask. destruct (read (flavour_of DPostgres) text args) as [st|] eqn:R; [|discriminate]. unfold same_words. destruct (list_eq_dec _ (target st) [B "users"]) as [T|T].
  - destruct (pg_insert wr_db idxs (wr_fresh s) (fst s) st) as [[rows' out]|] eqn:P; [|intros st' E _; injection E as <-; exact P]. exists st, out. auto.
  - intros st' E T'. injection E as <-. contradiction.
Qed.
Example C88_executes d idxs : executes wr_db (flavour_of d) [B "users"] idxs fst wr_fresh (fun z => z) (t_auto t_auto_ro) (wr_exec d idxs).
Proof.
  intros s text args. unfold wr_exec. destruct (read (flavour_of d) text args) as [st|] eqn:R; [|discriminate]. unfold same_words. destruct (list_eq_dec _ (target st) [B "users"]) as [T|T].
  - destruct (my_insert wr_db idxs (wr_fresh s) (fst s) st) as [rows'|] eqn:P; [|intros st' E _; injection E as <-; exact P]. exists st. split; [reflexivity|]. split; [exact T|]. split; [exact P|]. intros a z A E. injection A as <-. injection E as <-. reflexivity.
  - intros st' E T'. injection E as <-. contradiction.
Qed.
Definition wr_rec (i n a : Z) (path : bytes) : Z := if bseq path (B ".ID") then i else if bseq path (B ".Name") then n else a.
Definition wr_row (i n a : Z) : row Z := fun c => if bseq c (B "id") then i else if bseq c (B "name") then n else a.
Definition wr_show (x : row Z) : list Z := [x (B "id"); x (B "name"); x (B "age")].
Definition wr_read (x : bytes -> Z) : list Z := [x (B ".ID"); x (B ".Name"); x (B ".Age")].
Definition wr_conv (_ : column) (v : Z) : option Z := if (v <? 100)%Z then Some v else None.
Definition wr_model (r : bytes -> Z) : model Z := record_model (fun _ => true) t_one DPostgres false None (B "users") None None None ex_none ex_none ex_none r.
Definition wr_opts (nothing : bool) : upsert_opts := {| o_nothing := nothing; o_omit := [B "age"]; o_dup := [] |}.
Definition wr_shown {A} (f : A -> list Z) (r : wr_state * (list A * res nat)) := (map wr_show (fst (fst r)), map f (fst (snd r)), snd (snd r)).
Example C88_hypotheses : ex_build ex_one = Ok t_one /\ NoDup (map c_gopath (t_columns t_one)) /\ usable (V:=Z) DPostgres false t_one None (B "users") None [B "users"] (map (fun c => [Name (c_name c)]) (t_columns t_one)) /\ all_written t_one /\
  equality wr_db /\ key_of t_one <> [] /\ bare_keys Z DPostgres t_one /\ (forall b, o_dup (wr_opts b) = []) /\ length (key_of t_one) < 2 /\ In (map c_name (key_of t_one)) [[B "id"]] /\
  (forall b, exists c, In c (t_columns t_one) /\ ~ is_key t_one c /\ ~ left_out DPostgres false None (wr_opts b) c) /\ (forall x, has_value wr_db t_one x) /\ unique_on wr_db [B "id"] [wr_row 1 5 50; wr_row 2 6 60] = true /\
  ~ same_key wr_db t_one (wr_rec 3 8 80) (wr_rec 2 7 70) /\ has_key_of wr_db t_one (wr_row 2 6 60) (wr_rec 2 7 70) /\ (forall old, In old [wr_row 1 5 50; wr_row 2 6 60] -> ~ has_key_of wr_db t_one old (wr_rec 3 8 80)).
Proof.
  split; [reflexivity|]. split; [repeat constructor; cbn; intuition discriminate|]. split; [unfold t_one; ex_usable; (eexists; split; [right; left; reflexivity|split; [reflexivity|discriminate]])|].
  split; [apply (usable_case DPostgres false)|]. split.
  { assert (X : forall x y, cmp wr_db x y = Some Eq <-> x = y) by (intros x y; cbn; rewrite <- Z.compare_eq_iff; split; congruence). split; [intros x y H; apply X in H as <-; apply X; reflexivity|intros x y z H H'; apply X in H as <-; exact H']. }
  split; [discriminate|]. split; [intros L; cbn in L; inversion L as [|n H]; inversion H|]. split; [reflexivity|]. split; [repeat constructor|]. split; [left; reflexivity|]. split.
  { intros b. eexists. split; [right; left; reflexivity|]. split; [intros [[H|[]]|H]; discriminate|]. intros [[H|[]]|(l & H & _)]; discriminate. }
  split; [intros x k [<-|[]]; cbn; rewrite Z.compare_refl; reflexivity|]. split; [reflexivity|]. split; [intros H; specialize (H _ (or_introl eq_refl)); discriminate H|]. split; [intros k [<-|[]]; reflexivity|].
  intros old I H. specialize (H _ (or_introl eq_refl)). destruct I as [<-|[<-|[]]]; discriminate H.
Qed.
(** Insert; an upsert that leaves the age of row 2 as it is, which the record then holds; DO NOTHING, where the first record becomes the second *)
Example C88_case : let s := ([wr_row 1 5 50; wr_row 2 6 60], 9%Z) in let data := [wr_rec 2 7 70; wr_rec 3 8 80] in
  wr_shown wr_read (run_insert_pg wr_conv (wr_ask [[B "id"]]) s (map wr_model [wr_rec 4 7 70; wr_rec 3 8 80]) (gen_addrs t_one) [wr_rec 4 7 70; wr_rec 3 8 80]) = ([[1; 5; 50]; [2; 6; 60]; [4; 7; 70]; [3; 8; 80]]%Z, [[4; 7; 70]; [3; 8; 80]]%Z, Ok 2) /\
  wr_shown wr_read (run_insert_pg wr_conv (wr_ask [[B "id"]]) s (map wr_model data) (gen_addrs t_one) data) = ([[1; 5; 50]; [2; 6; 60]]%Z, [[2; 7; 70]; [3; 8; 80]]%Z, Err) /\
  wr_shown wr_read (run_upsert_pg wr_conv (wr_ask [[B "id"]]) s (map wr_model data) (wr_opts false) (gen_addrs t_one) data) = ([[1; 5; 50]; [2; 7; 60]; [3; 8; 80]]%Z, [[2; 7; 60]; [3; 8; 80]]%Z, Ok 2) /\
  wr_shown wr_read (run_upsert_pg wr_conv (wr_ask [[B "id"]]) s (map wr_model data) (wr_opts true) (gen_addrs t_one) data) = ([[1; 5; 50]; [2; 6; 60]; [3; 8; 80]]%Z, [[3; 8; 80]; [3; 8; 80]]%Z, Ok 1) /\
  wr_read (fst (snd (run_upsert_one_pg wr_conv (wr_ask [[B "id"]]) s (wr_model (wr_rec 2 7 70)) (wr_opts false) (gen_addrs t_one) (wr_rec 2 7 70)))) = [2; 7; 60]%Z.
Proof. repeat split; vm_compute; reflexivity. Qed.
(** A table with a generated key and a column that is only read *)
Definition wr_none (_ : column) : list (tok Z) := [].
Definition wr_item (c : column) : list (tok Z) := [Name (c_name c)].
Definition wr_own (d : driver) (r : bytes -> Z) : model Z :=
  record_model (fun _ => true) t_auto_ro d false None (B "users") None None None
    (fun val => match gen_insert_one (fun _ => true) d true t_auto_ro with Some (pi, ci) => match eval_pieces (B "users") pi with Some text => Some (text, map val ci) | None => None end | None => None end) ex_none ex_none r.
Example C88_own_hypotheses : forall d, ex_build ex_auto = Ok t_auto_ro /\ readable d t_auto_ro wr_none wr_none wr_item /\ addresses (V:=Z) d true t_auto_ro (B "users") [B "users"] /\ wrappers_are_functions wr_db t_auto_ro wr_none wr_none /\
  NoDup (map c_gopath (t_columns t_auto_ro)) /\ (exists a, t_auto t_auto_ro = Some a /\ left_to_database t_auto_ro a /\ c_gopath a = B "." ++ c_goname a) /\
  forall r, exists pi ci text, gen_insert_one (fun _ => true) d true t_auto_ro = Some (pi, ci) /\ eval_pieces (B "users") pi = Some text /\ m_insert (wr_own d r) = Some (text, map (fun c => r (c_gopath c)) ci).
Proof.
  intros d. split; [reflexivity|]. split; [intros c I; unfold t_auto_ro in I; cbn [t_columns In] in I; repeat (destruct I as [<-|I]; [split; [apply plain_nameb; reflexivity|split; [apply LemmasGen.wrapped_none; reflexivity|apply LemmasGen.selected_none; [reflexivity|apply plain_nameb; reflexivity]]]|]); destruct I|]. split; [destruct d; reflexivity|]. split; [intros val c I; exists (val c); intros r; reflexivity|]. split; [repeat constructor; cbn; intuition discriminate|]. split.
  - eexists. split; [reflexivity|]. split; [|reflexivity]. split; [left; reflexivity|]. intros (_ & _ & N). apply N. reflexivity.
  - intros r. destruct d; (do 3 eexists; split; [reflexivity|split; vm_compute; reflexivity]).
Qed.
(** The next number is 300. PostgreSQL returns it with the rest of the row; elsewhere it goes into the key, which in a field of 8 bits becomes 44; a hidden field is overwritten instead *)
Example C88_own_case : let s := ([wr_row 1 5 50], 300%Z) in let show := fun x : bytes -> Z => [x (B ".ID"); x (B ".Name"); x (B ".Seen")] in
  let run := fun d bits sel => run_insert_one (wr_exec d [[B "id"]]) (fun _ => (true, bits)) (fun z => z) sel s d (wr_own d (wr_rec 0 8 9)) (t_auto t_auto_ro) (wr_rec 0 8 9) in
  (let r := run_insert_one_pg (fun _ v => Some v) (wr_ask [[B "id"]]) s (wr_own DPostgres (wr_rec 0 8 9)) (gen_addrs t_auto_ro) (wr_rec 0 8 9) in
   map (fun y : row Z => [y (B "id"); y (B "name"); y (B "seen")]) (fst (fst r)) = [[1; 5; 50]; [300; 8; 77]]%Z /\ show (fst (snd r)) = [300; 8; 77]%Z /\ snd (snd r) = Ok tt) /\
  (forall d, d = DMySQL \/ d = DSQLite -> show (fst (snd (run d 64%Z (fun n => B "." ++ n)))) = [300; 8; 9]%Z /\ show (fst (snd (run d 8%Z (fun n => B "." ++ n)))) = [44; 8; 9]%Z /\
     show (fst (snd (run d 64%Z (fun _ => B ".Name")))) = [0; 300; 9]%Z /\ snd (snd (run d 8%Z (fun n => B "." ++ n))) = Ok tt).
Proof. split; [vm_compute; repeat split; reflexivity|]. intros d [->| ->]; repeat split; vm_compute; reflexivity. Qed.
(** ** Nothing to write, and errors of the database *)
Section Refused.
Context {V St : Type}.
Variables (conv : column -> V -> option V) (ask : St -> bytes -> list V -> option (St * rows (V:=V))) (exec : St -> bytes -> list V -> option (St * option Z)).
(** An empty slice: nothing is sent, the call succeeds. *)
Theorem C88_empty s o cols : run_insert_pg conv ask s [] cols [] = (s, ([], Ok 0)) /\ run_upsert_pg conv ask s [] o cols [] = (s, ([], Ok 0)).
Proof. split; reflexivity. Qed.
(** If the database refuses, nothing is stored, the call does not succeed and the records are as they were. *)
Theorem C88_refused s (m : model V) (ms : list (model V)) o cols x data : ms <> [] -> (forall text args, ask s text args = None) ->
  (forall r, In r [run_insert_one_pg conv ask s m cols x; run_upsert_one_pg conv ask s m o cols x] -> fst r = s /\ fst (snd r) = x /\ snd (snd r) <> Ok tt) /\
  (forall r, In r [run_insert_pg conv ask s ms cols data; run_upsert_pg conv ask s ms o cols data] -> fst r = s /\ fst (snd r) = data /\ forall n, snd (snd r) <> Ok n).
Proof.
  intros NE N.
  assert (ONE : forall q, let r := write_row conv ask s q cols x in fst r = s /\ fst (snd r) = x /\ snd (snd r) <> Ok tt).
  { intros q. unfold write_row. destruct q as [[text args]| |]; [rewrite N| |]; repeat split; discriminate. }
  assert (ALL : forall q, q <> Ok None -> let r := write_rows conv ask s q cols data in fst r = s /\ fst (snd r) = data /\ forall n, snd (snd r) <> Ok n).
  { intros q Q. unfold write_rows. destruct q as [[[text args]|]| |]; [rewrite N|contradiction| |]; repeat split; discriminate. }
  split; intros r [<-|[<-|[]]]; [apply ONE|apply ONE|apply ALL|apply ALL]; destruct ms as [|m0 ms]; try contradiction; cbv [insert upsert_pg].
  - destruct (without _ _); cbn [bind]; [|discriminate|discriminate]. destruct (map_res _ _); cbn [bind]; discriminate.
  - destruct (without _ _); cbn [bind]; [|discriminate|discriminate]. destruct (map_res _ _); cbn [bind]; [|discriminate|discriminate]. destruct (conflict_text _ _ _); cbn [bind]; discriminate.
Qed.
Theorem C88_refused_others s d (m : model V) int_type num selects auto x : (forall text args, exec s text args = None) ->
  exists e, run_insert_one exec int_type num selects s d m auto x = (s, (x, e)) /\ e <> Ok tt.
Proof.
  intros N. unfold run_insert_one. destruct (insert_one d m) as [[text args]| |]; [rewrite N| |]; eexists; (split; [reflexivity|discriminate]).
Qed.
End Refused.

Print Assumptions C88_insert_pg_partial.
Print Assumptions C88_upsert_pg_partial.
Print Assumptions C88_upsert_one_pg_partial.
Print Assumptions C88_nothing_refuted.
Print Assumptions C88_insert_one_pg_partial.
Print Assumptions C88_generated_key_pg_partial.
Print Assumptions C88_insert_one_partial.
Print Assumptions C88_narrow_refuted.
Print Assumptions C88_hidden_refuted.
Print Assumptions C88_empty.
Print Assumptions C88_refused.
Print Assumptions C88_refused_others.
