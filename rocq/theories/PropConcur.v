(** C93: calls made at the same time take effect one at a time. C89: so the table is a map for programs of several goroutines too. *)
From Coq Require Import List Bool ZArith Lia.
From Verif Require Import Base ModelCompiler ModelGen ModelRuntime ModelRows ModelWrite ModelHistory ModelBatch SpecSql SpecGen SpecRuntime SpecDb SpecStore SpecRows SpecConflict SpecWrite SpecHistory SpecBatch
  LemmasBase LemmasCompiler LemmasGen LemmasRuntime7 LemmasStore LemmasRows LemmasConflict PropRuntime PropRows PropGen PropConflict PropQuery PropWrite PropHistory LemmasBatch PropBatch ModelConcur SpecConcur LemmasConcur.
Import SpecRows ListNotations.

Section Any.
Context {V St : Type}.
(** Any database that executes a statement as one step, any driver, any model *)
Variables (conv : column -> V -> option V) (ask : St -> bytes -> list V -> option (St * rows (V:=V))) (exec : St -> bytes -> list V -> option (St * option Z)).
Variables (int_type : column -> bool * Z) (num : Z -> V) (selects : bytes -> bytes).
Variables (d : driver) (model_of : record (V:=V) -> model V) (cols : list column) (auto : option column) (pass : St -> St).
Notation program := (program conv ask exec int_type num selects d model_of cols auto pass).
Notation concurrently := (concurrently conv ask exec d model_of cols auto pass).

(** For every number of goroutines, whatever each does next after the replies it got, and every schedule: at each moment there is an order of the calls that have taken effect,
    - to which a step adds at most one call of the goroutine that makes it, at the end, so that a call that returned before another began stands before it;
    - in which the calls made one after the other give the same replies and leave the same database;
    - that has of each goroutine the calls that returned, in its order and with the replies it got, no call that has not begun, and of the call it is in nothing or that call. *)
Theorem C93_one_at_a_time (s0 : St) (fs : list (strategy V)) : exists order : list nat -> list (entry (V:=V)), order [] = [] /\ forall sched,
  let '(s, gs) := concurrently s0 (launch fs) sched in
  (forall i, order (sched ++ [i]) = order sched \/ exists a r, order (sched ++ [i]) = order sched ++ [(i, a, r)]) /\
  (let '(tr, last) := program s0 (calls_in (order sched)) in map snd tr = map snd (order sched) /\ last = s) /\ Forall (fun e => fst (fst e) < length fs) (order sched) /\
  forall i f, nth_error fs i = Some f -> exists g, nth_error gs i = Some g /\ g_next g = f /\ follows f (made_by i (order sched)) /\ shows (made_by i (order sched)) g.
Proof.
  exists (order_of conv ask exec d model_of cols auto pass s0 (launch fs)). split; [reflexivity|]. intros sched.
  pose proof (inv_all conv ask exec int_type num selects d model_of cols auto pass s0 fs sched) as (L & P1 & P2 & G).
  pose proof (order_snoc conv ask exec d model_of cols auto pass s0 (launch fs) sched) as SN.
  destruct (concurrently s0 (launch fs) sched) as [s gs]. pose proof (owners conv ask exec int_type num selects d model_of cols auto pass s0 fs sched) as OW. cbn [fst snd] in *. split; [|split; [|split; [exact OW|]]].
  - intros i. rewrite SN. destruct (moment_cases conv ask exec model_of cols auto gs s i) as [->|(a & r & ->)]; [left; apply app_nil_r|right; eauto].
  - destruct (program s0 _) as [tr last]. auto.
  - intros i f F. destruct (nth_error gs i) as [g|] eqn:N.
    + destruct (G i g N) as (GF & GO & GS). assert (g_next g = f) as <- by congruence. exists g. split; [reflexivity|]. split; [reflexivity|]. split; [exact GO|]. unfold shows. destruct (g_stage g) as [|a w|a n]; [exact GS|split; apply GS|eauto].
    + exfalso. apply nth_error_None in N. assert (nth_error fs i <> None) as H by congruence. apply nth_error_Some in H. lia.
Qed.
(** No goroutine waits for another: after three steps for each, [n] calls have returned, or the goroutine had no more to make *)
Theorem C93_none_waits (s0 : St) (fs : list (strategy V)) (sched : list nat) i g n : nth_error (snd (concurrently s0 (launch fs) sched)) i = Some g -> 3 * n <= count_occ Nat.eq_dec sched i ->
  n <= length (g_back g) \/ g_stage g = Idle /\ g_next g (g_back g) = None.
Proof.
  intros N C. pose proof (progress conv ask exec d model_of cols auto pass s0 fs sched i g N) as P. unfold steps_made in P. destruct P as [P|[_ P]]; [left|right; exact P]. destruct (g_stage g); lia.
Qed.
End Any.

(** *** With the database of C89 *)
Section Map.
Context {V St : Type}.
(** As in PropHistory *)
Variables (printable : N -> bool) (rename : bytes -> bytes) (wrap unwrap : gotype -> bytes * bytes).
Variables (sname : bytes) (ro : bool) (fs : list sfield) (t : table).
Hypothesis BUILT : build_table rename wrap unwrap sname ro fs = Ok t.
Hypothesis PATHS : NoDup (map c_gopath (t_columns t)).
Variables (d : driver) (on own : bool) (db : option bytes) (tn own_tn : bytes) (dup omit : option (list bytes)) (q : list bytes).
Hypothesis WRITTEN : all_written t.
Notation nothing := (fun _ : column => [] : list (tok V)).
Notation name := (fun c : column => [Name (c_name c)] : list (tok V)).
Hypothesis READ : readable d t nothing nothing name.
Hypothesis ADR : addresses (V:=V) d own t own_tn q.
Hypothesis U : usable (V:=V) d on t db tn None q (map name (t_columns t)).
Hypothesis BARE : bare_keys V d t.
Variables (pi pf pu : list piece) (ci cf cu : list column) (ti tf tu : bytes).
Hypothesis GI : gen_insert_one printable d own t = Some (pi, ci).
Hypothesis GF : gen_find_by_pk printable d own t = Some (pf, cf).
Hypothesis GU : gen_update_by_pk printable d own t = Some (pu, cu).
Hypothesis TI : eval_pieces own_tn pi = Some ti.
Hypothesis TF : eval_pieces own_tn pf = Some tf.
Hypothesis TU : eval_pieces own_tn pu = Some tu.
Notation fi := (fun val : column -> V => Some (ti, map val ci)).
Notation ff := (fun val : column -> V => Some (tf, map val cf)).
Notation fu := (fun val : column -> V => Some (tu, map val cu)).
Notation model_of := (record_model printable t d on db tn None dup omit fi ff fu).
Variables (D : semantics V) (held : St -> list (row V)) (fresh : St -> row V) (down : St -> Prop).
Hypothesis EQ : equality D.
Variables (conv : column -> V -> option V) (ask : St -> bytes -> list V -> option (St * rows (V:=V))) (exec : St -> bytes -> list V -> option (St * option Z)).
Hypothesis EXEC : obeys_exec D t (flavour_of d) q held fresh down exec.
Hypothesis ASK : obeys_ask D t (flavour_of d) q held fresh down ask.
Hypothesis LOSSLESS : forall c v, In c (t_columns t) -> conv c v = Some v.
Variables (int_type : column -> bool * Z) (num : Z -> V) (selects : bytes -> bytes).
Variable pass : St -> St.
Hypothesis PASS : forall s, held (pass s) = held s.
(** Upserts *)
Hypothesis UPASK : d = DPostgres -> obeys_upsert_ask D t (flavour_of d) q held fresh down ask.
Hypothesis UPEXEC : d = DMySQL -> obeys_upsert_exec D t (flavour_of d) q held fresh down exec.
Hypothesis DUP : d = DPostgres -> dup = None.
Hypothesis PLAIN : d = DPostgres -> on = false \/ length (key_of t) < 2.
Notation program := (program conv ask exec int_type num selects d model_of (gen_addrs t) (t_auto t) pass).
Notation concurrently := (concurrently conv ask exec d model_of (gen_addrs t) (t_auto t) pass).
Notation leaves := (leaves d on omit).
Notation sensible := (sensible t d on omit D).
(** Whatever goroutines do and however they are scheduled, the calls stand in an order (that of C93) in which each replies what the map says that the calls before it leave.
    Missing: what is said at C89_upserts_partial. *)
Theorem C89_goroutines_partial start s0 (plans : list (strategy V)) : stands D t (held s0) start -> (forall f h a, In f plans -> f h = Some a -> sensible a) ->
  exists order : list nat -> list (entry (V:=V)), order [] = [] /\ forall sched,
  let '(s, gs) := concurrently s0 (launch plans) sched in
  (forall i, order (sched ++ [i]) = order sched \/ exists a r, order (sched ++ [i]) = order sched ++ [(i, a, r)]) /\
  (forall i f, nth_error plans i = Some f -> exists g, nth_error gs i = Some g /\ g_next g = f /\ follows f (made_by i (order sched)) /\ shows (made_by i (order sched)) g) /\
  (forall pre i a r post, order sched = pre ++ (i, a, r) :: post -> fair_action D t (d = DPostgres) (down (snd (program s0 (calls_in pre)))) (contents D t leaves start pre) a r) /\
  forall x, match contents D t leaves start (order sched) x with Some y => one_row D t (held s) x (whole t y) | None => forall r, In r (held s) -> ~ has_key_of D t r x end.
Proof.
  intros ST SE. destruct (C93_one_at_a_time conv ask exec int_type num selects d model_of (gen_addrs t) (t_auto t) pass s0 plans) as (order & O & H). exists order. split; [exact O|].
  intros sched. specialize (H sched). destruct (concurrently s0 (launch plans) sched) as [s gs]. destruct H as (M & P & OW & G). split; [exact M|]. split; [exact G|].
  assert (OK : Forall sensible (calls_in (order sched))).
  { apply Forall_forall. intros a I. apply in_map_iff in I as ([[i b] r] & <- & I). cbn [fst snd]. rewrite Forall_forall in OW. pose proof (OW _ I) as LT. cbn [fst] in LT. destruct (nth_error plans i) as [f|] eqn:F; [|apply nth_error_None in F; lia].
    destruct (G i f F) as (g & _ & _ & FO & _). assert (J : In (b, r) (made_by i (order sched))). { unfold made_by. apply in_map_iff. exists (i, b, r). split; [reflexivity|]. apply filter_In. split; [exact I|]. apply Nat.eqb_refl. }
    apply in_split in J as (l1 & l2 & J). apply (SE f l1); [eapply nth_error_In, F|]. eapply FO, J. }
  assert (SAME : forall (A : Type) (l : list (A * action V * reply V)) (l' : list (entry (V:=V))), map (fun e => snd (fst e)) l = calls_in l' -> map snd l = map snd l' -> forall z, contents D t leaves start l z = contents D t leaves start l' z).
  { intros A l l' E1 E2 z. unfold contents. generalize (start z). revert l' E1 E2. induction l as [|[[? ?] ?] l IH]; intros [|[[? ?] ?] l'] E1 E2 v; try discriminate; [reflexivity|]. injection E1 as -> E1. injection E2 as -> E2. cbn [fold_left fst snd]. apply IH; assumption. }
  pose proof (fun post pre s1 a r => C89_upserts_partial printable rename wrap unwrap sname ro fs t BUILT PATHS d on own db tn own_tn dup omit q WRITTEN READ ADR U BARE pi pf pu ci cf cu ti tf tu GI GF GU TI TF TU D held fresh down EQ conv ask exec EXEC ASK LOSSLESS int_type num selects pass PASS UPASK UPEXEC DUP PLAIN start s0 (calls_in (order sched)) pre s1 a r post OK ST) as REP.
  pose proof (C89_upserted_table_partial printable rename wrap unwrap sname ro fs t BUILT PATHS d on own db tn own_tn dup omit q WRITTEN READ ADR U BARE pi pf pu ci cf cu ti tf tu GI GF GU TI TF TU D held fresh down EQ conv ask exec EXEC ASK LOSSLESS int_type num selects pass PASS UPASK UPEXEC DUP PLAIN start s0 (calls_in (order sched)) OK ST) as TAB.
  pose proof (program_calls conv ask exec int_type num selects d model_of (gen_addrs t) (t_auto t) pass (calls_in (order sched)) s0) as PC.
  split.
  - intros pre i a r post E. pose proof (program_app conv ask exec int_type num selects d model_of (gen_addrs t) (t_auto t) pass (a :: calls_in post) (calls_in pre) s0) as PA.
    pose proof (program_calls conv ask exec int_type num selects d model_of (gen_addrs t) (t_auto t) pass (calls_in pre) s0) as PC1.
    assert (EC : calls_in (order sched) = calls_in pre ++ a :: calls_in post) by (rewrite E; exact (calls_app pre ((i, a, r) :: post))). rewrite EC in P, REP, PC. rewrite PA in P, REP, PC. clear PA TAB.
    cbn [ModelBatch.program] in P, REP, PC. destruct (run_action _ _ _ _ _ _ _ _ _ _ (snd (program s0 (calls_in pre))) a) as [s' r']. destruct (program (pass s') (calls_in post)) as [tr2 last]. cbn [fst snd] in P, REP, PC. destruct P as [P _]. rewrite E in P. rewrite !map_app in P. cbn [map snd] in P.
    assert (LEN : length (map snd (fst (program s0 (calls_in pre)))) = length (map snd pre)). { rewrite !map_length. rewrite <- (map_length (fun e => snd (fst e)) (fst _)), PC1. apply map_length. }
    assert (TWO : map snd (fst (program s0 (calls_in pre))) = map snd pre /\ r' = r).
    { clear -P LEN. revert P LEN. generalize (map snd (fst (program s0 (calls_in pre)))) (map snd pre). intros l. induction l as [|x l IH]; intros [|y l'] P LEN; try discriminate; cbn [app] in P; [injection P as -> _; auto|]. injection P as -> P. injection LEN as LEN. destruct (IH l' P LEN) as [-> ->]. auto. }
    destruct TWO as [P1 ->]. specialize (REP _ _ _ _ _ Logic.eq_refl).
    assert (EXT : forall m m', (forall z, m z = m' z) -> fair_action D t (d = DPostgres) (down (snd (program s0 (calls_in pre)))) m a r -> fair_action D t (d = DPostgres) (down (snd (program s0 (calls_in pre)))) m' a r).
    { intros m m' EX [F|F]; [left; exact F|right]. destruct a as [c|ys|o x|o ys]; [rewrite <- EX; exact F| |exact F|exact F]. destruct F as [[[F1 F2] F]|[F1 F]]; [left|right]; (split; [|exact F]).
      - split; [exact F1|]. intros y I. rewrite <- EX. apply F2, I.
      - intros [F2 F3]. apply F1. split; [exact F2|]. intros y I. rewrite EX. apply F3, I. }
    eapply EXT; [|exact REP]. apply SAME; [exact PC1|exact P1].
  - intros x. destruct (program s0 (calls_in (order sched))) as [tr last]. cbn [fst] in PC. destruct P as [P1 ->]. specialize (TAB x). rewrite (SAME _ tr (order sched) PC P1 x) in TAB. exact TAB.
Qed.
End Map.

(** *** A concrete case: two goroutines that each find record 1 and write it with a name that is larger by one, and one that upserts record 2 *)
Definition co_adds : strategy Z := fun h =>
  match h with
  | [] => Some (Single (Looks (wr_rec 1 0 0)))
  | [(_, Found x)] => Some (Single (Changes (fun p => if bseq p (B ".Name") then (x p + 1)%Z else x p)))
  | _ => None
  end.
Definition co_puts : strategy Z := fun h => match h with [] => Some (Put (ba_opts []) (wr_rec 2 7 70)) | _ => None end.
Definition co_run (d : driver) (sched : list nat) : list (list Z) * list (list (list Z)) :=
  let '(s, gs) := concurrently (fun _ v => Some v) (ba_ask d) (ba_exec d) d (hi_model d) (gen_addrs t_one) (t_auto t_one) hi_pass ([wr_row 1 5 50], []) (launch [co_adds; co_puts; co_adds]) sched in
  (map wr_show (fst s), map (fun g => map (fun e => match snd e with Done => [] | Found x => wr_read x | Failed => [(-1)%Z] | Panicked => [(-2)%Z] end) (g_back g)) gs).
(** One after the other both count; when both have read before one writes, each call is still as the order of the calls says, but one of the two additions is overwritten *)
Example C93_case : forall d, d <> DSQLite ->
  co_run d (repeat 0 6 ++ repeat 1 3 ++ repeat 2 6) = ([[1; 7; 50]; [2; 7; 70]]%Z, [[[1; 5; 50]%Z; []]; [[]]; [[1; 6; 50]%Z; []]]) /\
  co_run d [0; 2; 1; 2; 0; 0; 2; 0; 1; 2; 2; 0; 0; 2; 1] = ([[1; 6; 50]; [2; 7; 70]]%Z, [[[1; 5; 50]%Z; []]; [[]]; [[1; 5; 50]%Z; []]]) /\
  co_run d [0; 2; 1; 2; 0; 0] = ([[1; 5; 50]]%Z, [[[1; 5; 50]%Z]; []; []]).
Proof. intros [] N; [| |contradiction]; vm_compute; repeat split; reflexivity. Qed.
(** These goroutines make sensible calls only; the rest of the hypotheses are met by C89_hypotheses and C89_upsert_hypotheses *)
Example C89_goroutines_hypotheses : forall d, d <> DSQLite -> (forall f h a, In f [co_adds; co_puts; co_adds] -> f h = Some a -> sensible t_one d false None wr_db a) /\
  exists m, m (wr_rec 1 0 0) <> None /\ stands wr_db t_one [wr_row 1 5 50] m.
Proof.
  intros d NS. split.
  - intros f h a I E. destruct (C89_upsert_hypotheses d) as (_ & _ & _ & _ & L & SE). assert (A : f = co_adds \/ f = co_puts) by (destruct I as [<-|[<-|[<-|[]]]]; auto). clear I. destruct A as [ -> | -> ].
    + destruct h as [|[b [|x| |]] [|]]; cbn in E; try discriminate E; injection E as <-; exact I.
    + destruct h; [|discriminate E]. injection E as <-. split; [exact NS|]. split; [intros _; exact L|]. apply (SE NS (wr_rec 2 7 70) [wr_rec 2 7 70]).
  - exists (fun x => if (x (B ".ID") =? 1)%Z then Some (wr_rec 1 5 50) else None). split; [discriminate|]. split; [reflexivity|]. intros x. destruct (Z.eqb_spec (x (B ".ID")) 1) as [E|E].
    + exists (wr_row 1 5 50). split; [left; reflexivity|]. split.
      * intros k I. vm_compute in I. destruct I as [<-|[]]. cbn. match goal with |- context [x ?l] => change (x l) with (x (B ".ID")) end. rewrite E. reflexivity.
      * intros c I. vm_compute in I. repeat (destruct I as [<-|I]; [reflexivity|]). destruct I.
    + intros r [<-|[]] K. apply E. specialize (K _ (or_introl Logic.eq_refl)). first [change (Some (Z.compare 1 (x (B ".ID"))) = Some Eq) in K|change (Some (Z.compare (x (B ".ID")) 1) = Some Eq) in K]. assert (K' := f_equal (fun o => match o with Some c => c | None => Lt end) K). apply Z.compare_eq_iff in K'. congruence.
Qed.
Print Assumptions C93_one_at_a_time.
Print Assumptions C93_none_waits.
Print Assumptions C89_goroutines_partial.
