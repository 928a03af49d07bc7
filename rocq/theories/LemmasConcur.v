(** Proofs about goroutines (C93). *)
From Coq Require Import List Bool ZArith Lia.
From Verif Require Import Base ModelCompiler ModelGen ModelRuntime ModelRows ModelWrite ModelHistory ModelBatch ModelConcur SpecConcur.
Import ListNotations.

Section Concur.
Context {V St : Type}.
Variables (conv : column -> V -> option V) (ask : St -> bytes -> list V -> option (St * rows (V:=V))) (exec : St -> bytes -> list V -> option (St * option Z)).
Variables (int_type : column -> bool * Z) (num : Z -> V) (selects : bytes -> bytes).
Variables (d : driver) (model_of : record (V:=V) -> model V) (cols : list column) (auto : option column) (pass : St -> St).
Notation run_action := (run_action conv ask exec int_type num selects d model_of cols auto).
Notation program := (program conv ask exec int_type num selects d model_of cols auto pass).
Notation prepare := (prepare d model_of).
Notation fire := (fire ask exec).
Notation finish := (finish conv model_of cols auto).
Notation step_one := (step_one conv ask exec d model_of cols auto pass).
Notation step_nth := (step_nth conv ask exec d model_of cols auto pass).
Notation concurrently := (concurrently conv ask exec d model_of cols auto pass).

(** A call is its three steps *)
Lemma three_steps s a : run_action s a = (fst (fire s (prepare a)), finish a (snd (fire s (prepare a)))).
Proof.
  assert (SEND : forall r c, (forall x, c <> Adds x) -> send exec s r = (fst (fire s (execs r)), finish (Single c) (snd (fire s (execs r))))).
  { intros [[text args]| |] c N; cbn; try reflexivity. destruct (exec s text args) as [[s' id]|]; [|reflexivity]. destruct c as [x|x|x|x]; [destruct (N x eq_refl)|reflexivity..]. }
  assert (SENDA : forall r o x, send exec s r = (fst (fire s (execs r)), finish (Put o x) (snd (fire s (execs r))))) by (intros [[text args]| |] o x; cbn; try reflexivity; destruct (exec s text args) as [[s' id]|]; reflexivity).
  assert (SA : forall r a', (exists xs, a' = AddAll xs \/ exists o, a' = PutAll o xs) -> send_all exec s r = (fst (fire s (unless_empty execs r)), finish a' (snd (fire s (unless_empty execs r))))).
  { intros [[[text args]|]| |] a' [xs [->|[o ->]]]; cbn; try reflexivity; destruct (exec s text args) as [[s' id]|]; reflexivity. }
  assert (WR : forall r a' x, a' = Single (Adds x) \/ (exists o, a' = Put o x) -> (let '(s', (_, e)) := write_row conv ask s r cols x in (s', all_done e)) = (fst (fire s (queries r)), finish a' (snd (fire s (queries r))))).
  { intros [[text args]| |] a' x [->|[o ->]]; cbn; try reflexivity; (destruct (ask s text args) as [[s' rs]|]; [cbn; destruct (row_scan conv cols x rs) as [x' [[]| |]]; reflexivity|reflexivity]). }
  assert (WA : forall r a' xs, a' = AddAll xs \/ (exists o, a' = PutAll o xs) -> (let '(s', (_, e)) := write_rows conv ask s r cols xs in (s', all_done e)) = (fst (fire s (unless_empty queries r)), finish a' (snd (fire s (unless_empty queries r))))).
  { intros [[[text args]|]| |] a' xs [->|[o ->]]; cbn; try reflexivity; (destruct (ask s text args) as [[s' rs]|]; [cbn; destruct (fill_rows conv cols xs rs) as [x' [n| |]]; reflexivity|reflexivity]). }
  destruct a as [[x|x|x|x]|xs|o x|o xs]; cbn [ModelBatch.run_action ModelHistory.run_call ModelConcur.prepare].
  - assert (RI : forall dd, (let '(s', (_, r)) := run_insert_one exec int_type num selects s dd (model_of x) auto x in (s', done r)) = (fst (fire s (execs (insert_one dd (model_of x)))), finish (Single (Adds x)) (snd (fire s (execs (insert_one dd (model_of x))))))).
    { intros dd. unfold run_insert_one. destruct (insert_one dd (model_of x)) as [[text args]| |]; cbn; try reflexivity. destruct (exec s text args) as [[s' id]|]; [|reflexivity]. cbn. destruct (m_insert (model_of x)), auto, id; reflexivity. }
    pose proof (WR (insert_one DPostgres (model_of x)) (Single (Adds x)) x (or_introl eq_refl)) as P. unfold run_insert_one_pg. destruct d; [apply RI| |apply RI]. rewrite <- P. destruct (write_row _ _ _ _ _ _) as [s' [x' [[]| |]]]; reflexivity.
  - apply SEND. discriminate.
  - apply SEND. discriminate.
  - destruct (find_by_pk d (model_of x)) as [[text args]| |]; cbn; try reflexivity. destruct (ask s text args) as [[s' rs]|]; [|reflexivity]. cbn. destruct (row_scan conv cols x rs) as [x' r]. reflexivity.
  - destruct d; [apply SA; eauto|apply WA; auto|apply SA; eauto].
  - destruct d; [apply SENDA|apply WR; eauto|apply SENDA].
  - destruct d; [apply SA; eauto|apply WA; eauto|apply SA; eauto].
Qed.

Lemma program_snoc acts a : forall s, program s (acts ++ [a]) =
  (fst (program s acts) ++ [(snd (program s acts), a, snd (run_action (snd (program s acts)) a))], pass (fst (run_action (snd (program s acts)) a))).
Proof.
  induction acts as [|b acts IH]; intros s; cbn [app ModelBatch.program].
  - cbn [fst snd app]. destruct (run_action s a) as [s' r]. reflexivity.
  - destruct (run_action s b) as [s' r]. rewrite (IH (pass s')). destruct (program (pass s') acts) as [tr last]. reflexivity.
Qed.
Lemma program_app acts2 acts1 : forall s, program s (acts1 ++ acts2) = (fst (program s acts1) ++ fst (program (snd (program s acts1)) acts2), snd (program (snd (program s acts1)) acts2)).
Proof.
  induction acts1 as [|b acts IH]; intros s; cbn [app ModelBatch.program].
  - cbn [fst snd app]. destruct (program s acts2); reflexivity.
  - destruct (run_action s b) as [s' r]. rewrite (IH (pass s')). destruct (program (pass s') acts) as [tr last]. reflexivity.
Qed.

Lemma program_calls acts : forall s, map (fun e => snd (fst e)) (fst (program s acts)) = acts.
Proof. induction acts as [|a acts IH]; intros s; cbn [ModelBatch.program]; [reflexivity|]. destruct (run_action s a) as [s' r]. specialize (IH (pass s')). destruct (program (pass s') acts) as [tr last]. cbn. f_equal. exact IH. Qed.

(** *** The order in which the database executed the calls *)
Definition moment (gs : list (goroutine V)) (s : St) (i : nat) : list (entry (V:=V)) :=
  match nth_error gs i with
  | Some g => match g_stage g with Begun a w => [(i, a, finish a (snd (fire s w)))] | _ => [] end
  | None => []
  end.
Definition stepped (w : (St * list (goroutine V)) * list (entry (V:=V))) (i : nat) : (St * list (goroutine V)) * list (entry (V:=V)) :=
  (step_nth (fst (fst w)) (snd (fst w)) i, snd w ++ moment (snd (fst w)) (fst (fst w)) i).
Definition traced (s : St) (gs : list (goroutine V)) (sched : list nat) := fold_left stepped sched ((s, gs), []).
Definition order_of (s : St) (gs : list (goroutine V)) (sched : list nat) : list (entry (V:=V)) := snd (traced s gs sched).
Lemma traced_fst s gs sched : fst (traced s gs sched) = concurrently s gs sched.
Proof.
  unfold traced, ModelConcur.concurrently. generalize (@nil (entry (V:=V))). generalize (s, gs). induction sched as [|i l IH]; intros w o; [reflexivity|]. cbn [fold_left]. unfold stepped at 2. cbn [fst snd]. rewrite IH. reflexivity.
Qed.
Lemma order_snoc s gs sched i : order_of s gs (sched ++ [i]) = order_of s gs sched ++ moment (snd (concurrently s gs sched)) (fst (concurrently s gs sched)) i.
Proof. unfold order_of, traced. rewrite fold_left_app. cbn [fold_left]. unfold stepped at 1. cbn [snd]. pose proof (traced_fst s gs sched) as T. unfold traced in T. rewrite T. reflexivity. Qed.
Lemma concurrently_snoc s gs sched i : concurrently s gs (sched ++ [i]) = step_nth (fst (concurrently s gs sched)) (snd (concurrently s gs sched)) i.
Proof. unfold ModelConcur.concurrently. rewrite fold_left_app. reflexivity. Qed.

Lemma step_nth_spec gs : forall s i, match nth_error gs i with
  | Some g => fst (step_nth s gs i) = fst (step_one s g) /\ length (snd (step_nth s gs i)) = length gs /\
      forall j, nth_error (snd (step_nth s gs i)) j = if Nat.eqb j i then Some (snd (step_one s g)) else nth_error gs j
  | None => step_nth s gs i = (s, gs)
  end.
Proof.
  induction gs as [|g gs IH]; intros s [|i]; cbn [nth_error ModelConcur.step_nth]; try reflexivity.
  - destruct (step_one s g) as [s' g']. cbn [fst snd]. split; [reflexivity|]. split; [reflexivity|]. intros [|j]; reflexivity.
  - specialize (IH s i). destruct (nth_error gs i) as [g'|].
    + destruct (step_nth s gs i) as [s' r']. cbn [fst snd] in *. destruct IH as (A & L & C). split; [exact A|]. split; [cbn; congruence|]. intros [|j]; [reflexivity|apply C].
    + rewrite IH. reflexivity.
Qed.
Lemma calls_app a b : calls_in (V:=V) (a ++ b) = calls_in a ++ calls_in b.
Proof. apply map_app. Qed.
Lemma made_app i a b : made_by (V:=V) i (a ++ b) = made_by i a ++ made_by i b.
Proof. unfold made_by. rewrite filter_app, map_app. reflexivity. Qed.

Variables (s0 : St) (fs : list (strategy V)).
Definition inv (w : St * list (goroutine V)) (ord : list (entry (V:=V))) : Prop :=
  length (snd w) = length fs /\
  snd (program s0 (calls_in ord)) = fst w /\ map snd (fst (program s0 (calls_in ord))) = map snd ord /\
  forall i g, nth_error (snd w) i = Some g -> nth_error fs i = Some (g_next g) /\ follows (g_next g) (made_by i ord) /\
    match g_stage g with
    | Idle => made_by i ord = g_back g
    | Begun a w' => made_by i ord = g_back g /\ g_next g (g_back g) = Some a /\ w' = prepare a
    | Executed a n => made_by i ord = g_back g ++ [(a, finish a n)]
    end.
Lemma inv_start : inv (s0, launch fs) [].
Proof.
  unfold inv, launch. cbn [fst snd]. split; [apply map_length|]. split; [reflexivity|]. split; [reflexivity|]. intros i g E. rewrite nth_error_map in E. destruct (nth_error fs i) as [f|] eqn:F; [|discriminate E]. injection E as <-. cbn [g_next g_stage g_back].
  split; [reflexivity|]. split; [|reflexivity]. intros [|e pre]; discriminate.
Qed.
Lemma follows_snoc (f : strategy V) l a r : follows f l -> f l = Some a -> follows f (l ++ [(a, r)]).
Proof.
  intros F E pre b q post H. destruct post as [|e post] using rev_ind.
  - apply app_inj_tail in H as [-> H]. injection H as -> _. exact E.
  - clear IHpost. rewrite app_comm_cons, app_assoc in H. apply app_inj_tail in H as [H _]. eapply F, H.
Qed.
Lemma inv_step w ord i : inv w ord -> inv (step_nth (fst w) (snd w) i) (ord ++ moment (snd w) (fst w) i).
Proof.
  destruct w as [s gs]. intros (L & P1 & P2 & G). cbn [fst snd] in *. pose proof (step_nth_spec gs s i) as SP. unfold moment. destruct (nth_error gs i) as [g|] eqn:N.
  2:{ rewrite SP, app_nil_r. split; [exact L|]. auto. }
  destruct SP as (A & LE & C). destruct (G i g N) as (GF & GO & GS). unfold ModelConcur.step_one in A, C.
  assert (OTHER : forall j a r, j <> i -> made_by (V:=V) j [(i, a, r)] = []) by (intros j a r NE; unfold made_by; cbn [filter fst]; destruct (Nat.eqb i j) eqn:E; [apply Nat.eqb_eq in E; congruence|reflexivity]).
  assert (SAME : forall a r, made_by (V:=V) i [(i, a, r)] = [(a, r)]) by (intros a r; unfold made_by; cbn [filter fst]; rewrite Nat.eqb_refl; reflexivity).
  destruct (g_stage g) as [|a w|a n] eqn:GST.
  - rewrite app_nil_r. cbn [fst snd] in A, C. split; [congruence|]. split; [congruence|]. split; [congruence|]. intros j h E. rewrite C in E. destruct (Nat.eqb j i) eqn:EJ; [|exact (G j h E)]. apply Nat.eqb_eq in EJ as ->.
    destruct (g_next g (g_back g)) as [a|] eqn:NX; injection E as <-.
    + unfold with_stage. cbn [g_next g_stage g_back]. split; [exact GF|]. split; [exact GO|]. auto.
    + split; [exact GF|]. split; [exact GO|]. rewrite GST. exact GS.
  - destruct GS as (GB & GN & ->). pose proof (three_steps s a) as T. destruct (fire s (prepare a)) as [s' n] eqn:FI. cbn [fst snd] in A, C, T.
    split; [congruence|]. cbn [fst snd]. rewrite calls_app. change (calls_in [(i, a, finish a n)]) with [a]. rewrite program_snoc. cbn [fst snd]. rewrite P1, T. cbn [fst snd]. split; [congruence|]. split; [rewrite !map_app, P2; reflexivity|].
    intros j h E. rewrite C in E. destruct (Nat.eqb j i) eqn:EJ.
    + apply Nat.eqb_eq in EJ as ->. injection E as <-. unfold with_stage. cbn [g_next g_stage g_back]. rewrite made_app, SAME, GB. split; [exact GF|]. split; [|reflexivity]. apply follows_snoc; [rewrite <- GB; exact GO|exact GN].
    + apply Nat.eqb_neq in EJ. rewrite made_app, OTHER, app_nil_r by exact EJ. exact (G j h E).
  - rewrite app_nil_r. cbn [fst snd] in A, C. split; [congruence|]. split; [congruence|]. split; [congruence|]. intros j h E. rewrite C in E. destruct (Nat.eqb j i) eqn:EJ; [|exact (G j h E)]. apply Nat.eqb_eq in EJ as ->.
    injection E as <-. cbn [g_next g_stage g_back]. auto.
Qed.
Lemma inv_all sched : inv (concurrently s0 (launch fs) sched) (order_of s0 (launch fs) sched).
Proof.
  induction sched as [|i l IH] using rev_ind; [apply inv_start|]. rewrite concurrently_snoc, order_snoc. apply inv_step, IH.
Qed.
Lemma moment_cases gs s i : moment gs s i = [] \/ exists a r, moment gs s i = [(i, a, r)].
Proof. unfold moment. destruct (nth_error gs i) as [g|]; [|auto]. destruct (g_stage g); eauto. Qed.

Lemma owners sched : Forall (fun e => fst (fst e) < length fs) (order_of s0 (launch fs) sched).
Proof.
  induction sched as [|i l IH] using rev_ind; [constructor|]. rewrite order_snoc. apply Forall_app. split; [exact IH|]. destruct (inv_all l) as (L & _). unfold moment. destruct (nth_error _ i) as [g|] eqn:N; [|constructor]. destruct (g_stage g); constructor; [|constructor].
  cbn [fst]. rewrite <- L. apply nth_error_Some. congruence.
Qed.
(** *** Nobody waits for another: a step is always possible *)
Definition steps_made (g : goroutine V) : nat := 3 * length (g_back g) + match g_stage g with Idle => 0 | Begun _ _ => 1 | Executed _ _ => 2 end.
Lemma progress sched : forall i g, nth_error (snd (concurrently s0 (launch fs) sched)) i = Some g -> steps_made g = count_occ Nat.eq_dec sched i \/ steps_made g < count_occ Nat.eq_dec sched i /\ g_stage g = Idle /\ g_next g (g_back g) = None.
Proof.
  induction sched as [|k l IH] using rev_ind; intros i g E.
  - unfold ModelConcur.concurrently, launch in E. cbn [fold_left snd] in E. rewrite nth_error_map in E. destruct (nth_error fs i) as [f|]; [|discriminate E]. injection E as <-. left. reflexivity.
  - rewrite concurrently_snoc in E. rewrite count_occ_app. cbn [count_occ]. pose proof (step_nth_spec (snd (concurrently s0 (launch fs) l)) (fst (concurrently s0 (launch fs) l)) k) as SP.
    destruct (nth_error (snd (concurrently s0 (launch fs) l)) k) as [h|] eqn:N.
    2:{ rewrite SP in E. cbn [snd] in E. destruct (Nat.eq_dec k i) as [->|NE]; [congruence|]. rewrite Nat.add_0_r. exact (IH i g E). }
    destruct SP as (_ & _ & C). rewrite C in E. destruct (Nat.eqb i k) eqn:EK.
    2:{ apply Nat.eqb_neq in EK. destruct (Nat.eq_dec k i) as [->|NE]; [congruence|]. rewrite Nat.add_0_r. exact (IH i g E). }
    apply Nat.eqb_eq in EK as ->. destruct (Nat.eq_dec k k) as [_|NE]; [|congruence]. injection E as <-. specialize (IH k h N). unfold ModelConcur.step_one, steps_made in *. destruct (g_stage h) as [|a w|a n] eqn:GST.
    + cbn [snd]. destruct (g_next h (g_back h)) as [a|] eqn:NX.
      * unfold with_stage. cbn [g_stage g_back]. left. destruct IH as [IH|(_ & _ & IH)]; [lia|discriminate].
      * right. rewrite GST. split; [destruct IH as [IH|[IH _]]; lia|auto].
    + destruct (fire _ w) as [s' n]. cbn [snd]. unfold with_stage. cbn [g_stage g_back]. left. destruct IH as [IH|(_ & IH & _)]; [lia|discriminate].
    + cbn [snd g_stage g_back]. rewrite app_length. cbn [length]. left. destruct IH as [IH|(_ & IH & _)]; [lia|discriminate].
Qed.
End Concur.
