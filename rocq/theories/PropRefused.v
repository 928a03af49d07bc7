(** C96: a worker whose statement is refused does nothing more. *)
From Coq Require Import List PeanoNat.
From Verif Require Import Base ModelCompiler ModelGen ModelRuntime ModelRows ModelLock.
Import ListNotations.

Section Refused.
Context {V St : Type}.
Variable conv : column -> V -> option V.
Variable ask : St -> option nat -> bytes -> list V -> verdict (St * rows (V:=V)).
Variable exec : St -> option nat -> bytes -> list V -> verdict St.
Variable commit : St -> nat -> St.
Variables (d : driver) (model_of : record (V:=V) -> model V) (cols : list column).
Notation run := (together conv ask exec commit d model_of cols).

(** A worker with an error: its program is over *)
Definition over (w : worker V) : Prop := w_failed w = true /\ w_todo w = [].
Lemma over_stays sched : forall s ws i, over (ws i) -> snd (run s ws sched) i = ws i.
Proof.
  unfold together. induction sched as [|j sched IH]; intros s ws i O; [reflexivity|]. cbn [fold_left]. destruct (turn conv ask exec commit d model_of cols (s, ws) j) as [s' ws'] eqn:T.
  assert (E : ws' i = ws i).
  { unfold turn in T. cbn [fst snd] in T. destruct (act conv ask exec commit d model_of cols j s (ws j)) as [s1 w1] eqn:A. injection T as _ <-. destruct (Nat.eqb i j) eqn:N; [|reflexivity]. apply Nat.eqb_eq in N as <-. unfold act in A. destruct O as [_ O]. rewrite O in A. congruence. }
  rewrite IH; [exact E|]. rewrite E. exact O.
Qed.
(** The database refuses the statement that worker i sends next (a lost connection, a deadlock, a violated constraint): nothing is changed, the worker ends with an error,
    neither its remaining statements nor its commit are sent, whatever the others do.  What is missing: nothing rolls the transaction back in the generated code;
    that is left to the caller. *)
Theorem C96_refused_partial i s ws todo : (exists mode rest, todo = LockRow mode :: rest /\ forall text args, ask s (Some i) text args = Refused) \/
    (exists rest, todo = UpdateDb :: rest /\ forall text args, exec s None text args = Refused) \/ (exists rest, todo = UpdateTx :: rest /\ forall text args, exec s (Some i) text args = Refused) ->
  w_todo (ws i) = todo -> forall sched,
  exists ws', run s ws (i :: sched) = run s ws' sched /\ (forall j, j <> i -> ws' j = ws j) /\ over (ws' i) /\ w_rec (ws' i) = w_rec (ws i) /\ over (snd (run s ws (i :: sched)) i).
Proof.
  intros C W sched. assert (A : act conv ask exec commit d model_of cols i s (ws i) = (s, gives_up (w_rec (ws i)))).
  { unfold act. rewrite W. destruct C as [(mode & rest & -> & R)|[(rest & -> & R)|(rest & -> & R)]].
    - unfold sends_lock. destruct (lock_by_pk d (model_of (w_rec (ws i))) mode) as [[text args]| |]; [rewrite R; reflexivity|reflexivity|reflexivity].
    - unfold sends_update. destruct (update_by_pk d (model_of (w_rec (ws i)))) as [[text args]| |]; [rewrite R; reflexivity|reflexivity|reflexivity].
    - unfold sends_update. destruct (update_by_pk d (model_of (w_rec (ws i)))) as [[text args]| |]; [rewrite R; reflexivity|reflexivity|reflexivity]. }
  assert (T : run s ws (i :: sched) = run s (fun j => if Nat.eqb j i then gives_up (w_rec (ws i)) else ws j) sched).
  { unfold together. cbn [fold_left]. unfold turn at 2. cbn [fst snd]. rewrite A. reflexivity. }
  eexists. split; [exact T|]. split; [intros j N; apply Nat.eqb_neq in N; rewrite N; reflexivity|]. cbv beta. rewrite Nat.eqb_refl. split; [split; reflexivity|]. split; [reflexivity|].
  rewrite T, over_stays; cbv beta; rewrite Nat.eqb_refl; split; reflexivity.
Qed.
End Refused.
Print Assumptions C96_refused_partial.
(** A database that refuses every statement, and a program *)
Definition refuses : nat -> option nat -> bytes -> list nat -> verdict nat := fun _ _ _ _ => Refused.
Definition program : list (instr nat) := [UpdateTx; Commit].
Example C96_refused_case : w_todo (goes program (fun _ => 0)) = program /\ exists rest, program = UpdateTx :: rest /\ forall text args, refuses 0 (Some 0) text args = Refused.
Proof. split; [reflexivity|]. exists [Commit]. split; reflexivity. Qed.
