(** Calls that take effect one at a time, at a moment between their beginning and their end (C93). *)
From Coq Require Import List Bool ZArith.
From Verif Require Import Base ModelCompiler ModelRows ModelHistory ModelBatch ModelConcur.
Import ListNotations.

Section Concur.
Context {V : Type}.
(** A call with the goroutine that made it and the reply *)
Definition entry : Type := nat * action V * reply V.
(** The calls of goroutine [i] *)
Definition made_by (i : nat) (l : list entry) : list (action V * reply V) := map (fun e => (snd (fst e), snd e)) (filter (fun e => Nat.eqb (fst (fst e)) i) l).
Definition calls_in (l : list entry) : list (action V) := map (fun e => snd (fst e)) l.
(** What goroutine [g] shows of its calls [l] that have taken effect: those that have returned, with their replies, and the one it waits for, if the database has executed it. *)
Definition shows (l : list (action V * reply V)) (g : goroutine V) : Prop :=
  match g_stage g with
  | Idle => l = g_back g
  | Begun a _ => l = g_back g /\ g_next g (g_back g) = Some a
  | Executed a _ => exists r, l = g_back g ++ [(a, r)]
  end.
(** Each call is the one that the goroutine makes after the replies before it *)
Definition follows (f : strategy V) (l : list (action V * reply V)) : Prop := forall pre a r post, l = pre ++ (a, r) :: post -> f pre = Some a.
End Concur.
