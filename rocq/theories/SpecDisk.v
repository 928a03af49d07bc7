(** Runs of the generator on a disk whose operations may fail. *)
From Verif Require Import Base ModelRun ModelDisk.

(** The file an attempt is about *)
Definition about (a : attempt) (p : path) : Prop := a = Removes p \/ a = Opens p \/ (exists c, a = Writes p c) \/ a = Closes p.
(** Every attempt succeeds and every directory can be listed *)
Definition healthy (disk : nat -> outcome) (readable : list bytes -> bool) : Prop := (forall n, disk n = Done) /\ forall d, readable d = true.
(** An attempt that failed *)
Definition failed (t : list (attempt * outcome)) (a : attempt) : Prop := exists k, In (a, Failed k) t.
