(** Row locks (C96). Written from the manuals, without the code.
    PostgreSQL, Explicit Locking: FOR UPDATE, FOR NO KEY UPDATE and UPDATE wait until no other transaction holds the row, and return its latest committed version; the lock is held to the end of the transaction.
    MySQL, InnoDB Locking: SELECT ... FOR UPDATE and UPDATE set exclusive locks on the rows, held to the end of the transaction. *)
From Coq Require Import List Bool.
From Verif Require Import Base ModelCompiler ModelRows ModelLock SpecSql SpecGen SpecDb SpecStore SpecConflict.
Import ListNotations.

Section Lock.
Context {V St : Type}.
Variables (D : semantics V) (t : table) (fl : flavour) (q : list bytes).
(** The rows; the values for columns that a statement leaves out; the transaction that holds the row with the key of this one *)
Variables (held : St -> list (row V)) (fresh : St -> row V) (owner : St -> row V -> option nat).
Notation key := (map c_name (key_of t)).
Definition exclusive (words : list bytes) : Prop := words = [B "UPDATE"] \/ words = [B "NO"; B "KEY"; B "UPDATE"].
Definition at_most_one (s : St) (wh : option (cond V)) : Prop :=
  forall r r', In r (held s) -> In r' (held s) -> chosen_by D wh r = true -> chosen_by D wh r' = true -> r = r'.
(** No other session holds a row that the condition chooses. *)
Definition free (s : St) (session : option nat) (wh : option (cond V)) : Prop :=
  forall r, In r (held s) -> chosen_by D wh r = true -> owner s r = None \/ owner s r = session.
(** In a transaction the chosen rows are held from now on. *)
Definition holds (s s' : St) (session : option nat) (wh : option (cond V)) : Prop := forall r,
  match session with
  | None => owner s' r = owner s r
  | Some i => ((exists r0, In r0 (held s) /\ chosen_by D wh r0 = true /\ same_on D key r0 r = true) -> owner s' r = Some i) /\
              ((forall r0, In r0 (held s) -> chosen_by D wh r0 = true -> same_on D key r0 r = false) -> owner s' r = owner s r)
  end.
Definition obeys_lock (ask : St -> option nat -> bytes -> list V -> verdict (St * rows (V:=V))) : Prop :=
  forall s session text args its wh words, read fl text args = Some (Select its q wh [] [] (Some 1%N) None words) -> exclusive words -> at_most_one s wh ->
  match ask s session text args with
  | Waits => ~ free s session wh
  | Refused => False
  | Says (s', out) => free s session wh /\ held s' = held s /\ holds s s' session wh /\ exists l, answers D (fun x => x) (held s) wh [] (Some 1%N) None l /\
      out = {| r_pending := map (fun x => map (eval D x) its) l; r_broken := false; r_closed := false; r_close_fails := false |}
  end.
Definition obeys_update (exec : St -> option nat -> bytes -> list V -> verdict St) : Prop :=
  forall s session text args sets wh, read fl text args = Some (Update q sets wh [] None) -> at_most_one s wh ->
  match exec s session text args with
  | Waits => ~ free s session wh
  | Refused => change D (unique_on D key) (fresh s) (held s) (Update q sets wh [] None) = None
  | Says s' => free s session wh /\ change D (unique_on D key) (fresh s) (held s) (Update q sets wh [] None) = Some (held s') /\ holds s s' session wh
  end.
Definition obeys_commit (commit : St -> nat -> St) : Prop := forall s i, held (commit s i) = held s /\ forall r, (owner s r = Some i -> owner (commit s i) r = None) /\ (owner s r <> Some i -> owner (commit s i) r = owner s r).
(** One lock for a key *)
Definition by_key : Prop := forall s r r', same_on D key r r' = true -> owner s r = owner s r'.
End Lock.
