(** Programs that lock a record in a transaction, change it and write it back. *)
From Coq Require Import List.
From Verif Require Import Base ModelCompiler ModelGen ModelRuntime ModelRows.
Import ListNotations.

(** What the database does with a statement: it waits for a lock, refuses, or answers *)
Inductive verdict (A : Type) := Waits | Refused | Says (a : A).
Arguments Waits {A}.
Arguments Refused {A}.
Arguments Says {A} a.

Section Lock.
Context {V St : Type}.
Variable conv : column -> V -> option V.
(** Statements are sent in a transaction (Some i: tx *sql.Tx of worker i) or on a connection of the pool (None: db *sql.DB). *)
Variable ask : St -> option nat -> bytes -> list V -> verdict (St * rows (V:=V)).
Variable exec : St -> option nat -> bytes -> list V -> verdict St.
Variable commit : St -> nat -> St.
Variables (d : driver) (model_of : record (V:=V) -> model V) (cols : list column).

(** A worker begins a transaction and then does these, one after the other. [UpdateDb]: UpdateByPK, db.go.tpl:669-726, whose parameter is a *sql.DB.
    [UpdateTx]: tx.ExecContext with the statement that UpdateByPK sends (UpdateOneByPKStmt, a method of the generated model; generate.go). *)
Inductive instr := LockRow (mode : bytes) | Modify (f : record (V:=V) -> record (V:=V)) | UpdateDb | UpdateTx | Commit.
Record worker := { w_todo : list instr; w_rec : record (V:=V); w_failed : bool }.
Definition goes (rest : list instr) (x : record (V:=V)) : worker := {| w_todo := rest; w_rec := x; w_failed := false |}.
(** A worker that gets an error does nothing more. *)
Definition gives_up (x : record (V:=V)) : worker := {| w_todo := []; w_rec := x; w_failed := true |}.

(** db.go.tpl:669-726 *)
Definition sends_update (session : option nat) (s : St) (w : worker) (rest : list instr) : St * worker :=
  match update_by_pk d (model_of (w_rec w)) with
  | Ok (text, args) =>
      match exec s session text args with
      | Waits => (s, w)
      | Refused => (s, gives_up (w_rec w))
      | Says s' => (s', goes rest (w_rec w))
      end
  | _ => (s, gives_up (w_rec w))
  end.
(** db.go.tpl:779-803 LockByPK: tx.QueryRowContext(...).Scan(model.Addrs()...) *)
Definition sends_lock (i : nat) (s : St) (w : worker) (mode : bytes) (rest : list instr) : St * worker :=
  match lock_by_pk d (model_of (w_rec w)) mode with
  | Ok (text, args) =>
      match ask s (Some i) text args with
      | Waits => (s, w)
      | Refused => (s, gives_up (w_rec w))
      | Says (s', rs) =>
          match row_scan conv cols (w_rec w) rs with
          | (x, Ok _) => (s', goes rest x)
          | (x, _) => (s', gives_up x)
          end
      end
  | _ => (s, gives_up (w_rec w))
  end.
(** The next thing that worker [i] does *)
Definition act (i : nat) (s : St) (w : worker) : St * worker :=
  match w_todo w with
  | [] => (s, w)
  | LockRow mode :: rest => sends_lock i s w mode rest
  | Modify f :: rest => (s, goes rest (f (w_rec w)))
  | UpdateDb :: rest => sends_update None s w rest
  | UpdateTx :: rest => sends_update (Some i) s w rest
  | Commit :: rest => (commit s i, goes rest (w_rec w))
  end.
(** Any number of workers, in the order that a schedule says *)
Definition turn (st : St * (nat -> worker)) (i : nat) : St * (nat -> worker) :=
  let '(s, w') := act i (fst st) (snd st i) in (s, fun j => if Nat.eqb j i then w' else snd st j).
Definition together (s : St) (ws : nat -> worker) (sched : list nat) : St * (nat -> worker) := fold_left turn sched (s, ws).
End Lock.
Arguments worker : clear implicits.
Arguments instr : clear implicits.
