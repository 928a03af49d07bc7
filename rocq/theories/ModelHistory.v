(** Programs that insert, update, delete and find records by their keys, call after call. *)
From Coq Require Import ZArith.
From Verif Require Import Base ModelCompiler ModelGen ModelRuntime ModelRows ModelWrite.

Section History.
Context {V St : Type}.
(** The same as in ModelWrite *)
Variable conv : column -> V -> option V.
Variable ask : St -> bytes -> list V -> option (St * rows (V:=V)).
Variable exec : St -> bytes -> list V -> option (St * option Z).
Variables (int_type : column -> bool * Z) (num : Z -> V) (selects : bytes -> bytes).
(** The driver, the methods of a record, the columns of Addrs, the column of ScanAutoIncr *)
Variables (d : driver) (model_of : record (V:=V) -> model V) (cols : list column) (auto : option column).

Inductive call := Adds (x : record (V:=V)) | Changes (x : record (V:=V)) | Removes (x : record (V:=V)) | Looks (x : record (V:=V)).
Inductive reply := Done | Found (x : record (V:=V)) | Failed | Panicked.
Definition done (r : res unit) : reply := match r with Ok _ => Done | Err => Failed | Panic => Panicked end.
(** db.go.tpl:669-726 UpdateByPK, 729-757 DeleteByPK: ExecContext *)
Definition send (s : St) (r : res (request V)) : St * reply :=
  match r with
  | Ok (text, args) => match exec s text args with Some (s', _) => (s', Done) | None => (s, Failed) end
  | Err => (s, Failed)
  | Panic => (s, Panicked)
  end.
(** db.go.tpl:15-67 InsertOne, 669-726 UpdateByPK, 729-757 DeleteByPK, 639-666 FindByPK *)
Definition run_call (s : St) (c : call) : St * reply :=
  match c with
  | Adds x =>
      match d with
      | DPostgres => let '(s', (_, r)) := run_insert_one_pg conv ask s (model_of x) cols x in (s', done r)
      | _ => let '(s', (_, r)) := run_insert_one exec int_type num selects s d (model_of x) auto x in (s', done r)
      end
  | Changes x => send s (update_by_pk d (model_of x))
  | Removes x => send s (delete_by_pk d (model_of x))
  | Looks x => let '(s', (x', r)) := write_row conv ask s (find_by_pk d (model_of x)) cols x in (s', match r with Ok _ => Found x' | Err => Failed | Panic => Panicked end)
  end.
(** What happens at the database between two calls (a connection is lost, or is there again) *)
Variable pass : St -> St.
(** The calls of a program with the state before each and the reply, and the last state *)
Fixpoint history (s : St) (cs : list call) {struct cs} : list (St * call * reply) * St :=
  match cs with
  | [] => ([], s)
  | c :: cs' => let '(s', r) := run_call s c in let '(tr, last) := history (pass s') cs' in ((s, c, r) :: tr, last)
  end.
End History.
Arguments call : clear implicits.
Arguments reply : clear implicits.
