(** The calls that read records: statement, answer of the database, scanning. *)
From Verif Require Import Base ModelCompiler ModelGen ModelRuntime ModelStmt ModelRows.

Section Query.
Context {V : Type}.
(** database/sql convertAssign, as in ModelRows *)
Variable conv : column -> V -> option V.
(** database/sql QueryContext, QueryRowContext: the answer to a text with arguments, or an error *)
Variable ask : bytes -> list V -> option (rows (V:=V)).

(** The methods of the model type that QueryStmt and QueryOneStmt look for, called on the zero value (db.go.tpl:1152-1175) *)
Definition target_of (m : model V) : target := {| g_columns := Some (table_columns m); g_table := Some (m_table m); g_db := m_db m |}.

(** db.go.tpl:1151-1227 QueryStmt; [cols] are the columns of Addrs, [zero] the zero record *)
Definition run_query (d : driver) (m : model V) (q : select_stmt V) (cols : list column) (zero : record (V:=V)) : res (list (record (V:=V))) :=
  match query_stmt d (target_of m) q with
  | Ok (text, args) => match ask text args with Some rs => query_rows conv cols zero rs | None => Err end
  | Err => Err
  | Panic => Panic
  end.
(** QueryRowContext(...).Scan(addrs...): the record after the call, and whether it failed *)
Definition run_row (r : res (request V)) (cols : list column) (x : record (V:=V)) : record (V:=V) * res unit :=
  match r with
  | Ok (text, args) => match ask text args with Some rs => row_scan conv cols x rs | None => (x, Err) end
  | Err => (x, Err)
  | Panic => (x, Panic)
  end.
(** db.go.tpl:1237-1293 QueryOneStmt: the record is returned only if there was no error *)
Definition run_query_one (d : driver) (m : model V) (q : select_stmt V) (cols : list column) (zero : record (V:=V)) : res (record (V:=V)) :=
  match run_row (query_one_stmt d (target_of m) q) cols zero with
  | (x, Ok tt) => Ok x
  | (_, Err) => Err
  | (_, Panic) => Panic
  end.
(** db.go.tpl:639-666 FindByPK, 779-803 LockByPK: the record that was given is filled *)
Definition run_find (d : driver) (m : model V) (cols : list column) (x : record (V:=V)) : record (V:=V) * res unit := run_row (find_by_pk d m) cols x.
Definition run_lock (d : driver) (m : model V) (mode : bytes) (cols : list column) (x : record (V:=V)) : record (V:=V) * res unit := run_row (lock_by_pk d m mode) cols x.
End Query.
