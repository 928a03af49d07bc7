(** The calls that write records: the statement, the database, what is read back into the records. *)
From Coq Require Import ZArith.
From Verif Require Import Base ModelCompiler ModelGen ModelRuntime ModelRows.

Section Write.
(** [St]: the state of the database *)
Context {V St : Type}.
(** database/sql convertAssign, as in ModelRows *)
Variable conv : column -> V -> option V.
(** database/sql QueryContext, QueryRowContext: the state after the statement and the rows it returns, or an error *)
Variable ask : St -> bytes -> list V -> option (St * rows (V:=V)).
(** database/sql ExecContext: the state after the statement and what LastInsertId of the result gives ([None]: an error) *)
Variable exec : St -> bytes -> list V -> option (St * option Z).

(** db.QueryRowContext(ctx, query, args...).Scan(model.Addrs()...) *)
Definition write_row (s : St) (r : res (request V)) (cols : list column) (x : record (V:=V)) : St * (record (V:=V) * res unit) :=
  match r with
  | Ok (text, args) => match ask s text args with Some (s', rs) => (s', row_scan conv cols x rs) | None => (s, (x, Err)) end
  | Err => (s, (x, Err))
  | Panic => (s, (x, Panic))
  end.
(** db.QueryContext and the loop over the rows; nothing is sent for an empty slice *)
Definition write_rows (s : St) (r : res (option (request V))) (cols : list column) (data : list (record (V:=V))) : St * (list (record (V:=V)) * res nat) :=
  match r with
  | Ok None => (s, (data, Ok 0))
  | Ok (Some (text, args)) => match ask s text args with Some (s', rs) => (s', fill_rows conv cols data rs) | None => (s, (data, Err)) end
  | Err => (s, (data, Err))
  | Panic => (s, (data, Panic))
  end.
(** PostgreSQL: db.go.tpl:15-36 InsertOne, 71-142 Insert, 230-313 UpsertOne, 316-446 Upsert. [m], [ms]: the methods of the records [x], [data]. *)
Definition run_insert_one_pg (s : St) (m : model V) (cols : list column) (x : record (V:=V)) := write_row s (insert_one DPostgres m) cols x.
Definition run_insert_pg (s : St) (ms : list (model V)) (cols : list column) (data : list (record (V:=V))) := write_rows s (insert DPostgres ms) cols data.
Definition run_upsert_one_pg (s : St) (m : model V) (o : upsert_opts) (cols : list column) (x : record (V:=V)) := write_row s (upsert_one_pg m o) cols x.
Definition run_upsert_pg (s : St) (ms : list (model V)) (o : upsert_opts) (cols : list column) (data : list (record (V:=V))) := write_rows s (upsert_pg ms o) cols data.

(** Go's conversion of an int64 to an integer type of [bits] bits: the low bits are kept *)
Definition convert (ty : bool * Z) (z : Z) : Z :=
  let (signed, bits) := ty in
  let m := (z mod 2 ^ bits)%Z in if signed && (2 ^ (bits - 1) <=? m)%Z then (m - 2 ^ bits)%Z else m.
(** The integer type under the type of a field (signed, bits) *)
Variable int_type : column -> bool * Z.
(** The value of a number *)
Variable num : Z -> V.
(** The path of the field that v.Name selects (Go's rules for embedded structs) *)
Variable selects : bytes -> bytes.
(** generate.go:159-162 ScanAutoIncr: v.Name = Type(val) *)
Definition scan_auto (a : column) (val : Z) (x : record (V:=V)) : record (V:=V) :=
  fun path => if bseq path (selects (c_goname a)) then num (convert (int_type a) val) else x path.
(** MySQL and SQLite: db.go.tpl:38-67 InsertOne. [auto]: the column of ScanAutoIncr; the first case asks for InsertOneStmt as well *)
Definition run_insert_one (s : St) (d : driver) (m : model V) (auto : option column) (x : record (V:=V)) : St * (record (V:=V) * res unit) :=
  match insert_one d m with
  | Ok (text, args) =>
      match exec s text args with
      | None => (s, (x, Err))
      | Some (s', id) =>
          match m_insert m, auto with
          | Some _, Some a => match id with Some z => (s', (scan_auto a z x, Ok tt)) | None => (s', (x, Err)) end
          | _, _ => (s', (x, Ok tt))
          end
      end
  | Err => (s, (x, Err))
  | Panic => (s, (x, Panic))
  end.
End Write.
