(** Reading result rows: the loops of db.go.tpl over *sql.Rows, and scanning into records. *)
From Verif Require Import Base ModelCompiler ModelGen.

Section Rows.
Context {V : Type}.
(** A record: the value at each Go path. *)
Definition record := bytes -> V.
(** database/sql convertAssign into the field of a column, or its Scanner; None is an error *)
Variable conv : column -> V -> option V.

(** *sql.Rows: the rows still to come, whether the stream then fails, whether Close has been called, whether the
    driver's Close fails.  (database/sql, not part of /repo.) *)
Record rows := { r_pending : list (list V); r_broken : bool; r_closed : bool; r_close_fails : bool }.

(** database/sql Rows.Next: the next row.  At the end, or when the stream fails, Next closes the rows and drops the
    error of that Close; the failure of the stream is kept for Err. *)
Definition exhausted (rs : rows) : rows := {| r_pending := []; r_broken := r_broken rs; r_closed := true; r_close_fails := r_close_fails rs |}.
(** database/sql Rows.Close: nil when already closed; true is no error *)
Definition close (rs : rows) : bool := r_closed rs || negb (r_close_fails rs).
(** database/sql Rows.Err *)
Definition failed (rs : rows) : bool := r_broken rs.

(** database/sql Rows.Scan into the addresses generated by generate.go Addrs (one per column, in order): the counts must
    agree; the values are assigned from the first on, up to the one that cannot be converted.  (The record, no error.) *)
Fixpoint assign (cols : list column) (row : list V) (x : record) {struct cols} : record * bool :=
  match cols, row with
  | c :: cols', v :: row' =>
      match conv c v with
      | Some v' => assign cols' row' (fun path => if bseq path (c_gopath c) then v' else x path)
      | None => (x, false)
      end
  | _, _ => (x, true)
  end.
Definition scan (cols : list column) (row : list V) (x : record) : record * bool :=
  if Nat.eqb (length row) (length cols) then assign cols row x else (x, false).

(** [for rows.Next() { body }]: the body may stop with an error or a panic *)
Inductive stop := SErr | SPanic.
Fixpoint for_rows {S} (body : list V -> S -> S * option stop) (pending : list (list V)) (s : S) : S * option stop :=
  match pending with
  | [] => (s, None)
  | row :: rest =>
      match body row s with
      | (s', None) => for_rows body rest s'
      | (s', Some e) => (s', Some e)
      end
  end.

(** db.go.tpl:1214-1226 QueryStmt after the query: each row into a new record *)
Definition query_body (cols : list column) (zero : record) (row : list V) (acc : list record) : list record * option stop :=
  match scan cols row zero with
  | (x, true) => (acc ++ [x], None)
  | (_, false) => (acc, Some SErr)
  end.
Definition query_rows (cols : list column) (zero : record) (rs : rows) : res (list record) :=
  match for_rows (query_body cols zero) (r_pending rs) [] with
  | (_, Some _) => Err
  | (acc, None) => if close (exhausted rs) then Ok acc else Err
  end.
(** db.go.tpl:947-957 (Prev), 1110-1120 (Next): the same with the result of Close dropped *)
Definition page_rows (cols : list column) (zero : record) (rs : rows) : res (list record) :=
  match for_rows (query_body cols zero) (r_pending rs) [] with
  | (_, Some _) => Err
  | (acc, None) => Ok acc
  end.

(** db.go.tpl:105-114, 131-140 (Insert), 436-445 (Upsert), PostgreSQL: row number i into data[i]; an index out of range
    panics.  The records after the call, and the number of rows affected. *)
Fixpoint update_nth {A} (i : nat) (x : A) (l : list A) : list A :=
  match l, i with
  | [], _ => []
  | _ :: l', O => x :: l'
  | y :: l', S i' => y :: update_nth i' x l'
  end.
Definition fill_body (cols : list column) (row : list V) (s : list record * nat) : list record * nat * option stop :=
  let '(data, i) := s in
  match nth_error data i with
  | None => (data, i, Some SPanic)
  | Some x =>
      match scan cols row x with
      | (x', true) => (update_nth i x' data, S i, None)
      | (x', false) => (update_nth i x' data, i, Some SErr)
      end
  end.
Definition fill_rows (cols : list column) (data : list record) (rs : rows) : list record * res nat :=
  match for_rows (fill_body cols) (r_pending rs) (data, 0) with
  | (data', _, Some SErr) => (data', Err)
  | (data', _, Some SPanic) => (data', Panic)
  | (data', i, None) => (data', if close (exhausted rs) then Ok i else Err)
  end.

(** database/sql Row.Scan after QueryRowContext, used by InsertOne and UpsertOne on PostgreSQL (db.go.tpl:21, 34, 312), FindByPK
    (639-666), LockByPK (779-803) and QueryOneStmt (1288): the failure of the stream is reported, as is having no row; the
    rows are closed after the first. *)
Definition row_scan (cols : list column) (x : record) (rs : rows) : record * res unit :=
  match r_pending rs with
  | [] => (x, Err)
  | row :: _ =>
      match scan cols row x with
      | (x', true) => (x', if close rs then Ok tt else Err)
      | (x', false) => (x', Err)
      end
  end.
End Rows.
