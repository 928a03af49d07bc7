(** The connections that the generated functions take from the pool of a *sql.DB and give back (db.go.tpl), and goroutines that wait for one.
    database/sql: QueryContext, QueryRowContext and ExecContext on a *sql.DB take a connection, waiting while all are in use; ExecContext gives it back when it returns, and so does a query that is refused;
    a result set gives it back when it is closed, by Close or by Next at its end; Row.Scan closes.  Statements on a *sql.Tx use the connection of the transaction.
    Not modelled: a Scan method of a field that panics inside of Rows.Scan (database/sql holds a lock then). *)
From Coq Require Import List PeanoNat.
From Verif Require Import Base ModelGen.
Import ListNotations.

Inductive event := Take | Give.
(** What happens with a row of a result: it is scanned, Scan reports an error, or the model's method Addrs (or an index) panics before *)
Inductive row_end := Scanned | Unscanned | Explodes.
(** What the database answers: an error, or rows *)
Inductive answer := Refuses | Answers (rows : list row_end).
(** How a call ends *)
Inductive ending := Returns | Panics.

(** db.ExecContext *)
Definition by_exec : list event * ending := ([Take; Give], Returns).
(** db.QueryRowContext(...).Scan(model.Addrs()...): [a]: what the database answers.  Simplified: Go calls Addrs before Scan looks for
    a row, so an Addrs that panics keeps the connection without a row too; here such a call is an answer whose first row explodes. *)
Definition by_row (a : answer) : list event * ending :=
  match a with
  | Refuses => ([Take; Give], Returns)
  | Answers (Explodes :: _) => ([Take], Panics)
  | Answers _ => ([Take; Give], Returns)
  end.
(** for rows.Next() { ... rows.Scan(...) ... }; [deferred]: with defer rows.Close() before, otherwise rows.Close() on an error and behind the loop *)
Fixpoint loop (deferred : bool) (rows : list row_end) {struct rows} : list event * ending :=
  match rows with
  | [] => ([Give], Returns)
  | Scanned :: r => loop deferred r
  | Unscanned :: _ => ([Give], Returns)
  | Explodes :: _ => (if deferred then [Give] else [], Panics)
  end.
Definition by_rows (deferred : bool) (a : answer) : list event * ending :=
  match a with
  | Refuses => ([Take; Give], Returns)
  | Answers rows => let '(es, e) := loop deferred rows in (Take :: es, e)
  end.
(** &data[i] with i the number of the row: an index out of range behind the records that were given *)
Definition indexed (n : nat) (rows : list row_end) : list row_end := firstn n rows ++ repeat Explodes (length rows - n).
Definition indexed_answer (n : nat) (a : answer) : answer := match a with Refuses => Refuses | Answers rows => Answers (indexed n rows) end.

(** The offered functions.  [sent]: whether the statement could be built; otherwise the function returns an error (or panics) before it touches the database. *)
(** 15-68 *)
Definition insert_one (d : driver) (a : answer) : list event * ending := match d with DPostgres => by_row a | _ => by_exec end.
(** 71-194; n records *)
Definition insert (d : driver) (n : nat) (a : answer) : list event * ending :=
  match n with
  | O => ([], Returns)
  | _ => match d with DPostgres => by_rows true (indexed_answer n a) | _ => by_exec end
  end.
(** 227-313, 446-532 *)
Definition upsert_one (d : driver) (a : answer) : list event * ending := match d with DPostgres => by_row a | _ => by_exec end.
(** 315-446, 534-635 *)
Definition upsert (d : driver) (n : nat) (a : answer) : list event * ending :=
  match n with
  | O => ([], Returns)
  | _ => match d with DPostgres => by_rows true (indexed_answer n a) | _ => by_exec end
  end.
(** 639-666; 669-726; 729-757; LockByPK 779-803 runs on a *sql.Tx *)
Definition find_by_pk (a : answer) : list event * ending := by_row a.
Definition update_by_pk : list event * ending := by_exec.
Definition delete_by_pk : list event * ending := by_exec.
Definition lock_by_pk : list event * ending := ([], Returns).
(** 1151-1227; 1237-1293; 1316-1397 *)
Definition query_stmt (sent : bool) (a : answer) : list event * ending := if sent then by_rows true a else ([], Returns).
Definition query_one_stmt (sent : bool) (a : answer) : list event * ending := if sent then by_row a else ([], Returns).
Definition exec_stmt (sent : bool) : list event * ending := if sent then by_exec else ([], Returns).

(** What the loop body of the caller does with a page: its own calls, and then it goes on, leaves the loop, or panics *)
Inductive wish := GoesOn | Leaves | Dies.
Record body := { b_calls : list event; b_wish : wish }.
(** A round of Prev or Next: the answer to FindByPK for the cursor (used when there is one), the answer to the query, the caller's body *)
Record round := { r_cursor : answer; r_page : answer; r_body : body }.
Definition fails_row (a : answer) : bool := match a with Answers (Scanned :: _) => false | _ => true end.
Definition bad_rows (rows : list row_end) : bool := existsb (fun r => match r with Unscanned => true | _ => false end) rows.
(** 827-976 Prev, 978-1139 Next: the two are alike here.  [limit]: the page size; [has]: a cursor is known.  A list of rounds that ends early is a loop that is still waiting. *)
Fixpoint pager (limit : nat) (has : bool) (rounds : list round) {struct rounds} : list event * ending :=
  match rounds with
  | [] => ([], Returns)
  | r :: rest =>
      let ends (b : body) := match b_wish b with Dies => Panics | _ => Returns end in
      let page :=
        match r_page r with
        | Refuses => ([Take; Give] ++ b_calls (r_body r), ends (r_body r))
        | Answers rows =>
            match loop false rows with
            | (es, Panics) => (Take :: es, Panics)
            | (es, Returns) =>
                let before := Take :: es ++ b_calls (r_body r) in
                if bad_rows rows then (before, ends (r_body r))
                else if Nat.leb (length rows) limit then (before, ends (r_body r))
                else match b_wish (r_body r) with
                     | GoesOn => let '(es', e) := pager limit true rest in (before ++ es', e)
                     | Leaves => (before, Returns)
                     | Dies => (before, Panics)
                     end
            end
        end in
      if has then
        match by_row (r_cursor r) with
        | (es, Panics) => (es, Panics)
        | (es, Returns) => if fails_row (r_cursor r) then (es ++ b_calls (r_body r), ends (r_body r)) else (es ++ fst page, snd page)
        end
      else page
  end.

(** ** Goroutines on one pool of [size] connections: [held] are in use; what each goroutine still does.  None: it waits, or is over. *)
Definition pool := (nat * list (list event))%type.
Fixpoint put {A} (l : list A) (i : nat) (x : A) {struct l} : list A :=
  match l, i with [], _ => [] | _ :: r, O => x :: r | y :: r, S j => y :: put r j x end.
Definition move (size : nat) (i : nat) (st : pool) : option pool :=
  match nth_error (snd st) i with
  | Some (Take :: r) => if Nat.ltb (fst st) size then Some (S (fst st), put (snd st) i r) else None
  | Some (Give :: r) => Some (pred (fst st), put (snd st) i r)
  | _ => None
  end.
(** A schedule: a goroutine that waits or is over is passed over *)
Definition schedule (size : nat) (st : pool) (sched : list nat) : pool := fold_left (fun st i => match move size i st with Some st' => st' | None => st end) sched st.
(** A transaction on the same pool: db.BeginTx takes a connection, Commit and Rollback give it back. *)
Definition transaction (inside : list event) : list event := Take :: inside ++ [Give].
