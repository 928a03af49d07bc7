(** What reading rows has to do (C38, C39). *)
From Verif Require Import Base ModelCompiler ModelGen ModelRows.

Section Rows.
Context {V : Type}.
Variable conv : column -> V -> option V.
(** The record [x'] is [x] with the columns [cols] holding the values of the row. *)
Definition holds (cols : list column) (row : list V) (x x' : bytes -> V) : Prop :=
  Forall2 (fun c v => conv c v = Some (x' (c_gopath c))) cols row /\ forall path, ~ In path (map c_gopath cols) -> x' path = x path.
(** A row that can be read: as many values as columns, each convertible. *)
Definition readable_row (cols : list column) (row : list V) : Prop := Forall2 (fun c v => conv c v <> None) cols row.
(** The stream of an answer: all its rows, or the first [k] followed by a failure. *)
Definition complete (answer : list (list V)) (close_fails : bool) : rows := {| r_pending := answer; r_broken := false; r_closed := false; r_close_fails := close_fails |}.
Definition broken_after (k : nat) (answer : list (list V)) (close_fails : bool) : rows := {| r_pending := firstn k answer; r_broken := true; r_closed := false; r_close_fails := close_fails |}.
(** The rows of the records that were not skipped. *)
Fixpoint kept_rows {A} (kept : list bool) (stored : list A) : list A :=
  match kept, stored with
  | true :: ks, x :: xs => x :: kept_rows ks xs
  | false :: ks, _ :: xs => kept_rows ks xs
  | _, _ => []
  end.
Definition kept_before (kept : list bool) (b : nat) : nat := length (filter (fun k => k) (firstn b kept)).
End Rows.
