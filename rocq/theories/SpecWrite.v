(** What is expected of the calls that write records (C88). *)
From Coq Require Import List ZArith.
From Verif Require Import Base ModelCompiler ModelRows SpecSql SpecGen SpecDb SpecStore SpecConflict.
Import ListNotations.

Section Write.
Context {V St : Type}.
Variables (D : semantics V) (fl : flavour) (q : list bytes) (idxs : list (list bytes)).
(** The rows in the table, and the values for the columns that the next statement leaves out (defaults, the next number of a sequence) *)
Variables (held : St -> list (row V)) (fresh : St -> row V).
(** PostgreSQL: the statements that it can read are executed; an error leaves everything as it was. *)
Definition performs (ask : St -> bytes -> list V -> option (St * rows (V:=V))) : Prop := forall s text args,
  match ask s text args with
  | Some (s', rs) => exists st out, read fl text args = Some st /\ target st = q /\ pg_insert D idxs (fresh s) (held s) st = Some (held s', out) /\
      rs = {| r_pending := out; r_broken := false; r_closed := false; r_close_fails := false |}
  | None => forall st, read fl text args = Some st -> target st = q -> pg_insert D idxs (fresh s) (held s) st = None
  end.
(** MySQL, SQLite (for statements without a conflict clause): LastInsertId is the number that was generated for the column [auto]. *)
Definition executes (num : Z -> V) (auto : option column) (exec : St -> bytes -> list V -> option (St * option Z)) : Prop := forall s text args,
  match exec s text args with
  | Some (s', id) => exists st, read fl text args = Some st /\ target st = q /\ my_insert D idxs (fresh s) (held s) st = Some (held s') /\
      forall a z, auto = Some a -> id = Some z -> fresh s (c_name a) = num z
  | None => forall st, read fl text args = Some st -> target st = q -> my_insert D idxs (fresh s) (held s) st = None
  end.

Variables (t : table) (conv : column -> V -> option V).
(** The record holds the row: each field has the value of its column, no other field is touched. *)
Definition reflects (y : row V) (old rec : bytes -> V) : Prop :=
  (forall c, In c (t_columns t) -> conv c (y (c_name c)) = Some (rec (c_gopath c))) /\ (forall path, ~ In path (map c_gopath (t_columns t)) -> rec path = old path).
Definition unfit (y : row V) : Prop := exists c, In c (t_columns t) /\ conv c (y (c_name c)) = None.
(** Record by record: its row, the record before, the record after *)
Inductive paired (P : (bytes -> V) -> row V -> (bytes -> V) -> Prop) : list (bytes -> V) -> list (row V) -> list (bytes -> V) -> Prop :=
| paired_nil : paired P [] [] []
| paired_cons x y x' xs ys xs' : P x y x' -> paired P xs ys xs' -> paired P (x :: xs) (y :: ys) (x' :: xs').
(** The numbers of an integer type *)
Definition fits (ty : bool * Z) (z : Z) : Prop := if fst ty then (- 2 ^ (snd ty - 1) <= z < 2 ^ (snd ty - 1))%Z else (0 <= z < 2 ^ snd ty)%Z.
End Write.
