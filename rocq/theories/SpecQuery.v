(** What is expected of the calls that read records (C87). *)
From Coq Require Import Sorted Permutation.
From Verif Require Import Base ModelStmt ModelRows SpecSql SpecStmt SpecDb SpecStore SpecWhere SpecRows.
Import ListNotations.

Section Query.
Context {V : Type}.
Variables (D : semantics V) (fl : flavour) (q : list bytes).
(** The database has one table. It answers the queries of this table that it can read; what else it does is open. *)
Definition serves (ask : bytes -> list V -> option (rows (V:=V))) (table : list (row V)) : Prop := forall text args,
  match ask text args with
  | Some rs => exists out, returns D fl q table text args out /\ rs = complete out false
  | None => forall its wh ord limit offset lock, read fl text args <> Some (Select its q wh [] ord limit offset lock)
  end.
(** Rows chosen by a query: rows of the table, none twice, that are wanted, in an order asked for, at most as many as the limit. Without limit and
    offset no wanted row is missing (rows with NULL in the condition apart). *)
Definition picked (table : list (row V)) (wh : option (where_clause V)) (ord : list (bytes * bool)) (limit offset : N) (out : list (row V)) : Prop :=
  (forall x, In x out -> wants D fl x wh) /\
  StronglySorted (fun x y => may_precede D fl ord x y) out /\
  (limit <> 0%N -> (N.of_nat (length out) <= limit)%N) /\
  exists rest, Permutation (out ++ rest) table /\ (limit = 0%N -> offset = 0%N -> forall x, In x rest -> clear_of_null D fl x wh -> ~ wants D fl x wh).
End Query.
