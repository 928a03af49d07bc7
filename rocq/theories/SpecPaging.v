(** What paging through a table has to do (C35, C36). *)
From Coq Require Import Permutation.
From Verif Require Import Base ModelCompiler ModelGen ModelRuntime ModelStmt ModelPager SpecSql SpecGen SpecRuntime SpecStmt SpecPager SpecDb.

Section Paging.
Context {V T : Type}.
Variables (D : semantics V) (cells : T -> row V) (key : list bytes).

(** The comparison of values is an order where it is defined, and sorting follows it. *)
Record lawful : Prop := {
  cmp_sorts : forall a b c, cmp D a b = Some c -> sort_cmp D a b = c;
  cmp_swaps : forall a b c, cmp D a b = Some c -> cmp D b a = Some (CompOpp c);
  cmp_equal : forall a b c, cmp D a b = Some Eq -> cmp D a c = cmp D b c;
  cmp_trans : forall a b c, cmp D a b = Some Lt -> cmp D b c = Some Lt -> cmp D a c = Some Lt }.

Definition key_row (x : T) : list V := map (cells x) key.
Definition key_cmp (x y : T) : option Datatypes.comparison := compare_rows D (key_row x) (key_row y).
(** A table whose key columns are a primary key: never NULL, no two records with the same key. *)
Definition keyed_table (table : list T) : Prop :=
  NoDup table /\ (forall x y, In x table -> In y table -> key_cmp x y <> None) /\
  (forall x y, In x table -> In y table -> key_cmp x y = Some Eq -> x = y).

(** [y] comes at or after [x] in the direction of the iteration. *)
Definition reached (fwd : bool) (x y : T) : bool :=
  match key_cmp x y with Some Eq => true | Some Lt => fwd | Some Gt => negb fwd | None => false end.
(** strictly *)
Definition passed (fwd : bool) (x y : T) : Prop := key_cmp x y = Some (if fwd then Lt else Gt).

(** All pages are full except the last, which is not empty. *)
Definition paged (n : nat) (ps : list (list T)) : Prop :=
  exists init last, ps = init ++ [last] /\ Forall (fun l => length l = n) init /\ 1 <= length last <= n.

Variables (d : driver) (view : T -> model V) (q cols : list bytes) (items : list (expr V)).
Notation fl := (flavour_of d).
(** The key of a record, as its model gives it. *)
Definition keys (x : T) : list (bytes * V) := map (fun k => (k, cells x k)) key.
(** The model of every record describes the table [q], its key and the statement that finds it. *)
Record models_table : Prop := {
  mt_described : forall x, described fl (view x) q cols items;
  mt_keyed : forall x, keyed_by fl (view x) (keys x);
  mt_found : forall x, exists text args, find_by_pk d (view x) = Ok (text, args) /\
    read fl text args = Some (Select items q (Some (key_match (view x) (keys x))) [] [] (Some 1%N) None []) }.

(** The database holds [table], which does not change: it rejects what it cannot read, and answers a query. *)
Definition serves (ask : bytes -> list V -> option (list T)) (table : list T) : Prop :=
  forall text args,
  match read fl text args with
  | None => ask text args = None
  | Some (Select its q' wh [] ord limit offset _) =>
      its = items -> q' = q -> exists out, ask text args = Some out /\ answers D cells table wh ord limit offset out
  | Some _ => True
  end.
End Paging.
