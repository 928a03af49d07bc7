(** Paging through a table that changes (C94). *)
From Coq Require Import Sorted.
From Verif Require Import Base ModelCompiler ModelRuntime ModelPager SpecSql SpecDb SpecPaging.

Section Moving.
Context {V T : Type}.
Variables (D : semantics V) (cells : T -> row V) (key : list bytes).
(** The table at the time of each request: always with a primary key, and keys can be compared over time (they are never NULL) *)
Definition keyed_tables (tables : nat -> list T) : Prop :=
  (forall n, keyed_table D cells key (tables n)) /\ forall i j x y, In x (tables i) -> In y (tables j) -> key_cmp D cells key x y <> None.
Definition same_key (x y : T) : Prop := key_cmp D cells key x y = Some Eq.
(** A row with the key of [x] *)
Definition has (table : list T) (x : T) : Prop := exists y, In y table /\ same_key x y.
(** The row of page [j] was in the table when the page was read: request [2j] finds the cursor, request [2j+1] the page *)
Definition read_then (tables : nat -> list T) (ps : list (list T)) : Prop := forall j l y, nth_error ps j = Some l -> In y l -> In y (tables (2 * j + 1)).
(** The key is in the table all the time *)
Definition stays (tables : nat -> list T) (turns : nat) (y : T) : Prop := forall i, i < 2 * turns -> has (tables i) y.
(** What an iteration from the cursor [v] may show while the table changes:
    pages, then perhaps one error, and then nothing;
    the rows in key order, so no key twice; each at or after the cursor and in the table when its page was read;
    when the iteration ended by itself without an error, each key at or after the cursor that was in the table all the time;
    an error only when the row it goes on from, the cursor or the row that followed the last page when that was read, has gone. *)
Definition fair_paging (fwd : bool) (tables : nat -> list T) (v : T) (evs : list (event T)) (fin : bool) : Prop := exists ps tail,
  evs = map Page ps ++ tail /\
  StronglySorted (passed D cells key fwd) (concat ps) /\
  (forall z, In z (concat ps) -> reached D cells key fwd v z = true) /\ read_then tables ps /\
  (fin = true -> tail = [] -> forall y, reached D cells key fwd v y = true -> stays tables (length ps) y -> exists z, In z (concat ps) /\ same_key y z) /\
  (tail = [] \/ tail = [Failure] /\ fin = true /\ exists c, ~ has (tables (2 * length ps)) c /\
     (ps = [] /\ c = v \/ ps <> [] /\ reached D cells key fwd v c = true /\ In c (tables (2 * length ps - 1)))).
End Moving.
