(** The names of tables and of primary keys in one schema of a database. Written from the manuals, without the code.
    PostgreSQL, CREATE TABLE and CREATE INDEX: tables and indexes are relations; two relations of a schema have different names; the index of a primary key has the name of its constraint.
    IF NOT EXISTS: nothing is done when there is a relation with the name of the table.
    MySQL, CREATE TABLE: the name of a primary key is always PRIMARY, a given name is ignored; names of indexes belong to their table. *)
From Coq Require Import List.
From Verif Require Import Base ModelGen SpecScript.
Import ListNotations.

(** What CREATE TABLE does to the names in use; [None]: an error. Other statements are not looked at. *)
Definition create (my : bool) (rels : list bytes) (s : sstmt) : option (list bytes) :=
  match s with
  | SAlter _ _ => Some rels
  | SCreate t _ key =>
      if bmem t rels then Some rels
      else match key with
           | Some (k, _) => if my then Some (t :: rels) else if bmem k (t :: rels) then None else Some (t :: k :: rels)
           | None => Some (t :: rels)
           end
  end.
(** One after the other *)
Fixpoint creates (my : bool) (rels : list bytes) (l : list sstmt) {struct l} : option (list bytes) :=
  match l with
  | [] => Some rels
  | s :: l' => match create my rels s with Some r => creates my r l' | None => None end
  end.
