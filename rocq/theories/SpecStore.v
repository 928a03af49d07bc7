(** Inserting, finding, changing and deleting a record by its key (C53). *)
From Verif Require Import Base ModelCompiler SpecSql SpecGen SpecDb.

Section Store.
Context {V : Type}.
Variables (D : semantics V) (t : table) (before after : column -> list (tok V)).
(** The row has the key of the record. *)
Definition has_key (x : row V) (val : column -> V) : Prop := forall k, In k (key_of t) -> cmp D (x (c_name k)) (val k) = Some Eq.
(** What is stored for a value: the value itself unless the column has a wrapper, which is a function of the value alone. *)
Definition stored (val : column -> V) (c : column) (v : V) : Prop := forall r, eval D r (holding before after val c) = v.
Definition wrappers_are_functions : Prop := forall val c, In c (t_columns t) -> exists v, stored val c v.
(** [x'] is [x] with the columns [which] holding what is stored for the record. *)
Definition rewritten (which : column -> Prop) (val : column -> V) (x x' : row V) : Prop :=
  (forall c, which c -> stored val c (x' (c_name c))) /\
  (forall n, (forall c, which c -> c_name c <> n) -> x' n = x n).

(** The effect of a request on table [q], and what it returns: the values of the selected expressions, row by row. *)
Variables (fl : flavour) (q : list bytes) (unique : list (row V) -> bool) (defaults : row V).
Definition target (s : stmt V) : list bytes :=
  match s with Insert q' _ _ _ _ | Select _ q' _ _ _ _ _ _ | Update q' _ _ _ _ | Delete q' _ _ _ => q' end.
Definition changes (rows : list (row V)) (text : bytes) (args : list V) (rows' : list (row V)) : Prop :=
  exists s, read fl text args = Some s /\ target s = q /\ change D unique defaults rows s = Some rows'.
Definition returns (rows : list (row V)) (text : bytes) (args : list V) (out : list (list V)) : Prop :=
  exists its wh ord limit offset lock l, read fl text args = Some (Select its q wh [] ord limit offset lock) /\
  answers D (fun x => x) rows wh ord limit offset l /\ out = map (fun x => map (eval D x) its) l.
End Store.
