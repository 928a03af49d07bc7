(** What a database does with a statement: rows, conditions with unknown truth values, orderings and limits
    (C35, C36, C53).  Only the comparison of values, LIKE and the meaning of expressions other than a column or a value
    are left open. *)
From Coq Require Import Sorted Permutation.
From Verif Require Import Base SpecSql.

Section Db.
Context {V : Type}.
Definition row := bytes -> V.

Record semantics := {
  (** None: not comparable, as with NULL *)
  cmp : V -> V -> option Datatypes.comparison;
  (** the order used for sorting, which places NULL somewhere *)
  sort_cmp : V -> V -> Datatypes.comparison;
  like : V -> V -> option bool;
  other : row -> expr V -> V }.
Variable D : semantics.

Definition eval (r : row) (e : expr V) : V :=
  match e with [Name c] => r c | [Val v] => v | _ => other D r e end.
Definition evals (r : row) (o : operand V) : list V :=
  match o with One e => [eval r e] | Tuple es => map (eval r) es end.

(** *** Truth values *)
Definition not3 (a : option bool) : option bool := option_map negb a.
Definition and3 (a b : option bool) : option bool :=
  match a, b with
  | Some false, _ | _, Some false => Some false
  | Some true, Some true => Some true
  | _, _ => None
  end.
Definition or3 (a b : option bool) : option bool := not3 (and3 (not3 a) (not3 b)).

(** Rows are equal when all their values are; otherwise the first values that differ decide. *)
Fixpoint equal_rows (a b : list V) : option bool :=
  match a, b with
  | [], [] => Some true
  | x :: a', y :: b' => and3 (option_map (fun c => match c with Eq => true | _ => false end) (cmp D x y)) (equal_rows a' b')
  | _, _ => None
  end.
Fixpoint compare_rows (a b : list V) : option Datatypes.comparison :=
  match a, b with
  | [], [] => Some Eq
  | x :: a', y :: b' => match cmp D x y with Some Eq => compare_rows a' b' | c => c end
  | _, _ => None
  end.
Definition compare_by (op : bytes) (a b : list V) : option bool :=
  if bseq op (B "=") then equal_rows a b
  else if bseq op (B "<>") then not3 (equal_rows a b)
  else option_map (fun c =>
    match c with
    | Lt => bseq op (B "<") || bseq op (B "<=")
    | Gt => bseq op (B ">") || bseq op (B ">=")
    | Eq => bseq op (B "<=") || bseq op (B ">=")
    end) (compare_rows a b).
(** NULL is what does not compare to itself. *)
Definition is_null (v : V) : bool := match cmp D v v with Some _ => false | None => true end.
Definition signed (negated : bool) (a : option bool) : option bool := if negated then not3 a else a.

Fixpoint truth (r : row) (c : cond V) : option bool :=
  match c with
  | Compare a op b => compare_by op (evals r a) (evals r b)
  | InList n a es => signed n (fold_right (fun e x => or3 (compare_by (B "=") (evals r a) [eval r e]) x) (Some false) es)
  | Between n a lo hi => signed n (and3 (compare_by (B ">=") (evals r a) (evals r lo)) (compare_by (B "<=") (evals r a) (evals r hi)))
  | Like n a b => match evals r a, evals r b with [x], [y] => signed n (like D x y) | _, _ => None end
  | IsNull n a => Some (xorb n (forallb is_null (evals r a)))
  | Conj l => (fix all l := match l with [] => Some true | c :: l' => and3 (truth r c) (all l') end) l
  | Disj l => (fix any l := match l with [] => Some false | c :: l' => or3 (truth r c) (any l') end) l
  end.
(** A row is chosen when the condition is true: neither false nor unknown. *)
Definition chosen_by (wh : option (cond V)) (r : row) : bool :=
  match wh with None => true | Some c => match truth r c with Some true => true | _ => false end end.

(** *** Orderings *)
Fixpoint sort_rows (a b : list V) : Datatypes.comparison :=
  match a, b with
  | x :: a', y :: b' => match sort_cmp D x y with Eq => sort_rows a' b' | c => c end
  | _, _ => Eq
  end.
Definition turned (d : direction) (c : Datatypes.comparison) : Datatypes.comparison := match d with Ascending => c | Descending => CompOpp c end.
Fixpoint order_rows (ord : list (operand V * direction)) (a b : row) : Datatypes.comparison :=
  match ord with
  | [] => Eq
  | (o, d) :: ord' => match turned d (sort_rows (evals a o) (evals b o)) with Eq => order_rows ord' a b | c => c end
  end.
Definition not_after (ord : list (operand V * direction)) (a b : row) : Prop := order_rows ord a b <> Gt.

(** *** Answers *)
Definition cut_to (limit offset : option N) {A} (l : list A) : list A :=
  let l := match offset with Some n => skipn (N.to_nat n) l | None => l end in
  match limit with Some n => firstn (N.to_nat n) l | None => l end.
(** The records of a table, each with its row, that a query returns: which of several sorted lists is open. *)
Definition answers {T} (cells : T -> row) (table : list T) (wh : option (cond V)) (ord : list (operand V * direction)) (limit offset : option N) (out : list T) : Prop :=
  exists l, Permutation l (filter (fun x => chosen_by wh (cells x)) table) /\
  StronglySorted (fun a b => not_after ord (cells a) (cells b)) l /\ out = cut_to limit offset l.

(** *** Changes *)
Fixpoint assigned (sets : list (bytes * V)) (r : row) : row :=
  match sets with [] => r | (c, v) :: s => fun x => if bseq x c then v else assigned s r x end.
(** The rows after a statement on this table, [defaults] being the row of column defaults; uniqueness is checked by
    [unique].  None: the statement fails. *)
Definition change (unique : list row -> bool) (defaults : row) (rows : list row) (s : stmt V) : option (list row) :=
  match s with
  | Insert _ cols rs Fail _ =>
      let rows' := rows ++ map (fun es => assigned (combine cols (map (eval defaults) es)) defaults) rs in
      if forallb (fun es => Nat.eqb (length es) (length cols)) rs && unique rows' then Some rows' else None
  | Update _ sets wh [] None =>
      let rows' := map (fun r => if chosen_by wh r then assigned (map (fun s => (fst s, eval r (snd s))) sets) r else r) rows in
      if unique rows' then Some rows' else None
  | Delete _ wh [] None => Some (filter (fun r => negb (chosen_by wh r)) rows)
  | _ => None
  end.
End Db.
Arguments row : clear implicits.
Arguments semantics : clear implicits.
