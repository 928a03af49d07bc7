(** Which records a condition asks for, in two-valued logic: what the Go program means by it.  Values are taken in the form in which
    they are stored ([given] applies the conversion of the column). *)
From Verif Require Import Base ModelStmt SpecSql SpecStmt SpecDb.
Import ListNotations.

Section Where.
Context {V : Type}.
Variable D : semantics V.
(** NULL compares to nothing, everything else to everything else *)
Definition null (v : V) : Prop := cmp D v v = None.
Definition lawful : Prop := forall x y, cmp D x y = None <-> null x \/ null y.
(** Equal as in Go: nil equals nil *)
Definition same (x y : V) : Prop := null x /\ null y \/ cmp D x y = Some Eq.
Definition below (x y : V) : Prop := cmp D x y = Some Lt.
Definition above (x y : V) : Prop := cmp D x y = Some Gt.
Definition not_below (x y : V) : Prop := above x y \/ cmp D x y = Some Eq.
Definition not_above (x y : V) : Prop := below x y \/ cmp D x y = Some Eq.
Definition matches (x y : V) : Prop := like D x y = Some true.

Variable fl : flavour.
Variable r : row V.
Definition cell (c : colclause V) : V := r (name_of fl c).
Fixpoint wanted (w : where_clause V) : Prop :=
  let all := fix all (cs : list (where_clause V)) := match cs with [] => True | c :: cs' => wanted c /\ all cs' end in
  let some := fix some (cs : list (where_clause V)) := match cs with [] => False | c :: cs' => wanted c \/ some cs' end in
  match w with
  | WAnd cs => all cs
  | WOr cs => some cs
  | WEqual c v => same (cell c) (given c v)
  | WNotEqual c v => ~ same (cell c) (given c v)
  | WGreaterThan c v => above (cell c) (given c v)
  | WGreaterThanOrEqual c v => not_below (cell c) (given c v)
  | WLessThan c v => below (cell c) (given c v)
  | WLessThanOrEqual c v => not_above (cell c) (given c v)
  | WIn c vs => exists v, In v vs /\ same (cell c) (given c v)
  | WNotIn c vs => forall v, In v vs -> ~ same (cell c) (given c v)
  | WLike c v => matches (cell c) (given c v)
  | WNotLike c v => ~ matches (cell c) (given c v)
  | WIsNull c => null (cell c)
  | WIsNotNull c => ~ null (cell c)
  | WBetween c lo hi => not_below (cell c) (given c lo) /\ not_above (cell c) (given c hi)
  | WNotBetween c lo hi => ~ (not_below (cell c) (given c lo) /\ not_above (cell c) (given c hi))
  end.
(** No NULL in the values given, none in the columns compared (IS NULL and IS NOT NULL may ask), and LIKE has an answer *)
Fixpoint no_null (w : where_clause V) : Prop :=
  let all := fix all (cs : list (where_clause V)) := match cs with [] => True | c :: cs' => no_null c /\ all cs' end in
  let fine c v := ~ null (cell c) /\ ~ null (given c v) in
  match w with
  | WAnd cs | WOr cs => all cs
  | WEqual c v | WNotEqual c v | WGreaterThan c v | WGreaterThanOrEqual c v | WLessThan c v | WLessThanOrEqual c v => fine c v
  | WIn c vs | WNotIn c vs => ~ null (cell c) /\ Forall (fun v => ~ null (given c v)) vs
  | WLike c v | WNotLike c v => like D (cell c) (given c v) <> None
  | WIsNull _ | WIsNotNull _ => True
  | WBetween c lo hi | WNotBetween c lo hi => fine c lo /\ fine c hi
  end.
(** A condition that may be missing *)
Definition wants (w : option (where_clause V)) : Prop := match w with Some w => wanted w | None => True end.
Definition clear_of_null (w : option (where_clause V)) : Prop := match w with Some w => no_null w | None => True end.
(** Order: by the first column that distinguishes two rows *)
Definition order_column (o : bytes * bool) : bytes := match lex (V:=V) fl (fst o) with [Name n] => n | _ => [] end.
Fixpoint rank (ord : list (bytes * bool)) (a b : row V) : Datatypes.comparison :=
  match ord with
  | [] => Eq
  | o :: ord' => match sort_cmp D (a (order_column o)) (b (order_column o)) with Eq => rank ord' a b | c => if snd o then c else CompOpp c end
  end.
Definition may_precede (ord : list (bytes * bool)) (a b : row V) : Prop := rank ord a b <> Gt.
End Where.
