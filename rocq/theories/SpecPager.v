(** What the statement of a page has to say (C37). *)
From Verif Require Import Base ModelCompiler ModelGen ModelRuntime ModelStmt ModelPager SpecSql SpecGen SpecRuntime SpecStmt.

Section Pages.
Context {V : Type}.

(** The key of a record as one operand, its columns and its values. *)
Definition key_columns (m : model V) (ks : list (bytes * V)) : operand V :=
  match m_key m, ks with
  | CompKey _ _ _, _ => Tuple (map (fun p => [Name (fst p)]) ks)
  | _, (k, _) :: _ => One [Name k]
  | _, [] => One []
  end.
Definition key_values (m : model V) (ks : list (bytes * V)) : operand V :=
  match m_key m, ks with
  | CompKey _ _ _, _ => Tuple (map (fun p => [Val (snd p)]) ks)
  | _, (_, v) :: _ => One [Val v]
  | _, [] => One []
  end.
(** From the cursor on, in the direction of the iteration. *)
Definition from_cursor (fwd : bool) (m : model V) (ks : list (bytes * V)) : cond V :=
  Compare (key_columns m ks) (if fwd then B ">=" else B "<=") (key_values m ks).
Definition heading (fwd : bool) : direction := if fwd then Ascending else Descending.
Definition composite (m : model V) : Prop := match m_key m with CompKey _ _ _ => True | _ => False end.
(** An And or an Or of something: the conditions whose text is enclosed in parentheses. *)
Definition grouped (w : where_clause V) : Prop := match w with WAnd (_ :: _) | WOr (_ :: _) => True | _ => False end.
(** And() and Or() of nothing write nothing. *)
Definition writes_nothing (w : where_clause V) : Prop := w = WAnd [] \/ w = WOr [].
End Pages.
