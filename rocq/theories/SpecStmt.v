(** What the operators mean, and how a condition text is read (C30-C33). *)
From Verif Require Import Base ModelCompiler ModelGen ModelStmt SpecPg SpecSql SpecGen SpecRuntime.

Section Meaning.
Context {V : Type}.

(** The condition that a text and its arguments stand for. *)
Definition read_cond (fl : flavour) (text : bytes) (args : list V) : option (cond V) :=
  obind (bind_args (lex fl text) args) (fun ts => if existsb is_bad ts then None else where_p ts).

(** The text of a column clause and the argument it makes of a value. *)
Definition text_of (c : colclause V) : bytes := match c with Basic n | Convert n _ | SqlCol n _ _ => n end.
Definition given (c : colclause V) (v : V) : V := match c with Basic _ => v | Convert _ f | SqlCol _ f _ => f v end.
(** The column it names *)
Definition name_of (fl : flavour) (c : colclause V) : bytes := match lex (V:=V) fl (text_of c) with [Name n] => n | _ => [] end.

(** Every column clause of the condition reads as a name. *)
Fixpoint all_columns (P : colclause V -> Prop) (w : where_clause V) : Prop :=
  let all := fix all (cs : list (where_clause V)) := match cs with [] => True | c :: cs' => all_columns P c /\ all cs' end in
  match w with
  | WAnd cs | WOr cs => all cs
  | WEqual c _ | WNotEqual c _ | WIn c _ | WNotIn c _ | WGreaterThan c _ | WGreaterThanOrEqual c _ | WLessThan c _
  | WLessThanOrEqual c _ | WLike c _ | WNotLike c _ | WIsNull c | WIsNotNull c | WBetween c _ _ | WNotBetween c _ _ => P c
  end.
Definition names_a_column (fl : flavour) (c : colclause V) : Prop := exists n, lex (V:=V) fl (text_of c) = [Name n].

(** No empty And, Or, In or NotIn anywhere *)
Fixpoint solid (w : where_clause V) : Prop :=
  let all := fix all (cs : list (where_clause V)) := match cs with [] => True | c :: cs' => solid c /\ all cs' end in
  match w with
  | WAnd cs | WOr cs => cs <> [] /\ all cs
  | WIn _ vs | WNotIn _ vs => vs <> []
  | _ => True
  end.

(** The condition composed: a one-element And or Or is its element. *)
Fixpoint meaning (fl : flavour) (w : where_clause V) : cond V :=
  let col c := One [Name (name_of fl c)] in
  let arg c v := One [Val (given c v)] in
  match w with
  | WAnd [c] | WOr [c] => meaning fl c
  | WAnd cs => Conj (map (meaning fl) cs)
  | WOr cs => Disj (map (meaning fl) cs)
  | WEqual c v => Compare (col c) (B "=") (arg c v)
  | WNotEqual c v => Compare (col c) (B "<>") (arg c v)
  | WGreaterThan c v => Compare (col c) (B ">") (arg c v)
  | WGreaterThanOrEqual c v => Compare (col c) (B ">=") (arg c v)
  | WLessThan c v => Compare (col c) (B "<") (arg c v)
  | WLessThanOrEqual c v => Compare (col c) (B "<=") (arg c v)
  | WIn c vs => InList false (col c) (map (fun v => [Val (given c v)]) vs)
  | WNotIn c vs => InList true (col c) (map (fun v => [Val (given c v)]) vs)
  | WLike c v => Like false (col c) (arg c v)
  | WNotLike c v => Like true (col c) (arg c v)
  | WIsNull c => IsNull false (col c)
  | WIsNotNull c => IsNull true (col c)
  | WBetween c lo hi => Between false (col c) (arg c lo) (arg c hi)
  | WNotBetween c lo hi => Between true (col c) (arg c lo) (arg c hi)
  end.

(** ** Statements that are asked for (C32) *)

(** A text that reads as one expression without placeholders. *)
Definition settled (t : tok V) : bool := match t with Param _ | Bad => false | _ => true end.
Definition an_expr (fl : flavour) (text : bytes) : Prop := is_expr (lex (V:=V) fl text) = true /\ forallb settled (lex (V:=V) fl text) = true.
(** A text that reads as a possibly qualified table name. *)
Definition a_table (fl : flavour) (text : bytes) (q : list bytes) : Prop := qname (lex (V:=V) fl text) = Some q.
Definition a_name (fl : flavour) (text : bytes) : Prop := exists n, lex (V:=V) fl text = [Name n].
Definition an_order (fl : flavour) (o : bytes * bool) : operand V * direction :=
  (One (lex (V:=V) fl (fst o)), if snd o then Ascending else Descending).
Definition given_n (n : N) : option N := match n with N0 => None | _ => Some n end.
Definition a_set (fl : flavour) (a : colclause V * V) : bytes * expr V := (name_of fl (fst a), [Val (given (fst a) (snd a))]).

(** The projection and the table a query asks for; the database name of the model is always prefixed. *)
Definition projection (g : target) (q : select_stmt V) : list bytes :=
  match q_select q with
  | [] => match g_columns g with Some cs => cs | None => [B "*"] end
  | l => l
  end.
Definition in_db (g : target) (table : bytes) : bytes := match g_db g with Some x => x ++ B "." ++ table | None => table end.
Definition from_table (g : target) (q : select_stmt V) : option bytes :=
  match q_from q with [] => option_map (in_db g) (g_table g) | f => Some (in_db g f) end.

Definition condition_ok (fl : flavour) (w : option (where_clause V)) : Prop :=
  match w with Some w => all_columns (names_a_column fl) w | None => True end.
Definition condition_solid (w : option (where_clause V)) : Prop := match w with Some w => solid w | None => True end.

(** Every part of the query reads as what it stands for, whatever its condition, limit and offset. *)
Definition parts_ok (fl : flavour) (g : target) (q : select_stmt V) (table : list bytes) : Prop :=
  projection g q <> [] /\ Forall (an_expr fl) (projection g q) /\
  (exists t, from_table g q = Some t /\ a_table fl t table) /\
  condition_ok fl (q_where q) /\ Forall (an_expr fl) (q_group q) /\ Forall (fun o => a_name fl (fst o)) (q_order q).
Definition asked (fl : flavour) (g : target) (q : select_stmt V) (table : list bytes) (limit offset : option N) : stmt V :=
  Select (map (lex fl) (projection g q)) table (option_map (meaning fl) (q_where q)) (map (lex fl) (q_group q))
    (map (an_order fl) (q_order q)) limit offset [].

(** The parts of an update or a delete *)
Definition changes_ok (fl : flavour) (u : update_stmt V) : Prop :=
  Forall (fun a => names_a_column fl (fst a)) (e_set u) /\ condition_ok fl (e_where u) /\ Forall (fun o => a_name fl (fst o)) (e_order u).
(** the table a model without TableName() asks for is the one given *)
Definition changed_table (g : target) (name : bytes) : bytes := in_db g (match g_table g with Some t => t | None => name end).
Definition asked_limit (fl : flavour) (n : N) : option N := match fl with Postgres => None | _ => given_n n end.
Definition asked_update (fl : flavour) (u : update_stmt V) (table : list bytes) : stmt V :=
  Update table (map (a_set fl) (e_set u)) (option_map (meaning fl) (e_where u)) (map (an_order fl) (e_order u)) (asked_limit fl (e_limit u)).
Definition asked_delete (fl : flavour) (u : update_stmt V) (table : list bytes) : stmt V :=
  Delete table (option_map (meaning fl) (e_where u)) (map (an_order fl) (e_order u)) (asked_limit fl (e_limit u)).

(** ** Histories of a statement (C31) *)
Inductive op := OVar (v : V) | OVars (vs : list V) | OWrite (text : bytes) | OReset.
(** The calls after the last Reset *)
Fixpoint since_reset (ops : list op) : list op :=
  match ops with
  | [] => []
  | o :: r => if existsb (fun o => match o with OReset => true | _ => false end) r then since_reset r
              else match o with OReset => r | _ => o :: r end
  end.
Definition values_of (ops : list op) : list V := concat (map (fun o => match o with OVar v => [v] | OVars vs => vs | _ => [] end) ops).
Definition texts_of (ops : list op) : bytes := concat (map (fun o => match o with OWrite x => x | _ => [] end) ops).
(** The texts that Var and Vars return, when [n] values came before: placeholder number k is for value number k. *)
Fixpoint handed_out (fl : flavour) (n : nat) (ops : list op) : list bytes :=
  match ops with
  | [] => []
  | OVar _ :: r => placeholder fl (S n) :: handed_out fl (S n) r
  | OVars vs :: r => (B "(" ++ join (B ",") (map (placeholder fl) (seq (S n) (length vs))) ++ B ")") :: handed_out fl (n + length vs) r
  | _ :: r => handed_out fl n r
  end.
Definition empty_vars (o : op) : bool := match o with OVars [] => true | _ => false end.

(** A history: the statement and the texts returned so far since the last Reset. *)
Definition perform (d : driver) (st : sqlstmt V * list bytes) (o : op) : res (sqlstmt V * list bytes) :=
  let '(s, log) := st in
  match o with
  | OVar v => let '(s, p) := var d s v in Ok (s, log ++ [p])
  | OVars vs => let* r := vars d s vs in Ok (fst r, log ++ [snd r])
  | OWrite x => Ok (put s x, log)
  | OReset => Ok (reset s, [])
  end.
Fixpoint perform_all (d : driver) (st : sqlstmt V * list bytes) (ops : list op) : res (sqlstmt V * list bytes) :=
  match ops with [] => Ok st | o :: r => let* st := perform d st o in perform_all d st r end.

(** ** Formatting (C33) *)

(** The text in which the placeholders [i], [i+1], ... stand between the pieces, and the one with the literals instead. *)
Fixpoint laced (fl : flavour) (i : nat) (pieces : list bytes) (last : bytes) : bytes :=
  match pieces with [] => last | p :: r => p ++ placeholder fl i ++ laced fl (S i) r last end.
Fixpoint filled (pieces : list (bytes * bytes)) (last : bytes) : bytes :=
  match pieces with [] => last | (p, x) :: r => p ++ x ++ filled r last end.
Definition mark (fl : flavour) : byte := match fl with Postgres => "$"%char | _ => "?"%char end.

End Meaning.
Arguments op : clear implicits.

(** What a literal in the text has to be for a value.  Strings are read by the E-string reader on PostgreSQL; on
    MySQL only strings without quotes, backslashes and control characters are considered. *)
Fixpoint shows {V : Type} (d : driver) (v : literal) (x : bytes) : Prop :=
  let fl := flavour_of d in
  match v with
  | LNil => lex (V:=V) fl x = [Kw (B "NULL")]
  | LBool b => lex (V:=V) fl x = [Name (if b then B "true" else B "false")]
  | LInt z => exists ds, number_of ds = Z.abs_N z /\ lex (V:=V) fl x = (if Z.ltb z 0 then [Sym "-"] else []) ++ [Num ds]
  | LUint n => exists ds, number_of ds = n /\ lex (V:=V) fl x = [Num ds]
  | LString s => match d with
                 | DPostgres => estring x = Some (s, [])
                 | DMySQL => Forall plain_char s -> lex (V:=V) fl x = [Str s]
                 | DSQLite => True
                 end
  | LFloat t | LRaw t => x = t
  | LTime t => match d with DMySQL => Forall plain_char t -> lex (V:=V) fl x = [Str t] | _ => True end
  | LValuer v => shows (V:=V) d v x
  | LOther => False
  end.
