(** Vocabulary of the statements about generated models. *)
From Verif Require Import Base ModelStrconv ModelCompiler ModelGen SpecSql SpecGo.

Definition flavour_of (d : driver) : flavour :=
  match d with DMySQL => MySQL | DPostgres => Postgres | DSQLite => SQLite end.

(** Names made of printable ASCII characters other than quotes and backslash. *)
Definition plain_char (c : byte) : Prop :=
  (32 <= code c <= 126)%N /\ c <> dquote /\ c <> backtick /\ c <> backslash.
Definition plain_name (n : bytes) : Prop := n <> [] /\ Forall plain_char n.

(** How a statement spells its k-th placeholder and a plain name. *)
Definition placeholder (fl : flavour) (k : nat) : bytes :=
  match fl with Postgres => B "$" ++ itoa k | _ => B "?" end.
Definition identifier (fl : flavour) (name : bytes) : bytes :=
  match fl with MySQL => backtick :: name ++ [backtick] | _ => dquote :: name ++ [dquote] end.

(** Text that a Go literal can carry verbatim: between double quotes for MySQL, between backticks otherwise. *)
Definition literal_char (d : driver) (c : byte) : Prop :=
  (0 < code c < 128)%N /\
  match d with DMySQL => c <> dquote /\ c <> backslash /\ c <> LF | _ => c <> backtick /\ code c <> 13%N end.

(** What the Go program makes of generated string pieces. *)
Fixpoint eval_pieces (table_name : bytes) (ps : list piece) : option bytes :=
  match ps with
  | [] => Some []
  | p :: ps' =>
      match (match p with Lit s => go_literal s | CallTableName => Some table_name end), eval_pieces table_name ps' with
      | Some a, Some b => Some (a ++ b)
      | _, _ => None
      end
  end.

Section Wrapped.
Context {V : Type}.

Definition no_placeholder (ts : list (tok V)) : Prop := forall k, ~ In (Param k) ts.

(** The placeholder of column [c], with the SQLValuer of its type around it, reads as one
    expression: the tokens [a], the placeholder, the tokens [b]. *)
Definition wrapped (d : driver) (c : column) (a b : list (tok V)) : Prop :=
  (forall i, lex_from (flavour_of d) i (fst (c_wrap c) ++ placeholder (flavour_of d) (S i) ++ snd (c_wrap c)) = a ++ Param (S i) :: b)
  /\ is_expr (a ++ Param 1 :: b) = true
  /\ no_placeholder a /\ no_placeholder b /\ ~ In Bad a /\ ~ In Bad b
  /\ Forall (literal_char d) (fst (c_wrap c)) /\ Forall (literal_char d) (snd (c_wrap c)).

(** The identifier of column [c], with the SQLScanner of its type around it, reads as the expression [e]. *)
Definition selected (d : driver) (c : column) (e : list (tok V)) : Prop :=
  lex (flavour_of d) (fst (c_unwrap c) ++ identifier (flavour_of d) (c_name c) ++ snd (c_unwrap c)) = e
  /\ is_expr e = true /\ no_placeholder e /\ ~ In Bad e
  /\ Forall (literal_char d) (fst (c_unwrap c)) /\ Forall (literal_char d) (snd (c_unwrap c)).

(** The table [q] a statement addresses: the quoted table name, or what the user's own TableName() reads as. *)
Definition addresses (d : driver) (own : bool) (t : table) (tn : bytes) (q : list bytes) : Prop :=
  if own then qname (V:=V) (lex (flavour_of d) tn) = Some q else plain_name (t_name t) /\ q = [t_name t].

(** All columns of [t] have plain names and readable wrappers. *)
Definition readable (d : driver) (t : table) (before after item : column -> list (tok V)) : Prop :=
  forall c, In c (t_columns t) ->
    plain_name (c_name c) /\ wrapped d c (before c) (after c) /\ selected d c (item c).

(** An expression holding the value of column [c] *)
Definition holding (before after : column -> list (tok V)) (val : column -> V) (c : column) : expr V :=
  before c ++ Val (val c) :: after c.
End Wrapped.

(** Roles of the columns of a table. *)
Definition is_key (t : table) (c : column) : Prop := In c (t_keys t) \/ t_auto t = Some c.
Definition insertable (t : table) (c : column) : Prop :=
  In c (t_columns t) /\ c_readonly c = false /\ t_auto t <> Some c.
Definition updatable (t : table) (c : column) : Prop :=
  In c (t_columns t) /\ c_readonly c = false /\ ~ is_key t c.

(** [sublist l m]: [l] is [m] with some elements left out, the order kept. *)
Inductive sublist {A} : list A -> list A -> Prop :=
| sub_nil : sublist [] []
| sub_keep x l m : sublist l m -> sublist (x :: l) (x :: m)
| sub_drop x l m : sublist l m -> sublist l (x :: m).

(** The columns that identify a record: the auto-increment column alone when there is one. *)
Definition key_of (t : table) : list column := match t_auto t with Some a => [a] | None => t_keys t end.

Section Conditions.
Context {V : Type}.
(** The condition that a row's key is the record's: a plain comparison for a single key column, a
    comparison of rows for several. *)
Definition key_equals (t : table) (before after : column -> list (tok V)) (val : column -> V) : cond V :=
  match key_of t with
  | [k] => Compare (One [Name (c_name k)]) (B "=") (One [Val (val k)])
  | ks => Compare (Tuple (map (fun c => [Name (c_name c)]) ks)) (B "=")
                  (Tuple (map (fun c => before c ++ Val (val c) :: after c) ks))
  end.
End Conditions.
