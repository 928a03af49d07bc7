(** Statements in terms of the declarations of a struct, from its source to the generated code. *)
From Verif Require Import Base ModelCompiler ModelParser ModelGen SpecSql SpecGo SpecGen SpecParser.

(** Names in ASCII; those that are exported begin with a capital *)
Definition ascii_name (s : bytes) : Prop := s <> [] /\ Forall (fun c => letter c \/ digit c \/ c = "_"%char) s.
Definition capitalised (s : bytes) : Prop := exists c r, s = c :: r /\ (65 <= code c <= 90)%N.
Definition ascii_field (f : sfield) : Prop :=
  ascii_name (f_name f) /\ (f_exported f = true -> capitalised (f_name f)) /\ Forall (fun c => (code c < 128)%N) (f_tag f).
Definition ascii_source (name : bytes) (ds : list decl) : Prop := ascii_name name /\ capitalised name /\ Forall ascii_field (declared ds).

(** Where the field is in the record: .Address.City *)
Definition field_path (f : sfield) : bytes := concat (map (fun p => B "." ++ fst p) (f_paths f)).
(** Fields whose columns are written by inserts and by updates *)
Definition insert_field (f : sfield) : Prop := ~ readonly_field f /\ ~ auto_field f.
Definition update_field (f : sfield) : Prop := ~ readonly_field f /\ ~ auto_field f /\ ~ key_field f.
(** The fields that have columns, in the order of the columns, with the names of these *)
Definition column_fields (rename : bytes -> bytes) (ds : list decl) (gs : list sfield) (ns : list bytes) : Prop :=
  (forall f, In f gs <-> In f (declared ds) /\ has_column f) /\ Forall2 (column_name rename) gs ns /\ NoDup ns.

Section Sql.
Context {V : Type}.
(** The Go literal denotes the name, or (identifiers quoted) text that the database reads as the name. *)
Definition literal_names (d : driver) (quoted : bool) (lit n : bytes) : Prop :=
  exists text, go_literal lit = Some text /\ (quoted = false -> text = n) /\ (quoted = true -> lex (V:=V) (flavour_of d) text = [Name n]).
(** The functions configured around the values and columns of the types read as one expression each. *)
Definition sql_functions (d : driver) (wrap unwrap : gotype -> bytes * bytes) (before after : gotype -> list (tok V)) (item : gotype -> bytes -> list (tok V)) : Prop :=
  (forall c, c_wrap c = wrap (c_type c) -> wrapped d c (before (c_type c)) (after (c_type c))) /\
  (forall c, c_unwrap c = unwrap (c_type c) -> plain_name (c_name c) -> selected d c (item (c_type c) (c_name c))).
(** The table of the statements: the user's TableName, or the name of the table *)
Definition table_of (d : driver) (own : bool) (t : table) (tn : bytes) (q : list bytes) : Prop :=
  if own then qname (V:=V) (lex (flavour_of d) tn) = Some q else q = [t_name t].
End Sql.
