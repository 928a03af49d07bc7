(** Vocabulary of the statements about the data-access functions (C25-C29, C40). *)
From Verif Require Import Base ModelStrconv ModelCompiler ModelGen ModelRuntime SpecSql SpecGen.

Section Described.
Context {V : Type}.
Notation tok := (tok V).

(** The text of a column, of a selected item, of a table. *)
Definition denotes (fl : flavour) (text c : bytes) : Prop := lex (V:=V) fl text = [Name c].
Definition itemises (fl : flavour) (text : bytes) (e : expr V) : Prop :=
  lex fl text = e /\ is_expr e = true /\ no_placeholder e /\ ~ In Bad e.
Definition locates (fl : flavour) (m : model V) (q : list bytes) : Prop :=
  qname (V:=V) (lex fl (match m_db m with Some db => db ++ B "." ++ m_table m | None => m_table m end)) = Some q.

(** The methods of [m] describe the table [q] with the columns [cols], read as [items]. *)
Record described (fl : flavour) (m : model V) (q cols : list bytes) (items : list (expr V)) : Prop := {
  d_table : locates fl m q;
  d_columns : Forall2 (denotes fl) (m_columns m) cols;
  d_distinct : NoDup cols;
  d_some : cols <> [];
  d_items : match m_sqlcolumns m with
            | Some texts => texts <> [] /\ Forall2 (itemises fl) texts items
            | None => items = map (fun c => [Name c]) cols
            end
}.

(** A list without the element at a position. *)
Definition omit_at {A} (i : option nat) (l : list A) : list A :=
  match i with Some i => firstn i l ++ skipn (S i) l | None => l end.
(** The position of the column that the database fills in. *)
Definition generated_at (m : model V) : option nat := match m_key m with AutoKey _ i _ => Some i | _ => None end.

Fixpoint listed (l : list (list tok)) : list tok :=
  match l with [] => [] | [x] => x | x :: l' => x ++ Sym "," :: listed l' end.
(** The row texts of [m] hold [k] placeholders each, numbered on from row to row. *)
Definition numbered (fl : flavour) (m : model V) (k : nat) : Prop :=
  forall row, lex_from fl (row * k) (m_places m row)
              = Sym "(" :: listed (map (fun j => [Param (row * k + j + 1)]) (seq 0 k)) ++ [Sym ")"].

(** The row holding the given values *)
Definition row_of (vs : list V) : list (expr V) := map (fun v => [Val v]) vs.

(** The key columns and values of [m]. *)
Definition keyed_by (fl : flavour) (m : model V) (ks : list (bytes * V)) : Prop :=
  match m_key m with
  | AutoKey n _ v | SingleKey n _ v => exists k, denotes fl n k /\ ks = [(k, v)]
  | CompKey ns _ vs => ks <> [] /\ Forall2 (denotes fl) ns (map fst ks) /\ vs = map snd ks
  | NoKey => False
  end.
(** The condition that a row has this key *)
Definition key_match (m : model V) (ks : list (bytes * V)) : cond V :=
  match m_key m, ks with
  | CompKey _ _ _, _ => Compare (Tuple (map (fun p => [Name (fst p)]) ks)) (B "=") (Tuple (map (fun p => [Val (snd p)]) ks))
  | _, (k, v) :: _ => Compare (One [Name k]) (B "=") (One [Val v])
  | _, [] => Conj []
  end.
(** The texts of the key columns *)
Definition key_texts (m : model V) : list bytes :=
  match m_key m with AutoKey n _ _ | SingleKey n _ _ => [n] | CompKey ns _ _ => ns | NoKey => [] end.

(** The columns picked out of [cols], whose texts are [texts], by their position and text. *)
Definition chosen (texts cols : list bytes) (pick : nat -> bytes -> Prop) (sets : list bytes) : Prop :=
  sublist sets cols /\
  forall c, In c sets <-> exists i text, nth_error texts i = Some text /\ nth_error cols i = Some c /\ pick i text.

(** The texts naming the conflict target of a PostgreSQL upsert: the option, the model's own list, or the key. *)
Definition target_texts (m : model V) (o : upsert_opts) : list bytes :=
  match o_dup o, m_dup m with _ :: _, _ => o_dup o | [], Some ks => ks | [], None => key_texts m end.
(** The texts of columns that an upsert must not assign. *)
Definition omitted_text (m : model V) (o : upsert_opts) (text : bytes) : Prop :=
  In text (o_omit o) \/ In text (key_texts m)
  \/ (o_dup o = [] /\ exists ks, m_dup m = Some ks /\ In text ks)
  \/ (exists l, m_omit m = Some l /\ In text l).
(** What a statement returns: PostgreSQL statements end in RETURNING. *)
Definition ret_items (d : driver) (items : list (expr V)) : list (expr V) := match d with DPostgres => items | _ => [] end.
End Described.
(** What becomes of a conflicting row: nothing, or the listed columns take the proposed values. *)
Definition conflict_of (nothing : bool) (tgt sets : list bytes) : on_conflict :=
  if nothing then DoNothing tgt else DoUpdate tgt (map (fun c => (c, c)) sets).
(** The same in MySQL, which has no conflict target *)
Definition my_conflict (override : bool) (sets : list bytes) : on_conflict :=
  if override then DoUpdate [] (map (fun c => (c, c)) sets) else DoNothing [].

(** ** Generated models *)
(** Bare names read as themselves; quoted names are plain. *)
Definition named (V : Type) (d : driver) (on : bool) (t : table) : Prop :=
  forall c, In c (t_columns t) -> if on then plain_name (c_name c) else lex (V:=V) (flavour_of d) (c_name c) = [Name (c_name c)].
(** The generated methods have a readable table name, readable columns, readable SQL columns, and something
    to insert (or no insert methods are generated). *)
Record usable {V : Type} (d : driver) (on : bool) (t : table) (db : option bytes) (tn : bytes) (sqlc : option (list bytes))
  (q : list bytes) (items : list (expr V)) : Prop := {
  u_names : named V d on t;
  u_table : qname (V:=V) (lex (flavour_of d) (match db with Some x => x ++ B "." ++ tn | None => tn end)) = Some q;
  u_items : match sqlc with
            | Some texts => texts <> [] /\ Forall2 (itemises (flavour_of d)) texts items
            | None => items = map (fun c => [Name (c_name c)]) (t_columns t)
            end;
  u_insert : exists c, insertable t c
}.
(** No column is filled in by the database, and none is read-only. *)
Definition all_written (t : table) : Prop := t_auto t = None /\ forall c, In c (t_columns t) -> c_readonly c = false.
(** Composite keys are never quoted, so their names must read as themselves. *)
Definition bare_keys (V : Type) (d : driver) (t : table) : Prop :=
  2 <= length (key_of t) -> forall k, In k (key_of t) -> lex (V:=V) (flavour_of d) (c_name k) = [Name (c_name k)].
(** The statement is rejected by the database, or the function panics before sending it. *)
Definition rejected {V : Type} (fl : flavour) (r : res (bytes * list V)) : Prop :=
  r = Panic \/ exists text args, r = Ok (text, args) /\ read fl text args = None.
Definition rejected_opt {V : Type} (fl : flavour) (r : res (option (bytes * list V))) : Prop :=
  r = Panic \/ exists text args, r = Ok (Some (text, args)) /\ read fl text args = None.
(** The lock clauses of each database, with the words after FOR. *)
Definition locks (d : driver) : list (bytes * list bytes) :=
  map (fun ws => (B "FOR " ++ join (B " ") ws, ws))
    match d with
    | DMySQL => [[B "UPDATE"]; [B "SHARE"]]
    | DPostgres => [[B "UPDATE"]; [B "NO"; B "KEY"; B "UPDATE"]; [B "SHARE"]; [B "KEY"; B "SHARE"]]
    | DSQLite => []
    end.
