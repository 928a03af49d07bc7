(** Which methods the runtime functions ask for, and which a model has (C74). *)
From Verif Require Import Base ModelCompiler ModelParser ModelGen ModelMethods SpecParser SpecEnd.

(** The functions of the generated runtime that take a model *)
Inductive runtime := InsertOne | Insert | UpsertOne | Upsert | FindByPK | UpdateByPK | DeleteByPK | LockByPK | Paginate | QueryStmt | QueryOneStmt | DbTable | TableColumns.
(** The interfaces of /repo/sequel/sequel.go *)
Definition tabler : list bytes := [B "TableName"].
Definition columner : list bytes := [B "Columns"].
Definition valuer : list bytes := [B "Values"].
Definition keyer : list bytes := [B "HasPK"].
Definition ptr_scanner : list bytes := [B "Addrs"].
Definition column_valuer : list bytes := tabler ++ columner ++ valuer.
Definition inserter : list bytes := column_valuer ++ [B "InsertPlaceholders"].
Definition key_valuer : list bytes := keyer ++ tabler ++ columner ++ valuer.
Definition key_value_scanner : list bytes := key_valuer ++ ptr_scanner.
(** The type parameters of the functions in /repo/cmd/sqlgen/codegen/templates/db.go.tpl: what the model type has to have, and what
    the pointer to it has to have *)
Definition asks (d : driver) (f : runtime) : list bytes * list bytes :=
  match f, d with
  | InsertOne, _ => (column_valuer, column_valuer ++ ptr_scanner)
  | Insert, DPostgres => (inserter, ptr_scanner)
  | Insert, _ => (column_valuer, [])
  | UpsertOne, DPostgres => (key_valuer, key_value_scanner ++ inserter)
  | UpsertOne, _ => (key_valuer, key_value_scanner)
  | Upsert, _ => (keyer ++ inserter, ptr_scanner)
  | FindByPK, _ | LockByPK, _ | Paginate, _ => (key_valuer, key_value_scanner)
  | UpdateByPK, _ | DeleteByPK, _ => (key_valuer, [])
  | QueryStmt, _ | QueryOneStmt, _ => ([], ptr_scanner)
  | DbTable, _ => (tabler, [])
  | TableColumns, _ => (columner, [])
  end.

(** The methods of a type with the generated and the user's methods; those of the pointer type include them.
    Of the user's methods, Addrs has a pointer receiver. *)
Definition of_value (user : bytes -> own) (ms : list method) (n : bytes) : Prop :=
  In {| m_name := n; m_pointer := false |} ms \/ (user n = Has /\ n <> B "Addrs").
Definition of_pointer (user : bytes -> own) (ms : list method) (n : bytes) : Prop := (exists m, In m ms /\ m_name m = n) \/ user n = Has.
Definition accepted (d : driver) (user : bytes -> own) (ms : list method) (f : runtime) : Prop :=
  (forall n, In n (fst (asks d f)) -> of_value user ms n) /\ (forall n, In n (snd (asks d f)) -> of_pointer user ms n).

(** The user's methods are among those that the generator leaves out when they are there, and have the right types. *)
Definition optional : list bytes := [B "TableName"; B "Columns"; B "SQLColumns"; B "Values"; B "Addrs"].
Definition user_ok (user : bytes -> own) : Prop := (forall n, user n <> Wrong) /\ (forall n, user n = Has -> In n optional).

(** What the declarations say of a model *)
Definition keyed (ds : list decl) : Prop := exists f, In f (declared ds) /\ has_column f /\ (key_field f \/ auto_field f).
Definition insertable (t : table) (ds : list decl) : Prop := t_readonly t = false /\ exists f, In f (declared ds) /\ has_column f /\ insert_field f.
Definition needs_key (f : runtime) : Prop := In f [UpsertOne; Upsert; FindByPK; UpdateByPK; DeleteByPK; LockByPK; Paginate].
Definition reads_only (f : runtime) : Prop := In f [QueryStmt; QueryOneStmt; DbTable; TableColumns].
Definition needs_placeholders (d : driver) (f : runtime) : Prop := f = Upsert \/ (d = DPostgres /\ (f = Insert \/ f = UpsertOne)).

(** The names of the methods that are generated for the model *)
Section Names.
Variables (prefix : bytes) (user : bytes -> own) (unwrap : gotype -> bytes * bytes) (t : table) (ds : list decl).
Let fields_with (P : sfield -> Prop) : Prop := exists f, In f (declared ds) /\ has_column f /\ P f.
Definition several_keys : Prop := exists f g, f <> g /\ In f (declared ds) /\ In g (declared ds) /\ has_column f /\ has_column g /\ key_field f /\ key_field g.
Inductive generated_name : bytes -> Prop :=
| gn_table : user (B "TableName") <> Has -> generated_name (B "TableName")
| gn_columns : user (B "Columns") <> Has -> generated_name (B "Columns")
| gn_addrs : user (B "Addrs") <> Has -> generated_name (B "Addrs")
| gn_sql_columns : user (B "SQLColumns") <> Has -> fields_with (fun f => unwrap (f_type f) <> ([], [])) -> generated_name (B "SQLColumns")
| gn_values : user (B "Values") <> Has -> insertable t ds -> generated_name (B "Values")
| gn_has_pk : keyed ds -> generated_name (B "HasPK")
| gn_auto : fields_with auto_field -> generated_name (B "IsAutoIncr")
| gn_scan_auto : fields_with auto_field -> generated_name (B "ScanAutoIncr")
| gn_pk : keyed ds -> (several_keys -> fields_with auto_field) -> generated_name (B "PK")
| gn_composite : several_keys -> ~ fields_with auto_field -> generated_name (B "CompositeKey")
| gn_insert_columns : insertable t ds -> fields_with (fun f => ~ insert_field f) -> generated_name (B "InsertColumns")
| gn_placeholders : insertable t ds -> generated_name (B "InsertPlaceholders")
| gn_insert_one : insertable t ds -> generated_name (B "InsertOneStmt")
| gn_find : keyed ds -> generated_name (B "FindOneByPKStmt")
| gn_update : keyed ds -> t_readonly t = false -> fields_with update_field -> generated_name (B "UpdateOneByPKStmt")
| gn_value f : In f (declared ds) -> has_column f -> generated_name (f_name f ++ B "Value")
| gn_column f : In f (declared ds) -> has_column f -> generated_name (prefix ++ f_name f).
End Names.
