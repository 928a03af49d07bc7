(** Embedding: paths to embedded structs, the shallowest declaration of a method, and what embedding does to a table. *)
From Verif Require Import Base ModelStrconv ModelCompiler ModelGen ModelMethods ModelRuntime ModelEmbed.

Section Embed.
Context {V : Type}.

(** The struct at a path of embedded fields *)
Inductive reach : struct V -> list nat -> struct V -> Prop :=
| r_here s : reach s [] s
| r_down s i e p x : nth_error (st_embeds s) i = Some e -> reach e p x -> reach s (i :: p) x.
(** The only shallowest struct that declares the method *)
Definition shallowest (n : bytes) (s x : struct V) : Prop :=
  exists p, reach s p x /\ In n (st_methods x)
    /\ forall q y, reach s q y -> In n (st_methods y) -> q = p \/ length p < length q.

(** A struct embedded at some depth, at least one *)
Definition inside (s x : struct V) : Prop := exists p, p <> [] /\ reach s p x.

(** Kinds of keys *)
Definition auto (t : table) : Prop := t_auto t <> None.
Definition composite (t : table) : Prop := t_auto t = None /\ 2 <= length (t_keys t).
(** parser.go:176-300: the fields of an embedded struct are fields of the outer one, with their tags *)
Definition flattened (e t : table) : Prop :=
  (auto e -> auto t) /\ (t_keys e <> [] -> t_keys t <> [])
  /\ forall c, In c (t_columns e) -> exists c', In c' (t_columns t)
       /\ c_name c' = c_name c /\ c_readonly c' = c_readonly c /\ c_unwrap c' = c_unwrap c
       /\ (is_auto t c' = true <-> is_auto e c = true)
       /\ (In (c_name c') (map c_name (t_keys t)) <-> In (c_name c) (map c_name (t_keys e))).

(** What the methods generated for a table return: there is a value where there is a method *)
Record made_for (t : table) (m : model V) : Prop := {
  mf_db : m_db m = None; mf_dup : m_dup m = None; mf_omit : m_omit m = None; mf_delete : m_delete m = None;
  mf_key : match t_auto t, t_keys t with
           | Some _, _ => exists n i v, m_key m = AutoKey n i v
           | None, [] => m_key m = NoKey
           | None, [_] => exists n i v, m_key m = SingleKey n i v
           | None, _ => exists ns is vs, m_key m = CompKey ns is vs
           end;
  mf_sql : (exists c, In c (t_columns t) /\ c_unwrap c <> ([], [])) \/ m_sqlcolumns m = None;
  mf_find : t_auto t <> None \/ t_keys t <> [] \/ m_find m = None;
  mf_update : ((t_auto t <> None \/ t_keys t <> []) /\ columns_without_pk t <> []) \/ m_update m = None
}.
(** Names that are not the generator's business *)
Definition by_hand : list bytes := [B "DatabaseName"; B "DuplicateKeys"; B "OnUpsertOmitColumns"; B "DeleteOneByPKStmt"].
End Embed.

(** The methods that are written for a struct, of those the functions of db.go.tpl ask for; [user n] is [Missing] when the
    struct has no method [n] yet *)
Definition keyed_table (t : table) : Prop := t_auto t <> None \/ t_keys t <> [].
Inductive written (user : bytes -> own) (t : table) : bytes -> Prop :=
| w_table : user (B "TableName") = Missing -> written user t (B "TableName")
| w_columns : user (B "Columns") = Missing -> written user t (B "Columns")
| w_addrs : user (B "Addrs") = Missing -> written user t (B "Addrs")
| w_sql c : user (B "SQLColumns") = Missing -> In c (t_columns t) -> c_unwrap c <> ([], []) -> written user t (B "SQLColumns")
| w_values : user (B "Values") = Missing -> t_readonly t = false -> insert_columns t <> [] -> written user t (B "Values")
| w_has_pk : keyed_table t -> written user t (B "HasPK")
| w_auto : t_auto t <> None -> written user t (B "IsAutoIncr")
| w_pk : t_auto t <> None \/ length (t_keys t) = 1 -> written user t (B "PK")
| w_composite : t_auto t = None -> 2 <= length (t_keys t) -> written user t (B "CompositeKey")
| w_places : t_readonly t = false -> insert_columns t <> [] -> written user t (B "InsertPlaceholders")
| w_insert : t_readonly t = false -> insert_columns t <> [] -> written user t (B "InsertOneStmt")
| w_find : keyed_table t -> written user t (B "FindOneByPKStmt")
| w_update : keyed_table t -> t_readonly t = false -> columns_without_pk t <> [] -> written user t (B "UpdateOneByPKStmt").
