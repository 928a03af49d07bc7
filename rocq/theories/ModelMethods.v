(** Model of the methods that /repo/cmd/sqlgen/codegen/generate.go writes for a model: their names and receivers. *)
From Verif Require Import Base ModelCompiler.

(** What types.MissingMethod (compiler.go:93-99) says of a method of the model: there is none, there is one (written by the user or
    promoted from an embedded type), there is one of another type. *)
Inductive own := Missing | Has | Wrong.
Record method := { m_name : bytes; m_pointer : bool }.
Definition by_value (n : bytes) : method := {| m_name := n; m_pointer := false |}.
Definition by_pointer (n : bytes) : method := {| m_name := n; m_pointer := true |}.

Section Methods.
Variables (prefix : bytes) (strict : bool).             (* getter.prefix, strict *)
Variable user : bytes -> own.

(** generate.go:86-93 LogError; the recorded errors are never looked at *)
Definition log_error : res (list method) := if strict then Panic else Ok [].
(** 144-152, 176-180, 183-186, 200-204, 208-212 *)
Definition unless_own (n : bytes) (ms : list method) : res (list method) :=
  match user n with Wrong => log_error | Missing => Ok ms | Has => Ok [] end.

(** 154-173 *)
Definition key_methods (t : table) : list method :=
  if has_pk t then
    by_value (B "HasPK") ::
    match t_auto t with
    | Some _ => [by_value (B "IsAutoIncr"); by_pointer (B "ScanAutoIncr"); by_value (B "PK")]
    | None => match t_keys t with [_] => [by_value (B "PK")] | _ => [by_value (B "CompositeKey")] end
    end
  else [].
(** 411-444 buildSqlColumns; [([], [])] stands for no SQLScanner *)
Definition has_scanner (c : column) : bool := match c_unwrap c with ([], []) => false | _ => true end.
Definition sql_columns_method (t : table) : list method :=
  if existsb has_scanner (t_columns t) then [by_value (B "SQLColumns")] else [].
(** 446-458 buildValuer *)
Definition values_method (t : table) : list method :=
  match insert_columns t with [] => [] | _ => [by_value (B "Values")] end.
(** 215-250 *)
Definition insert_methods (t : table) : list method :=
  if t_readonly t then []
  else match insert_columns t with
       | [] => []
       | cs => (if Nat.eqb (length cs) (length (t_columns t)) then [] else [by_value (B "InsertColumns")]) ++
               [by_value (B "InsertPlaceholders"); by_value (B "InsertOneStmt")]
       end.
(** 252-257 *)
Definition statement_methods (t : table) : list method :=
  if has_pk t then
    by_value (B "FindOneByPKStmt") ::
    (if t_readonly t then [] else match columns_without_pk t with [] => [] | _ => [by_value (B "UpdateOneByPKStmt")] end)
  else [].
(** 260-284 and 817-819 valueFunc, 286-343 *)
Definition value_method (c : column) : method := by_value (c_goname c ++ B "Value").
Definition column_method (c : column) : method := by_value (prefix ++ c_goname c).

(** 133-350: the methods in the order of the file *)
Definition gen_methods (t : table) : res (list method) :=
  let* name := unless_own (B "TableName") [by_value (B "TableName")] in
  let* sqlcols := unless_own (B "SQLColumns") (sql_columns_method t) in
  let* cols := unless_own (B "Columns") [by_value (B "Columns")] in
  let* vals := if t_readonly t then Ok [] else unless_own (B "Values") (values_method t) in
  let* addrs := unless_own (B "Addrs") [by_pointer (B "Addrs")] in
  Ok (name ++ key_methods t ++ sqlcols ++ cols ++ vals ++ addrs ++ insert_methods t ++ statement_methods t ++
      map value_method (t_columns t) ++ map column_method (t_columns t)).
End Methods.
