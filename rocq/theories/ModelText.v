(** Model of the Go source that /repo/cmd/sqlgen/codegen/generate.go writes for a model, before imports.Process lays it out. *)
From Verif Require Import Base ModelStrconv ModelEncoding ModelCompiler ModelGen ModelMethods.

(** fprintfln (826-828): a line *)
Definition line (l : list bytes) : bytes := concat l ++ [LF].
(** %d with a width: blanks before the number *)
Definition padded (width n : nat) : bytes := repeat " "%char (width - length (itoa n)) ++ itoa n.
(** strwidth (821-824) *)
Definition width_of (n : nat) : nat := length (itoa n).

Section Text.
Variable printable : N -> bool.
Variables (d : driver) (on : bool) (prefix : bytes) (strict : bool).   (* driver, quote_identifier, getter.prefix, strict *)
Variable user : bytes -> own.
Variable go : bytes.                                  (* the name of the struct *)
(** g.valuer and g.scanner (696-744), isBasicType (680-694), the text of a type as the column getters print it (305-308), the text of
    the type that a pointer of the path points to as buildScanner prints it (464).  The packages to import, which these functions
    also record, are in ModelExpr. *)
Variables (valuer scanner : bytes -> gotype -> bytes) (basic : gotype -> bool) (type_text : gotype -> bytes) (new_text : bytes -> bytes).
(** %s of pk.Type: types.Type.String() *)
Variable type_name : gotype -> bytes.

(** types.Pointer.Elem *)
Definition elem_of (t : gotype) : gotype := {| ty_base := ty_base t; ty_ptr := ty_ptr t - 1 |}.
(** compiler.go 113-128 GoPtrPaths: the paths that end in a pointer *)
Fixpoint pointer_paths (before : bytes) (ps : list (bytes * bool)) : list bytes :=
  match ps with
  | [] => []
  | (n, p) :: r => let q := before ++ B "." ++ n in (if p : bool then [q] else []) ++ pointer_paths q r
  end.
(** compiler.go 63-77 GoPtrPaths of the table: each path once *)
Fixpoint distinct (seen : list bytes) (ps : list bytes) : list bytes :=
  match ps with [] => [] | p :: r => if bmem p seen then distinct seen r else p :: distinct (p :: seen) r end.
Definition table_pointers (t : table) : list bytes := distinct [] (flat_map (fun c => pointer_paths [] (c_paths c)) (t_columns t)).
(** getOrValue (672-678) with the receiver v *)
Definition value_text (c : column) : bytes :=
  if existsb snd (c_paths c) then B "v." ++ c_goname c ++ B "Value()" else valuer (B "v" ++ c_gopath c) (c_type c).
(** query + g.Quote(...) of 491, 552, 615 *)
Definition piece_text (p : piece) : bytes := match p with Lit s => s | CallTableName => B "+ v.TableName() +" end.
Definition query_text (ps : list piece) : bytes := concat (map piece_text ps).

(** 147-149 *)
Definition table_name_text (t : table) : bytes :=
  line [B "func ("; go; B ") TableName() string {"] ++ line [B "return "; gen_table_name printable d on t] ++ line [B "}"].
(** 384-409 buildCompositeKeys, 154-173; pk.GoName, not its path, is assigned to (161) *)
Definition key_text (t : table) : bytes :=
  match gen_key printable d on t with
  | None => []
  | Some k =>
      line [B "func ("; go; B ") HasPK() {}"] ++
      match t_auto t with
      | Some pk =>
          line [B "func ("; go; B ") IsAutoIncr() {}"] ++
          line [B "func (v *"; go; B ") ScanAutoIncr(val int64) error {"] ++
          line [chr 9 :: B "v."; c_goname pk; B " = "; type_name (c_type pk); B "(val)"] ++ line [chr 9 :: B "return nil"] ++ line [B "}"]
      | None => []
      end ++
      match k with
      | PK lit pos pk =>
          line [B "func (v "; go; B ") PK() (string, int, any) {"] ++ line [chr 9 :: B "return "; lit; B ", "; itoa pos; B ", "; value_text pk] ++ line [B "}"]
      | CompositeKey lits pos ks =>
          line [B "func (v "; go; B ") CompositeKey() ([]string, []int, []any) {"] ++
          line [B "return []string{"; join (B ",") lits; B "}, []int{"; join (B ",") (map itoa pos); B "}, []any{"; join (B ",") (map value_text ks); B "}"] ++
          line [B "}"]
      end
  end.
(** 411-444 *)
Definition sql_columns_text (t : table) : bytes :=
  if existsb has_scanner (t_columns t) then
    line [B "func ("; go; B ") SQLColumns() []string {"] ++
    line [B "return []string{"; join (B ",") (gen_sql_columns printable d on t); B "} // "; itoa (length (t_columns t))] ++ line [B "}"]
  else [].
(** 186-196 *)
Definition columns_text (t : table) : bytes :=
  line [B "func ("; go; B ") Columns() []string {"] ++
  line [B "return []string{"; join (B ",") (gen_columns printable d on t); B "} // "; itoa (length (t_columns t))] ++ line [B "}"].
(** 446-458 *)
Definition item_text (width : nat) (e : bytes) (c : column) : bytes := line [e; B ", // "; padded width (c_pos c); B " - "; c_name c].
Definition values_text (t : table) : bytes :=
  match gen_values t with
  | [] => []
  | cs => line [B "func (v "; go; B ") Values() []any {"] ++ line [B "return []any{"] ++
          concat (map (fun c => item_text (width_of (length cs)) (value_text c) c) cs) ++ line [B "}"] ++ line [B "}"]
  end.
(** 460-474 *)
Definition addrs_text (t : table) : bytes :=
  line [B "func (v *"; go; B ") Addrs() []any {"] ++
  concat (map (fun p => line [B "if v"; p; B " == nil {"] ++ B "v" ++ p ++ B " = new(" ++ new_text p ++ B ")" ++ line [B "}"]) (table_pointers t)) ++
  line [B "return []any{"] ++
  concat (map (fun c => item_text (width_of (length (gen_addrs t))) (scanner (B "&v" ++ c_gopath c) (c_type c)) c) (gen_addrs t)) ++ line [B "}"] ++ line [B "}"].
(** 219-228 *)
Definition insert_columns_text (t : table) : bytes :=
  if Nat.eqb (length (insert_columns t)) (length (t_columns t)) then []
  else line [B "func ("; go; B ") InsertColumns() []string {"] ++
       line [B "return []string{"; join (B ",") (gen_insert_columns printable d on t); B "} // "; itoa (length (insert_columns t))] ++ line [B "}"].
(** 230-246 *)
Definition placeholders_text (t : table) : bytes :=
  let n := length (insert_columns t) in
  if static_var d then
    line [B "func ("; go; B ") InsertPlaceholders(row int) string {"] ++
    line [chr 9 :: B "return "; [dquote]; B "("; tl (repeat_bytes (B "," ++ quote_var d 0) n); B ")"; [dquote]; B " // "; itoa n] ++ line [B "}"]
  else
    line [B "func ("; go; B ") InsertPlaceholders(row int) string {"] ++ line [B "const noOfColumn = "; itoa n] ++
    B "return " ++ [dquote] ++ B "(" ++ [dquote] ++ B "+" ++
    join (B "+" ++ [dquote] ++ B "," ++ [dquote] ++ B "+")
         (map (fun i => [dquote] ++ B "$" ++ [dquote] ++ B "+ strconv.Itoa((row * noOfColumn) + " ++ itoa (i + 1) ++ B ")") (seq 0 n)) ++
    B "+" ++ [dquote] ++ B ")" ++ [dquote] ++ line [B "}"].
(** 542-605 *)
Definition insert_one_text (t : table) : bytes :=
  match gen_insert_one printable d (match user (B "TableName") with Has => true | _ => false end) t with
  | None => []
  | Some (ps, cs) =>
      line [B "func (v "; go; B ") InsertOneStmt() (string, []any) {"] ++
      (if Nat.eqb (length cs) (length (t_columns t)) then line [B "return "; query_text ps; B ", v.Values()"]
       else line [B "return "; query_text ps; B ", []any{"; join (B ",") (map value_text cs); B "}"]) ++
      line [B "}"]
  end.
(** 476-540, 607-670 *)
Definition statement_text (name : bytes) (s : option (list piece * list column)) : bytes :=
  match s with
  | None => []
  | Some (ps, cs) =>
      line [B "func (v "; go; B ") "; name; B "() (string, []any) {"] ++
      line [B "return "; query_text ps; B ", []any{"; join (B ",") (map value_text cs); B "}"] ++ line [B "}"]
  end.
Definition find_text (t : table) : bytes :=
  statement_text (B "FindOneByPKStmt") (gen_find_by_pk printable d (match user (B "TableName") with Has => true | _ => false end) t).
Definition update_text (t : table) : bytes :=
  statement_text (B "UpdateOneByPKStmt") (gen_update_by_pk printable d (match user (B "TableName") with Has => true | _ => false end) t).
(** 260-284 *)
Definition getter_text (c : column) : bytes :=
  let ps := pointer_paths [] (c_paths c) in
  line [B "func (v "; go; B ") "; c_goname c; B "Value() any {"] ++
  concat (map (fun p => line [B "if v"; p; B " != nil {"]) ps) ++
  line [B "return "; if is_ptr (c_type c) then valuer (B "*v" ++ c_gopath c) (elem_of (c_type c)) else valuer (B "v" ++ c_gopath c) (c_type c)] ++
  concat (map (fun _ => line [B "}"]) ps) ++ (match ps with [] => [] | _ => line [B "return nil"] end) ++ line [B "}"].
(** 286-343; columns whose type is a struct written in place, which get a type alias, are left out *)
Definition column_text (c : column) : bytes :=
  let lit := gen_quote d (quote_id printable d on (c_name c)) in
  let ty := type_text (c_type c) in
  if basic (c_type c) then
    line [B "func (v "; go; B ") "; prefix; c_goname c; B "() sequel.ColumnClause["; ty; B "] {"] ++
    line [B "return sequel.BasicColumn("; lit; B ", v"; c_gopath c; B ")"] ++ line [B "}"]
  else
    line [B "func (v "; go; B ") "; prefix; c_goname c; B "() sequel.ColumnConvertClause["; ty; B "] {"] ++
    line [B "return sequel.Column("; lit; B ", v"; c_gopath c; B ", func(val "; ty; B ") any {"] ++
    (if is_ptr (c_type c)
     then line [B "if val != nil {"] ++ line [B "return "; valuer (B "*val") (elem_of (c_type c))] ++ line [B "}"] ++ line [B "return nil"]
     else B "return " ++ valuer (B "val") (c_type c)) ++
    line [B "})"] ++ line [B "}"].

(** A method that the struct has already is left out; one of the wrong type is an error (86-93), after which nothing is written for it.
    Simplification: with a TableName of the wrong type and strict off, the statements have no table; that case has no text here. *)
Definition unless_own_text (n : bytes) (s : bytes) : res bytes :=
  match user n with Wrong => if strict then Panic else Ok [] | Missing => Ok s | Has => Ok [] end.
(** 133-345 *)
Definition gen_text (t : table) : res bytes :=
  let* name := match user (B "TableName") with Wrong => if strict then Panic else Err | Missing => Ok (table_name_text t) | Has => Ok [] end in
  let* sqlcols := unless_own_text (B "SQLColumns") (sql_columns_text t) in
  let* cols := unless_own_text (B "Columns") (columns_text t) in
  let* vals := if t_readonly t then Ok [] else unless_own_text (B "Values") (values_text t) in
  let* addrs := unless_own_text (B "Addrs") (addrs_text t) in
  Ok ([LF] ++ name ++ key_text t ++ sqlcols ++ cols ++ vals ++ addrs ++
      (if t_readonly t then []
       else match insert_columns t with [] => [] | _ => insert_columns_text t ++ placeholders_text t ++ insert_one_text t end) ++
      find_text t ++ update_text t ++ concat (map getter_text (t_columns t)) ++ concat (map column_text (t_columns t))).
End Text.
