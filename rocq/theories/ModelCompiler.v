(** Model of /repo/cmd/sqlgen/internal/compiler: tags, columns, tables. *)
From Verif Require Import Base.

(** strings.Split(s, sep) with a one-byte separator. *)
Fixpoint split_byte (sep : byte) (s : bytes) : list bytes :=
  match s with
  | [] => [[]]
  | c :: r =>
      if beq c sep then [] :: split_byte sep r
      else match split_byte sep r with
           | p :: l => (c :: p) :: l
           | [] => [[c]]
           end
  end.

(** strings.TrimSpace; simplification: ASCII white space only. *)
Definition is_white (c : byte) : bool := in_range 9 13 c || beq c " ".
Fixpoint trim_left (s : bytes) : bytes :=
  match s with [] => [] | c :: r => if is_white c then trim_left r else s end.
Definition trim_space (s : bytes) : bytes := rev (trim_left (rev (trim_left s))).

(** tag.go:32-43 parseTag: the set of options, [strings.SplitN(v, ":", 2)[0]] of each part. *)
Definition parse_tag (parts : list bytes) : list bytes :=
  flat_map (fun v => let v := trim_space v in
                     match v with [] => [] | _ => [hd [] (split_byte ":" v)] end) parts.

(** tag.go:23-30 hasOpts *)
Definition has_opts (opts : list bytes) (keys : list bytes) : bool := existsb (fun k => bmem k opts) keys.

(** compiler.go:19 nameRegex: (?i)^[a-z]+[a-z0-9\_]*$.  Case folding makes [a-z] also match
    U+017F (folds to s) and U+212A (folds to k). *)
Fixpoint name_tail (s : bytes) : bool :=
  match s with
  | [] => true
  | c :: r =>
      if is_alnum c || beq c "_" then name_tail r
      else match s with
           | c1 :: c2 :: r2 =>
               if N.eqb (code c1) 197 && N.eqb (code c2) 191 then name_tail r2
               else match r2 with
                    | c3 :: r3 => if N.eqb (code c1) 226 && N.eqb (code c2) 132 && N.eqb (code c3) 170 then name_tail r3 else false
                    | [] => false
                    end
           | _ => false
           end
  end.
Definition name_regex (s : bytes) : bool :=
  match s with
  | [] => false
  | c :: _ => negb (is_digit c || beq c "_") && name_tail s
  end.

(** A Go type: the text of its base type and the number of pointers around it.
    Simplification: everything else go/types knows is left out. *)
Record gotype := { ty_base : bytes; ty_ptr : nat }.
Definition is_ptr (t : gotype) : bool := Nat.leb 1 (ty_ptr t).
Definition table_type : bytes := B "github.com/si3nloong/sqlgen/sequel.TableName".

(** compiler.go:170-180 structField.  [f_tag] is the value of the configured tag key
    (reflect.StructTag.Get); [f_paths] is fieldPaths(): the enclosing embedded fields from the
    outermost, then the field itself, each with its pointer flag. *)
Record sfield := {
  f_name : bytes;
  f_type : gotype;
  f_exported : bool;
  f_embedded : bool;
  f_tag : bytes;
  f_paths : list (bytes * bool)
}.

(** compiler.go:188-196 FullGoPath *)
Definition full_go_path (f : sfield) : bytes := concat (map (fun p => B "." ++ fst p) (f_paths f)).

(** compiler.go:101-111 Column.  [c_wrap] and [c_unwrap] are the text around the placeholder
    (SQLValuer) and around the identifier (SQLScanner) configured for the column's type,
    [([], [])] when there is none; simplification: the templates use {{.}} exactly once. *)
Record column := {
  c_name : bytes;
  c_goname : bytes;
  c_gopath : bytes;
  c_type : gotype;
  c_pos : nat;
  c_readonly : bool;
  c_paths : list (bytes * bool);
  c_wrap : bytes * bytes;
  c_unwrap : bytes * bytes
}.

(** compiler.go:33-46 Table *)
Record table := {
  t_name : bytes;
  t_keys : list column;
  t_columns : list column;
  t_readonly : bool;
  t_auto : option column
}.

(** Pointer equality of columns: two columns of one table are the same iff their positions are. *)
Definition same_column (c d : column) : bool := Nat.eqb (c_pos c) (c_pos d).
Definition is_auto (t : table) (c : column) : bool :=
  match t_auto t with Some a => same_column c a | None => false end.

(** compiler.go:48-61 ColumnsWithoutPK *)
Definition columns_without_pk (t : table) : list column :=
  filter (fun c => negb (bmem (c_name c) (map c_name (t_keys t)) || c_readonly c || is_auto t c)) (t_columns t).
(** compiler.go:79-81 HasPK *)
Definition has_pk (t : table) : bool :=
  match t_auto t, t_keys t with Some _, _ => true | None, _ :: _ => true | None, [] => false end.
(** compiler.go:87-91 InsertColumns *)
Definition insert_columns (t : table) : list column :=
  filter (fun c => negb (c_readonly c) && negb (is_auto t c)) (t_columns t).

(** parser.go:381-398: the outcome of the tag of one field. *)
Inductive tag_result := Excluded | Named (name : bytes) (opts : list bytes).
Definition read_tag (rename : bytes -> bytes) (f : sfield) : res tag_result :=
  let name := rename (f_name f) in
  match f_tag f with
  | [] => Ok (Named name [])
  | v =>
      match split_byte "," v with
      | [] => Ok (Named name [])
      | p :: rest =>
          let n := trim_space p in
          if bseq n (B "-") then Ok Excluded
          else match n with
               | [] => Ok (Named name rest)
               | _ => if name_regex n then Ok (Named n rest) else Err
               end
      end
  end.

Section Build.
Variable rename : bytes -> bytes.                       (* cfg.RenameFunc *)
Variable wrap unwrap : gotype -> bytes * bytes.         (* SQLValuer / SQLScanner templates by type *)

(** parser.go:376-452: one turn of the column loop. *)
Definition add_field (t : table) (f : sfield) : res table :=
  if Nat.ltb 1 (ty_ptr (f_type f)) then Err
  else
    let* tr := read_tag rename f in
    match tr with
    | Excluded => Ok t
    | Named name opts =>
        if Nat.eqb (ty_ptr (f_type f)) 0 && bseq (ty_base (f_type f)) table_type then
          Ok (match name with
              | [] => t
              | _ => {| t_name := name; t_keys := t_keys t; t_columns := t_columns t;
                        t_readonly := t_readonly t; t_auto := t_auto t |}
              end)
        else if negb (f_exported f) then Ok t
        else if f_embedded f then Ok t
        else if bmem name (map c_name (t_columns t)) then Err
        else
          let tag := parse_tag opts in
          let c := {| c_name := name; c_goname := f_name f; c_gopath := full_go_path f; c_type := f_type f;
                      c_pos := length (t_columns t); c_readonly := has_opts tag [B "readonly"];
                      c_paths := f_paths f; c_wrap := wrap (f_type f); c_unwrap := unwrap (f_type f) |} in
          let cols := t_columns t ++ [c] in
          if has_opts tag [B "auto_increment"; B "primary_key"; B "pk"] then
            if has_opts tag [B "auto_increment"] then
              match t_auto t with
              | Some _ => Err
              | None => if c_readonly c then Err
                        else Ok {| t_name := t_name t; t_keys := t_keys t; t_columns := cols;
                                   t_readonly := t_readonly t; t_auto := Some c |}
              end
            else if c_readonly c then Err
            else Ok {| t_name := t_name t; t_keys := t_keys t ++ [c]; t_columns := cols;
                       t_readonly := t_readonly t; t_auto := t_auto t |}
          else Ok {| t_name := t_name t; t_keys := t_keys t; t_columns := cols;
                     t_readonly := t_readonly t; t_auto := t_auto t |}
    end.

Fixpoint add_fields (t : table) (fs : list sfield) : res table :=
  match fs with [] => Ok t | f :: fs' => let* t' := add_field t f in add_fields t' fs' end.

(** parser.go:348-452: the table of a struct, from its flattened and sorted fields.
    [readonly] is the outcome of the annotation (358-374). *)
Definition build_table (struct_name : bytes) (readonly : bool) (fs : list sfield) : res table :=
  add_fields {| t_name := rename struct_name; t_keys := []; t_columns := []; t_readonly := readonly; t_auto := None |} fs.
End Build.
