(** The expression that is generated to write and to read a column: cmd/sqlgen/codegen/generate.go 262-275 (getter), 446-474 (Values, Addrs),
    672-744 (getOrValue, isBasicType, valuer, scanner), tool.go 15-76 (columnDataType), internal/goutil/function.go, and the expressions of
    dialect/{mysql,postgres,sqlite}/column_type.go. *)
From Coq Require Import List Bool Ascii NArith.
From Verif Require Import Base ModelStrconv ModelTypes ModelConfig ModelExpr ModelResolve.
Import ListNotations.

(** What a named type stands for: a struct with its fields, another type (never a name), or an interface, function or channel *)
Inductive shape := UStruct (fields : list (bytes * gtype)) | UOf (t : gtype) | UOther.
(** What go/types tells about the types of the program: types.Named.Underlying, and whether a type has the methods that are asked for
    (Value of the type, Scan of its pointer, MarshalText of the type, UnmarshalText of its pointer). *)
Record env := Env { under : bytes -> bytes -> list gtype -> shape; own_value : gtype -> bool; own_scan : gtype -> bool; text_value : gtype -> bool; text_scan : gtype -> bool }.

(** ** The texts of the templates *)
Definition encoding_path : bytes := B "github.com/si3nloong/sqlgen/sequel/encoding".
Definition sqltype_path : bytes := B "github.com/si3nloong/sqlgen/sequel/sqltype".
Definition pgtype_path : bytes := B "github.com/si3nloong/sqlgen/sequel/driver/postgres/pgtype".
Definition types_path : bytes := B "github.com/si3nloong/sqlgen/sequel/types".
(** runtime.FuncForPC(...).Name() of an instantiated function of that package; function.go 18-20 *)
Definition function_name (f : bytes) : bytes := encoding_path ++ B "." ++ f ++ B "[...]".
(** function.go 12-16, for the types it is called with: the name without the type argument *)
Definition type_name (p n : bytes) : bytes := p ++ B "." ++ n.
Definition has_suffix (s x : bytes) : bool := bseq (skipn (length s - length x) s) x && Nat.leb (length x) (length s).
Definition trim_suffix (s x : bytes) : bytes := if has_suffix s x then firstn (length s - length x) s else s.
(** function.go 22-25; 27-34 *)
Definition generic_func (f : bytes) (args : list bytes) : bytes := trim_suffix (function_name f) (B "[...]") ++ B "(" ++ join (B ",") args ++ B ")".
Definition generic_func_name (f ty : bytes) (args : list bytes) : bytes :=
  let str := function_name f in
  (if has_suffix str (B "[...]") && negb (bseq ty []) then firstn (length str - 5) str ++ B "[" ++ ty ++ B "]" else str) ++ B "(" ++ join (B ",") args ++ B ")".

(** ** The tables: Go type, Valuer and Scanner.  mysql/column_type.go 17-212; sqlite/column_type.go 16-203 has the same expressions *)
Definition row := (bytes * (bytes * bytes))%type.
Definition scalar (k v f : bytes) : row := (k, (v, generic_func_name f (B "{{elemType}}") [B "{{addr}}"])).
Definition listed (k p n : bytes) : row := (k, (B "(" ++ type_name p n ++ B "[{{elemType}}])({{goPath}})", B "(*" ++ type_name p n ++ B "[{{elemType}}])({{addrOfGoPath}})")).
Definition mysql_table : list row :=
  [(B "rune", (B "(string)({{goPath}})", B "{{addrOfGoPath}}"));
   (B "byte", (B "{{goPath}}", B "{{addrOfGoPath}}"));
   scalar (B "string") (B "(string)({{goPath}})") (B "StringScanner");
   scalar (B "bool") (B "(bool)({{goPath}})") (B "BoolScanner");
   scalar (B "int") (B "(int64)({{goPath}})") (B "IntScanner");
   scalar (B "int8") (B "(int64)({{goPath}})") (B "Int8Scanner");
   scalar (B "int16") (B "(int64)({{goPath}})") (B "Int16Scanner");
   scalar (B "int32") (B "(int64)({{goPath}})") (B "Int32Scanner");
   scalar (B "int64") (B "(int64)({{goPath}})") (B "Int64Scanner");
   scalar (B "uint") (B "(int64)({{goPath}})") (B "UintScanner");
   scalar (B "uint8") (B "(int64)({{goPath}})") (B "Uint8Scanner");
   scalar (B "uint16") (B "(int64)({{goPath}})") (B "Uint16Scanner");
   scalar (B "uint32") (B "(int64)({{goPath}})") (B "Uint32Scanner");
   scalar (B "uint64") (B "{{goPath}}") (B "Uint64Scanner");
   scalar (B "float32") (B "(float64)({{goPath}})") (B "Float32Scanner");
   scalar (B "float64") (B "(float64)({{goPath}})") (B "Float64Scanner");
   (B "time.Time", (B "(time.Time)({{goPath}})", generic_func (B "TimeScanner") [B "{{addr}}"]));
   (B "sql.RawBytes", (B "database/sql.RawBytes({{goPath}})", B "(*database/sql.RawBytes)({{addrOfGoPath}})"));
   (B "encoding/json.RawMessage", (B "(string)({{goPath}})", B "({{addrOfGoPath}})"));
   (B "[...]rune", (B "string({{goPath}}[:])", generic_func (B "RuneArrayScanner") [B "{{goPath}}[:]"; B "{{len}}"]));
   (B "[...]byte", (B "{{goPath}}[:]", generic_func (B "ByteArrayScanner") [B "{{goPath}}[:]"; B "{{len}}"]));
   listed (B "[]string") sqltype_path (B "StringSlice");
   (B "[]byte", (B "{{goPath}}", generic_func_name (B "StringScanner") (B "{{baseType}}") [B "{{addr}}"]));
   listed (B "[]bool") sqltype_path (B "BoolSlice");
   listed (B "[]int") sqltype_path (B "IntSlice");
   listed (B "[]int8") sqltype_path (B "Int8Slice");
   listed (B "[]int16") sqltype_path (B "Int16Slice");
   listed (B "[]int32") sqltype_path (B "Int32Slice");
   listed (B "[]int64") sqltype_path (B "Int64Slice");
   listed (B "[]uint") sqltype_path (B "UintSlice");
   listed (B "[]uint8") sqltype_path (B "Uint8Slice");
   listed (B "[]uint16") sqltype_path (B "Uint16Slice");
   listed (B "[]uint32") sqltype_path (B "Uint32Slice");
   listed (B "[]uint64") sqltype_path (B "Uint64Slice");
   listed (B "[]float32") sqltype_path (B "Float32Slice");
   listed (B "[]float64") sqltype_path (B "Float64Slice");
   (B "*", (generic_func (B "JSONValue") [B "{{goPath}}"], generic_func (B "JSONScanner") [B "{{addr}}"]))].
(** postgres/column_type.go 18-232 *)
Definition pg_table : list row :=
  [(B "rune", (B "(string)({{goPath}})", B "{{addrOfGoPath}}"));
   (B "byte", (B "{{goPath}}", B "{{addrOfGoPath}}"));
   scalar (B "string") (B "(string)({{goPath}})") (B "StringScanner");
   scalar (B "bool") (B "(bool)({{goPath}})") (B "BoolScanner");
   scalar (B "int") (B "(int64)({{goPath}})") (B "IntScanner");
   scalar (B "int8") (B "(int64)({{goPath}})") (B "Int8Scanner");
   scalar (B "int16") (B "(int64)({{goPath}})") (B "Int16Scanner");
   scalar (B "int32") (B "(int64)({{goPath}})") (B "Int32Scanner");
   scalar (B "int64") (B "(int64)({{goPath}})") (B "Int64Scanner");
   scalar (B "uint") (B "(int64)({{goPath}})") (B "UintScanner");
   scalar (B "uint8") (B "(int64)({{goPath}})") (B "Uint8Scanner");
   scalar (B "uint16") (B "(int64)({{goPath}})") (B "Uint16Scanner");
   scalar (B "uint32") (B "(int64)({{goPath}})") (B "Uint32Scanner");
   scalar (B "uint64") (B "(int64)({{goPath}})") (B "Uint64Scanner");
   scalar (B "float32") (B "(float64)({{goPath}})") (B "Float32Scanner");
   scalar (B "float64") (B "(float64)({{goPath}})") (B "Float64Scanner");
   (B "time.Time", (B "(time.Time)({{goPath}})", generic_func (B "TimeScanner") [B "{{addr}}"]));
   (B "sql.RawBytes", (B "database/sql.RawBytes({{goPath}})", B "(*database/sql.RawBytes)({{addrOfGoPath}})"));
   (B "encoding/json.RawMessage", (B "(string)({{goPath}})", B "({{addrOfGoPath}})"));
   (B "[...]rune", (B "string({{goPath}}[:])", generic_func (B "RuneArrayScanner") [B "{{goPath}}[:]"; B "{{len}}"]));
   (B "[...]byte", (B "{{goPath}}[:]", generic_func (B "ByteArrayScanner") [B "{{goPath}}[:]"; B "{{len}}"]));
   (B "[...]string", (type_name pgtype_path (B "StringArray") ++ B "[{{elemType}}]({{goPath}}[:])", type_name pgtype_path (B "StringArray") ++ B "[{{elemType}}]({{goPath}}[:])"));
   (B "[...]bool", (type_name pgtype_path (B "BoolArray") ++ B "[{{elemType}}]({{goPath}}[:])", B "(*" ++ type_name pgtype_path (B "BoolArray") ++ B "[{{elemType}}])({{addrOfGoPath}}[:])"));
   (B "[]string", (type_name pgtype_path (B "StringArray") ++ B "[{{elemType}}]({{goPath}})", B "(*" ++ type_name pgtype_path (B "StringArray") ++ B "[{{elemType}}])({{addrOfGoPath}})"));
   (B "[]rune", (B "string({{goPath}}[:])", type_name types_path (B "FixedSizeRunes") ++ B "({{goPath}})"));
   (B "[]byte", (B "{{goPath}}", B "{{addrOfGoPath}}"));
   listed (B "[]bool") pgtype_path (B "BoolArray");
   (B "[][]byte", (type_name pgtype_path (B "ByteArray") ++ B "({{goPath}})", type_name pgtype_path (B "ByteArray") ++ B "({{goPath}})"));
   listed (B "[]int") pgtype_path (B "IntArray");
   listed (B "[]int8") pgtype_path (B "Int8Array");
   listed (B "[]int16") pgtype_path (B "Int16Array");
   listed (B "[]int32") pgtype_path (B "Int32Array");
   listed (B "[]int64") pgtype_path (B "Int64Array");
   listed (B "[]uint") pgtype_path (B "UintArray");
   listed (B "[]uint8") pgtype_path (B "Uint8Array");
   listed (B "[]uint16") pgtype_path (B "Uint16Array");
   listed (B "[]uint32") pgtype_path (B "Uint32Array");
   listed (B "[]uint64") pgtype_path (B "Uint64Array");
   listed (B "[]float32") pgtype_path (B "Float32Array");
   listed (B "[]float64") pgtype_path (B "Float64Array");
   (B "*", (generic_func (B "JSONValue") [B "{{goPath}}"], generic_func (B "JSONScanner") [B "{{addr}}"]))].
Definition table (d : dialect) : list row := match d with Postgres => pg_table | MySQL | SQLite => mysql_table end.
Fixpoint entry (l : list row) (k : bytes) : option (bytes * bytes) :=
  match l with [] => None | (k', e) :: r => if bseq k' k then Some e else entry r k end.

(** text/template for the actions that occur, {{name}} without blanks; None: a name that is no function of expr.go 56-92 (a panic there).
    {{len}} without a length is the built-in function without its argument, a panic as well: ModelExpr.fill. *)
Fixpoint action (s : bytes) : option (bytes * bytes) :=
  match s with
  | c :: r => match r with
              | d :: q => if beq c "}" && beq d "}" then Some ([], q) else match action r with Some (n, z) => Some (c :: n, z) | None => None end
              | [] => None
              end
  | [] => None
  end.
Definition function_of (n : bytes) : option piece :=
  if bseq n (B ".") then Some Dot else if bseq n (B "goPath") then Some GoPath else if bseq n (B "elemType") then Some ElemType
  else if bseq n (B "addrOfGoPath") then Some AddrOfGoPath else if bseq n (B "baseType") then Some BaseType else if bseq n (B "addr") then Some Addr
  else if bseq n (B "len") then Some Len else None.
Definition flush (cur : bytes) (ps : list piece) : list piece := match cur with [] => ps | _ => Text cur :: ps end.
Fixpoint template (fuel : nat) (cur s : bytes) : option (list piece) :=
  match fuel with
  | O => None
  | S f =>
      match s with
      | [] => Some (flush cur [])
      | c :: r =>
          if has_prefix s (B "{{") then
            match action (skipn 2 s) with
            | Some (n, z) => match function_of n, template f [] z with Some p, Some ps => Some (flush cur (p :: ps)) | _, _ => None end
            | None => None
            end
          else template f (cur ++ [c]) r
      end
  end.
Definition parse_template (s : bytes) : option (list piece) := template (S (length s)) [] s.

(** ** Which expression *)
(** tool.go 15-58; fuel counts the rounds of the loop.  Types are the same when they print the same: the program compares their objects. *)
Fixpoint walk_type (fuel : nat) (e : env) (keys : list bytes) (prev t : gtype) (s : bytes) : option stop :=
  match fuel with
  | O => None
  | S f =>
      match prev with
      | TBasic n => Some (Done (s ++ n))
      | TNamed p n args =>
          match under e p n args with
          | UStruct _ => Some (Done (s ++ type_string prev))
          | UOf u => if bmem s keys then Some (Found s) else if bseq (type_string u) (type_string t) then Some (Done s) else walk_type f e keys u u s
          | UOther => if bmem s keys then Some (Found s) else Some (Done s)
          end
      | TPointer u => walk_type f e keys u t (s ++ B "*")
      | TSlice u => walk_type f e keys u t (s ++ B "[]")
      | TArray n u => walk_type f e keys u t (s ++ B "[" ++ format_uint n ++ B "]")
      | TMap _ _ => Some (Done s)
      end
  end.
(** tool.go 59-76: the key of the mapping; the outer option: still running *)
Definition column_data_type (fuel : nat) (e : env) (keys : list bytes) (t : gtype) : option (option bytes) :=
  match walk_type fuel e keys t t [] with None => None | Some (Found k) => Some (Some k) | Some (Done s) => Some (finish keys s) end.
(** tool.go 86-99; 0 stands for -1 *)
Fixpoint array_size (t : gtype) : N := match t with TPointer u => array_size u | TArray n _ => n | _ => 0%N end.
(** tool.go 106-112; 114-121 *)
Definition elem_pointer (t : gtype) : gtype := match t with TPointer u => u | _ => t end.
Definition is_pointer (t : gtype) : bool := match t with TPointer _ => true | _ => false end.
(** generate.go 680-694 *)
Definition is_basic_type (t : gtype) : bool :=
  match t with
  | TBasic n => bmem n [B "string"; B "bool"; B "int64"; B "float64"]
  | TNamed _ _ _ => bseq (type_string t) (B "time.Time")
  | _ => false
  end.
(** The expression as it is, or a template to be filled; expr.go 36-41 *)
Inductive chosen := AsIs (s : bytes) | Filled (ps : list piece) (a : params) | Broken (* not a template: a panic *).
Definition filled (text : bytes) (a : params) : chosen := match parse_template text with Some ps => Filled ps a | None => Broken end.
Section Choose.
Variable d : dialect.
Variable e : env.
Variable custom : list row.      (* the mappings of the configuration; generate.go 71-81 *)
(** generate.go 696-715; None: the loop over the type is still running *)
Definition valuer (fuel : nat) (path : bytes) (t : gtype) : option chosen :=
  if is_basic_type t then Some (AsIs path)
  else
    let with_len n := {| p_path := path; p_ptr := is_pointer t; p_len := n; p_type := Some t |} in
    let fall := match column_data_type fuel e (map fst (table d)) t with
      | None => None
      | Some (Some k) => match entry (table d) k with Some (v, _) => Some (filled v (with_len (array_size t))) | None => None end
      | Some None =>
          if text_value e (base_type t) then Some (filled (generic_func (B "TextValue") [B "{{goPath}}"]) (with_len 0%N))
          else match entry (table d) (B "*") with Some (v, _) => Some (filled v (with_len 0%N)) | None => None end
      end in
    let own := if own_value e (base_type t)
      then Some (if is_pointer t then filled (B "(database/sql/driver.Valuer)({{goPath}})") (with_len 0%N) else AsIs path)
      else fall in
    match entry custom (type_string t) with
    | Some (v, _) => if bseq v [] then own else Some (filled v (with_len 0%N))
    | None => own
    end.
(** generate.go 717-744 *)
Definition scanner (fuel : nat) (path : bytes) (t : gtype) : option chosen :=
  if is_basic_type t then Some (AsIs path)
  else
    let with_len n := {| p_path := path; p_ptr := is_pointer t; p_len := n; p_type := Some t |} in
    let fall := match column_data_type fuel e (map fst (table d)) t with
      | None => None
      | Some (Some k) => match entry (table d) k with Some (_, s) => Some (filled s (with_len (array_size t))) | None => None end
      | Some None =>
          if text_scan e (elem_pointer t) then Some (filled (generic_func_name (B "TextScanner") (B "{{elemType}}") [B "{{addr}}"]) (with_len 0%N))
          else match entry (table d) (B "*") with Some (_, s) => Some (filled s (with_len 0%N)) | None => None end
      end in
    let own := if own_scan e (elem_pointer t)
      then Some (if is_pointer t then filled (generic_func (B "PtrScanner") [B "{{addr}}"]) (with_len 0%N) else AsIs path)
      else fall in
    match entry custom (type_string t) with
    | Some (_, s) => if bseq s [] then own else Some (filled s (with_len 0%N))
    | None => own
    end.
(** The value of a column: 262-275, and 321-328 with the parameter in place of the field *)
Definition getter_value (fuel : nat) (path : bytes) (t : gtype) : option chosen :=
  match t with TPointer u => valuer fuel (B "*" ++ path) u | _ => valuer fuel path t end.
(** The destination of a column: 470 *)
Definition scan_destination (fuel : nat) (path : bytes) (t : gtype) : option chosen := scanner fuel (B "&" ++ path) t.
End Choose.
(** The text: expr.go 42-106 *)
Definition render (self : bytes) (load : bytes -> option bytes) (l : imports) (c : chosen) : res (bytes * imports) :=
  match c with AsIs s => Ok (s, l) | Filled ps a => format self load l ps a | Broken => Panic end.
