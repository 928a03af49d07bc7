(** How expressions of the Go language read and when they are well typed (The Go Programming Language Specification: Operands, Primary
    expressions, Unary operators, Types, Conversions, Slice expressions, Calls, Instantiations), for the part that generated expressions
    use; and what the package database/sql takes as an argument and as a destination. *)
From Verif Require Import Base ModelStrconv ModelTypes ModelConfig ModelExpr ModelColumn SpecExpr SpecSource.

(** ** Syntax *)
(** Types and expressions have one syntax: T(x) is a conversion or a call, T[A] an instantiation or an index. *)
Inductive expr :=
| EName (n : bytes) | ENum (n : bytes) | ESel (e : expr) (n : bytes) | EStar (e : expr) | EAmp (e : expr)
| ESliceAll (e : expr) | EIndex (e : expr) (args : list expr) | ECall (e : expr) (args : list expr)
| ETSlice (e : expr) | ETArray (n : bytes) (e : expr) | ETMap (k v : expr).
Notation tok s := (GSym (B s)).
Definition starts (t : gtok) (ts : list gtok) : Prop := exists r, ts = t :: r.
(** A selector, index or call comes next *)
Definition goes_on (ts : list gtok) : Prop := starts (tok ".") ts \/ starts (tok "(") ts \/ starts (tok "[") ts.
(** [unary ts e r]: the tokens [ts] start with the expression [e], and [r] is what follows.  Selectors, indexes and calls bind
    stronger than * and &. *)
Inductive unary : list gtok -> expr -> list gtok -> Prop :=
| un_star ts e r : unary ts e r -> unary (tok "*" :: ts) (EStar e) r
| un_amp ts e r : unary ts e r -> unary (tok "&" :: ts) (EAmp e) r
| un_primary ts e0 mid e r : operand ts e0 mid -> suffixes e0 mid e r -> unary ts e r
with operand : list gtok -> expr -> list gtok -> Prop :=
| op_name n r : ~ In n keywords -> operand (GWord n :: r) (EName n) r
| op_num n r : operand (GNum n :: r) (ENum n) r
| op_paren ts e r : unary ts e (tok ")" :: r) -> operand (tok "(" :: ts) e r
| op_type ts e r : literal_type ts e r -> operand ts e r
with literal_type : list gtok -> expr -> list gtok -> Prop :=
| lt_slice ts e r : type_ ts e r -> literal_type (tok "[" :: tok "]" :: ts) (ETSlice e) r
| lt_array n ts e r : type_ ts e r -> literal_type (tok "[" :: GNum n :: tok "]" :: ts) (ETArray n e) r
| lt_map ts k mid v r : type_ ts k (tok "]" :: mid) -> type_ mid v r -> literal_type (GWord (B "map") :: tok "[" :: ts) (ETMap k v) r
with type_ : list gtok -> expr -> list gtok -> Prop :=
| tp_pointer ts e r : type_ ts e r -> type_ (tok "*" :: ts) (EStar e) r
| tp_paren ts e r : type_ ts e (tok ")" :: r) -> type_ (tok "(" :: ts) e r
| tp_literal ts e r : literal_type ts e r -> type_ ts e r
| tp_name n ts e r : ~ In n keywords -> ~ starts (tok ".") ts -> type_args (EName n) ts e r -> type_ (GWord n :: ts) e r
| tp_qualified p n ts e r : ~ In p keywords -> ~ In n keywords -> type_args (ESel (EName p) n) ts e r -> type_ (GWord p :: tok "." :: GWord n :: ts) e r
with type_args : expr -> list gtok -> expr -> list gtok -> Prop :=
| ta_none e ts : ~ starts (tok "[") ts -> type_args e ts e ts
| ta_some e ts es r : list_ ts es (tok "]" :: r) -> type_args e (tok "[" :: ts) (EIndex e es) r
with suffixes : expr -> list gtok -> expr -> list gtok -> Prop :=
| sf_none e ts : ~ goes_on ts -> suffixes e ts e ts
| sf_sel e n ts e' r : ~ In n keywords -> suffixes (ESel e n) ts e' r -> suffixes e (tok "." :: GWord n :: ts) e' r
| sf_slice e ts e' r : suffixes (ESliceAll e) ts e' r -> suffixes e (tok "[" :: tok ":" :: tok "]" :: ts) e' r
| sf_index e ts es mid e' r : list_ ts es (tok "]" :: mid) -> suffixes (EIndex e es) mid e' r -> suffixes e (tok "[" :: ts) e' r
| sf_call e ts es mid e' r : list_ ts es (tok ")" :: mid) -> suffixes (ECall e es) mid e' r -> suffixes e (tok "(" :: ts) e' r
| sf_call_none e mid e' r : suffixes (ECall e []) mid e' r -> suffixes e (tok "(" :: tok ")" :: mid) e' r
with list_ : list gtok -> list expr -> list gtok -> Prop :=
| li_last ts e r : unary ts e r -> ~ starts (tok ",") r -> list_ ts [e] r
| li_next ts e mid es r : unary ts e (tok "," :: mid) -> list_ mid es r -> list_ ts (e :: es) r.
(** The text is this expression *)
Definition expression (s : bytes) (e : expr) : Prop := exists ts, tokens s = Some ts /\ unary ts e [].

(** ** Types *)
Definition predeclared : list bytes :=
  [B "bool"; B "string"; B "int"; B "int8"; B "int16"; B "int32"; B "int64"; B "uint"; B "uint8"; B "uint16"; B "uint32"; B "uint64"; B "uintptr"; B "byte"; B "rune";
   B "float32"; B "float64"; B "complex64"; B "complex128"].
Definition signed : list bytes := [B "int"; B "int8"; B "int16"; B "int32"; B "int64"; B "rune"].
Definition unsigned : list bytes := [B "uint"; B "uint8"; B "uint16"; B "uint32"; B "uint64"; B "byte"].
Definition floats : list bytes := [B "float32"; B "float64"].
(** byte and uint8, rune and int32 are one type each. *)
Fixpoint norm (t : gtype) : gtype :=
  match t with
  | TBasic n => TBasic (if bseq n (B "byte") then B "uint8" else if bseq n (B "rune") then B "int32" else n)
  | TNamed p n args => TNamed p n (map norm args)
  | TPointer u => TPointer (norm u)
  | TSlice u => TSlice (norm u)
  | TArray n u => TArray n (norm u)
  | TMap k v => TMap (norm k) (norm v)
  end.
Definition same (t u : gtype) : Prop := norm t = norm u.
(** The lists of the library: type Name[T ~k] []T with the methods Value and, on the pointer, Scan; any of the kinds is allowed.
    sequel/sqltype/{bool,float,int,string,uint}_slice.go, sequel/driver/postgres/pgtype/{bool,byte,float,int,string,uint}_array.go *)
Definition library : list (bytes * bytes * list bytes) :=
  [(sqltype_path, B "StringSlice", [B "string"]); (sqltype_path, B "BoolSlice", [B "bool"]);
   (sqltype_path, B "IntSlice", [B "int"]); (sqltype_path, B "Int8Slice", [B "int8"]); (sqltype_path, B "Int16Slice", [B "int16"]);
   (sqltype_path, B "Int32Slice", [B "int32"]); (sqltype_path, B "Int64Slice", [B "int64"]);
   (sqltype_path, B "UintSlice", [B "uint"]); (sqltype_path, B "Uint8Slice", [B "uint8"]); (sqltype_path, B "Uint16Slice", [B "uint16"]);
   (sqltype_path, B "Uint32Slice", [B "uint32"]); (sqltype_path, B "Uint64Slice", [B "uint64"]);
   (sqltype_path, B "Float32Slice", [B "float32"]); (sqltype_path, B "Float64Slice", [B "float64"]);
   (pgtype_path, B "StringArray", [B "string"]); (pgtype_path, B "BoolArray", [B "bool"]);
   (pgtype_path, B "IntArray", [B "int"]); (pgtype_path, B "Int8Array", [B "int8"]); (pgtype_path, B "Int16Array", [B "int16"]);
   (pgtype_path, B "Int32Array", [B "int32"]); (pgtype_path, B "Int64Array", [B "int64"]);
   (pgtype_path, B "UintArray", [B "uint"; B "uint8"; B "uint16"; B "uint32"; B "uint64"; B "uintptr"]); (pgtype_path, B "Uint8Array", [B "uint8"]);
   (pgtype_path, B "Uint16Array", [B "uint16"]); (pgtype_path, B "Uint32Array", [B "uint32"]); (pgtype_path, B "Uint64Array", [B "uint64"]);
   (pgtype_path, B "Float32Array", [B "float32"]); (pgtype_path, B "Float64Array", [B "float64"])].
Definition sql_path : bytes := B "database/sql".
Definition driver_path : bytes := B "database/sql/driver".
Definition time_type : gtype := TNamed (B "time") (B "Time") [].
Definition scanner_type : gtype := TNamed sql_path (B "Scanner") [].
Definition valuer_type : gtype := TNamed driver_path (B "Valuer") [].

(** The program around the expression: its package, the types it knows (with type arguments), what they stand for, their methods
    (Value, Scan, MarshalText and UnmarshalText with the right signatures), and the variables. *)
Record program := {
  own_path : bytes;
  declared : bytes -> bytes -> list gtype -> Prop;
  stands_for : bytes -> bytes -> list gtype -> shape;
  method : gtype -> bytes -> Prop;
  variables : bytes -> option gtype }.

Section Typing.
Variable P : program.
Variable imports : list (bytes * bytes).   (* path and name of each package of the file *)

Inductive underlying : gtype -> gtype -> Prop :=
| u_name p n args u : declared P p n args -> stands_for P p n args = UOf u -> underlying (TNamed p n args) u
| u_library p n ks t : In (p, n, ks) library -> underlying (TNamed p n [t]) (TSlice t)
| u_basic n : underlying (TBasic n) (TBasic n)
| u_pointer t : underlying (TPointer t) (TPointer t)
| u_slice t : underlying (TSlice t) (TSlice t)
| u_array n t : underlying (TArray n t) (TArray n t)
| u_map k v : underlying (TMap k v) (TMap k v).
Definition kind (t : gtype) (k : bytes) : Prop := exists n, underlying t (TBasic n) /\ same (TBasic n) (TBasic k).
Definition one_of (t : gtype) (ks : list bytes) : Prop := exists k, In k ks /\ kind t k.
(** The type can be used: its names are declared, its type arguments fit *)
Inductive valid : gtype -> Prop :=
| v_basic n : In n predeclared -> valid (TBasic n)
| v_name p n args : declared P p n args -> Forall valid args -> valid (TNamed p n args)
| v_library p n ks t : In (p, n, ks) library -> valid t -> one_of t ks -> valid (TNamed p n [t])
| v_pointer t : valid t -> valid (TPointer t)
| v_slice t : valid t -> valid (TSlice t)
| v_array n t : valid t -> valid (TArray n t)
| v_map k v : valid k -> valid v -> valid (TMap k v).
(** A name of the package, or of an imported package; variables hide packages and types *)
Inductive refers_to : expr -> bytes -> bytes -> Prop :=
| rf_own n : variables P n = None -> refers_to (EName n) (own_path P) n
| rf_package x p n : variables P x = None -> In (p, x) imports -> refers_to (ESel (EName x) n) p n.
(** The expression denotes a type. *)
Inductive denotes : expr -> gtype -> Prop :=
| d_basic n : In n predeclared -> variables P n = None -> (forall args, ~ declared P (own_path P) n args) -> denotes (EName n) (TBasic n)
| d_name e p n : refers_to e p n -> valid (TNamed p n []) -> denotes e (TNamed p n [])
| d_generic e p n es ts : refers_to e p n -> Forall2 denotes es ts -> valid (TNamed p n ts) -> denotes (EIndex e es) (TNamed p n ts)
| d_pointer e t : denotes e t -> denotes (EStar e) (TPointer t)
| d_slice e t : denotes e t -> denotes (ETSlice e) (TSlice t)
| d_array n e t : denotes e t -> denotes (ETArray (format_uint n) e) (TArray n t)
| d_map k v a b : denotes k a -> denotes v b -> denotes (ETMap k v) (TMap a b).
(** Conversions *)
Inductive convertible : gtype -> gtype -> Prop :=
| cv_same t u a b : underlying t a -> underlying u b -> same a b -> convertible t u
| cv_pointers t u a b : underlying t a -> underlying u b -> same a b -> convertible (TPointer t) (TPointer u)
| cv_numbers t u : one_of t (signed ++ unsigned ++ floats) -> one_of u (signed ++ unsigned ++ floats) -> convertible t u
| cv_character t u : one_of t (signed ++ unsigned) -> kind u (B "string") -> convertible t u
| cv_to_text t u a : underlying t (TSlice a) -> one_of a [B "byte"; B "rune"] -> kind u (B "string") -> convertible t u
| cv_from_text t u a : kind t (B "string") -> underlying u (TSlice a) -> one_of a [B "byte"; B "rune"] -> convertible t u.
(** The generic functions of sequel/encoding, with the type arguments that are written and the types of the arguments.
    Optional arguments are left out. *)
Definition scanners : list (bytes * bytes) :=   (* bool.go 10, int.go 10-38, uint.go 11-39, float.go 11-23: F[T ~k, A *T | **T](addr A) sql.Scanner *)
  [(B "BoolScanner", B "bool"); (B "IntScanner", B "int"); (B "Int8Scanner", B "int8"); (B "Int16Scanner", B "int16"); (B "Int32Scanner", B "int32"); (B "Int64Scanner", B "int64");
   (B "UintScanner", B "uint"); (B "Uint8Scanner", B "uint8"); (B "Uint16Scanner", B "uint16"); (B "Uint32Scanner", B "uint32"); (B "Uint64Scanner", B "uint64");
   (B "Float32Scanner", B "float32"); (B "Float64Scanner", B "float64")].
Definition addr_or_ptr (t a : gtype) : Prop := same a (TPointer t) \/ same a (TPointer (TPointer t)).   (* encoding.go 8-10 *)
Inductive function : bytes -> list gtype -> list gtype -> gtype -> Prop :=
| f_scanner f k t a : In (f, k) scanners -> kind t k -> addr_or_ptr t a -> function f [t] [a] scanner_type
| f_string t a : kind t (B "string") \/ (exists b, underlying t (TSlice b) /\ same b (TBasic (B "byte"))) -> addr_or_ptr t a -> function (B "StringScanner") [t] [a] scanner_type   (* string.go 11-15 *)
| f_time a : addr_or_ptr time_type a -> function (B "TimeScanner") [] [a] scanner_type   (* time.go 23 *)
| f_json_value t : function (B "JSONValue") [] [t] valuer_type   (* json.go 16 *)
| f_json_scanner t : function (B "JSONScanner") [] [TPointer t] scanner_type   (* json.go 41 *)
| f_text_value t : method P t (B "MarshalText") -> function (B "TextValue") [] [t] valuer_type   (* text.go 17 *)
| f_text_scanner t a : method P (TPointer t) (B "UnmarshalText") -> addr_or_ptr t a -> function (B "TextScanner") [t] [a] scanner_type   (* text.go 32 *)
| f_pointer t : method P (TPointer t) (B "Scan") -> function (B "PtrScanner") [] [TPointer (TPointer t)] scanner_type   (* pointer.go 14 *)
| f_runes t : kind t (B "rune") -> function (B "RuneArrayScanner") [] [TSlice t; TBasic (B "int")] scanner_type   (* rune_array.go 14 *)
| f_bytes t : kind t (B "byte") -> function (B "ByteArrayScanner") [] [TSlice t; TBasic (B "int")] scanner_type.   (* byte_array.go 14 *)
(** Fields of a struct, or of a struct behind a pointer *)
Inductive field : gtype -> bytes -> gtype -> Prop :=
| fl_struct p n args fs f u : declared P p n args -> stands_for P p n args = UStruct fs -> In (f, u) fs -> field (TNamed p n args) f u
| fl_pointer p n args fs f u : declared P p n args -> stands_for P p n args = UStruct fs -> In (f, u) fs -> field (TPointer (TNamed p n args)) f u.
(** The fields that are reached from a variable, as they are written *)
Inductive reaches : bytes -> gtype -> Prop :=
| re_variable x t : variables P x = Some t -> identifier x -> ~ In x keywords -> reaches x t
| re_field p t f u : reaches p t -> field t f u -> identifier f -> ~ In f keywords -> reaches (p ++ "."%char :: f) u.
(** Expressions with their types; the flag says that the operand is addressable. *)
Inductive typed : expr -> gtype -> bool -> Prop :=
| ty_variable x t : variables P x = Some t -> typed (EName x) t true
| ty_number n : typed (ENum n) (TBasic (B "int")) false
| ty_field e t a f u : typed e t a -> field t f u -> typed (ESel e f) u (a || is_pointer t)
| ty_deref e t u a : typed e t a -> underlying t (TPointer u) -> typed (EStar e) u true
| ty_address e t : typed e t true -> typed (EAmp e) (TPointer t) false
| ty_slice_array e t n u : typed e t true -> underlying t (TArray n u) -> typed (ESliceAll e) (TSlice u) false
| ty_slice_pointer e t n u v a : typed e t a -> underlying t (TPointer u) -> underlying u (TArray n v) -> typed (ESliceAll e) (TSlice v) false
| ty_slice_slice e t u a : typed e t a -> underlying t (TSlice u) -> typed (ESliceAll e) t false
| ty_slice_text e t a : typed e t a -> kind t (B "string") -> typed (ESliceAll e) t false
| ty_conversion f t e u a : denotes f t -> typed e u a -> convertible u t -> typed (ECall f [e]) t false
| ty_call f p n es ts r : refers_to f p n -> p = encoding_path -> typed_all es ts -> function n [] ts r -> typed (ECall f es) r false
| ty_call_generic f p n as_ us es ts r : refers_to f p n -> p = encoding_path -> Forall2 denotes as_ us -> typed_all es ts -> function n us ts r -> typed (ECall (EIndex f as_) es) r false
with typed_all : list expr -> list gtype -> Prop :=
| ty_nil : typed_all [] []
| ty_cons e es t ts a : typed e t a -> typed_all es ts -> typed_all (e :: es) (t :: ts).

(** ** database/sql *)
Definition in_library (t : gtype) : Prop := exists p n ks u, In (p, n, ks) library /\ t = TNamed p n [u].
(** What is taken as an argument: a type that converts itself, a time, a basic value, bytes *)
Definition argument (t : gtype) : Prop :=
  method P t (B "Value") \/ t = valuer_type \/ in_library t \/ t = time_type \/
  one_of t ([B "bool"; B "string"] ++ signed ++ unsigned ++ floats) \/ (exists b, underlying t (TSlice b) /\ kind b (B "byte")).
(** What can be scanned into: a type that scans itself, a pointer to a time, to a basic value or to bytes *)
Definition destination (t : gtype) : Prop :=
  method P t (B "Scan") \/ t = scanner_type \/
  exists u, t = TPointer u /\ (in_library u \/ u = time_type \/ one_of u ([B "bool"; B "string"] ++ signed ++ unsigned ++ floats) \/
    exists b, underlying u (TSlice b) /\ same b (TBasic (B "byte"))).
(** The package can be used in the file: its name is a name and no variable hides it. *)
Definition fine (p : bytes) : Prop := forall n, In (p, n) imports -> identifier n /\ ~ In n keywords /\ variables P n = None.
End Typing.

(** ** Programs *)
(** What holds of a program that compiles: declared names are names, and no variables; what a type stands for is a type of the program and
    no name; only named types, and pointers to them, have methods; the lists of the library have theirs. *)
Record proper (P : program) : Prop := {
  pr_word : forall p n args, declared P p n args -> identifier n /\ ~ In n keywords /\ import_path p;
  pr_own : forall n args, declared P (own_path P) n args -> variables P n = None /\ ~ In n predeclared;
  pr_basic : forall n, In n predeclared -> variables P n = None;
  pr_library : forall n ks, ~ In (own_path P, n, ks) library;
  pr_under : forall p n args u, declared P p n args -> stands_for P p n args = UOf u -> valid P u /\ forall q m us, u <> TNamed q m us;
  pr_method : forall t m, method P t m -> exists p n args, t = TNamed p n args \/ t = TPointer (TNamed p n args);
  pr_lists : forall t, in_library t -> method P t (B "Value") /\ method P (TPointer t) (B "Scan") }.
(** What the generator is told about the program is so. *)
Record agrees (e : env) (P : program) : Prop := {
  ag_under : forall p n args, declared P p n args -> under e p n args = stands_for P p n args;
  ag_library : forall p n ks t, In (p, n, ks) library -> under e p n [t] = UOf (TSlice t);
  ag_value : forall t, valid P t -> own_value e t = true <-> method P t (B "Value");
  ag_scan : forall t, valid P t -> own_scan e t = true <-> method P (TPointer t) (B "Scan");
  ag_marshal : forall t, valid P t -> text_value e t = true <-> method P t (B "MarshalText");
  ag_unmarshal : forall t, valid P t -> text_scan e t = true <-> method P (TPointer t) (B "UnmarshalText") }.

(** The imports of the file that is written, before the expression: paths and names occur once, the package itself is not imported; the
    packages of the library are other packages and can be loaded. *)
Record ready (P : program) (load : bytes -> option bytes) (l : imports) : Prop := {
  rd_distinct : NoDup (map fst l) /\ NoDup (map snd l); rd_self : ~ In (own_path P) (map fst l); rd_names : names_only l; rd_finds : finds_names load;
  rd_load : forall p, In p [encoding_path; sqltype_path; pgtype_path] -> load p <> None /\ p <> own_path P }.

(** ** Columns *)
Section Columns.
Variable P : program.
Definition basic (t : gtype) : Prop := exists k, underlying P t (TBasic k).
(** A column of type [c] has values of type [t]. *)
Definition held (c t : gtype) : Prop := c = TPointer t \/ c = t /\ forall u, c <> TPointer u.
(** The column types whose values are written by an expression that compiles and is taken, for a dialect; besides those with a method Value.
    Left out: pointers to pointers, named lists of basic elements other than bytes, fixed arrays behind pointers, and for PostgreSQL named
    arrays, lists of runes behind pointers and lists of lists of bytes. *)
Record writes_well (d : dialect) (c t : gtype) : Prop := {
  ww_pointer : forall u, ~ underlying P t (TPointer u);
  ww_slice : forall u, underlying P t (TSlice u) -> basic u -> t = TSlice u \/ underlying P u (TBasic (B "byte"));
  ww_array : forall n u, underlying P t (TArray n u) -> basic u -> c = t /\ (d = Postgres -> t = TArray n u);
  ww_runes : d = Postgres -> forall u, underlying P t (TSlice u) -> underlying P u (TBasic (B "rune")) -> c = t;
  ww_bytes : d = Postgres -> forall u b, underlying P t (TSlice u) -> underlying P u (TSlice b) -> ~ underlying P b (TBasic (B "byte"));
  ww_struct : forall p n args fs, t = TNamed p n args -> stands_for P p n args = UStruct fs -> (p, n) <> (B "sql", B "RawBytes") /\ (p, n) <> (B "encoding/json", B "RawMessage") }.
(** The column types that are read back: *)
Definition list_reads (d : dialect) (t u : gtype) : Prop :=
  (basic u -> u = TBasic (B "byte") \/ t = TSlice u /\ ~ underlying P u (TBasic (B "byte")) /\ (d = Postgres -> ~ underlying P u (TBasic (B "rune")))) /\
  (d = Postgres -> forall b, underlying P u (TSlice b) -> ~ underlying P b (TBasic (B "byte"))).
Record reads_well (d : dialect) (c : gtype) : Prop := {
  rw_slice : forall u, underlying P c (TSlice u) -> list_reads d c u;
  rw_pointer : forall t, underlying P c (TPointer t) -> c = TPointer t /\ forall u, underlying P t (TSlice u) -> (basic u -> u = TBasic (B "byte")) /\ list_reads d t u;
  rw_array : forall n u, underlying P c (TArray n u) -> basic u -> c = TArray n u /\ n <> 0%N /\ (d = Postgres -> ~ underlying P u (TBasic (B "string")));
  rw_struct : forall p n args fs, (c = TNamed p n args \/ c = TPointer (TNamed p n args)) -> stands_for P p n args = UStruct fs -> (p, n) <> (B "sql", B "RawBytes") /\ (p, n) <> (B "encoding/json", B "RawMessage") }.
(** The types that an expression may have to spell are types of at most one package, which can be looked up. *)
Definition spelled (load : bytes -> option bytes) (c : gtype) : Prop := forall u,
  element c u \/ stripped c u \/ (exists t, c = TPointer t /\ element t u) ->
  basic u \/ method P (TPointer u) (B "UnmarshalText") \/ (exists b, underlying P u (TSlice b) /\ basic b) -> one_package load u /\ exists s, go_type u s.
(** The names of the file can be used, for a column of this type. *)
Definition needed (c : gtype) (q : bytes) : Prop := mentions q c \/ In q [encoding_path; sqltype_path; pgtype_path].
Definition usable (l : list (bytes * bytes)) (c : gtype) : Prop := forall q, needed c q -> simple (own_path P) l q /\ fine P l q.
End Columns.
(** A field of the model that is generated: it is reached from a variable (the receiver), it has a valid type [c], the types that have to be
    spelled can be spelled, and the expression before the field is no package. *)
Record column_field (P : program) (load : bytes -> option bytes) (l : imports) (parent f : bytes) (c : gtype) : Prop := {
  cf_path : exists tp, reaches P parent tp /\ field P tp f c;
  cf_name : identifier f /\ ~ In f keywords;
  cf_valid : valid P c;
  cf_spelled : spelled P load c;
  cf_parent : parent <> own_path P /\ load parent = Some [] /\ (In (parent, parent) l \/ ~ In parent (map fst l) /\ ~ In parent (map snd l)) }.
(** The text [out] is an expression of the file with the imports [l'], its type is one of those wanted. *)
Definition good_expression (P : program) (l' : imports) (out : bytes) (ok : gtype -> Prop) : Prop := exists ex ty a, expression out ex /\ typed P l' ex ty a /\ ok ty.
