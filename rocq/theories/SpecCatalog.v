(** The catalogue of a database: information_schema.columns, and how it names types. *)
From Coq Require Import List Bool ZArith Sorted Permutation.
From Verif Require Import SpecDataType SpecSql Base ModelStrconv ModelScript SpecDb ModelEncoding.
Import ListNotations.

(** One column of one table *)
Record entry := Entry {
  i_catalog : bytes; i_schema : bytes; i_table : bytes; i_pos : Z; i_name : bytes; i_default : option bytes; i_null : bool;
  i_type : bytes;               (* udt_name in PostgreSQL, DATA_TYPE in MySQL *)
  i_full : bytes; i_comment : bytes; (* MySQL *)
  i_chars : option Z; i_num : option Z; i_time : option Z; i_interval : option Z }.
Definition opt_text (x : option bytes) : ModelEncoding.dval := match x with Some s => VString s | None => VNull end.
Definition opt_int (x : option Z) : ModelEncoding.dval := match x with Some z => VInt z | None => VNull end.
Definition views : list (bytes * (entry -> ModelEncoding.dval)) :=
  [(B "table_catalog", fun e => VString (i_catalog e)); (B "table_schema", fun e => VString (i_schema e)); (B "table_name", fun e => VString (i_table e));
   (B "ordinal_position", fun e => VInt (i_pos e)); (B "column_name", fun e => VString (i_name e)); (B "column_default", fun e => opt_text (i_default e));
   (B "is_nullable", fun e => VString (if i_null e then B "YES" else B "NO")); (B "udt_name", fun e => VString (i_type e)); (B "data_type", fun e => VString (i_type e));
   (B "column_type", fun e => VString (i_full e)); (B "column_comment", fun e => VString (i_comment e)); (B "character_maximum_length", fun e => opt_int (i_chars e));
   (B "numeric_precision", fun e => opt_int (i_num e)); (B "datetime_precision", fun e => opt_int (i_time e)); (B "interval_precision", fun e => opt_int (i_interval e))].
(** The columns of the view; their names have no case *)
Definition cells (e : entry) : row ModelEncoding.dval :=
  fun n => match find (fun p => bseq (fst p) (map lower1 n)) views with Some (_, f) => f e | None => VNull end.
(** Texts are compared exactly, numbers sorted as numbers *)
Definition catalogue_law (D : semantics ModelEncoding.dval) : Prop :=
  (forall a b, cmp D (VString a) (VString b) = Some Eq <-> a = b) /\ (forall a b, sort_cmp D (VInt a) (VInt b) = Z.compare a b).
(** A driver may hand over everything as bytes *)
Definition handed (raw : bool) (v : ModelEncoding.dval) : ModelEncoding.dval :=
  if raw then match v with VString s => VBytes s | VInt z => VBytes (format_int z) | _ => v end else v.
(** Queries of the view are answered *)
Definition serves (D : semantics ModelEncoding.dval) (fl : flavour) (raw : bool) (cat : list entry) (query : bytes -> list ModelEncoding.dval -> res (list (list ModelEncoding.dval) * bool)) : Prop :=
  forall text args items wh ord view, read fl text args = Some (Select items view wh [] ord None None []) -> map (map lower1) view = [B "information_schema"; B "columns"] ->
  exists es, answers D cells cat wh ord None None es /\ query text args = Ok (map (fun e => map (fun it => handed raw (eval D (cells e) it)) items) es, false).
Definition int64 (x : option Z) : Prop := match x with Some z => (- 2 ^ 63 <= z < 2 ^ 63)%Z | None => True end.
Definition entry_ok (e : entry) : Prop := int64 (i_chars e) /\ int64 (i_num e) /\ int64 (i_time e) /\ int64 (i_interval e).
(** What is to be read of a column *)
Definition shows (c : ecol) (e : entry) : Prop :=
  e_name c = i_name e /\ e_udt c = i_type e /\ e_null c = i_null e /\ e_default c = i_default e /\ e_chars c = i_chars e /\ e_time c = i_time e.
Definition in_order (es : list entry) : Prop := StronglySorted (fun a b => (i_pos a <= i_pos b)%Z) es.
(** The columns of a table *)
Definition columns_in (cat : list entry) (is : entry -> Prop) (es : list entry) : Prop := exists f, (forall e, f e = true <-> is e) /\ Permutation es (filter f cat) /\ in_order es.

(** How PostgreSQL shows a type: udt_name, character_maximum_length, datetime_precision. Arrays show neither length nor precision. *)
Inductive pg_shows : sqltype -> bytes -> option Z -> option Z -> Prop :=
| sh_int2 : pg_shows (TInteger 2) (B "int2") None None
| sh_int4 : pg_shows (TInteger 4) (B "int4") None None
| sh_int8 : pg_shows (TInteger 8) (B "int8") None None
| sh_serial n u : pg_shows (TInteger n) u None None -> pg_shows (TSerial n) u None None
| sh_bool : pg_shows TBool (B "bool") None None
| sh_char n : pg_shows (TChar n) (B "bpchar") (Some n) None
| sh_varchar n : pg_shows (TVarchar n) (B "varchar") (Some n) None
| sh_text : pg_shows TText (B "text") None None
| sh_blob : pg_shows TBlob (B "bytea") None None
| sh_json : pg_shows TJson (B "json") None None
| sh_single : pg_shows single (B "float4") None None
| sh_double : pg_shows double (B "float8") None None
| sh_time n : pg_shows (TTimestamptz n) (B "timestamptz") None (Some n)
| sh_array t u c p : pg_shows t u c p -> pg_shows (TArray t) (B "_" ++ u) None None.
