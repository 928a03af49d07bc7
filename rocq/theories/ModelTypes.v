(** Column types and the mapping of Go types: cmd/sqlgen/codegen/dialect/{mysql,postgres,sqlite}/column_type.go, cmd/sqlgen/codegen/tool.go 15-76. *)
From Coq Require Import List Bool ZArith Ascii.
From Verif Require Import Base.
Import ListNotations.

Inductive dialect := MySQL | Postgres | SQLite.
(** The Go integer types, by the name the mapping uses *)
Inductive ikind := KInt | KInt8 | KInt16 | KInt32 | KInt64 | KUint | KUint8 | KUint16 | KUint32 | KUint64 | KByte | KRune.
Definition kinds : list ikind := [KInt; KInt8; KInt16; KInt32; KInt64; KUint; KUint8; KUint16; KUint32; KUint64; KByte; KRune].
(** strings.ReplaceAll for a non-empty old *)
Fixpoint replace_all (fuel : nat) (s old new : bytes) : bytes :=
  match fuel with
  | O => s
  | S f => match s with
           | [] => []
           | c :: r => if has_prefix s old then new ++ replace_all f (skipn (length old) s) old new else c :: replace_all f r old new
           end
  end.
(** postgresDriver.intDataType. postgres/column_type.go 236-267; the text is never integer, so the other branch always runs *)
Definition pg_int (ty : bytes) (incr : bool) : bytes := if incr then replace_all (length ty) ty (B "int") (B "serial") else ty.
(** columnDataType of mysql and sqlite, with a default of false or none. mysql/column_type.go 217-231, sqlite/column_type.go 207-221 *)
Definition word_type (ty : bytes) (default : bool) (null : bool) : bytes := ty ++ (if null then [] else B " NOT NULL") ++ (if default then B " DEFAULT false" else []).
(** ColumnDataTypes()[kind].DataType(column). mysql/column_type.go 17-97, postgres/column_type.go 17-92, sqlite/column_type.go 15-88 *)
Definition data_type (d : dialect) (k : ikind) (null incr : bool) : bytes :=
  match d with
  | MySQL => match k with KByte | KRune => word_type (B "CHAR(1)") false null | _ => word_type (B "INTEGER") true null end
  | SQLite => match k with KByte => word_type (B "BLOB") false null | KRune => word_type (B "TEXT") false null | _ => word_type (B "INTEGER") true null end
  | Postgres =>
      match k with
      | KByte | KRune => B "char(1)"
      | KInt => pg_int (B "int4") incr
      | KInt8 => pg_int (B "int2") incr
      | KInt16 => pg_int (B "int2") incr
      | KInt32 => pg_int (B "int4") incr
      | KInt64 => B "bigint" (* columnDataType, not intDataType: postgres/column_type.go 68-72 *)
      | KUint => pg_int (B "int4") incr
      | KUint8 => pg_int (B "int2") incr
      | KUint16 => pg_int (B "int2") incr
      | KUint32 => pg_int (B "int4") incr
      | KUint64 => pg_int (B "bigint") incr
      end
  end.
(** The array types of PostgreSQL for slices of integers. postgres/column_type.go 169-218 *)
Definition pg_array_type (k : ikind) : option bytes :=
  match k with
  | KInt => Some (B "int4[]") | KInt8 => Some (B "int2[]") | KInt16 => Some (B "int2[]") | KInt32 => Some (B "int4[]") | KInt64 => Some (B "int8[]")
  | KUint => Some (B "int4[]") | KUint8 => Some (B "int2[]") | KUint16 => Some (B "int2[]") | KUint32 => Some (B "int4[]") | KUint64 => Some (B "int8[]")
  | KByte | KRune => None
  end.
(** The values as they are sent: the Valuer texts of the same tables. Wrapping of (int64)(x) for unsigned x. A rune is sent as a text and is not covered. *)
Definition wrap64 (z : Z) : Z := ((z + 2 ^ 63) mod 2 ^ 64 - 2 ^ 63)%Z.
Definition sent (d : dialect) (k : ikind) (v : Z) : Z :=
  match d, k with
  | MySQL, KUint64 | SQLite, KUint64 => v (* {{goPath}} *)
  | _, KByte => v (* {{goPath}} *)
  | _, _ => wrap64 v
  end.
