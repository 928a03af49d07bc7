(** The data types of the dialects: ColumnDataTypes()[key].DataType(column), cmd/sqlgen/codegen/dialect/{mysql,postgres,sqlite}/column_type.go *)
From Coq Require Import List Bool ZArith.
From Verif Require Import Base ModelStrconv ModelTypes ModelGen.
Import ListNotations.

(** What the functions ask of a GoColumn: Size (0: none declared), GoNullable, AutoIncr. dialect.go 77-121 *)
Record column := Column { c_size : Z; c_null : bool; c_incr : bool }.
(** columnDataType with the formatted default. mysql/column_type.go 217-231, sqlite/column_type.go 207-221 *)
Definition declared (ty : bytes) (default : option bytes) (c : column) : bytes :=
  ty ++ (if c_null c then [] else B " NOT NULL") ++ match default with Some x => B " DEFAULT " ++ x | None => [] end.
(** columnDataType of PostgreSQL: the type alone. postgres/column_type.go 269-285 *)
Definition bare (ty : bytes) (c : column) : bytes := ty.
(** intDataType. postgres/column_type.go 238-267 *)
Definition integer (ty : bytes) (c : column) : bytes := pg_int ty (c_incr c).
(** mysql/column_type.go 16-215 *)
Definition mysql_types : list (bytes * (column -> bytes)) :=
  [(B "rune", declared (B "CHAR(1)") None);
   (B "byte", declared (B "CHAR(1)") None);
   (B "string", fun c => B "VARCHAR(" ++ format_int (if Z.ltb 0 (c_size c) then c_size c else 255) ++ B ")");
   (B "bool", declared (B "BOOL") (Some (B "false")));
   (B "int", declared (B "INTEGER") (Some (B "false")));
   (B "int8", declared (B "INTEGER") (Some (B "false")));
   (B "int16", declared (B "INTEGER") (Some (B "false")));
   (B "int32", declared (B "INTEGER") (Some (B "false")));
   (B "int64", declared (B "INTEGER") (Some (B "false")));
   (B "uint", declared (B "INTEGER") (Some (B "false")));
   (B "uint8", declared (B "INTEGER") (Some (B "false")));
   (B "uint16", declared (B "INTEGER") (Some (B "false")));
   (B "uint32", declared (B "INTEGER") (Some (B "false")));
   (B "uint64", declared (B "INTEGER") (Some (B "false")));
   (B "float32", declared (B "FLOAT") (Some (B "0")));
   (B "float64", declared (B "FLOAT") (Some (B "0")));
   (B "time.Time", declared (B "TIMESTAMP") (Some (B "CURRENT_TIMESTAMP")));
   (B "sql.RawBytes", declared (B "TEXT") None);
   (B "encoding/json.RawMessage", declared (B "JSON") None);
   (B "[...]rune", fun c => declared (B "VARCHAR(" ++ format_int (c_size c) ++ B ")") None c);
   (B "[...]byte", fun c => declared (B "CHAR(" ++ format_int (c_size c) ++ B ")") None c);
   (B "[]string", declared (B "JSON") None);
   (B "[]byte", declared (B "BLOB") None);
   (B "[]bool", declared (B "JSON") None);
   (B "[]int", declared (B "JSON") None);
   (B "[]int8", declared (B "JSON") None);
   (B "[]int16", declared (B "JSON") None);
   (B "[]int32", declared (B "JSON") None);
   (B "[]int64", declared (B "JSON") None);
   (B "[]uint", declared (B "JSON") None);
   (B "[]uint8", declared (B "JSON") None);
   (B "[]uint16", declared (B "JSON") None);
   (B "[]uint32", declared (B "JSON") None);
   (B "[]uint64", declared (B "JSON") None);
   (B "[]float32", declared (B "JSON") None);
   (B "[]float64", declared (B "JSON") None);
   (B "*", declared (B "JSON") None)].
(** postgres/column_type.go 17-236 *)
Definition pg_types : list (bytes * (column -> bytes)) :=
  [(B "rune", bare (B "char(1)"));
   (B "byte", bare (B "char(1)"));
   (B "string", fun c => B "varchar(" ++ format_int (if Z.ltb 0 (c_size c) then c_size c else 255) ++ B ")");
   (B "bool", bare (B "bool"));
   (B "int", integer (B "int4"));
   (B "int8", integer (B "int2"));
   (B "int16", integer (B "int2"));
   (B "int32", integer (B "int4"));
   (B "int64", bare (B "bigint"));
   (B "uint", integer (B "int4"));
   (B "uint8", integer (B "int2"));
   (B "uint16", integer (B "int2"));
   (B "uint32", integer (B "int4"));
   (B "uint64", integer (B "bigint"));
   (B "float32", bare (B "real"));
   (B "float64", bare (B "double precision"));
   (B "time.Time", bare (B "timestamptz(6)"));
   (B "sql.RawBytes", bare (B "text"));
   (B "encoding/json.RawMessage", bare (B "json"));
   (B "[...]rune", fun c => bare (B "varchar(" ++ format_int (c_size c) ++ B ")") c);
   (B "[...]byte", fun c => bare (B "varchar(" ++ format_int (c_size c) ++ B ")") c);
   (B "[...]string", bare (B "text[{{len}}]"));
   (B "[...]bool", bare (B "bool[{{len}}]"));
   (B "[]string", bare (B "text[]"));
   (B "[]rune", bare (B "text"));
   (B "[]byte", bare (B "blob"));
   (B "[]bool", bare (B "bool[]"));
   (B "[][]byte", bare (B "bytea"));
   (B "[]int", bare (B "int4[]"));
   (B "[]int8", bare (B "int2[]"));
   (B "[]int16", bare (B "int2[]"));
   (B "[]int32", bare (B "int4[]"));
   (B "[]int64", bare (B "int8[]"));
   (B "[]uint", bare (B "int4[]"));
   (B "[]uint8", bare (B "int2[]"));
   (B "[]uint16", bare (B "int2[]"));
   (B "[]uint32", bare (B "int4[]"));
   (B "[]uint64", bare (B "int8[]"));
   (B "[]float32", bare (B "double[]"));
   (B "[]float64", bare (B "double[]"));
   (B "*", bare (B "json"))].
(** sqlite/column_type.go 16-205 *)
Definition sqlite_types : list (bytes * (column -> bytes)) :=
  [(B "rune", declared (B "TEXT") None);
   (B "byte", declared (B "BLOB") None);
   (B "string", declared (B "TEXT") (Some [squote; squote]));
   (B "bool", declared (B "BOOL") (Some (B "false")));
   (B "int", declared (B "INTEGER") (Some (B "false")));
   (B "int8", declared (B "INTEGER") (Some (B "false")));
   (B "int16", declared (B "INTEGER") (Some (B "false")));
   (B "int32", declared (B "INTEGER") (Some (B "false")));
   (B "int64", declared (B "INTEGER") (Some (B "false")));
   (B "uint", declared (B "INTEGER") (Some (B "false")));
   (B "uint8", declared (B "INTEGER") (Some (B "false")));
   (B "uint16", declared (B "INTEGER") (Some (B "false")));
   (B "uint32", declared (B "INTEGER") (Some (B "false")));
   (B "uint64", declared (B "INTEGER") (Some (B "false")));
   (B "float32", declared (B "REAL") (Some (B "0")));
   (B "float64", declared (B "REAL") (Some (B "0")));
   (B "time.Time", declared (B "TEXT") None);
   (B "sql.RawBytes", declared (B "TEXT") None);
   (B "encoding/json.RawMessage", declared (B "TEXT") None);
   (B "[...]rune", declared (B "TEXT") None);
   (B "[...]byte", declared (B "BLOB") None);
   (B "[]string", declared (B "TEXT") None);
   (B "[]byte", declared (B "BLOB") None);
   (B "[]bool", declared (B "TEXT") None);
   (B "[]int", declared (B "TEXT") None);
   (B "[]int8", declared (B "TEXT") None);
   (B "[]int16", declared (B "TEXT") None);
   (B "[]int32", declared (B "TEXT") None);
   (B "[]int64", declared (B "TEXT") None);
   (B "[]uint", declared (B "TEXT") None);
   (B "[]uint8", declared (B "TEXT") None);
   (B "[]uint16", declared (B "TEXT") None);
   (B "[]uint32", declared (B "TEXT") None);
   (B "[]uint64", declared (B "TEXT") None);
   (B "[]float32", declared (B "TEXT") None);
   (B "[]float64", declared (B "TEXT") None);
   (B "*", declared (B "TEXT") None)].
Definition data_types (d : driver) : list (bytes * (column -> bytes)) := match d with DMySQL => mysql_types | DPostgres => pg_types | DSQLite => sqlite_types end.
