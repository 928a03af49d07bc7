(** Reading the columns of a table: cmd/sqlgen/codegen/dialect/postgres/column.go 39-79, mysql/column.go 22-64, and the first part of Migrate:
    postgres/migration.go 18-39, mysql/migration.go 12-31. *)
From Coq Require Import List Bool ZArith.
From Verif Require Import Base ModelStrconv ModelEncoding ModelGen ModelMigration ModelScript.
Import ListNotations.

(** What a driver hands to Scan (ModelEncoding.v) *)
Notation cell := ModelEncoding.dval (only parsing).
(** postgres/column.go 40-54 *)
Definition pg_columns_query : bytes := B "SELECT 
	column_name,
	column_default,
	is_nullable,
	udt_name,
	character_maximum_length,
	numeric_precision,
	datetime_precision,
	interval_precision
FROM 
	information_schema.columns
WHERE
	table_catalog = $1 AND 
	table_name = $2
ORDER BY
	ordinal_position;".
(** mysql/column.go 23-38 *)
Definition my_columns_query : bytes := B "SELECT 
	COLUMN_NAME,
	COLUMN_DEFAULT,
	IS_NULLABLE,
	DATA_TYPE,
	COLUMN_TYPE,
	CHARACTER_MAXIMUM_LENGTH,
	NUMERIC_PRECISION,
	DATETIME_PRECISION,
	COLUMN_COMMENT
FROM 
	information_schema.columns
WHERE
	TABLE_SCHEMA = ? AND 
	TABLE_NAME = ?
ORDER BY
	ORDINAL_POSITION;".
(** database/sql convertAssign to a string. Simplified: floats and times, which these queries do not return, are errors. *)
Definition scan_string (v : cell) : res bytes :=
  match v with VBytes s | VString s => Ok s | VInt z => Ok (format_int z) | VBool b => Ok (format_bool b) | _ => Err end.
(** sql.NullString.Scan *)
Definition scan_null_string (v : cell) : res (option bytes) :=
  match v with VNull => Ok None | _ => let* s := scan_string v in Ok (Some s) end.
(** sql.NullInt64.Scan: convertAssign to an int64 formats and parses. Simplified as above. *)
Definition scan_null_int (v : cell) : res (option Z) :=
  match v with
  | VNull => Ok None
  | VInt z => Ok (Some z)
  | VBytes s | VString s => match parse_int 64 s with Some z => Ok (Some z) | None => Err end
  | _ => Err
  end.
(** internal/sqltype Bool.Scan on a variable that is false *)
Definition scan_bool (v : cell) : res bool := match sqltype_bool_scan false v with (b, Ok _) => Ok b | (_, Err) => Err | (_, Panic) => Panic end.
(** rows.Scan. postgres/column.go 63-74 *)
Definition scan_pg (row : list cell) : res ecol :=
  match row with
  | [name; def; null; udt; chars; num; time; interval] =>
      let* name := scan_string name in
      let* def := scan_null_string def in
      let* null := scan_bool null in
      let* udt := scan_string udt in
      let* chars := scan_null_int chars in
      let* _ := scan_null_int num in
      let* time := scan_null_int time in
      let* _ := scan_null_int interval in
      Ok (ECol name udt null def chars time)
  | _ => Err
  end.
(** mysql/column.go 46-58 *)
Definition scan_my (row : list cell) : res ecol :=
  match row with
  | [name; def; null; ty; full; chars; num; time; comment] =>
      let* name := scan_string name in
      let* def := scan_null_string def in
      let* null := scan_bool null in
      let* ty := scan_string ty in
      let* _ := scan_string full in
      let* chars := scan_null_int chars in
      let* _ := scan_null_int num in
      let* time := scan_null_int time in
      let* _ := scan_string comment in
      Ok (ECol name ty null def chars time)
  | _ => Err
  end.
(** The loop. postgres/column.go 60-78, mysql/column.go 44-63. broken: rows.Err() *)
Fixpoint scan_rows (scan : list cell -> res ecol) (rows : list (list cell)) (broken : bool) : res (list ecol) :=
  match rows with
  | [] => if broken then Err else Ok []
  | r :: rows' => let* c := scan r in let* cs := scan_rows scan rows' broken in Ok (c :: cs)
  end.
Definition table_columns (d : driver) (query : bytes -> list cell -> res (list (list cell) * bool)) (db t : bytes) : res (list ecol) :=
  match d with
  | DPostgres => let* out := query pg_columns_query [VString db; VString t] in scan_rows scan_pg (fst out) (snd out)
  | DMySQL => let* out := query my_columns_query [VString db; VString t] in scan_rows scan_my (fst out) (snd out)
  | DSQLite => Ok []
  end.
(** Migrate. current: the answer to SELECT DATABASE() or SELECT CURRENT_DATABASE(). Simplified: opening the connection succeeds. *)
Definition migrate (printable : N -> bool) (format_float : N -> bytes) (md5 : bytes -> bytes) (d : driver) (query : bytes -> list cell -> res (list (list cell) * bool)) (current : cell)
  (t : bytes) (model : list gcol) (pk : list bytes) : res (option bytes) :=
  match d with
  | DSQLite => Ok (Some [])
  | _ => let* db := scan_string current in
         let* ex := table_columns d query db t in
         migrate_text printable format_float md5 d t model pk ex
  end.
