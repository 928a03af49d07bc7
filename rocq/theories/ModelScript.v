(** The text of a migration file: cmd/sqlgen/codegen/dialect/postgres/migration.go 18-173, mysql/migration.go 12-167,
    with indexName (index.go), format (column_type.go) and ColumnDataType (postgres/column.go 27-37). *)
From Coq Require Import List Bool ZArith.
From Verif Require Import Base ModelStrconv ModelGen ModelMigration.
Import ListNotations.

(** What GoColumn.Default may return (dialect.go 99-101 lists string, []byte, bool, int64, float64 and sql.RawBytes). Floats are given by
    the bits of the float64 that FormatFloat gets. *)
Inductive dval := DStr (s : bytes) | DBool (b : bool) | DInt (z : Z) | DFloat (bits : N) | DRaw (s : bytes) | DBytes (s : bytes) | DOther.
(** A column of the model: ColumnName, DataType, GoNullable, Default. dialect.go 77-121 *)
Record gcol := GCol { g_name : bytes; g_type : bytes; g_null : bool; g_default : option dval }.
(** A row of information_schema.columns. postgres/column.go 11-20. Simplified: the fields ColumnDataType does not read are left out. *)
Record ecol := ECol { e_name : bytes; e_udt : bytes; e_null : bool; e_default : option bytes; e_chars : option Z; e_time : option Z }.
Definition TAB : byte := chr 9.

Section Text.
Variable printable : N -> bool.        (* strconv.IsPrint for non-ASCII runes *)
Variable format_float : N -> bytes.    (* strconv.FormatFloat(v, 'f', -1, 64) *)
Variable md5 : bytes -> bytes.         (* md5.Sum: sixteen bytes *)
Variable d : driver.

(** format. mysql/column_type.go 233-254, postgres/column_type.go 287-308. Any other type: panic *)
Definition format (v : dval) : res bytes :=
  match v with
  | DStr s => Ok (squote :: s ++ [squote])
  | DBool b => Ok (if b then B "true" else B "false")
  | DInt z => Ok (format_int z)
  | DFloat f => Ok (format_float f)
  | DRaw s => Ok s
  | DBytes _ | DOther => Panic
  end.
(** The column with its default through format *)
Definition formatted (g : gcol) : res mcol :=
  match g_default g with
  | None => Ok (MCol (g_name g) (g_type g) (g_null g) None)
  | Some v => let* x := format v in Ok (MCol (g_name g) (g_type g) (g_null g) (Some x))
  end.
Fixpoint all_formatted (l : list gcol) : res (list mcol) :=
  match l with
  | [] => Ok []
  | g :: r => let* m := formatted g in let* ms := all_formatted r in Ok (m :: ms)
  end.
(** ColumnDataType. postgres/column.go 27-37 *)
Definition column_data_type (e : ecol) : bytes :=
  let sized := fun n : Z => e_udt e ++ B "(" ++ format_int n ++ B ")" in
  match e_chars e, e_time e with
  | Some n, t => if Z.ltb 0 n then sized n else match t with Some k => if Z.ltb 0 k then sized k else e_udt e | None => e_udt e end
  | None, Some k => if Z.ltb 0 k then sized k else e_udt e
  | None, None => e_udt e
  end.
Definition existing (e : ecol) : tcol := TCol (e_name e) (column_data_type e) (e_null e) (e_default e).

(** QuoteIdentifier *)
Definition ident (v : bytes) : bytes := dialect_quote printable d v.
(** indexName(columns, pk). index.go *)
Definition pk_name (pk : list bytes) : bytes := B "PK" ++ B "_" ++ hex_encode (md5 (join (B ",") pk)).
(** migration.go 76-83 and 131-138: name, type, NOT NULL, DEFAULT *)
Definition col_text (m : mcol) : bytes :=
  ident (m_name m) ++ B " " ++ m_type m ++ (if m_null m then [] else B " NOT NULL") ++ match m_default m with Some x => B " DEFAULT " ++ x | None => [] end.
(** 86-97 *)
Definition pk_text (pk : list bytes) : bytes :=
  match pk with
  | [] => []
  | _ => B "," ++ [LF; TAB] ++ B "CONSTRAINT " ++ ident (pk_name pk) ++ B " PRIMARY KEY (" ++ join (B ",") (map ident pk) ++ B ")"
  end.
(** 72-97 and 114 (mysql 66-92, 108) *)
Definition create_text (t : bytes) (cols : list mcol) (pk : list bytes) : bytes :=
  LF :: B "CREATE TABLE IF NOT EXISTS " ++ ident t ++ B " (" ++ [LF] ++ join (B "," ++ [LF]) (map (fun m => TAB :: col_text m) cols) ++ pk_text pk ++ LF :: B ");".
(** 117-118 *)
Definition alter_head (t : bytes) : bytes := LF :: B "ALTER TABLE " ++ ident t ++ [LF].
(** 120, 131-138, 142; each is followed by a comma and a newline *)
Definition up_updated_text (p : tcol * mcol) : bytes := TAB :: B "ALTER " ++ ident (m_name (snd p)) ++ B " SET DATA TYPE " ++ m_type (snd p) ++ B "," ++ [LF].
Definition up_new_text (m : mcol) : bytes := TAB :: B "ADD COLUMN " ++ col_text m ++ B "," ++ [LF].
Definition up_left_text (c : tcol) : bytes := TAB :: B "DROP COLUMN " ++ ident (t_name c) ++ B "," ++ [LF].
(** 121-127, 139, 143-149 *)
Definition down_updated_text (p : tcol * mcol) : bytes :=
  let o := fst p in
  (TAB :: B "ALTER " ++ ident (t_name o) ++ B " SET DATA TYPE " ++ t_type o ++ B "," ++ [LF]) ++
  (if t_null o then [] else TAB :: B "ALTER " ++ ident (t_name o) ++ B " SET NOT NULL," ++ [LF]) ++
  match t_default o with Some x => TAB :: B "ALTER " ++ ident (t_name o) ++ B " SET DEFAULT " ++ x ++ B "," ++ [LF] | None => [] end.
Definition down_new_text (m : mcol) : bytes := TAB :: B "DROP COLUMN " ++ ident (m_name m) ++ B "," ++ [LF].
Definition down_left_text (c : tcol) : bytes :=
  TAB :: B "ADD COLUMN " ++ ident (t_name c) ++ (if t_null c then [] else B " NOT NULL") ++ match t_default c with Some x => B " DEFAULT " ++ x | None => [] end ++ B "," ++ [LF].
(** 158-161: the last two bytes are cut off when the first of them is a comma. The text is never shorter than two bytes. *)
Definition trim (q : bytes) : bytes :=
  match nth_error q (length q - 2) with
  | Some c => if beq c "," then firstn (length q - 2) q else q
  | None => q
  end.
(** 70-172 (mysql 62-166): updated pairs u, new columns n, left columns l *)
Definition file_text (t : bytes) (cols : list mcol) (pk : list bytes) (u : list (tcol * mcol)) (n : list mcol) (l : list tcol) : bytes :=
  B "-- +migrate Up" ++ LF :: B "-- SQL in section 'Up' is executed when this migration is applied" ++
  create_text t cols pk ++
  trim (alter_head t ++ flat_map up_updated_text u ++ flat_map up_new_text n ++ flat_map up_left_text l) ++ B ";" ++
  [LF; LF] ++ B "-- +migrate Down" ++ LF :: B "-- SQL section 'Down' is executed when this migration is rolled back" ++
  trim (alter_head t ++ flat_map down_updated_text u ++ flat_map down_new_text n ++ flat_map down_left_text l) ++ B ";".
(** Migrate: what is written; None: ErrNoNewMigration. mysql/migration.go 12-167: no comparison (33-60 are commented out).
    Simplified: connecting and reading the columns is the argument ex; a panic in format leaves part of the text written. *)
Definition migrate_text (t : bytes) (model : list gcol) (pk : list bytes) (ex : list ecol) : res (option bytes) :=
  match d with
  | DMySQL => let* cols := all_formatted model in Ok (Some (file_text t cols pk [] [] (map existing ex)))
  | DPostgres =>
      let bare := map (fun g => MCol (g_name g) (g_type g) (g_null g) None) model in
      match compare_cols bare (map existing ex) with
      | ([], [], _) => Ok None
      | _ => let* cols := all_formatted model in
             let '(u, n, l) := compare_cols cols (map existing ex) in Ok (Some (file_text t cols pk u n l))
      end
  | DSQLite => Ok (Some [])  (* sqlite/migration.go 9-11 *)
  end.
End Text.
