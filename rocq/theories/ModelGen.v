(** Model of /repo/cmd/sqlgen/codegen/generate.go: the statements and lists the generator writes
    into a model's methods, and of the three built-in dialects. *)
From Verif Require Import Base ModelStrconv ModelUtf8 ModelEncoding ModelCompiler.

Inductive driver := DMySQL | DPostgres | DSQLite.

Section Gen.
Variable printable : N -> bool.      (* strconv.IsPrint for non-ASCII runes *)

(** dialect/mysql/mysql.go:27, dialect/postgres/postgres.go:32, dialect/sqlite/sqlite.go:31 QuoteVar *)
Definition quote_var (d : driver) (n : nat) : bytes :=
  match d with DPostgres => B "$" ++ itoa n | _ => B "?" end.
(** QuoteIdentifier of the same files (mysql.go:31, postgres.go:36, sqlite.go:35) *)
Definition dialect_quote (d : driver) (v : bytes) : bytes :=
  match d with DMySQL => backtick :: v ++ [backtick] | _ => go_quote printable v end.
(** generate.go:54-61: the quote character of Go literals, from the dialect's QuoteRune *)
Definition quote_char (d : driver) : byte := match d with DMySQL => dquote | _ => backtick end.
(** generate.go:63 staticVar *)
Definition static_var (d : driver) : bool := bseq (quote_var d 1) (quote_var d 0).

(** generate.go:95-103 Quote: [for i := range str] visits the first byte of each rune. *)
Definition gen_quote (d : driver) (s : bytes) : bytes :=
  quote_char d :: map (fun r => hd zero (snd (fst r))) (runes s) ++ [quote_char d].

(** generate.go:105-114: MustQuoteIdentifier and QuoteIdentifier ([on] is config.QuoteIdentifier) *)
Definition must_quote := dialect_quote.
Definition quote_id (d : driver) (on : bool) (v : bytes) : bytes := if on then dialect_quote d v else v.

(** A Go expression of type string, as generated: literals and calls of v.TableName(). *)
Inductive piece := Lit (source : bytes) | CallTableName.

(** generate.go:746-758 sqlScanner, 760-772 sqlValuer *)
Definition sql_scanner (d : driver) (c : column) : bytes :=
  fst (c_unwrap c) ++ must_quote d (c_name c) ++ snd (c_unwrap c).
Definition sql_valuer (d : driver) (c : column) (idx : nat) : bytes :=
  fst (c_wrap c) ++ quote_var d (idx + 1) ++ snd (c_wrap c).
(** the loop [for i, f := range columns { ... sqlValuer(f, i+off) }] *)
Fixpoint sql_valuers (d : driver) (cs : list column) (i : nat) : list bytes :=
  match cs with [] => [] | c :: cs' => sql_valuer d c i :: sql_valuers d cs' (S i) end.

(** generate.go:542-605 buildInsertOne: statement and the columns whose values are its arguments.
    [own] is true when the user has written TableName.  generate.go:215-217, 248: only generated for a
    model that is not read-only and has insertable columns. *)
Definition insert_text (d : driver) (t : table) : bytes :=
  let cols := insert_columns t in
  B " (" ++ join (B ",") (map (fun c => must_quote d (c_name c)) cols) ++ B ") VALUES ("
  ++ join (B ",") (sql_valuers d cols 0) ++ B ")"
  ++ match d with
     | DPostgres => B " RETURNING " ++ join (B ",") (map (sql_scanner d) (t_columns t))
     | _ => []
     end
  ++ B ";".
Definition gen_insert_one (d : driver) (own : bool) (t : table) : option (list piece * list column) :=
  if t_readonly t then None
  else match insert_columns t with
       | [] => None
       | cols =>
           Some (if own then [Lit (gen_quote d (B "INSERT INTO ")); CallTableName; Lit (gen_quote d (insert_text d t))]
                 else [Lit (gen_quote d (B "INSERT INTO " ++ must_quote d (t_name t) ++ insert_text d t))], cols)
       end.

(** The key condition of FindByPK and UpdateByPK.  Single key: generate.go:500-504 / 630-636 with the
    number of its placeholder; composite: 505-522 / 637-654, numbered from [off]+1. *)
Definition single_key (t : table) : option column :=
  match t_auto t, t_keys t with Some a, _ => Some a | None, [k] => Some k | None, _ => None end.
Definition key_condition (d : driver) (t : table) (single off : nat) : bytes :=
  match single_key t with
  | Some pk => must_quote d (c_name pk) ++ B " = " ++ quote_var d single
  | None =>
      B "(" ++ join (B ",") (map (fun c => must_quote d (c_name c)) (t_keys t)) ++ B ")" ++ B " = "
      ++ B "(" ++ join (B ",") (sql_valuers d (t_keys t) off) ++ B ")"
  end.
(** The columns whose values follow as arguments (526-536, 632, 636, 654). *)
Definition key_columns (t : table) : list column :=
  match t_auto t with Some a => [a] | None => t_keys t end.

(** generate.go:476-540 buildFindByPK; 252: only for a table with a key. *)
Definition gen_find_by_pk (d : driver) (own : bool) (t : table) : option (list piece * list column) :=
  if has_pk t then
    let sel := B "SELECT " ++ join (B ",") (map (sql_scanner d) (t_columns t)) ++ B " FROM " in
    let wh := B " WHERE " ++ key_condition d t 1 0 ++ B " LIMIT 1;" in
    Some (if own then [Lit (gen_quote d sel); CallTableName; Lit (gen_quote d wh)]
          else [Lit (gen_quote d (sel ++ must_quote d (t_name t) ++ wh))], key_columns t)
  else None.

(** generate.go:607-670 buildUpdateByPK; 254: only when the table is not read-only and has a column
    to update.  The single key's placeholder is numbered len(t.Columns) (631, 635). *)
Fixpoint assignments_text (d : driver) (cs : list column) (i : nat) : list bytes :=
  match cs with
  | [] => []
  | c :: cs' => (must_quote d (c_name c) ++ B " = " ++ sql_valuer d c i) :: assignments_text d cs' (S i)
  end.
Definition gen_update_by_pk (d : driver) (own : bool) (t : table) : option (list piece * list column) :=
  if has_pk t && negb (t_readonly t) then
    match columns_without_pk t with
    | [] => None
    | cols =>
        let body := B " SET " ++ join (B ",") (assignments_text d cols 0) ++ B " WHERE "
                    ++ key_condition d t (length (t_columns t)) (length cols) ++ B ";" in
        Some (if own then [Lit (gen_quote d (B "UPDATE ")); CallTableName; Lit (gen_quote d body)]
              else [Lit (gen_quote d (B "UPDATE " ++ must_quote d (t_name t) ++ body))],
              cols ++ key_columns t)
    end
  else None.

(** generate.go:144-150 TableName, 182-196 Columns, 219-228 InsertColumns (when it differs from Columns):
    Go literals, one per column. *)
Definition gen_table_name (d : driver) (on : bool) (t : table) : bytes := gen_quote d (quote_id d on (t_name t)).
Definition gen_columns (d : driver) (on : bool) (t : table) : list bytes :=
  map (fun c => gen_quote d (quote_id d on (c_name c))) (t_columns t).
Definition gen_insert_columns (d : driver) (on : bool) (t : table) : list bytes :=
  map (fun c => gen_quote d (quote_id d on (c_name c))) (insert_columns t).
(** generate.go:411-444 buildSqlColumns: only with a configured SQLScanner; identifiers quoted by QuoteIdentifier. *)
Definition gen_sql_columns (d : driver) (on : bool) (t : table) : list bytes :=
  map (fun c => gen_quote d (fst (c_unwrap c) ++ quote_id d on (c_name c) ++ snd (c_unwrap c))) (t_columns t).

(** generate.go:154-173 and 384-409: PK() / CompositeKey() as literals and positions; the composite form does
    not apply QuoteIdentifier (391). *)
Inductive key_meta :=
| PK (name : bytes) (pos : nat) (value : column)
| CompositeKey (names : list bytes) (pos : list nat) (values : list column).
Definition gen_key (d : driver) (on : bool) (t : table) : option key_meta :=
  if has_pk t then
    Some (match single_key t with
          | Some pk => PK (gen_quote d (quote_id d on (c_name pk))) (c_pos pk) pk
          | None => CompositeKey (map (fun c => gen_quote d (c_name c)) (t_keys t)) (map c_pos (t_keys t)) (t_keys t)
          end)
  else None.

(** generate.go:446-458 buildValuer: the columns listed by Values(); 460-474 buildScanner: by Addrs() *)
Definition gen_values (t : table) : list column := insert_columns t.
Definition gen_addrs (t : table) : list column := t_columns t.

(** generate.go:230-246 InsertPlaceholders(row) *)
Definition gen_insert_placeholders (d : driver) (t : table) (row : nat) : bytes :=
  let n := length (insert_columns t) in
  match d with
  | DPostgres => B "(" ++ join (B ",") (map (fun i => B "$" ++ itoa (row * n + (i + 1))) (seq 0 n)) ++ B ")"
  | _ => B "(" ++ tl (repeat_bytes (B "," ++ quote_var d 0) n) ++ B ")"
  end.
End Gen.
