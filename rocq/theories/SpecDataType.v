(** SQL types: which declarations exist in which database, and which values they hold. *)
From Coq Require Import List Bool ZArith.
From Verif Require Import SpecSql Base ModelMigration SpecScript.
Import ListNotations.
Open Scope Z_scope.

Inductive system := MySQLDB | PostgresDB | SQLiteDB.
Inductive sqltype :=
| TInteger (bytes : Z)           (* of that many bytes *)
| TSerial (bytes : Z)            (* integer filled by the database *)
| TBool
| TChar (n : Z)                  (* n characters, filled up with blanks *)
| TVarchar (n : Z)               (* up to n characters *)
| TText | TBlob | TJson
| TFloat (bits emin emax : Z)    (* numbers m 2^e with |m| < 2^bits, emin <= e <= emax *)
| TTimestamp (digits : Z)        (* MySQL: with that many digits of the second *)
| TTimestamptz (digits : Z)      (* PostgreSQL *)
| TArray (t : sqltype).
Definition single : sqltype := TFloat 24 (-149) 104.
Definition double : sqltype := TFloat 53 (-1074) 971.

(** ** The names of types *)
Definition word_types (db : system) : list (list bytes * sqltype) :=
  match db with
  | MySQLDB => [([B "TINYINT"], TInteger 1); ([B "SMALLINT"], TInteger 2); ([B "INT"], TInteger 4); ([B "INTEGER"], TInteger 4); ([B "BIGINT"], TInteger 8); ([B "BOOL"], TBool); ([B "BOOLEAN"], TBool);
                ([B "FLOAT"], single); ([B "DOUBLE"], double); ([B "DOUBLE"; B "PRECISION"], double); ([B "REAL"], double); ([B "CHAR"], TChar 1); ([B "TEXT"], TText); ([B "BLOB"], TBlob); ([B "JSON"], TJson); ([B "TIMESTAMP"], TTimestamp 0)]
  | PostgresDB => [([B "INT2"], TInteger 2); ([B "SMALLINT"], TInteger 2); ([B "INT4"], TInteger 4); ([B "INT"], TInteger 4); ([B "INTEGER"], TInteger 4); ([B "INT8"], TInteger 8); ([B "BIGINT"], TInteger 8);
                   ([B "SERIAL2"], TSerial 2); ([B "SMALLSERIAL"], TSerial 2); ([B "SERIAL4"], TSerial 4); ([B "SERIAL"], TSerial 4); ([B "SERIAL8"], TSerial 8); ([B "BIGSERIAL"], TSerial 8);
                   ([B "BOOL"], TBool); ([B "BOOLEAN"], TBool); ([B "REAL"], single); ([B "FLOAT4"], single); ([B "DOUBLE"; B "PRECISION"], double); ([B "FLOAT8"], double);
                   ([B "CHAR"], TChar 1); ([B "TEXT"], TText); ([B "BYTEA"], TBlob); ([B "JSON"], TJson); ([B "JSONB"], TJson); ([B "TIMESTAMPTZ"], TTimestamptz 6)]
  | SQLiteDB => [([B "INTEGER"], TInteger 8); ([B "REAL"], double); ([B "TEXT"], TText); ([B "BLOB"], TBlob); ([B "BOOL"], TBool)]
  end.
(** Types with a number in parentheses, between two bounds *)
Definition sized_types (db : system) : list (bytes * (Z -> sqltype) * Z * Z) :=
  match db with
  | MySQLDB => [(B "CHAR", TChar, 0, 255); (B "VARCHAR", TVarchar, 0, 65535); (B "TIMESTAMP", TTimestamp, 0, 6)]
  | PostgresDB => [(B "CHAR", TChar, 1, 10485760); (B "VARCHAR", TVarchar, 1, 10485760); (B "TIMESTAMPTZ", TTimestamptz, 0, 6)]
  | SQLiteDB => []
  end.
(** [ts] is a type of the database *)
Inductive is_type (db : system) : list stok -> sqltype -> Prop :=
| ty_words ts ws t : In (ws, t) (word_types db) -> Forall2 (fun w x => kw w x = true) ws ts -> is_type db ts t
| ty_sized x w ds f lo hi : In (w, f, lo, hi) (sized_types db) -> kw w x = true -> ds <> [] -> Forall (fun c => is_digit c = true) ds -> lo <= Z.of_N (number_of ds) <= hi ->
    is_type db [x; Sy "("; Wd ds; Sy ")"] (f (Z.of_N (number_of ds)))
| ty_array ts t : db = PostgresDB -> is_type db ts t -> is_type db (ts ++ [Sy "["; Sy "]"]) (TArray t)
| ty_array_of ts t ds : db = PostgresDB -> is_type db ts t -> ds <> [] -> Forall (fun c => is_digit c = true) ds -> is_type db (ts ++ [Sy "["; Wd ds; Sy "]"]) (TArray t).

(** ** Values *)
(** m 2^e *)
Definition same_number (m e m' e' : Z) : Prop := exists k, e + k >= 0 /\ e' + k >= 0 /\ m * 2 ^ (e + k) = m' * 2 ^ (e' + k).
Inductive value :=
| VText (us : list N)        (* code points *)
| VBytes (b : bytes)
| VNum (z : Z)               (* an integer *)
| VNums (l : list Z)         (* a list of integers *)
| VFloat (m e : Z)           (* m 2^e *)
| VTime (ns : Z).            (* nanoseconds since 1970 *)
(** The values of Go types: IEEE 754 numbers of 32 and 64 bits *)
Definition float32 (v : value) : Prop := exists m e, v = VFloat m e /\ Z.abs m < 2 ^ 24 /\ -149 <= e <= 104.
Definition float64 (v : value) : Prop := exists m e, v = VFloat m e /\ Z.abs m < 2 ^ 53 /\ -1074 <= e <= 971.
(** Integers of a signed or unsigned Go type of that many bits *)
Definition signed (bits : Z) (z : Z) : Prop := - 2 ^ (bits - 1) <= z < 2 ^ (bits - 1).
Definition unsigned (bits : Z) (z : Z) : Prop := 0 <= z < 2 ^ bits.
(** The column keeps the value *)
Definition second : Z := 1000000000.
(** Bytes of the UTF-8 form *)
Definition utf8_size (us : list N) : Z := fold_right (fun u n => (if N.ltb u 128 then 1 else if N.ltb u 2048 then 2 else if N.ltb u 65536 then 3 else 4) + n) 0 us.
Definition holds (db : system) (t : sqltype) (v : value) : Prop :=
  match t, v with
  (* MySQL takes the blanks at the end away, PostgreSQL adds them; a number is kept as its digits *)
  | TChar n, VText us => match db with PostgresDB => Z.of_nat (length us) = n /\ ~ In 0%N us | _ => Z.of_nat (length us) <= n /\ last us 0%N <> 32%N end
  | TChar n, VNum z => 0 <= z < 10 ^ n
  | TVarchar n, VText us => Z.of_nat (length us) <= n /\ (db = PostgresDB -> ~ In 0%N us)
  | TText, VText us => match db with PostgresDB => ~ In 0%N us | MySQLDB => utf8_size us <= 65535 | SQLiteDB => True end
  | TBlob, VBytes b => db = MySQLDB -> Z.of_nat (length b) <= 65535
  (* SQLite keeps a number in any column *)
  | TBlob, VNum z => db = SQLiteDB /\ - 2 ^ 63 <= z < 2 ^ 63
  | TArray (TInteger n), VNums l => Forall (fun z => - 2 ^ (8 * n - 1) <= z < 2 ^ (8 * n - 1)) l
  | TJson, VNums _ => True
  | TFloat bits lo hi, VFloat m e => exists m' e', Z.abs m' < 2 ^ bits /\ lo <= e' <= hi /\ same_number m e m' e'
  (* 1970-01-01 00:00:01 to 2038-01-19 03:14:07 *)
  | TTimestamp p, VTime ns => ns mod 10 ^ (9 - p) = 0 /\ second <= ns < 2147483648 * second
  (* 4713 BC to 294276 AD *)
  | TTimestamptz p, VTime ns => ns mod 10 ^ (9 - p) = 0 /\ -210866803200 * second <= ns < 9224318016000 * second
  | _, _ => False
  end.
(** A declaration: type, NOT NULL, DEFAULT *)
Record decl := Decl { d_type : sqltype; d_null : bool; d_default : option (list stok) }.
(** [x] after the name of a column declares [dc] *)
Definition declares (db : system) (x : bytes) (dc : decl) : Prop :=
  exists ts s, piece (match db with MySQLDB => true | _ => false end) x = Some ts /\ read_col (Nm (B "c") :: ts) = Some s /\ is_type db (s_type s) (d_type dc) /\ s_null s = d_null dc /\ s_default s = d_default dc.
