(** Model of sequel/encoding: column scanners and list marshalers. *)
From Verif Require Import Base ModelStrconv ModelUtf8.

(** database/sql driver.Value: what a driver can hand to Scan. Floats and times are opaque
    (identified by their bits / an abstract number). *)
Inductive dval :=
| VNull
| VBool (b : bool)
| VInt (z : Z)              (* int64 *)
| VFloat (bits : N)         (* float64 *)
| VBytes (b : bytes)        (* []byte *)
| VString (s : bytes)
| VTime (t : Z).

(** A scan target: [*T] (a field of type T) or [**T] (a pointer field; nil is None).
    encoding.go: addrOrPtr. *)
Inductive target (T : Type) :=
| TVal (v : T)
| TPtr (v : option T).
Arguments TVal {T} v.
Arguments TPtr {T} v.

(** The repeated "switch any(addr).(type) { case **T: *p = &val; case *T: *p = val }". *)
Definition store {T} (tgt : target T) (v : T) : target T :=
  match tgt with TVal _ => TVal v | TPtr _ => TPtr (Some v) end.
(** The repeated nil case: pointer becomes nil, value becomes the zero value. *)
Definition store_null {T} (zero : T) (tgt : target T) : target T :=
  match tgt with TVal _ => TVal zero | TPtr _ => TPtr None end.

Definition scan_result T := (target T * res unit)%type.

(** int.go 50-95 signedIntScanner.Scan: text goes through ParseInt with the field's width,
    int64 through the conversion T(vi). Strings are rejected. *)
Definition int_scanner (bits : N) (tgt : target Z) (v : dval) : scan_result Z :=
  match v with
  | VNull => (store_null 0%Z tgt, Ok tt)
  | VBytes b => match parse_int bits b with
                | Some n => (store tgt (convert (Signed bits) n), Ok tt)
                | None => (tgt, Err)
                end
  | VInt z => (store tgt (convert (Signed bits) z), Ok tt)
  | _ => (tgt, Err)
  end.

(** uint.go 51-96 unsignedIntScanner.Scan. *)
Definition uint_scanner (bits : N) (tgt : target Z) (v : dval) : scan_result Z :=
  match v with
  | VNull => (store_null 0%Z tgt, Ok tt)
  | VBytes b => match parse_uint bits b with
                | Some n => (store tgt (convert (Unsigned bits) (Z.of_N n)), Ok tt)
                | None => (tgt, Err)
                end
  | VInt z => (store tgt (convert (Unsigned bits) z), Ok tt)
  | _ => (tgt, Err)
  end.

(** strconv.ParseBool *)
Definition parse_bool (s : bytes) : option bool :=
  if bmem s [B "1"; B "t"; B "T"; B "true"; B "TRUE"; B "True"] then Some true
  else if bmem s [B "0"; B "f"; B "F"; B "false"; B "FALSE"; B "False"] then Some false
  else None.

(** bool.go 27-107 boolScanner.Scan; [strict] is strictType. *)
Definition bool_scanner (strict : bool) (tgt : target bool) (v : dval) : scan_result bool :=
  let text s := if strict then (tgt, Err)
                else match parse_bool s with Some b => (store tgt b, Ok tt) | None => (tgt, Err) end in
  match v with
  | VNull => (store_null false tgt, Ok tt)
  | VBool b => (store tgt b, Ok tt)
  | VInt z => (store tgt (negb (Z.eqb z 0)), Ok tt)
  | VBytes s | VString s => text s
  | _ => (tgt, Err)
  end.

(** strings.ToUpper restricted to ASCII letters (the compared constants are ASCII; non-ASCII letters
    whose upper case is ASCII are not modelled). *)
Definition to_upper_byte (c : byte) : byte := if is_lower c then chr (code c - 32) else c.
Definition to_upper (s : bytes) : bytes := map to_upper_byte s.

(** cmd/sqlgen/internal/sqltype/bool.go 14-52 Bool.Scan. *)
Definition sqltype_bool_scan (b : bool) (v : dval) : bool * res unit :=
  let text s :=
    if bseq (to_upper s) (B "YES") then (true, Ok tt)
    else if bseq (to_upper s) (B "NO") then (false, Ok tt)
    else match parse_bool s with Some f => (f, Ok tt) | None => (b, Err) end in
  match v with
  | VBytes s | VString s => text s
  | VInt z => (if Z.eqb z 1 then false else true, Ok tt)
  | _ => (b, Err)
  end.

(** strconv.FormatBool *)
Definition format_bool (b : bool) : bytes := if b then B "true" else B "false".

Section StringScanner.
(** strconv.FormatFloat(v,'f',-1,64) and time.Time.String, left abstract. *)
Variable format_float : N -> bytes.
Variable time_string : Z -> bytes.

(** string.go 31-126 strScanner.Scan. *)
Definition string_scanner (strict : bool) (tgt : target bytes) (v : dval) : scan_result bytes :=
  match v with
  | VNull => (store_null [] tgt, Ok tt)
  | VString s | VBytes s => (store tgt s, Ok tt)
  | VBool b => if strict then (tgt, Err) else (store tgt (format_bool b), Ok tt)
  | VInt z => if strict then (tgt, Err) else (store tgt (format_int z), Ok tt)
  | VFloat f => if strict then (tgt, Err) else (store tgt (format_float f), Ok tt)
  | VTime t => if strict then (tgt, Err) else (store tgt (time_string t), Ok tt)
  end.
End StringScanner.

(** Overwrite the first elements of an array: for i := range src { dst[i] = src[i] }. *)
Fixpoint overwrite {T} (dst src : list T) : list T :=
  match src, dst with
  | x :: src', _ :: dst' => x :: overwrite dst' src'
  | _, _ => dst
  end.

(** byte_array.go 18-46. The array [v] has length [size]; it is written through a slice. *)
Definition byte_array_scan (v : bytes) (src : dval) : bytes * res unit :=
  let size := length v in
  match src with
  | VNull => (repeat (chr 0) size, Ok tt)
  | VString b | VBytes b => if Nat.ltb size (length b) then (v, Err) else (overwrite v b, Ok tt)
  | _ => (v, Err)
  end.

(** rune_array.go 23-33: the []byte loop; elements are written before an overflow is noticed.
    [pos] elements are already written in [v]. *)
Fixpoint write_runes (us : list N) (i : nat) (v : list N) : list N * res unit :=
  match us with
  | [] => (v, Ok tt)
  | u :: us' =>
    if Nat.leb (length v) i then (v, Err)
    else write_runes us' (S i) (firstn i v ++ u :: skipn (S i) v)
  end.

(** rune_array.go 34-40: [for i := range vi] visits the byte offsets at which runes start and
    stores the byte found there. *)
Fixpoint write_lead_bytes (rs : list (N * bytes * bool)) (off : nat) (v : list N) : list N :=
  match rs with
  | [] => v
  | (_, enc, _) :: rs' =>
    let b := match enc with c :: _ => code c | [] => 0%N end in
    write_lead_bytes rs' (off + length enc) (firstn off v ++ b :: skipn (S off) v)
  end.

(** rune_array.go 18-45. In the nil case a fresh slice replaces the scanner's own slice, so the
    caller's array keeps its content. *)
Definition rune_array_scan (v : list N) (src : dval) : list N * res unit :=
  match src with
  | VNull => (v, Ok tt)
  | VBytes b => write_runes (map (fun r => fst (fst r)) (runes b)) 0 v
  | VString s => if Nat.ltb (length v) (length s) then (v, Err)
                 else (write_lead_bytes (runes s) 0 v, Ok tt)
  | _ => (v, Err)
  end.

(** marshaler.go: the list marshalers share this shape; 10-22, 24-36, 38-50, 52-64. *)
Definition marshal_list {A} (enc : A -> bytes) (l : list A) : bytes :=
  match l with
  | [] => B "[]"
  | x :: r => B "[" ++ enc x ++ concat (map (fun y => B "," ++ enc y) r) ++ B "]"
  end.

(** strconv.Quote on one rune (strconv/quote.go appendEscapedRune with the double quote, ASCIIonly = false).
    [printable] is unicode printability (strconv.IsPrint), a parameter for non-ASCII runes. *)
Section GoQuote.
Variable printable : N -> bool.
Definition hex2 (n : N) : bytes := [hex_digit (n / 16); hex_digit (n mod 16)].
Definition hex4 (n : N) : bytes := hex2 (n / 256) ++ hex2 (n mod 256).
Definition quote_rune (r : N * bytes * bool) : bytes :=
  match r with
  | (u, enc, ok) =>
    if negb ok then B "\x" ++ concat (map (fun c => hex2 (code c)) enc)
    else if N.eqb u 34 || N.eqb u 92 then backslash :: enc
    else if (if N.ltb u 128 then (N.leb 32 u && N.leb u 126) else printable u) then enc
    else if N.eqb u 7 then B "\a" else if N.eqb u 8 then B "\b" else if N.eqb u 12 then B "\f"
    else if N.eqb u 10 then B "\n" else if N.eqb u 13 then B "\r" else if N.eqb u 9 then B "\t"
    else if N.eqb u 11 then B "\v"
    else if N.ltb u 32 || N.eqb u 127 then B "\x" ++ hex2 u
    else if N.ltb u 65536 then B "\u" ++ hex4 u
    else B "\U" ++ hex4 (u / 65536) ++ hex4 (u mod 65536)
  end.
Definition go_quote (s : bytes) : bytes := dquote :: concat (map quote_rune (runes s)) ++ [dquote].
Definition marshal_string_slice := marshal_list go_quote.
End GoQuote.

Definition marshal_int_slice := marshal_list format_int.
Definition marshal_uint_slice := marshal_list (fun z => format_uint (Z.to_N z)).
Definition marshal_bool_slice := marshal_list format_bool.

(** Memory of byte slices. A driver may reuse the buffer behind a []byte it passed to Scan
    (database/sql Scanner contract), so a stored slice is either an own copy or a reference to a
    driver buffer. *)
Inductive slice := Own (b : bytes) | Shared (buf : nat).
Definition memory := nat -> bytes.
Definition deref (m : memory) (s : slice) : bytes :=
  match s with Own b => b | Shared i => m i end.

(** string.go 56-67: [val := T(vi)] for a []byte source held in driver buffer [buf]. The conversion
    copies when T is a string type and keeps the same backing array when T is a []byte type
    (the scanner the dialects map []byte columns to: mysql/column_type.go 139-143,
    postgres/column_type.go, sqlite/column_type.go, entry "[]byte"). *)
Inductive text_kind := StringKind | BytesKind.
Definition string_scan_bytes (k : text_kind) (m : memory) (buf : nat) : slice :=
  match k with StringKind => Own (m buf) | BytesKind => Shared buf end.
(** string.go 44-55: a string source is immutable; T(vi) copies for []byte types. *)
Definition string_scan_string (k : text_kind) (s : bytes) : slice := Own s.

(** Generated valuers and scanners of the integer columns: mysql/column_type.go 43-92 (and the same
    entries in postgres and sqlite): Valuer (int64)(v), Scanner per width. uint64 is passed as is;
    drivers deliver it as text. *)
Definition int_valuer (z : Z) : dval := VInt (convert (Signed 64) z).
