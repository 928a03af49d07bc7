(** Model of the array codecs:
    - sequel/driver/postgres/pgtype/{array,string_array,bool_array,int_array,uint_array,byte_array}.go
    - sequel/sqltype/{string_slice,bool_slice,int_slice,uint_slice}.go
    The two packages differ only in the bracket characters ({} vs []) and in the integer readers,
    so brackets are a parameter. *)
From Verif Require Import Base ModelStrconv.

(** Opening and closing bracket of an encoding. *)
Record brackets := { opn : byte; cls : byte }.
Definition pg : brackets := {| opn := "{"%char; cls := "}"%char |}.     (* pgtype *)
Definition js : brackets := {| opn := "["%char; cls := "]"%char |}.     (* sqltype *)

Definition comma : byte := ","%char.

(** dims[k]++ and dims[k] = 0; [None] is an index out of range (run-time panic). *)
Fixpoint upd_nth (k : nat) (f : nat -> nat) (l : list nat) {struct l} : option (list nat) :=
  match l, k with
  | [], _ => None
  | x :: l', O => Some (f x :: l')
  | x :: l', S k' => match upd_nth k' f l' with Some r => Some (x :: r) | None => None end
  end.

(** Parser variables of parseArray: depth, dims, elems (nil element = None). *)
Record pstate := { depth : nat; dims : list nat; elems : list (option bytes) }.

(** Where the parser is (pgtype/array.go, sqltype/string_slice.go):
    - [MOpen]      label Open      (82-94  / 78-90)
    - [MElem]      label Element   (97-142 / 93-138)
    - [MQuote e esc] inside the quoted element loop (107-126 / 103-122)
    - [MRaw e]     inside the unquoted element loop (127-140 / 123-136), [e] read so far, non-empty
    - [MDelim]     delimiter loop  (144-156 / 140-152)
    - [MClose]     label Close     (158-166 / 154-162) *)
Inductive mode :=
| MOpen
| MElem
| MQuote (e : bytes) (esc : bool)
| MRaw (e : bytes)
| MDelim
| MClose.

(** Unquoted NULL is the nil element (134-136 / 130-132). *)
Definition raw_elem (e : bytes) : option bytes :=
  if bseq e (B "NULL") then None else Some e.

Definition push_elem (e : option bytes) (st : pstate) : pstate :=
  {| depth := depth st; dims := dims st; elems := elems st ++ [e] |}.

(** End of input: 167-177 / 163-173. depth > 0 is an error; a zero dimension would be a
    modulo by zero (panic); the loop does not stop at the first mismatch. *)
Definition finish (m : mode) (st : pstate) : res (list nat * list (option bytes)) :=
  match m with
  | MClose =>
    if Nat.ltb 0 (depth st) then Err
    else Ok ([], elems st)                       (* dims is still nil: 88-90 *)
  | _ =>
    if Nat.ltb 0 (depth st) then Err
    else if existsb (Nat.eqb 0) (dims st) then Panic
    else if forallb (fun d => Nat.eqb (Nat.modulo (length (elems st)) d) 0) (dims st)
         then Ok (dims st, elems st)
         else Err
  end.

(** parseArray with the delimiter specialised to "," (its only caller passes []byte{','}).
    One recursion step consumes one byte; gotos that do not consume a byte are the local
    functions [delim] and [element]. *)
Fixpoint go (br : brackets) (src : bytes) (m : mode) (st : pstate) {struct src}
  : res (list nat * list (option bytes)) :=
  match src with
  | [] => finish m st
  | c :: r =>
    (* one iteration of the delimiter loop on byte c: 144-156 / 140-152 *)
    let delim (st : pstate) :=
      if beq c comma && Nat.ltb 0 (depth st) then
        match upd_nth (depth st - 1) S (dims st) with
        | None => Panic
        | Some d => go br r MElem {| depth := depth st; dims := d; elems := elems st |}
        end
      else if beq c (cls br) && Nat.ltb 0 (depth st) then
        match upd_nth (depth st - 1) S (dims st) with
        | None => Panic
        | Some d => go br r MDelim {| depth := depth st - 1; dims := d; elems := elems st |}
        end
      else Err in
    (* one iteration of the Element loop on byte c: 97-142 / 93-138 *)
    let element (st : pstate) :=
      if beq c (opn br) then
        if Nat.eqb (depth st) (length (dims st)) then delim st          (* break Element *)
        else
          match upd_nth (depth st) (fun _ => 0) (dims st) with
          | None => Panic
          | Some d => go br r MElem {| depth := S (depth st); dims := d; elems := elems st |}
          end
      else if beq c dquote then go br r (MQuote [] false) st
      else if beq c comma || beq c (cls br) then Err                   (* empty element *)
      else go br r (MRaw [c]) st in
    match m with
    | MOpen =>
      if beq c (opn br) then
        go br r MOpen {| depth := S (depth st); dims := dims st; elems := elems st |}
      else if beq c (cls br) then
        (* goto Close on the same byte: 88-90, 159-166 *)
        if Nat.ltb 0 (depth st) then
          go br r MClose {| depth := depth st - 1; dims := []; elems := [] |}
        else Err
      else
        (* dims = make([]int, i): 95 (i = number of opening brackets = depth) *)
        element {| depth := depth st; dims := repeat 0 (depth st); elems := elems st |}
    | MElem => element st
    | MQuote e true => go br r (MQuote (e ++ [c]) false) st
    | MQuote e false =>
      if beq c backslash then go br r (MQuote e true) st
      else if beq c dquote then go br r MDelim (push_elem (Some e) st)
      else go br r (MQuote (e ++ [c]) false) st
    | MRaw e =>
      if beq c comma || beq c (cls br) then delim (push_elem (raw_elem e) st)
      else go br r (MRaw (e ++ [c])) st
    | MDelim => delim st
    | MClose =>
      if beq c (cls br) && Nat.ltb 0 (depth st) then
        go br r MClose {| depth := depth st - 1; dims := dims st; elems := elems st |}
      else Err
    end
  end.

(** At end of input inside Open, dims = make([]int, i) still happens (95), but depth > 0 then. *)
Definition parse_array (br : brackets) (src : bytes) : res (list nat * list (option bytes)) :=
  match src with
  | [] => Err                                                   (* 78-80 *)
  | c :: _ => if beq c (opn br)
              then go br src MOpen {| depth := 0; dims := []; elems := [] |}
              else Err
  end.

(** scanLinearArray: pgtype/array.go 180-189, sqltype/string_slice.go 176-185 *)
Definition scan_linear (br : brackets) (src : bytes) : res (list (option bytes)) :=
  let* de := parse_array br src in
  if Nat.ltb 1 (length (fst de)) then Err else Ok (snd de).

(** appendArrayQuotedBytes: pgtype/array.go 191-206, sqltype/string_slice.go 187-202.
    The IndexAny/append loop copies every byte and prefixes backslash to quote and backslash. *)
Fixpoint escape_elem (v : bytes) : bytes :=
  match v with
  | [] => []
  | c :: v' => if beq c dquote || beq c backslash then backslash :: c :: escape_elem v'
               else c :: escape_elem v'
  end.
Definition quote_elem (v : bytes) : bytes := dquote :: escape_elem v ++ [dquote].

(** The common shape of every Value method: nil gives NULL; otherwise bracketed, comma separated.
    pgtype: string_array.go 13-33, bool_array.go 19-43, array.go 25-67;
    sqltype: string_slice.go 15-35, bool_slice.go 19-43, int_slice.go 105-125, uint_slice.go 104-124. *)
Definition array_value {A} (br : brackets) (enc : A -> bytes) (a : option (list A)) : option bytes :=
  match a with
  | None => None
  | Some l => Some (opn br :: join [comma] (map enc l) ++ [cls br])
  end.

Definition string_value (br : brackets) := array_value br quote_elem.
Definition bool_value (br : brackets) :=
  array_value br (fun b : bool => if b then B "t" else B "f").
Definition int_value (br : brackets) := array_value br format_int.
(** uintArrayValue / uintSliceValue convert to uint64 and use FormatUint. *)
Definition uint_value (br : brackets) := array_value br (fun z => format_uint (Z.to_N z)).
(** ByteaArray.Value: pgtype/byte_array.go 22-50; each element is "\\x<hex>" in quotes. *)
Definition bytea_value :=
  array_value pg (fun x => dquote :: backslash :: backslash :: "x"%char :: hex_encode x ++ [dquote]).

(** Database value handed to Scan. *)
Inductive dbsrc := SNull | SBytes (b : bytes) | SString (s : bytes) | SOther.

(** Read all elements in order; the first bad element aborts. *)
Fixpoint all_elems {A} (dec : option bytes -> option A) (l : list (option bytes)) : option (list A) :=
  match l with
  | [] => Some []
  | e :: l' => match dec e with
               | None => None
               | Some a => match all_elems dec l' with Some r => Some (a :: r) | None => None end
               end
  end.

(** Common shape of scanBytes: returns the new destination and the outcome.
    pgtype: int_array.go 69-89, string_array.go 49-67, bool_array.go 59-84, byte_array.go 67-85;
    sqltype: int_slice.go 69-89, uint_slice.go 70-89, string_slice.go 51-69, bool_slice.go 59-84. *)
Definition scan_bytes {A} (br : brackets) (dec : option bytes -> option A)
           (dst : option (list A)) (src : bytes) : option (list A) * res unit :=
  match scan_linear br src with
  | Err => (dst, Err)
  | Panic => (dst, Panic)
  | Ok es =>
    match dst, es with
    | Some _, [] => (Some [], Ok tt)                 (* *a = ( *a)[:0] *)
    | _, _ => match all_elems dec es with
              | Some b => (Some b, Ok tt)
              | None => (dst, Err)
              end
    end
  end.

(** Common shape of Scan / arrayScan / arrayUScan: pgtype/array.go 11-23, string_array.go 36-47,
    bool_array.go 46-57, byte_array.go 53-65; sqltype/string_slice.go 38-49, bool_slice.go 46-57,
    int_slice.go 91-103, uint_slice.go 91-102. *)
Definition scan {A} (br : brackets) (dec : option bytes -> option A)
           (dst : option (list A)) (src : dbsrc) : option (list A) * res unit :=
  match src with
  | SBytes b | SString b => scan_bytes br dec dst b
  | SNull => (None, Ok tt)
  | SOther => (dst, Err)
  end.

(** Element readers. *)
(** string_array.go 59-62: nil element is an error. *)
Definition dec_string (e : option bytes) : option bytes := e.
(** bool_array.go 69-79: exactly one byte, t or f. *)
Definition dec_bool (e : option bytes) : option bool :=
  match e with
  | Some [c] => if beq c "t"%char then Some true else if beq c "f"%char then Some false else None
  | _ => None
  end.
(** int_array.go 80-84 (also used by the pgtype Uint*Array types): ParseInt 64 then T(n).
    A nil element is the empty string, which ParseInt rejects. *)
Definition dec_int_conv (k : ikind) (e : option bytes) : option Z :=
  match parse_int 64 (match e with Some s => s | None => [] end) with
  | Some n => Some (convert k n)
  | None => None
  end.
(** uint_slice.go 80-84: ParseUint with the element's bit size. *)
Definition dec_uint_checked (bits : N) (e : option bytes) : option Z :=
  match parse_uint bits (match e with Some s => s | None => [] end) with
  | Some n => Some (Z.of_N n)
  | None => None
  end.

(** strconv.ParseUint(s, 8, 8) on exactly three bytes. *)
Definition oct_val (c : byte) : option N :=
  if in_range 48 55 c then Some (code c - 48)%N else None.
Definition parse_octal3 (a b c : byte) : option byte :=
  match oct_val a, oct_val b, oct_val c with
  | Some x, Some y, Some z =>
    let n := (x * 64 + y * 8 + z)%N in if N.ltb n 256 then Some (chr n) else None
  | _, _, _ => None
  end.

(** Legacy escape format of bytea: byte_array.go 98-131. *)
Fixpoint bytea_escape_decode (s : bytes) : option bytes :=
  match s with
  | [] => Some []
  | c :: s1 =>
    if beq c backslash then
      match s1 with
      | d :: s2 =>
        if beq d backslash then option_map (cons backslash) (bytea_escape_decode s2)
        else match s2 with
             | e :: f :: s4 =>
               match parse_octal3 d e f with
               | Some v => option_map (cons v) (bytea_escape_decode s4)
               | None => None
               end
             | _ => None
             end
      | [] => None
      end
    else option_map (cons c) (bytea_escape_decode s1)
  end.

(** parseBytea: byte_array.go 89-134. nil and empty results are not distinguished. *)
Definition parse_bytea (e : option bytes) : option bytes :=
  match e with
  | Some (a :: b :: s) =>
    if beq a backslash && beq b "x"%char then hex_decode s
    else bytea_escape_decode (a :: b :: s)
  | Some s => bytea_escape_decode s
  | None => Some []
  end.

(** The exported types: element kind, writer and reader. *)
Definition pg_string_scan := scan pg dec_string.
Definition js_string_scan := scan js dec_string.
Definition pg_bool_scan := scan pg dec_bool.
Definition js_bool_scan := scan js dec_bool.
Definition pg_bytea_scan := scan pg parse_bytea.
Definition pg_int_scan (bits : N) := scan pg (dec_int_conv (Signed bits)).
Definition js_int_scan (bits : N) := scan js (dec_int_conv (Signed bits)).
(** pgtype/uint_array.go 19-64 goes through the signed reader. *)
Definition pg_uint_scan (bits : N) := scan pg (dec_int_conv (Unsigned bits)).
Definition js_uint_scan (bits : N) := scan js (dec_uint_checked bits).

(** Float arrays: sqltype/float_slice.go 15-133 and pgtype/float_array.go (same with {}).
    [fmt] is strconv.AppendFloat(v,'f',-1,bits) and [parse] strconv.ParseFloat(s,bits) followed by
    T(f); both are library functions and stay abstract. A nil element is the empty string. *)
Section Floats.
Variable F : Type.
Variable fmt : F -> bytes.
Variable parse : bytes -> option F.
Definition float_value (br : brackets) := array_value br fmt.
Definition dec_float (e : option bytes) : option F := parse (match e with Some s => s | None => [] end).
Definition float_scan (br : brackets) := scan br dec_float.
End Floats.
