(** Model of sequel/encoding/json.go: columns stored as JSON. *)
From Verif Require Import Base ModelStrconv ModelArray ModelUtf8 ModelEncoding SpecJson.

(** Go types that a JSON column may have (a part of them), and their values.  An interface holds a JSON tree
    (simplified: its numbers are kept as their text, where Go keeps a float64); a map is the list of its entries in the order of the keys. *)
Inductive gtype :=
| GAny
| GBool
| GInt (bits : N)
| GString
| GSlice (t : gtype)
| GMap (t : gtype)                       (* map[string]t *)
| GStruct (fs : list (bytes * gtype))
| GPtr (t : gtype).
Inductive gval :=
| XAny (j : json)                        (* nil is XAny JNull *)
| XBool (b : bool)
| XInt (z : Z)
| XString (s : bytes)
| XSlice (l : list gval)
| XMap (l : list (bytes * gval))
| XStruct (l : list (bytes * gval))
| XPtr (x : gval)
| XNil.                                  (* nil slice, map or pointer *)

(** The zero value of a type. *)
Fixpoint zero_of (t : gtype) : gval :=
  match t with
  | GAny => XAny JNull
  | GBool => XBool false
  | GInt _ => XInt 0
  | GString => XString []
  | GSlice _ | GMap _ | GPtr _ => XNil
  | GStruct fs => XStruct (map (fun f : bytes * gtype => (fst f, zero_of (snd f))) fs)
  end.

Fixpoint lookup (k : bytes) (l : list (bytes * gval)) : option gval :=
  match l with [] => None | (n, x) :: r => if bseq n k then Some x else lookup k r end.
(** m[k] = x, the entry staying where it is *)
Fixpoint update (k : bytes) (x : gval) (l : list (bytes * gval)) : list (bytes * gval) :=
  match l with
  | [] => [(k, x)]
  | (n, y) :: r => if bseq n k then (n, x) :: r else (n, y) :: update k x r
  end.

(** encoding/json decode.go array: the elements, decoded into the old ones as far as there are any *)
Fixpoint decode_elems (d : gval -> json -> gval * bool) (z : gval) (olds : list gval) (l : list json) {struct l} : list gval * bool :=
  match l with
  | [] => ([], true)
  | j :: r =>
      let (x, ok) := d (match olds with x :: _ => x | [] => z end) j in
      let (xs, oks) := decode_elems d z (match olds with _ :: s => s | [] => [] end) r in
      (x :: xs, ok && oks)
  end.
(** decode.go object, map case: each value decoded into a new zero value and put into the map *)
Fixpoint decode_entries (d : gval -> json -> gval * bool) (z : gval) (m : list (bytes * gval)) (l : list (bytes * json)) {struct l} : list (bytes * gval) * bool :=
  match l with
  | [] => (m, true)
  | (k, j) :: r =>
      let (x, ok) := d z j in
      let (m', oks) := decode_entries d z (update k x m) r in
      (m', ok && oks)
  end.
Fixpoint find_field {A} (k : bytes) (ds : list (bytes * A)) : option A :=
  match ds with [] => None | (n, d) :: r => if bseq n k then Some d else find_field k r end.
(** decode.go object, struct case: each value decoded into the field of that name, if there is one *)
Fixpoint decode_members (ds : list (bytes * (gval -> json -> gval * bool))) (xs : list (bytes * gval)) (l : list (bytes * json)) {struct l} : list (bytes * gval) * bool :=
  match l with
  | [] => (xs, true)
  | (k, j) :: r =>
      match find_field k ds, lookup k xs with
      | Some d, Some x =>
          let (y, ok) := d x j in
          let (xs', oks) := decode_members ds (update k y xs) r in
          (xs', ok && oks)
      | _, _ => decode_members ds xs r
      end
  end.

(** encoding/json Decoder.Decode into an existing value (decode.go: value, array, object, literalStore, indirect): what is there afterwards and
    whether no UnmarshalTypeError was met.  After such an error the rest is still decoded.  Simplified: object keys match struct fields by
    exact name only; a slice has no spare capacity. *)
Fixpoint decode (t : gtype) (old : gval) (j : json) {struct t} : gval * bool :=
  match t with
  | GAny => (XAny j, true)
  | GBool => match j with JBool b => (XBool b, true) | JNull => (old, true) | _ => (old, false) end
  | GInt bits =>
      match j with
      | JNum s => match parse_int bits s with Some z => (XInt z, true) | None => (old, false) end
      | JNull => (old, true)
      | _ => (old, false)
      end
  | GString => match j with JStr s => (XString s, true) | JNull => (old, true) | _ => (old, false) end
  | GPtr t' =>
      match j with
      | JNull => (XNil, true)
      | _ => let (x, ok) := decode t' (match old with XPtr x => x | _ => zero_of t' end) j in (XPtr x, ok)
      end
  | GSlice t' =>
      match j with
      | JArr l => let (xs, ok) := decode_elems (decode t') (zero_of t') (match old with XSlice xs => xs | _ => [] end) l in (XSlice xs, ok)
      | JNull => (XNil, true)
      | _ => (old, false)
      end
  | GMap t' =>
      match j with
      | JObj l => let (m, ok) := decode_entries (decode t') (zero_of t') (match old with XMap m => m | _ => [] end) l in (XMap m, ok)
      | JNull => (XNil, true)
      | _ => (old, false)
      end
  | GStruct fs =>
      match j with
      | JObj l =>
          match old with
          | XStruct xs => let (xs', ok) := decode_members (map (fun f : bytes * gtype => (fst f, decode (snd f))) fs) xs l in (XStruct xs', ok)
          | _ => (old, false)
          end
      | JNull => (old, true)
      | _ => (old, false)
      end
  end.

Section Scanner.
(** The first value of a text and what follows it (json.Decoder reads one value and leaves the rest in its buffer). *)
Variable first_value : bytes -> option (json * bytes).
Variable t : gtype.
(** A type with its own UnmarshalJSON: what it does with the bytes it is given.  None: the type has no such method. *)
Variable own : option (bytes -> gval -> gval * res unit).

(** json.go 45-70 jsonScanner.Scan.  The texts of a type with UnmarshalJSON go through Decode too, which hands the method the bytes of the
    value; that case is left to [own] on the whole text. *)
Definition json_scanner (old : gval) (v : dval) : gval * res unit :=
  match v with
  | VNull => match own with Some f => f [] old | None => (zero_of t, Ok tt) end
  | VString s | VBytes s =>
      match own with
      | Some f => f s old
      | None =>
          match first_value s with
          | Some (j, _) => let (x, ok) := decode t old j in (x, if ok then Ok tt else Err)
          | None => (old, Err)
          end
      end
  | _ => (old, Err)
  end.
End Scanner.

(** encoding/json encode.go: the tree an Encoder writes for a value. *)
Fixpoint encode (x : gval) : json :=
  match x with
  | XAny j => j
  | XBool b => JBool b
  | XInt z => JNum (format_int z)
  | XString s => JStr s
  | XSlice l => JArr (map encode l)
  | XMap l => JObj (map (fun p : bytes * gval => (fst p, encode (snd p))) l)
  | XStruct l => JObj (map (fun p : bytes * gval => (fst p, encode (snd p))) l)
  | XPtr x => encode x
  | XNil => JNull
  end.
(** encode.go appendString with HTML escaping, one rune with its bytes; invalid UTF-8 becomes the replacement character *)
Definition json_rune (x : N * bytes * bool) : bytes :=
  match x with
  | (u, enc, ok) =>
    if negb ok then B "\ufffd"
    else if N.eqb u 34 || N.eqb u 92 then [backslash; chr u]
    else if N.eqb u 8 then B "\b"
    else if N.eqb u 12 then B "\f"
    else if N.eqb u 10 then B "\n"
    else if N.eqb u 13 then B "\r"
    else if N.eqb u 9 then B "\t"
    else if N.ltb u 32 || N.eqb u 60 || N.eqb u 62 || N.eqb u 38 then B "\u" ++ hex4 u
    else if N.eqb u 8232 || N.eqb u 8233 then B "\u" ++ hex4 u
    else enc
  end.
Definition print_string (s : bytes) : bytes := [dquote] ++ concat (map json_rune (runes s)) ++ [dquote].
(** encode.go: the text of a tree.  Numbers are written as their text. *)
Fixpoint print_json (j : json) : bytes :=
  match j with
  | JNull => B "null"
  | JBool true => B "true"
  | JBool false => B "false"
  | JNum s => s
  | JStr s => print_string s
  | JArr l => B "[" ++ join (B ",") (map print_json l) ++ B "]"
  | JObj l => B "{" ++ join (B ",") (map (fun p : bytes * json => print_string (fst p) ++ B ":" ++ print_json (snd p)) l) ++ B "}"
  end.
(** json.go 20-35 jsonValuer.Value for a type without MarshalJSON: a nil interface gives NULL, everything else its JSON text and a newline
    (Encoder.Encode). *)
Definition json_value (x : gval) : res dval :=
  match x with
  | XAny JNull => Ok VNull
  | _ => Ok (VBytes (print_json (encode x) ++ [LF]))
  end.
