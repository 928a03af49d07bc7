(** Model of sequel/encoding/{text,pointer,json}.go and sequel/types/binary.go: columns whose Go type brings its own conversion. *)
From Verif Require Import Base ModelStrconv ModelEncoding.

Section Own.
(** A user-defined type [T] with its zero value, and what its method (Scan, UnmarshalText or UnmarshalBinary) does: [meth a x] is the value
    behind the receiver afterwards and the outcome when the receiver points to [x]; [meth_nil a] the outcome when the receiver is nil. *)
Context {T A : Type}.
Variable meth : A -> T -> T * res unit.
Variable meth_nil : A -> res unit.

(** Calling the method through the address of the field: [case Ptr: vi.M(a)] for *T, [case *Ptr: ( *vi).M(a)] for **T, which passes the
    field's pointer as it is. *)
Definition call (tgt : target T) (a : A) : scan_result T :=
  match tgt with
  | TVal x => let (y, r) := meth a x in (TVal y, r)
  | TPtr (Some x) => let (y, r) := meth a x in (TPtr (Some y), r)
  | TPtr None => (TPtr None, meth_nil a)
  end.
End Own.

Section TextScanner.
Context {T : Type}.
Variable zero : T.
Variable unmarshal : bytes -> T -> T * res unit.
Variable unmarshal_nil : bytes -> res unit.
(** strconv.FormatFloat(v,'f',-1,64) and time.Time.MarshalText, left abstract. *)
Variable format_float : N -> bytes.
Variable time_text : Z -> option bytes.

(** text.go 39-121 textScanner.Scan *)
Definition text_scanner (tgt : target T) (v : dval) : scan_result T :=
  let call := call unmarshal unmarshal_nil tgt in
  match v with
  | VNull => (store_null zero tgt, Ok tt)
  | VString s | VBytes s => call s
  | VBool b => call [chr (if b then 1 else 0)]
  | VInt z => call (format_int z)
  | VFloat f => call (format_float f)
  | VTime t => match time_text t with Some s => call s | None => (tgt, Err) end
  end.
End TextScanner.

(** text.go 21-23 textValuer.Value: the bytes of MarshalText. *)
Definition text_value {T} (marshal : T -> option bytes) (x : T) : res dval :=
  match marshal x with Some b => Ok (VBytes b) | None => Err end.

Section PtrScanner.
Context {T : Type}.
Variable scan : dval -> T -> T * res unit.
Variable scan_nil : dval -> res unit.

(** pointer.go 28-121 addrOfPtr.Scan.  The field is always a pointer.  Its type is a sql.Scanner by the constraint on Ptr, so the branches for
    TextUnmarshaler and BinaryUnmarshaler are never taken. *)
Definition ptr_scanner (p : option T) (v : dval) : scan_result T :=
  match v with
  | VNull => (TPtr None, Ok tt)
  | _ => call scan scan_nil (TPtr p) v
  end.
End PtrScanner.

(** types/binary.go 40-47 binaryUnmarshaler.Scan *)
Definition binary_scanner {T} (unmarshal : bytes -> T -> T * res unit) (x : T) (v : dval) : T * res unit :=
  match v with VBytes b => unmarshal b x | _ => (x, Err) end.
(** types/binary.go 22-24 binaryMarshaler.Value *)
Definition binary_value {T} (marshal : T -> option bytes) (x : T) : res dval :=
  match marshal x with Some b => Ok (VBytes b) | None => Err end.

(** generate.go 462-466: before the addresses are taken, nil pointers are replaced by pointers to zero values. *)
Definition addressed {T} (zero : T) (tgt : target T) : target T :=
  match tgt with TPtr None => TPtr (Some zero) | _ => tgt end.

(** The scanners a pointer column can have. *)
Inductive scan_kind := KInt | KUint | KFloat | KBool | KString | KTime | KText | KPointer | KJSON.
(** Whether the scanner writes through the pointer it finds in the field (text.go 55, pointer.go 36, json.go 62: ( *vi).M(a), Decode) or points
    the field to a new variable (int.go, uint.go, float.go, bool.go, string.go, time.go: case **T: *p = &val). *)
Definition writes_through (k : scan_kind) : bool :=
  match k with KText | KPointer | KJSON => true | _ => false end.
(** Memory: pointers held by records are numbers of cells. *)
Fixpoint set_cell {T} (h : list T) (i : nat) (x : T) : list T :=
  match h, i with
  | _ :: r, O => x :: r
  | c :: r, S j => c :: set_cell r j x
  | [], _ => []
  end.
Definition deref {T} (h : list T) (p : option nat) : target T :=
  TPtr match p with Some i => nth_error h i | None => None end.
Definition scan_cell {T} (k : scan_kind) (sc : target T -> dval -> scan_result T) (h : list T) (p : option nat) (v : dval) :
    list T * option nat * res unit :=
  match sc (deref h p) v with
  | (TPtr None, r) => (h, None, r)
  | (TPtr (Some y), r) =>
      match writes_through k, p with
      | true, Some i => (set_cell h i y, p, r)
      | true, None => (h, p, r)
      | false, _ => match r with Ok _ => (h ++ [y], Some (length h), r) | _ => (h, p, r) end
      end
  | (TVal _, r) => (h, p, r)
  end.
(** The columns of a row, one after the other (database/sql Rows.Scan stops at the first error). *)
Fixpoint scan_row {T} (scs : list (scan_kind * (target T -> dval -> scan_result T))) (h : list T) (ps : list (option nat)) (vs : list dval) {struct scs} :
    list T * list (option nat) * res unit :=
  match scs, ps, vs with
  | (k, sc) :: scs', p :: ps', v :: vs' =>
      match scan_cell k sc h p v with
      | (h', p', Ok _) => match scan_row scs' h' ps' vs' with (h'', ps'', r) => (h'', p' :: ps'', r) end
      | (h', p', r) => (h', p' :: ps', r)
      end
  | _, _, _ => (h, ps, Ok tt)
  end.
