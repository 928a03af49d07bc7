(** Model of the parts of Go's strconv and of Go's integer conversions that the code uses.
    These are library functions; their contract is part of the trusted base. *)
From Verif Require Import Base.
From Coq Require Import Decimal.

(** Digits of a decimal literal, most significant first. *)
Fixpoint uint_bytes (u : Decimal.uint) : bytes :=
  match u with
  | Nil => []
  | D0 u => "0"%char :: uint_bytes u
  | D1 u => "1"%char :: uint_bytes u
  | D2 u => "2"%char :: uint_bytes u
  | D3 u => "3"%char :: uint_bytes u
  | D4 u => "4"%char :: uint_bytes u
  | D5 u => "5"%char :: uint_bytes u
  | D6 u => "6"%char :: uint_bytes u
  | D7 u => "7"%char :: uint_bytes u
  | D8 u => "8"%char :: uint_bytes u
  | D9 u => "9"%char :: uint_bytes u
  end.

(** strconv.FormatUint(n, 10) / AppendUint *)
Definition format_uint (n : N) : bytes := uint_bytes (N.to_uint n).

(** strconv.FormatInt(z, 10) / AppendInt / Itoa *)
Definition format_int (z : Z) : bytes :=
  match z with
  | Zneg p => "-"%char :: format_uint (Npos p)
  | _ => format_uint (Z.to_N z)
  end.

Definition itoa (n : nat) : bytes := format_uint (N.of_nat n).

(** Unsigned decimal digits; [None] on the empty string or a non-digit. *)
Fixpoint digits_val (acc : N) (s : bytes) : option N :=
  match s with
  | [] => Some acc
  | c :: s' => if is_digit c then digits_val (acc * 10 + (code c - 48)) s' else None
  end.

Definition parse_digits (s : bytes) : option N :=
  match s with [] => None | _ => digits_val 0 s end.

(** strconv.ParseUint(s, 10, bits): no sign allowed; out of range is an error. *)
Definition parse_uint (bits : N) (s : bytes) : option N :=
  match parse_digits s with
  | Some n => if N.ltb n (2 ^ bits) then Some n else None
  | None => None
  end.

(** strconv.ParseInt(s, 10, bits): optional + or -; out of range is an error. *)
Definition parse_int (bits : N) (s : bytes) : option Z :=
  let finish (neg : bool) (d : bytes) :=
    match parse_digits d with
    | None => None
    | Some n =>
      let cutoff := (2 ^ (bits - 1))%N in
      if neg then (if N.leb n cutoff then Some (- Z.of_N n)%Z else None)
      else (if N.ltb n cutoff then Some (Z.of_N n) else None)
    end in
  match s with
  | [] => None
  | c :: d => if beq c "-"%char then finish true d
              else if beq c "+"%char then finish false d
              else finish false s
  end.

(** Go integer conversion T(z) for signed and unsigned T of the given width (two's complement wrap). *)
Definition wrap_unsigned (bits : N) (z : Z) : Z := (z mod 2 ^ Z.of_N bits)%Z.
Definition wrap_signed (bits : N) (z : Z) : Z :=
  let m := (2 ^ Z.of_N bits)%Z in
  let r := (z mod m)%Z in
  if (r <? 2 ^ (Z.of_N bits - 1))%Z then r else (r - m)%Z.

(** Integer kinds: signedness and width. [int], [uint] are 64-bit (the code is built for 64-bit platforms). *)
Inductive ikind := Signed (bits : N) | Unsigned (bits : N).
Definition convert (k : ikind) (z : Z) : Z :=
  match k with Signed b => wrap_signed b z | Unsigned b => wrap_unsigned b z end.

(** hex.EncodeToString digits (lower case). *)
Definition hex_digit (n : N) : byte := if N.ltb n 10 then chr (48 + n) else chr (87 + n).
Fixpoint hex_encode (s : bytes) : bytes :=
  match s with
  | [] => []
  | c :: s' => hex_digit (code c / 16) :: hex_digit (code c mod 16) :: hex_encode s'
  end.
Definition hex_val (c : byte) : option N :=
  if is_digit c then Some (code c - 48)%N
  else if in_range 97 102 c then Some (code c - 87)%N
  else if in_range 65 70 c then Some (code c - 55)%N
  else None.
(** hex.Decode: odd length or a bad digit is an error. *)
Fixpoint hex_decode (s : bytes) : option bytes :=
  match s with
  | [] => Some []
  | [_] => None
  | a :: b :: s' =>
    match hex_val a, hex_val b, hex_decode s' with
    | Some x, Some y, Some r => Some (chr (x * 16 + y) :: r)
    | _, _, _ => None
    end
  end.
