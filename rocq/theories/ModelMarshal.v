(** Model of the list marshaler of floats, sequel/encoding/marshaler.go 66-82, and of the fixed point format of strconv it uses.
    A float64 is a [spec_float] of the standard library (all NaNs are one). *)
From Coq Require Import ZArith Floats.SpecFloat.
From Verif Require Import Base ModelStrconv ModelEncoding.

(** strconv/decimal.go Round: a fraction num/den to the nearest integer, the half to the even one. *)
Definition round_even (num den : N) : N :=
  let q := (num / den)%N in
  let r := (num mod den)%N in
  match (2 * r ?= den)%N with
  | Lt => q
  | Gt => N.succ q
  | Eq => if N.even q then q else N.succ q
  end.

(** The last [p] decimal digits of [k], zeros included. *)
Fixpoint fixed_digits (p : nat) (k : N) {struct p} : bytes :=
  match p with
  | O => []
  | S p' => fixed_digits p' (k / 10) ++ [ascii_of_N (48 + k mod 10)]
  end.

(** strconv.FormatFloat(x, 'f', p, 64) for a precision that is not negative: strconv/ftoa.go FormatFloat, bigFtoa and fmtF.  The decimal of
    bigFtoa is exact (no float64 has more digits than it holds), so the text is the exact value rounded once.  The sign is printed
    even if nothing but zeros follows it.  A negative precision, the shortest text that reads back, is not modelled. *)
Definition scaled (p : nat) (m : positive) (e : Z) : N :=
  (round_even (Npos m * 2 ^ Z.to_N e * 10 ^ N.of_nat p) (2 ^ Z.to_N (- e)))%N.
Definition fixed_text (p : nat) (n : N) : bytes :=
  format_uint (n / 10 ^ N.of_nat p)%N ++ match p with O => [] | _ => B "." ++ fixed_digits p n end.
Definition sign_text (s : bool) : bytes := if s then B "-" else [].
Definition format_fixed (p : nat) (x : spec_float) : bytes :=
  match x with
  | S754_zero s => sign_text s ++ fixed_text p 0
  | S754_infinity s => if s then B "-Inf" else B "+Inf"
  | S754_nan => B "NaN"
  | S754_finite s m e => sign_text s ++ fixed_text p (scaled p m e)
  end.

(** marshaler.go 66-82 MarshalFloat64List: of the precisions given only the first counts, without one it is zero (67-71). *)
Definition marshal_floats (l : list spec_float) (prec : list nat) : bytes :=
  let p := match prec with [] => O | p :: _ => p end in
  marshal_list (format_fixed p) l.
