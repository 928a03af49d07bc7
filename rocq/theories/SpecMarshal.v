(** What the text of a list of floats has to say. *)
From Coq Require Import ZArith Floats.SpecFloat.
From Verif Require Import Base SpecText.
Open Scope Z_scope.

(** [denotes_decimal t n p]: the text [t] is a decimal number with [p] digits after the point; without the point it is the integer [n].
    So its value is n / 10^p. *)
Inductive denotes_decimal : bytes -> Z -> nat -> Prop :=
| DD_whole t n : denotes_int t n -> denotes_decimal t n 0
| DD_point a b n : denotes_int (a ++ b) n -> decimal_digits b -> denotes_decimal (a ++ "."%char :: b) n (length b).

(** A float that is a number is top / bottom. *)
Definition is_number (x : spec_float) : Prop :=
  match x with S754_zero _ | S754_finite _ _ _ => True | _ => False end.
Definition top (x : spec_float) : Z :=
  match x with S754_finite s m e => (if s then Zneg m else Zpos m) * 2 ^ Z.max 0 e | _ => 0 end.
Definition bottom (x : spec_float) : Z :=
  match x with S754_finite _ _ e => 2 ^ Z.max 0 (- e) | _ => 1 end.

(** n / 10^p is the float. *)
Definition same_number (x : spec_float) (n : Z) (p : nat) : Prop :=
  n * bottom x = top x * 10 ^ Z.of_nat p.
(** The float has no more than [p] digits after the point. *)
Definition has_digits (x : spec_float) (p : nat) : Prop := exists n, same_number x n p.
(** n / 10^p is no further than half a unit of its last digit from the float; halfway between two, [n] is even. *)
Definition nearest (x : spec_float) (n : Z) (p : nat) : Prop :=
  2 * Z.abs (n * bottom x - top x * 10 ^ Z.of_nat p) <= bottom x /\
  (2 * Z.abs (n * bottom x - top x * 10 ^ Z.of_nat p) = bottom x -> Z.even n = true).
