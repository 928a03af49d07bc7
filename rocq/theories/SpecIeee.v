(** Binary floating point numbers (IEEE 754) as the numbers they stand for. *)
From Coq Require Import ZArith Bool.
From Coq Require Import Floats.SpecFloat.
Open Scope Z_scope.

(** (m, e) stands for m times 2^e.  Two of them are compared after scaling by any common power of two that makes them integers. *)
Definition num := (Z * Z)%type.
Definition scaled (d : Z) (a : num) : Z := fst a * 2 ^ (snd a - d).
Definition same_num (a b : num) : Prop := forall d, d <= snd a -> d <= snd b -> scaled d a = scaled d b.
Definition less (a b : num) : Prop := forall d, d <= snd a -> d <= snd b -> scaled d a < scaled d b.
(** [a] is at least as close to [v] as [b] is. *)
Definition closer (v a b : num) : Prop := forall d, d <= snd v -> d <= snd a -> d <= snd b ->
  Z.abs (scaled d a - scaled d v) <= Z.abs (scaled d b - scaled d v).

(** The numbers of the format with [prec] bits and exponents below [emax], and those of the same precision with exponents of any size. *)
Definition unbounded_num (prec emax : Z) (a : num) : Prop := exists k x, Z.abs k < 2 ^ prec /\ 3 - emax - prec <= x /\ same_num a (k, x).
Definition format_num (prec emax : Z) (a : num) : Prop := unbounded_num prec emax a /\ less (Z.abs (fst a), snd a) (1, emax).
(** [a] is the nearest such number to [v]; of two that are equally near it is the one with the even last digit. *)
Definition nearest (prec emax : Z) (v a : num) : Prop :=
  unbounded_num prec emax a /\ (forall b, unbounded_num prec emax b -> closer v a b) /\
  (forall b, unbounded_num prec emax b -> closer v b a -> same_num a b \/ exists k x, same_num a (k, x) /\ Z.even k = true /\ same_num b (k + 1, x) \/ same_num a (k, x) /\ Z.even k = true /\ same_num b (k - 1, x)).

(** The number a float stands for (the standard library's [spec_float]); infinities and NaN stand for none.  [valid_binary prec emax] of the
    standard library says which of them are values of the format. *)
Definition value (x : spec_float) : option num :=
  match x with
  | S754_zero _ => Some (0, 0)
  | S754_finite s m e => Some (if s then Zneg m else Zpos m, e)
  | _ => None
  end.
Definition negative (x : spec_float) : bool := match x with S754_zero s | S754_infinity s | S754_finite s _ _ => s | S754_nan => false end.

(** Converting the number [v] to a format: the nearest value, or infinity when the nearest number of that precision is too large for the
    format; the sign is kept. *)
Definition rounds (prec emax : Z) (v : num) (y : spec_float) : Prop :=
  valid_binary prec emax y = true /\ negative y = (fst v <? 0) /\
  exists a, nearest prec emax v a /\
    match value y with
    | Some b => same_num a b /\ less (Z.abs (fst a), snd a) (1, emax)
    | None => y <> S754_nan /\ ~ less (Z.abs (fst a), snd a) (1, emax)
    end.
