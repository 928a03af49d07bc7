(** Property C100, continued: how far apart lists with the same text can be. *)
From Coq Require Import ZArith Floats.SpecFloat Lia List.
From Verif Require Import Base ModelStrconv ModelEncoding ModelMarshal SpecText SpecJson SpecMarshal LemmasMarshal LemmasArray2 PropMarshal PropMarshalOrder.
Import ListNotations.

(** x and y differ by no more than one unit of the digit [p] places after the point. *)
Definition within_unit (p : nat) (x y : spec_float) : Prop :=
  (10 ^ Z.of_nat p * Z.abs (top x * bottom y - top y * bottom x) <= bottom x * bottom y)%Z.

Lemma app_inj_len {A} (a b : list A) : forall c d, length a = length b -> a ++ c = b ++ d -> a = b /\ c = d.
Proof. revert b. induction a as [|x a IH]; intros [|y b] c d L E; try discriminate; [ now split | ]. injection E as -> E. destruct (IH b c d) as [-> ->]; [ now injection L | exact E | now split ]. Qed.
Lemma denotes_decimal_fun t n k p : denotes_decimal t n p -> denotes_decimal t k p -> n = k.
Proof.
  intros D E. inversion D as [t1 n1 I1|a b n1 I1 B1]; subst.
  - inversion E as [t2 n2 I2|a2 b2 n2 I2 B2 Q1 Q2 Q3]; subst; [ exact (denotes_int_fun _ _ _ I1 I2) | ].
    destruct b2; [ destruct B2 as [B2 _]; now contradiction B2 | discriminate ].
  - inversion E as [t2 n2 I2 Q1 Q2 Q3|a2 b2 n2 I2 B2 Q1 Q2 Q3]; subst.
    + destruct b; [ destruct B1 as [B1 _]; now contradiction B1 | discriminate ].
    + assert (La : length a2 = length a) by (apply (f_equal (@length _)) in Q1; rewrite !app_length in Q1; cbn [length] in Q1; lia).
      destruct (app_inj_len a2 a _ _ La Q1) as [-> Q1']. clear Q1; rename Q1' into Q1. injection Q1 as ->. exact (denotes_int_fun _ _ _ I1 I2).
Qed.

Lemma nearest_close x y n p : nearest x n p -> nearest y n p -> within_unit p x y.
Proof.
  unfold nearest, within_unit. pose proof (bottom_pos x) as Bx. pose proof (bottom_pos y) as By.
  set (t := (10 ^ Z.of_nat p)%Z). assert (T0 : (0 < t)%Z) by (apply Z.pow_pos_nonneg; lia). clearbody t.
  set (bx := bottom x) in *. set (b := bottom y) in *. set (tx := top x). set (ty := top y). clearbody bx b tx ty.
  intros [X _] [Y _].
  rewrite <- (Z.abs_eq t) at 1 by lia. rewrite <- Z.abs_mul.
  replace (t * (tx * b - ty * bx))%Z with ((n * b - ty * t) * bx - (n * bx - tx * t) * b)%Z by ring.
  assert (A1 : (2 * Z.abs ((n * b - ty * t) * bx) <= b * bx)%Z) by (rewrite Z.abs_mul, (Z.abs_eq bx) by lia; rewrite Z.mul_assoc; apply Z.mul_le_mono_nonneg_r; lia).
  assert (A2 : (2 * Z.abs ((n * bx - tx * t) * b) <= bx * b)%Z) by (rewrite Z.abs_mul, (Z.abs_eq b) by lia; rewrite Z.mul_assoc; apply Z.mul_le_mono_nonneg_r; lia).
  lia.
Qed.

(** Lists with one text have as many elements, and each differs from its counterpart by no more than one unit of the last digit printed. *)
Theorem C100_close_partial : forall l k prec, Forall is_number l -> Forall is_number k ->
  marshal_floats l prec = marshal_floats k prec -> Forall2 (within_unit (precision prec)) l k.
Proof.
  intros l k prec Hl Hk E. destruct (C100_nearest_partial l prec Hl) as (ts & R & F). destruct (C100_nearest_partial k prec Hk) as (us & R' & F').
  rewrite E, R' in R. injection R as R.
  assert (U : us = ts). { clear - R. revert ts R. induction us as [|u us IH]; intros [|t ts] R; try discriminate; [ reflexivity | ]. injection R as -> R. f_equal. now apply IH. }
  subst us. clear - F F'. revert k F'. induction F as [|t x ts l (n & T & N) F IH]; intros k F'; inversion F' as [|? y ? k' (m & T' & M) G]; subst; constructor; [ | now apply IH ].
  rewrite (denotes_decimal_fun _ _ _ _ T' T) in M. now apply (nearest_close x y n).
Qed.
Print Assumptions C100_close_partial.

(** 1.5 and 2.5 are a unit apart and have the same text. *)
Example C100_close_case : let l := [S754_finite false 3 (-1)] in let k := [S754_finite false 5 (-1)] in
  Forall is_number l /\ Forall is_number k /\ marshal_floats l [] = marshal_floats k [] /\ l <> k.
Proof. split; [ now repeat constructor | ]. split; [ now repeat constructor | ]. split; [ vm_compute; reflexivity | discriminate ]. Qed.
