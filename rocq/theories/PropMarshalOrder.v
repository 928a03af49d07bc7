(** Property C100, continued: the numbers of the text are in the order of the elements. *)
From Coq Require Import ZArith Floats.SpecFloat Lia List Sorting.Sorted.
From Verif Require Import Base ModelStrconv ModelEncoding ModelMarshal SpecText SpecJson SpecMarshal LemmasMarshal PropMarshal.
Import ListNotations.

(** x is no more than y. *)
Definition no_more (x y : spec_float) : Prop := (top x * bottom y <= top y * bottom x)%Z.

Lemma bottom_pos x : (0 < bottom x)%Z.
Proof. destruct x; cbn [bottom]; try lia; apply Z.pow_pos_nonneg; lia. Qed.
Lemma nearest_order x y p n k : no_more x y -> nearest x n p -> nearest y k p -> (n <= k)%Z.
Proof.
  unfold no_more, nearest. pose proof (bottom_pos x) as Bx. pose proof (bottom_pos y) as By. pose proof (Z.pow_pos_nonneg 10 (Z.of_nat p) ltac:(lia) ltac:(lia)) as T0.
  set (t := (10 ^ Z.of_nat p)%Z) in *. set (bx := bottom x) in *. set (by_ := bottom y) in *.
  intros O [N1 N2] [K1 K2]. set (tx := (top x * t)%Z) in *. set (ty := (top y * t)%Z) in *.
  assert (O' : (tx * by_ <= ty * bx)%Z) by (unfold tx, ty; nia). clearbody tx ty bx by_ t. clear O.
  destruct (Z.le_gt_cases n k) as [L|L]; [ exact L | exfalso ].
  assert (H1 : ((2 * n - 1) * bx <= 2 * tx)%Z) by lia.
  assert (H2 : (2 * ty <= (2 * k + 1) * by_)%Z) by lia.
  assert (H3 : ((2 * n - 1) * bx * by_ <= 2 * tx * by_)%Z) by (apply Z.mul_le_mono_nonneg_r; lia).
  assert (H4 : (2 * ty * bx <= (2 * k + 1) * by_ * bx)%Z) by (apply Z.mul_le_mono_nonneg_r; lia).
  assert (P : (0 < bx * by_)%Z) by (apply Z.mul_pos_pos; lia).
  assert (H5 : ((2 * n - 1) * (bx * by_) <= (2 * k + 1) * (bx * by_))%Z).
  { replace ((2 * n - 1) * (bx * by_))%Z with ((2 * n - 1) * bx * by_)%Z by ring. replace ((2 * k + 1) * (bx * by_))%Z with ((2 * k + 1) * by_ * bx)%Z by ring.
    assert (2 * tx * by_ <= 2 * ty * bx)%Z by (replace (2 * tx * by_)%Z with (2 * (tx * by_))%Z by ring; replace (2 * ty * bx)%Z with (2 * (ty * bx))%Z by ring; lia). lia. }
  assert (E : (n = k + 1)%Z) by (apply (Z.mul_le_mono_pos_r _ _ _ P) in H5; lia). subst n.
  assert (E1 : (2 * tx = (2 * k + 1) * bx)%Z).
  { apply (Z.mul_reg_r _ _ by_); [ lia | ]. replace (2 * (k + 1) - 1)%Z with (2 * k + 1)%Z in * by ring.
    replace (2 * tx * by_)%Z with (2 * (tx * by_))%Z in * by ring. replace (2 * ty * bx)%Z with (2 * (ty * bx))%Z in * by ring.
    replace ((2 * k + 1) * by_ * bx)%Z with ((2 * k + 1) * bx * by_)%Z in * by ring. lia. }
  assert (E2 : (2 * ty = (2 * k + 1) * by_)%Z).
  { apply (Z.mul_reg_r _ _ bx); [ lia | ]. replace (2 * (k + 1) - 1)%Z with (2 * k + 1)%Z in * by ring.
    replace (2 * tx * by_)%Z with (2 * (tx * by_))%Z in * by ring. replace (2 * ty * bx)%Z with (2 * (ty * bx))%Z in * by ring.
    replace ((2 * k + 1) * by_ * bx)%Z with ((2 * k + 1) * bx * by_)%Z in * by ring. lia. }
  assert (V1 : Z.even (k + 1) = true) by (apply N2; lia).
  assert (V2 : Z.even k = true) by (apply K2; lia).
  rewrite Z.add_1_r, Z.even_succ, <- Z.negb_even, V2 in V1. discriminate.
Qed.

(** A list in order gives numbers in order, whatever the precision.  Missing: numbers that differ may become one (C100_fraction_refuted). *)
Theorem C100_order_partial : forall l prec, Forall is_number l -> StronglySorted no_more l ->
  exists ts ns, read_json (marshal_floats l prec) = Some (JArr (map JNum ts)) /\
  Forall2 (fun t n => denotes_decimal t n (precision prec)) ts ns /\ StronglySorted Z.le ns.
Proof.
  intros l prec H S. destruct (C100_nearest_partial l prec H) as (ts & R & F). exists ts.
  assert (X : exists ns, Forall2 (fun t n => denotes_decimal t n (precision prec)) ts ns /\ Forall2 (fun x n => nearest x n (precision prec)) l ns).
  { clear R S H. induction F as [|t x ts l (n & T & N) F (ns & I1 & I2)]; [ exists []; split; constructor | ]. exists (n :: ns). split; constructor; assumption. }
  destruct X as (ns & X1 & X2). exists ns. split; [ exact R | ]. split; [ exact X1 | ].
  clear R F X1 H. induction X2 as [|x n l ns N F IH]; [ constructor | ]. inversion S as [|? ? S' A]; subst. constructor; [ now apply IH | ].
  clear IH S S'. induction F as [|y k l ns K F IH]; [ constructor | ]. inversion A; subst. constructor; [ now apply (nearest_order x y (precision prec)) | now apply IH ].
Qed.
Print Assumptions C100_order_partial.

(** -0.5, 0.25, 2.5 and 3 *)
Example C100_order_case : let l := [S754_finite true 1 (-1); S754_finite false 1 (-2); S754_finite false 5 (-1); S754_finite false 3 0] in
  StronglySorted no_more l /\ marshal_floats l [] = B "[-0,0,2,3]".
Proof.
  split; [ | vm_compute; reflexivity ]. unfold no_more.
  repeat (constructor; [ | repeat (constructor; [ vm_compute; discriminate | ]); constructor ]). constructor.
Qed.
