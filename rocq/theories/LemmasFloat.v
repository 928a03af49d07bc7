(** Proofs about binary floating point. *)
From Coq Require Import ZArith Lia Floats.SpecFloat Bool.
From Verif Require Import SpecIeee.
Open Scope Z_scope.

Lemma pow_pos k : 0 <= k -> 0 < 2 ^ k. Proof. intros. apply Z.pow_pos_nonneg; lia. Qed.
Lemma pow_split a b : 0 <= a -> 0 <= b -> 2 ^ (a + b) = 2 ^ a * 2 ^ b. Proof. intros. now apply Z.pow_add_r. Qed.

Lemma digits_bounds p : 2 ^ (Zpos (digits2_pos p) - 1) <= Zpos p < 2 ^ Zpos (digits2_pos p).
Proof.
  induction p as [ p IH | p IH | ]; cbn [digits2_pos]; rewrite ?Pos2Z.inj_succ; [ | | cbn; lia ];
    replace (Z.succ (Zpos (digits2_pos p)) - 1) with (Zpos (digits2_pos p) - 1 + 1) by lia;
    replace (Z.succ (Zpos (digits2_pos p))) with (Zpos (digits2_pos p) - 1 + 1 + 1) by lia;
    replace (Zpos (digits2_pos p)) with (Zpos (digits2_pos p) - 1 + 1) in IH at 2 by lia;
    rewrite !pow_split in * by lia; change (2 ^ 1) with 2 in *; lia.
Qed.
Lemma digits_unique p d : 2 ^ (d - 1) <= Zpos p < 2 ^ d -> Zpos (digits2_pos p) = d.
Proof.
  intros H. pose proof (digits_bounds p) as D.
  assert (0 < d). { destruct (Z.le_gt_cases d 0) as [L | G]; [ | exact G ]. destruct (Z.eq_dec d 0) as [-> | N]; [ cbn in H; lia | rewrite (Z.pow_neg_r 2 d) in H by lia; lia ]. }
  destruct (Z.lt_trichotomy (Zpos (digits2_pos p)) d) as [L | [E | G]]; [ | exact E | ]; exfalso.
  - assert (2 ^ Zpos (digits2_pos p) <= 2 ^ (d - 1)) by (apply Z.pow_le_mono_r; lia). lia.
  - assert (2 ^ d <= 2 ^ (Zpos (digits2_pos p) - 1)) by (apply Z.pow_le_mono_r; lia). lia.
Qed.

(** Shifting right. *)
Lemma shr_1_spec m r s : 0 <= m -> shr_1 {| shr_m := m; shr_r := r; shr_s := s |} = {| shr_m := m / 2; shr_r := Z.odd m; shr_s := r || s |}.
Proof.
  intros H. destruct m as [ | [ p | p | ] | p ]; try reflexivity; [ | | lia ]; cbn [shr_1 Z.odd]; f_equal.
  - rewrite Pos2Z.inj_xI. apply (Z.div_unique _ _ _ 1); lia.
  - rewrite Pos2Z.inj_xO. apply (Z.div_unique _ _ _ 0); lia.
Qed.
Lemma iter_pos_nat {A} (f : A -> A) p : forall x, iter_pos f p x = Nat.iter (Pos.to_nat p) f x.
Proof.
  assert (D : forall n m x, Nat.iter (n + m) f x = Nat.iter n f (Nat.iter m f x)) by (induction n as [ | n IHn ]; intros m x; [ reflexivity | change (f (Nat.iter (n + m) f x) = f (Nat.iter n f (Nat.iter m f x))); now rewrite IHn ]).
  induction p as [ p IH | p IH | ]; intros x; cbn [iter_pos]; [ | | reflexivity ]; rewrite !IH.
  - rewrite Pos2Nat.inj_xI. replace (S (2 * Pos.to_nat p)) with (Pos.to_nat p + (Pos.to_nat p + 1))%nat by lia. now rewrite !D.
  - rewrite Pos2Nat.inj_xO. replace (2 * Pos.to_nat p)%nat with (Pos.to_nat p + Pos.to_nat p)%nat by lia. now rewrite !D.
Qed.

(** Round to nearest even, on integers. *)
Definition rne (m n : Z) : Z :=
  let q := m / 2 ^ n in let r := m mod 2 ^ n in
  if 2 * r <? 2 ^ n then q else if 2 ^ n <? 2 * r then q + 1 else if Z.even q then q else q + 1.

Lemma shr_iter m : 0 <= m -> forall n : nat,
  let N := Z.of_nat n in
  Nat.iter (S n) shr_1 {| shr_m := m; shr_r := false; shr_s := false |} =
  {| shr_m := m / 2 ^ (N + 1); shr_r := Z.odd (m / 2 ^ N); shr_s := negb (m mod 2 ^ N =? 0) |}.
Proof.
  intros H n. induction n as [ | n IH ]; intros N.
  - cbn [Nat.iter]. rewrite shr_1_spec by exact H. change (N + 1) with 1. change (2 ^ 1) with 2. change N with 0. change (2 ^ 0) with 1. rewrite Z.div_1_r, Z.mod_1_r. reflexivity.
  - change (Nat.iter (S (S n)) shr_1 ?x) with (shr_1 (Nat.iter (S n) shr_1 x)). rewrite IH. cbn zeta. subst N.
    replace (Z.of_nat (S n)) with (Z.of_nat n + 1) by lia. set (k := Z.of_nat n). assert (0 <= k) by lia.
    pose proof (pow_pos k ltac:(lia)) as P.
    rewrite shr_1_spec by (apply Z.div_pos; [ exact H | apply pow_pos; lia ]). f_equal.
    + rewrite Z.div_div by (pose proof (pow_pos (k + 1)); lia). rewrite (pow_split (k + 1) 1) by lia. reflexivity.
    + rewrite pow_split by lia. change (2 ^ 1) with 2.
      rewrite (Z.rem_mul_r m (2 ^ k) 2) by lia. rewrite (Zodd_mod (m / 2 ^ k)). 
      pose proof (Z.mod_pos_bound m (2 ^ k) P). pose proof (Z.mod_pos_bound (m / 2 ^ k) 2 ltac:(lia)).
      destruct (Zeq_is_eq_bool ((m / 2 ^ k) mod 2) 1) as [Z1 Z2].
      destruct (Zeq_bool ((m / 2 ^ k) mod 2) 1) eqn:E.
      * rewrite (Z2 eq_refl). destruct (Z.eqb_spec (m mod 2 ^ k + 2 ^ k * 1) 0); [ lia | reflexivity ].
      * assert ((m / 2 ^ k) mod 2 = 0) as -> by (destruct (Z.eq_dec ((m / 2 ^ k) mod 2) 1) as [Q | Q]; [ discriminate (Z1 Q) | lia ]).
        replace (m mod 2 ^ k + 2 ^ k * 0) with (m mod 2 ^ k) by lia. reflexivity.
Qed.
Lemma shr_round m n e : 0 <= m ->
  let r := shr {| shr_m := m; shr_r := false; shr_s := false |} e n in
  round_nearest_even (shr_m (fst r)) (loc_of_shr_record (fst r)) = (if 0 <? n then rne m n else m) /\ snd r = (if 0 <? n then e + n else e).
Proof.
  intros H. destruct n as [ | p | p ]; cbn [shr fst snd]; try (split; reflexivity). change (0 <? Zpos p) with true. cbv iota zeta. cbn [fst snd]. split; [ | reflexivity ].
  rewrite iter_pos_nat. destruct (Pos2Nat.is_succ p) as [k E]. rewrite E, (shr_iter m H k). cbn zeta. cbn [shr_m].
  replace (Zpos p) with (Z.of_nat k + 1) by lia. set (N := Z.of_nat k). assert (0 <= N) by lia. clear E. unfold rne.
  pose proof (pow_pos N ltac:(lia)) as P. rewrite pow_split by lia. change (2 ^ 1) with 2.
  rewrite (Z.rem_mul_r m (2 ^ N) 2) by lia. pose proof (Z.mod_pos_bound m (2 ^ N) P). pose proof (Z.mod_pos_bound (m / 2 ^ N) 2 ltac:(lia)).
  rewrite (Zodd_mod (m / 2 ^ N)). destruct (Zeq_is_eq_bool ((m / 2 ^ N) mod 2) 1) as [Z1 Z2].
  destruct (Zeq_bool ((m / 2 ^ N) mod 2) 1) eqn:Eb.
  - rewrite (Z2 eq_refl). destruct (Z.eqb_spec (m mod 2 ^ N) 0) as [Q | Q]; cbn [negb loc_of_shr_record round_nearest_even].
    + rewrite Q. destruct (Z.ltb_spec (2 * (0 + 2 ^ N * 1)) (2 ^ N * 2)); [ lia | ]. destruct (Z.ltb_spec (2 ^ N * 2) (2 * (0 + 2 ^ N * 1))); [ lia | reflexivity ].
    + destruct (Z.ltb_spec (2 * (m mod 2 ^ N + 2 ^ N * 1)) (2 ^ N * 2)); [ lia | ]. destruct (Z.ltb_spec (2 ^ N * 2) (2 * (m mod 2 ^ N + 2 ^ N * 1))); [ reflexivity | lia ].
  - assert ((m / 2 ^ N) mod 2 = 0) as -> by (destruct (Z.eq_dec ((m / 2 ^ N) mod 2) 1) as [Q | Q]; [ discriminate (Z1 Q) | lia ]).
    destruct (Z.ltb_spec (2 * (m mod 2 ^ N + 2 ^ N * 0)) (2 ^ N * 2)); [ | lia ]. destruct (m mod 2 ^ N =? 0); reflexivity.
Qed.

(** What rne does. *)
Lemma rne_spec m n : 0 <= n -> 0 <= m -> 2 * Z.abs (rne m n * 2 ^ n - m) <= 2 ^ n /\ (2 * Z.abs (rne m n * 2 ^ n - m) = 2 ^ n -> Z.even (rne m n) = true) /\ 0 <= rne m n <= m / 2 ^ n + 1.
Proof.
  intros Hn Hm. unfold rne. pose proof (pow_pos n Hn) as P. pose proof (Z.div_mod m (2 ^ n) ltac:(lia)) as D. pose proof (Z.mod_pos_bound m (2 ^ n) P).
  pose proof (Z.div_pos m (2 ^ n) Hm P) as Q. set (q := m / 2 ^ n) in *. set (r := m mod 2 ^ n) in *. set (w := 2 ^ n) in *. clearbody q r w.
  destruct (Z.ltb_spec (2 * r) w); [ | destruct (Z.ltb_spec w (2 * r)); [ | destruct (Z.even q) eqn:E ] ].
  - replace (q * w - m) with (- r) by lia. rewrite Z.abs_opp, Z.abs_eq by lia. split; [ lia | split; [ lia | lia ] ].
  - replace ((q + 1) * w - m) with (w - r) by lia. rewrite Z.abs_eq by lia. split; [ lia | split; [ lia | lia ] ].
  - replace (q * w - m) with (- r) by lia. rewrite Z.abs_opp, Z.abs_eq by lia. split; [ lia | split; [ intros; exact E | lia ] ].
  - replace ((q + 1) * w - m) with (w - r) by lia. rewrite Z.abs_eq by lia. split; [ lia | split; [ intros _; rewrite Z.even_add, E; reflexivity | lia ] ].
Qed.

Section Format.
Variables prec emax : Z.
Hypothesis Hprec : 1 < prec.
Hypothesis Hemax : prec < emax.
Notation emin := (3 - emax - prec).

(** The exponent of the last place, and the integer that m 2^e is rounded to in units of the last place. *)
Definition last_place (m : positive) (e : Z) : Z := Z.max (Zpos (digits2_pos m) + e - prec) emin.
Definition rounded (m : positive) (e : Z) : Z := if e <? last_place m e then rne (Zpos m) (last_place m e - e) else Zpos m * 2 ^ (e - last_place m e).

Lemma shr_0 m e n : n <= 0 -> shr m e n = (m, e). Proof. destruct n; [ reflexivity | lia | reflexivity ]. Qed.
Lemma shift_pos_mul d m : Zpos (shift_pos d m) = Zpos m * 2 ^ Zpos d.
Proof. rewrite shift_pos_correct. change (2 ^ Zpos d) with (Z.pow_pos 2 d). lia. Qed.

Lemma rounded_bounds m e : 0 <= rounded m e <= 2 ^ prec.
Proof.
  unfold rounded. pose proof (digits_bounds m) as D. set (x := last_place m e). assert (X : Zpos (digits2_pos m) + e - prec <= x) by (unfold x, last_place; lia).
  destruct (Z.ltb_spec e x).
  - destruct (rne_spec (Zpos m) (x - e)) as (_ & _ & R); [ lia | lia | ]. split; [ lia | ].
    assert (Zpos m / 2 ^ (x - e) < 2 ^ prec); [ | lia ]. apply Z.div_lt_upper_bound; [ apply pow_pos; lia | ]. rewrite <- pow_split by lia.
    eapply Z.lt_le_trans; [ apply D | ]. apply Z.pow_le_mono_r; lia.
  - pose proof (pow_pos (e - x) ltac:(lia)). split; [ lia | ]. apply Z.lt_le_incl.
    eapply Z.lt_le_trans; [ apply Zmult_lt_compat_r; [ assumption | apply D ] | ]. rewrite <- pow_split by lia. apply Z.pow_le_mono_r; lia.
Qed.

(** The result of binary_round. *)
Lemma binary_round_char s m e : let K := rounded m e in let x := last_place m e in
  binary_round prec emax s m e =
    match K with
    | Zpos k => if K <? 2 ^ prec then (if x <=? emax - prec then S754_finite s k x else S754_infinity s)
                else (if x + 1 <=? emax - prec then S754_finite s (Z.to_pos (2 ^ (prec - 1))) (x + 1) else S754_infinity s)
    | _ => S754_zero s
    end.
Proof.
  intros K x. pose proof (rounded_bounds m e) as RB. fold K in RB. unfold binary_round.
  assert (Fx : fexp prec emax (Zpos (digits2_pos m) + e) = x) by reflexivity. rewrite Fx.
  assert (SA : exists mz ez, shl_align m e x = (mz, ez) /\ fexp prec emax (Zdigits2 (Zpos mz) + ez) = x /\
     (if 0 <? x - ez then rne (Zpos mz) (x - ez) else Zpos mz) = K /\ (if 0 <? x - ez then ez + (x - ez) else ez) = x).
  { unfold shl_align. destruct (x - e) as [ | d | d ] eqn:E.
    - exists m, e. split; [ reflexivity | ]. split; [ exact Fx | ]. rewrite E. cbv iota. change (0 <? 0) with false. cbv iota. split; [ | lia ].
      unfold K, rounded. fold x. destruct (Z.ltb_spec e x); [ lia | ]. replace (e - x) with 0 by lia. rewrite Z.mul_1_r. reflexivity.
    - exists m, e. split; [ reflexivity | ]. split; [ exact Fx | ]. rewrite E. change (0 <? Zpos d) with true. cbv iota. split; [ | lia ].
      unfold K, rounded. fold x. destruct (Z.ltb_spec e x); [ now rewrite E | lia ].
    - exists (shift_pos d m), x. split; [ reflexivity | ]. rewrite Z.sub_diag. change (0 <? 0) with false. cbv iota.
      assert (Ed : Zpos d = e - x) by lia.
      assert (V : Zpos (shift_pos d m) = Zpos m * 2 ^ (e - x)) by (rewrite shift_pos_mul, Ed; reflexivity).
      split; [ | split; [ | reflexivity ] ].
      + cbn [Zdigits2]. rewrite (digits_unique (shift_pos d m) (Zpos (digits2_pos m) + (e - x))).
        * replace (Zpos (digits2_pos m) + (e - x) + x) with (Zpos (digits2_pos m) + e) by lia. exact Fx.
        * rewrite V. pose proof (digits_bounds m) as D. pose proof (pow_pos (e - x) ltac:(lia)) as P.
          replace (Zpos (digits2_pos m) + (e - x) - 1) with (Zpos (digits2_pos m) - 1 + (e - x)) by lia. rewrite !pow_split by lia.
          split; [ apply Z.mul_le_mono_nonneg_r; lia | apply Z.mul_lt_mono_pos_r; lia ].
      + rewrite V. unfold K, rounded. fold x. destruct (Z.ltb_spec e x); [ lia | reflexivity ]. }
  destruct SA as (mz & ez & -> & Fz & Kz & Xz). unfold binary_round_aux, shr_fexp. rewrite Fz. cbn [shr_record_of_loc].
  pose proof (shr_round (Zpos mz) (x - ez) ez ltac:(lia)) as [R1 R2]. cbn zeta in R1, R2.
  destruct (shr {| shr_m := Zpos mz; shr_r := false; shr_s := false |} ez (x - ez)) as [mrs e']. cbn [fst snd] in R1, R2. rewrite R1, Kz, R2, Xz. clear R1 R2 Kz Xz mrs e' Fz mz ez.
  assert (Hx : emin <= x) by (unfold x, last_place; lia).
  destruct K as [ | k | k ] eqn:EK; [ | | lia ].
  - rewrite shr_0; [ reflexivity | ]. cbn [Zdigits2]. unfold fexp, SpecFloat.emin. lia.
  - destruct (Z.ltb_spec (Zpos k) (2 ^ prec)) as [L | G].
    + rewrite shr_0; [ reflexivity | ]. cbn [Zdigits2]. pose proof (digits_bounds k) as D.
      assert (Zpos (digits2_pos k) <= prec). { destruct (Z.le_gt_cases (Zpos (digits2_pos k)) prec) as [ | G ]; [ assumption | ]. exfalso.
        assert (2 ^ prec <= 2 ^ (Zpos (digits2_pos k) - 1)) by (apply Z.pow_le_mono_r; lia). lia. }
      unfold fexp, SpecFloat.emin. lia.
    + assert (Ek : Zpos k = 2 ^ prec) by lia. cbn [Zdigits2].
      assert (Dk : Zpos (digits2_pos k) = prec + 1). { apply digits_unique. rewrite Ek. replace (prec + 1 - 1) with prec by lia. rewrite pow_split by lia. pose proof (pow_pos prec). lia. }
      rewrite Dk. assert (Fk : fexp prec emax (prec + 1 + x) - x = 1) by (unfold fexp, SpecFloat.emin; lia). rewrite Fk. cbn [shr iter_pos].
      rewrite shr_1_spec by lia. cbn [shr_m]. rewrite Ek.
      assert (E2 : 2 ^ prec / 2 = 2 ^ (prec - 1)). { replace prec with (prec - 1 + 1) at 1 by lia. rewrite pow_split by lia. apply Z.div_mul. lia. }
      rewrite E2. pose proof (pow_pos (prec - 1) ltac:(lia)) as P1. destruct (2 ^ (prec - 1)) as [ | q | q ]; [ lia | reflexivity | lia ].
Qed.
End Format.

(** Numbers. *)
Lemma scaled_down d d' a : d' <= d -> d <= snd a -> scaled d' a = scaled d a * 2 ^ (d - d').
Proof. intros H1 H2. unfold scaled. rewrite <- Z.mul_assoc, <- pow_split by lia. f_equal. f_equal. lia. Qed.
Lemma same_at d a b : d <= snd a -> d <= snd b -> scaled d a = scaled d b -> same_num a b.
Proof.
  intros Ha Hb E d' Ha' Hb'. destruct (Z.le_ge_cases d' d) as [L | G].
  - rewrite (scaled_down d d' a L Ha), (scaled_down d d' b L Hb), E. reflexivity.
  - rewrite (scaled_down d' d a G Ha'), (scaled_down d' d b G Hb') in E. pose proof (pow_pos (d' - d) ltac:(lia)). now apply Z.mul_reg_r in E; [ | lia ].
Qed.
Lemma same_refl a : same_num a a. Proof. intros d _ _. reflexivity. Qed.
Lemma same_sym a b : same_num a b -> same_num b a. Proof. intros H d Hb Ha. symmetry. now apply H. Qed.
Lemma same_trans a b c : same_num a b -> same_num b c -> same_num a c.
Proof.
  intros H1 H2. apply (same_at (Z.min (snd a) (Z.min (snd b) (snd c)))); [ lia | lia | ]. rewrite H1 by lia. now rewrite H2 by lia.
Qed.
Lemma same_shift k x n : 0 <= n -> same_num (k * 2 ^ n, x) (k, x + n).
Proof. intros H. apply (same_at x); cbn [snd]; [ lia | lia | ]. unfold scaled. cbn [fst snd]. rewrite Z.sub_diag, Z.mul_1_r. f_equal. f_equal. lia. Qed.
Lemma less_at d a b : d <= snd a -> d <= snd b -> scaled d a < scaled d b -> less a b.
Proof.
  intros Ha Hb E d' Ha' Hb'. destruct (Z.le_ge_cases d' d) as [L | G].
  - rewrite (scaled_down d d' a L Ha), (scaled_down d d' b L Hb). pose proof (pow_pos (d - d') ltac:(lia)). now apply Z.mul_lt_mono_pos_r.
  - rewrite (scaled_down d' d a G Ha'), (scaled_down d' d b G Hb') in E. pose proof (pow_pos (d' - d) ltac:(lia)). now apply Z.mul_lt_mono_pos_r in E.
Qed.
Lemma closer_at d v a b : d <= snd v -> d <= snd a -> d <= snd b -> Z.abs (scaled d a - scaled d v) <= Z.abs (scaled d b - scaled d v) -> closer v a b.
Proof.
  intros Hv Ha Hb E d' Hv' Ha' Hb'. destruct (Z.le_ge_cases d' d) as [L | G].
  - rewrite (scaled_down d d' a L Ha), (scaled_down d d' b L Hb), (scaled_down d d' v L Hv), <- !Z.mul_sub_distr_r, !Z.abs_mul.
    apply Z.mul_le_mono_nonneg_r; [ apply Z.abs_nonneg | exact E ].
  - rewrite (scaled_down d' d a G Ha'), (scaled_down d' d b G Hb'), (scaled_down d' d v G Hv'), <- !Z.mul_sub_distr_r, !Z.abs_mul in E.
    pose proof (pow_pos (d' - d) ltac:(lia)). rewrite (Z.abs_eq (2 ^ (d' - d))) in E by lia. now apply Z.mul_le_mono_pos_r in E.
Qed.

Lemma multiple_closest (K c U A V : Z) : 0 < U -> A = K * U -> 2 * Z.abs (A - V) <= U ->
  Z.abs (A - V) <= Z.abs (c * U - V) /\ (Z.abs (c * U - V) <= Z.abs (A - V) -> c = K \/ (2 * Z.abs (A - V) = U /\ (c = K + 1 \/ c = K - 1))).
Proof.
  intros HU -> H. destruct (Z.eq_dec c K) as [-> | N]; [ split; [ lia | now left ] | ].
  assert (D : U * Z.abs (c - K) <= Z.abs (c * U - V) + Z.abs (K * U - V)).
  { replace (U * Z.abs (c - K)) with (Z.abs ((c - K) * U)) by (rewrite Z.abs_mul, (Z.abs_eq U) by lia; apply Z.mul_comm). replace ((c - K) * U) with ((c * U - V) - (K * U - V)) by ring. lia. }
  assert (P1 : 1 <= Z.abs (c - K)) by lia.
  assert (U * 1 <= U * Z.abs (c - K)) by (apply Z.mul_le_mono_nonneg_l; lia).
  split; [ lia | ]. intros E. right.
  assert (Z.abs (c - K) < 2). { destruct (Z.lt_ge_cases (Z.abs (c - K)) 2) as [ L | G ]; [ exact L | ]. assert (U * 2 <= U * Z.abs (c - K)) by (apply Z.mul_le_mono_nonneg_l; lia). lia. }
  split; lia.
Qed.

Section Nearest.
Variables prec emax : Z.
Hypothesis Hprec : 1 < prec.
Hypothesis Hemax : prec < emax.
Notation emin := (3 - emax - prec).
Notation X := (last_place prec emax).
Notation R := (rounded prec emax).

Lemma rounded_near m e d : d <= e -> d <= X m e ->
  let U := 2 ^ (X m e - d) in let A := R m e * U in let V := Zpos m * 2 ^ (e - d) in
  2 * Z.abs (A - V) <= U /\ (2 * Z.abs (A - V) = U -> Z.even (R m e) = true).
Proof.
  intros H1 H2. unfold rounded. set (x := X m e) in *. cbn zeta. destruct (Z.ltb_spec e x).
  - destruct (rne_spec (Zpos m) (x - e)) as (R1 & R2 & _); [ lia | lia | ].
    replace (x - d) with ((x - e) + (e - d)) by lia. rewrite pow_split by lia. pose proof (pow_pos (e - d) ltac:(lia)) as P.
    set (w := 2 ^ (e - d)) in *. replace (rne (Zpos m) (x - e) * (2 ^ (x - e) * w) - Zpos m * w) with ((rne (Zpos m) (x - e) * 2 ^ (x - e) - Zpos m) * w) by ring.
    rewrite Z.abs_mul, (Z.abs_eq w), Z.mul_assoc by lia. split.
    + apply Z.mul_le_mono_nonneg_r; lia.
    + intros E. apply Z.mul_reg_r in E; [ | lia ]. now apply R2.
  - rewrite <- Z.mul_assoc, <- pow_split by lia. replace (e - x + (x - d)) with (e - d) by lia. rewrite Z.sub_diag. cbn [Z.abs]. pose proof (pow_pos (x - d) ltac:(lia)). split; lia.
Qed.
Lemma unbounded_rounded m e : unbounded_num prec emax (R m e, X m e).
Proof.
  pose proof (rounded_bounds prec emax Hprec m e) as B. assert (emin <= X m e) by (unfold last_place; lia).
  destruct (Z.eq_dec (R m e) (2 ^ prec)) as [E | N].
  - exists (2 ^ (prec - 1)), (X m e + 1). split; [ | split; [ lia | ] ].
    + rewrite Z.abs_eq by (apply Z.lt_le_incl, pow_pos; lia). apply Z.pow_lt_mono_r; lia.
    + rewrite E. replace prec with (prec - 1 + 1) at 1 by lia. rewrite pow_split by lia. apply same_shift. lia.
  - exists (R m e), (X m e). split; [ lia | split; [ assumption | apply same_refl ] ].
Qed.
Lemma nearest_rounded m e : nearest prec emax (Zpos m, e) (R m e, X m e).
Proof.
  split; [ apply unbounded_rounded | ].
  assert (M : forall b, unbounded_num prec emax b -> exists d, d <= e /\ d <= X m e /\ d <= snd b /\
     let U := 2 ^ (X m e - d) in let A := R m e * U in let V := Zpos m * 2 ^ (e - d) in
     Z.abs (A - V) <= Z.abs (scaled d b - V) /\
     (Z.abs (scaled d b - V) <= Z.abs (A - V) -> exists c, same_num b (c, X m e) /\ (c = R m e \/ (2 * Z.abs (A - V) = U /\ (c = R m e + 1 \/ c = R m e - 1))))).
  { intros b (k & x' & Hk & Hx' & Sb). set (x := X m e). set (d := Z.min e (Z.min x (Z.min (snd b) x'))). exists d.
    split; [ lia | split; [ lia | split; [ lia | ] ] ]. cbn zeta.
    destruct (rounded_near m e d) as [N1 N2]; [ lia | lia | ]. fold x in N1, N2. cbn zeta in N1, N2.
    rewrite (Sb d) by (cbn [snd]; lia). unfold scaled. cbn [fst snd].
    pose proof (pow_pos (x - d) ltac:(lia)) as PU. set (U := 2 ^ (x - d)) in *. set (V := Zpos m * 2 ^ (e - d)) in *.
    destruct (Z.le_gt_cases x x') as [L | G].
    - assert (Ec : k * 2 ^ (x' - d) = (k * 2 ^ (x' - x)) * U) by (unfold U; rewrite <- Z.mul_assoc, <- pow_split by lia; do 2 f_equal; lia).
      rewrite Ec. destruct (multiple_closest (R m e) (k * 2 ^ (x' - x)) U (R m e * U) V PU eq_refl N1) as [C1 C2]. split; [ exact C1 | ].
      intros E. exists (k * 2 ^ (x' - x)). split; [ | now apply C2 ]. apply (same_trans _ _ _ Sb). apply same_sym.
      replace x' with (x + (x' - x)) at 2 by lia. apply same_shift. lia.
    - assert (Ex : x = Zpos (digits2_pos m) + e - prec) by (unfold x, last_place in *; lia).
      assert (LV : 2 ^ (prec - 1) * U <= V).
      { unfold U, V. rewrite <- pow_split by lia. replace (prec - 1 + (x - d)) with (Zpos (digits2_pos m) - 1 + (e - d)) by lia. rewrite pow_split by lia.
        apply Z.mul_le_mono_nonneg_r; [ apply Z.lt_le_incl, pow_pos; lia | apply digits_bounds ]. }
      assert (LB : Z.abs (k * 2 ^ (x' - d)) < 2 ^ (prec - 1) * U).
      { rewrite Z.abs_mul, (Z.abs_eq (2 ^ (x' - d))) by (apply Z.lt_le_incl, pow_pos; lia). eapply Z.lt_le_trans; [ apply Zmult_lt_compat_r; [ apply pow_pos; lia | exact Hk ] | ].
        unfold U. rewrite <- !pow_split by lia. apply Z.pow_le_mono_r; lia. }
      destruct (multiple_closest (R m e) (2 ^ (prec - 1)) U (R m e * U) V PU eq_refl N1) as [C1 _].
      split; [ lia | intros E; exfalso; lia ]. }
  split.
  - intros b Hb. destruct (M b Hb) as (d & D1 & D2 & D3 & C1 & _). apply (closer_at d); cbn [snd]; [ assumption.. | exact C1 ].
  - intros b Hb Cl. destruct (M b Hb) as (d & D1 & D2 & D3 & _ & C2). specialize (Cl d D1 D3 D2). destruct (C2 Cl) as (c & Sc & [-> | [T O]]); [ left; now apply same_sym | right ].
    destruct (rounded_near m e d D1 D2) as [_ Ev]. exists (R m e), (X m e). destruct O as [-> | ->]; [ left | right ]; (split; [ apply same_refl | split; [ now apply Ev | exact Sc ] ]).
Qed.
End Nearest.

(** Negation. *)
Definition opp (a : num) : num := (- fst a, snd a).
Lemma scaled_opp d a : scaled d (opp a) = - scaled d a. Proof. unfold scaled, opp. cbn [fst snd]. ring. Qed.
Lemma opp_opp a : opp (opp a) = a. Proof. destruct a. unfold opp. cbn. now rewrite Z.opp_involutive. Qed.
Lemma same_opp a b : same_num a b -> same_num (opp a) (opp b).
Proof. intros H d Ha Hb. rewrite !scaled_opp. f_equal. now apply H. Qed.
Lemma unbounded_opp prec emax a : unbounded_num prec emax a -> unbounded_num prec emax (opp a).
Proof. intros (k & x & H1 & H2 & H3). exists (- k), x. split; [ lia | split; [ exact H2 | exact (same_opp _ _ H3) ] ]. Qed.
Lemma closer_opp v a b : closer v a b -> closer (opp v) (opp a) (opp b).
Proof. intros H d Hv Ha Hb. rewrite !scaled_opp. specialize (H d Hv Ha Hb). lia. Qed.
Lemma nearest_opp prec emax v a : nearest prec emax v a -> nearest prec emax (opp v) (opp a).
Proof.
  intros (H1 & H2 & H3). split; [ now apply unbounded_opp | split ].
  - intros b Hb. rewrite <- (opp_opp b). apply closer_opp, H2. now apply unbounded_opp.
  - intros b Hb C. apply closer_opp in C. rewrite !opp_opp in C. destruct (H3 (opp b) (unbounded_opp _ _ _ Hb) C) as [Sa | (k & x & D)].
    + left. rewrite <- (opp_opp b). now apply same_opp.
    + right. exists (- k), x. destruct D as [(Sa & Ev & Sb) | (Sa & Ev & Sb)]; [ right | left ];
        (split; [ exact (same_opp _ _ Sa) | split; [ now rewrite Z.even_opp | ] ]);
        rewrite <- (opp_opp b); [ replace (- k - 1) with (- (k + 1)) by lia | replace (- k + 1) with (- (k - 1)) by lia ]; exact (same_opp _ _ Sb).
Qed.

Section Rounds.
Variables prec emax : Z.
Hypothesis Hprec : 1 < prec.
Hypothesis Hemax : prec < emax.
Notation emin := (3 - emax - prec).
Notation X := (last_place prec emax).
Notation R := (rounded prec emax).

Lemma rounded_big m e : emin < X m e -> 2 ^ (prec - 1) <= R m e.
Proof.
  intros Hx. assert (Ex : X m e = Zpos (digits2_pos m) + e - prec) by (unfold last_place in *; lia). unfold rounded. set (x := X m e) in *.
  pose proof (digits_bounds m) as [D _]. set (dg := Zpos (digits2_pos m)) in *. assert (0 < dg) by (subst dg; lia).
  destruct (Z.ltb_spec e x).
  - destruct (rne_spec (Zpos m) (x - e)) as (R1 & _ & R3); [ lia | lia | ].
    destruct (Z.le_gt_cases (2 ^ (prec - 1)) (rne (Zpos m) (x - e))) as [ L | G ]; [ exact L | exfalso ].
    assert (E : 2 ^ (dg - 1) = 2 ^ (prec - 1) * 2 ^ (x - e)) by (rewrite <- pow_split by lia; f_equal; lia).
    pose proof (pow_pos (x - e) ltac:(lia)) as P. set (w := 2 ^ (x - e)) in *. set (r := rne (Zpos m) (x - e)) in *.
    assert ((r + 1) * w <= 2 ^ (prec - 1) * w) by (apply Z.mul_le_mono_nonneg_r; lia). rewrite Z.mul_add_distr_r in *. lia.
  - replace (prec - 1) with (dg - 1 + (e - x)) by lia. rewrite pow_split by lia. apply Z.mul_le_mono_nonneg_r; [ apply Z.lt_le_incl, pow_pos; lia | exact D ].
Qed.
Lemma digits_pow k : 0 <= k -> Zpos (digits2_pos (Z.to_pos (2 ^ k))) = k + 1.
Proof.
  intros H. apply digits_unique. pose proof (pow_pos k H). rewrite Z2Pos.id by assumption. replace (k + 1 - 1) with k by lia. split; [ lia | ]. apply Z.pow_lt_mono_r; lia.
Qed.
Lemma valid_finite s k x : valid_binary prec emax (S754_finite s k x) = true <-> (Z.max (Zpos (digits2_pos k) + x - prec) emin = x /\ x <= emax - prec).
Proof. unfold valid_binary, bounded, canonical_mantissa, fexp, SpecFloat.emin. rewrite andb_true_iff, <- Zeq_is_eq_bool, <- Zle_is_le_bool. reflexivity. Qed.
Lemma less_one K x : 0 <= K -> (less (Z.abs K, x) (1, emax) <-> K * 2 ^ (x - Z.min x emax) < 2 ^ (emax - Z.min x emax)).
Proof.
  intros H. split.
  - intros L. specialize (L (Z.min x emax)). cbn [fst snd] in L. unfold scaled in L. cbn [fst snd] in L. rewrite Z.abs_eq, Z.mul_1_l in L by lia. apply L; lia.
  - intros L. apply (less_at (Z.min x emax)); cbn [snd]; [ lia | lia | ]. unfold scaled. cbn [fst snd]. rewrite Z.abs_eq, Z.mul_1_l by lia. exact L.
Qed.
Lemma less_small K x : 0 <= K < 2 ^ prec -> x <= emax - prec -> less (Z.abs K, x) (1, emax).
Proof.
  intros H1 H2. apply less_one; [ lia | ]. rewrite Z.min_l by lia. rewrite Z.sub_diag, Z.mul_1_r. eapply Z.lt_le_trans; [ apply H1 | ]. apply Z.pow_le_mono_r; lia.
Qed.
Lemma less_big K x : 2 ^ (prec - 1) <= K -> emax - prec < x -> ~ less (Z.abs K, x) (1, emax).
Proof.
  intros H1 H2 L. pose proof (pow_pos (prec - 1) ltac:(lia)). apply less_one in L; [ | lia ].
  assert (2 ^ (emax - Z.min x emax) <= K * 2 ^ (x - Z.min x emax)); [ | lia ].
  etransitivity; [ | apply Z.mul_le_mono_nonneg_r; [ apply Z.lt_le_incl, pow_pos; lia | exact H1 ] ]. rewrite <- pow_split by lia. apply Z.pow_le_mono_r; lia.
Qed.
Lemma less_same a b c : same_num a b -> less (Z.abs (fst b), snd b) c -> less (Z.abs (fst a), snd a) c.
Proof.
  intros S L. set (d := Z.min (snd a) (Z.min (snd b) (snd c))). apply (less_at d); cbn [snd]; [ lia | lia | ].
  assert (E : scaled d (Z.abs (fst a), snd a) = scaled d (Z.abs (fst b), snd b)).
  { specialize (S d ltac:(lia) ltac:(lia)). unfold scaled in *. cbn [fst snd] in *.
    pose proof (pow_pos (snd a - d) ltac:(lia)). pose proof (pow_pos (snd b - d) ltac:(lia)). 
    rewrite <- (Z.abs_eq (2 ^ (snd a - d))), <- (Z.abs_eq (2 ^ (snd b - d))), <- !Z.abs_mul, S by lia. reflexivity. }
  rewrite E. apply L; cbn [snd]; lia.
Qed.

Lemma rounds_pos m e : rounds prec emax (Zpos m, e) (binary_round prec emax false m e).
Proof.
  rewrite (binary_round_char prec emax Hprec). cbn zeta. pose proof (nearest_rounded prec emax Hprec m e) as N.
  pose proof (rounded_bounds prec emax Hprec m e) as RB. pose proof (rounded_big m e) as RG.
  assert (XE : X m e = Z.max (Zpos (digits2_pos m) + e - prec) emin) by reflexivity.
  set (K := R m e) in *. set (x := X m e) in *. destruct K as [ | k | k ] eqn:EK; [ | | lia ].
  - split; [ reflexivity | split; [ reflexivity | ] ]. exists (0, x). split; [ exact N | ]. cbn [value]. split.
    + apply (same_at (Z.min x 0)); cbn [snd]; [ lia | lia | reflexivity ].
    + cbn [fst snd]. apply less_one; [ lia | ]. rewrite Z.mul_0_l. apply pow_pos. lia.
  - destruct (Z.ltb_spec (Zpos k) (2 ^ prec)) as [ L | G ].
    + assert (DK : Z.max (Zpos (digits2_pos k) + x - prec) emin = x).
      { pose proof (digits_bounds k) as [D1 D2]. set (dk := Zpos (digits2_pos k)) in *. assert (dk <= prec).
        { destruct (Z.le_gt_cases dk prec) as [ ? | Q ]; [ assumption | exfalso ]. assert (2 ^ prec <= 2 ^ (dk - 1)) by (apply Z.pow_le_mono_r; lia). lia. }
        destruct (Z.eq_dec x emin) as [ Q | Q ]; [ lia | ]. specialize (RG ltac:(lia)).
        assert (prec <= dk). { destruct (Z.le_gt_cases prec dk) as [ ? | Q' ]; [ assumption | exfalso ]. assert (2 ^ dk <= 2 ^ (prec - 1)) by (apply Z.pow_le_mono_r; lia). lia. }
        lia. }
      destruct (Z.leb_spec x (emax - prec)) as [ L' | G' ].
      * split; [ now apply valid_finite | split; [ reflexivity | ] ]. exists (Zpos k, x). split; [ exact N | ]. cbn [value]. split; [ apply same_refl | ].
        cbn [fst snd]. apply less_small; lia.
      * split; [ reflexivity | split; [ reflexivity | ] ]. exists (Zpos k, x). split; [ exact N | ]. cbn [value]. split; [ discriminate | ].
        cbn [fst snd]. apply less_big; [ apply RG; lia | lia ].
    + assert (Ek : Zpos k = 2 ^ prec) by lia.
      assert (Sk : same_num (Zpos k, x) (2 ^ (prec - 1), x + 1)).
      { rewrite Ek. replace prec with (prec - 1 + 1) at 1 by lia. rewrite pow_split by lia. apply same_shift. lia. }
      pose proof (pow_pos (prec - 1) ltac:(lia)) as PP. assert (2 ^ (prec - 1) < 2 ^ prec) by (apply Z.pow_lt_mono_r; lia).
      destruct (Z.leb_spec (x + 1) (emax - prec)) as [ L' | G' ].
      * split; [ apply valid_finite; rewrite digits_pow by lia; lia | split; [ reflexivity | ] ]. exists (Zpos k, x). split; [ exact N | ]. cbn [value]. rewrite Z2Pos.id by lia. split; [ exact Sk | ].
        apply (less_same _ _ _ Sk). cbn [fst snd]. apply less_small; lia.
      * split; [ reflexivity | split; [ reflexivity | ] ]. exists (Zpos k, x). split; [ exact N | ]. cbn [value]. split; [ discriminate | ].
        intros L. apply (less_same _ _ _ (same_sym _ _ Sk)) in L. revert L. cbn [fst snd]. apply less_big; lia.
Qed.
Definition neg (x : spec_float) : spec_float := SFopp x.
Lemma binary_round_neg m e : binary_round prec emax true m e = neg (binary_round prec emax false m e).
Proof.
  rewrite !(binary_round_char prec emax Hprec). cbn zeta. destruct (R m e); [ reflexivity | | reflexivity ].
  destruct (_ <? _); destruct (_ <=? _); reflexivity.
Qed.
Lemma rounds_neg m e : rounds prec emax (Zneg m, e) (binary_round prec emax true m e).
Proof.
  rewrite binary_round_neg. destruct (rounds_pos m e) as (V & S & a & N & C). set (y := binary_round prec emax false m e) in *. 
  split; [ destruct y; exact V | split ].
  - destruct y; cbn in *; try now subst. all: exfalso; apply C; reflexivity.
  - exists (opp a). split; [ exact (nearest_opp _ _ _ _ N) | ].
    assert (O : forall c, less (Z.abs (fst (opp a)), snd (opp a)) c <-> less (Z.abs (fst a), snd a) c) by (intros c; unfold opp; cbn [fst snd]; rewrite Z.abs_opp; reflexivity).
    destruct y as [ s | s | | s k x ]; cbn [neg SFopp value] in *; rewrite O.
    + split; [ | apply C ]. exact (same_opp _ _ (proj1 C)).
    + split; [ discriminate | apply C ].
    + exfalso. now apply C.
    + split; [ | apply C ]. cbn in S. subst s. exact (same_opp _ _ (proj1 C)).
Qed.
Lemma rounds_round (s : bool) m e : rounds prec emax (if s then Zneg m else Zpos m, e) (binary_round prec emax s m e).
Proof. destruct s; [ apply rounds_neg | apply rounds_pos ]. Qed.
Lemma nearest_self v : unbounded_num prec emax v -> forall a, nearest prec emax v a -> same_num a v.
Proof.
  intros U a (_ & C & _). specialize (C v U). set (d := Z.min (snd a) (snd v)). apply (same_at d); [ lia | lia | ]. specialize (C d ltac:(lia) ltac:(lia) ltac:(lia)). lia.
Qed.
Lemma unbounded_same a b : same_num a b -> unbounded_num prec emax a -> unbounded_num prec emax b.
Proof. intros S (k & x & H1 & H2 & H3). exists k, x. split; [ exact H1 | split; [ exact H2 | ] ]. exact (same_trans _ _ _ (same_sym _ _ S) H3). Qed.
Lemma format_same a b : same_num a b -> format_num prec emax a -> format_num prec emax b.
Proof. intros S [U L]. split; [ exact (unbounded_same _ _ S U) | exact (less_same _ _ _ (same_sym _ _ S) L) ]. Qed.
(** A conversion keeps the number exactly when the format has it. *)
Lemma rounds_exact v y : rounds prec emax v y -> ((exists b, value y = Some b /\ same_num v b) <-> format_num prec emax v).
Proof.
  intros (V & S & a & N & C). split.
  - intros (b & Eb & Sb). rewrite Eb in C. destruct C as [Sa La]. assert (Sav : same_num a v) by exact (same_trans _ _ _ Sa (same_sym _ _ Sb)).
    apply (format_same a v Sav). split; [ apply N | exact La ].
  - intros [U L]. pose proof (nearest_self v U a N) as Sav. destruct (value y) as [ b | ] eqn:Ey.
    + exists b. split; [ reflexivity | ]. exact (same_trans _ _ _ (same_sym _ _ Sav) (proj1 C)).
    + exfalso. apply C. exact (less_same _ _ _ Sav L).
Qed.
Lemma valid_format x v : valid_binary prec emax x = true -> value x = Some v -> format_num prec emax v.
Proof.
  destruct x as [ s | s | | s m e ]; intros V E; try discriminate; injection E as <-.
  - assert (S : same_num (0, 0) (0, emin)) by (apply (same_at (Z.min 0 emin)); cbn [snd]; [ lia | lia | reflexivity ]).
    split.
    + exists 0, emin. split; [ apply pow_pos; lia | split; [ lia | exact S ] ].
    + cbn [fst snd]. apply less_one; [ lia | ]. rewrite Z.mul_0_l. apply pow_pos. lia.
  - apply valid_finite in V. destruct V as [V1 V2]. pose proof (digits_bounds m) as [D1 D2].
    assert (Zpos m < 2 ^ prec). { eapply Z.lt_le_trans; [ exact D2 | ]. apply Z.pow_le_mono_r; lia. }
    assert (A : Z.abs (if s then Zneg m else Zpos m) = Zpos m) by (destruct s; reflexivity).
    split.
    + exists (if s then Zneg m else Zpos m), e. split; [ lia | split; [ lia | apply same_refl ] ].
    + cbn [fst snd]. rewrite A. change (Zpos m) with (Z.abs (Zpos m)). apply less_small; lia.
Qed.
Lemma digits_same m e m' e' : same_num (Zpos m, e) (Zpos m', e') -> Zpos (digits2_pos m) + e = Zpos (digits2_pos m') + e'.
Proof.
  assert (W : forall m e m' e', e <= e' -> same_num (Zpos m, e) (Zpos m', e') -> Zpos (digits2_pos m) + e = Zpos (digits2_pos m') + e').
  { clear. intros m e m' e' L S. specialize (S e). cbn [snd] in S. unfold scaled in S. cbn [fst snd] in S. rewrite Z.sub_diag, Z.mul_1_r in S. specialize (S ltac:(lia) L).
    rewrite (digits_unique m (Zpos (digits2_pos m') + (e' - e))); [ lia | ]. rewrite S. pose proof (digits_bounds m') as [D1 D2]. pose proof (pow_pos (e' - e) ltac:(lia)).
    replace (Zpos (digits2_pos m') + (e' - e) - 1) with (Zpos (digits2_pos m') - 1 + (e' - e)) by lia. rewrite !pow_split by lia. split.
    - apply Z.mul_le_mono_nonneg_r; lia.
    - apply Zmult_lt_compat_r; lia. }
  intros S. destruct (Z.le_ge_cases e e'); [ now apply W | symmetry; apply W; [ lia | now apply same_sym ] ].
Qed.
Lemma same_zero (s : bool) m e : ~ same_num (0, 0) (if s then Zneg m else Zpos m, e).
Proof.
  intros S. specialize (S (Z.min 0 e)). cbn [snd] in S. unfold scaled in S. cbn [fst snd] in S. specialize (S ltac:(lia) ltac:(lia)). rewrite Z.mul_0_l in S.
  pose proof (pow_pos (e - Z.min 0 e) ltac:(lia)). destruct s; [ pose proof (Z.mul_neg_pos (Zneg m) _ ltac:(lia) H) | pose proof (Z.mul_pos_pos (Zpos m) _ ltac:(lia) H) ]; lia.
Qed.
(** A value of the format is determined by its number and its sign. *)
Lemma same_float x y a b : valid_binary prec emax x = true -> valid_binary prec emax y = true -> value x = Some a -> value y = Some b -> same_num a b -> negative x = negative y -> x = y.
Proof.
  intros Vx Vy Ex Ey S Sg. destruct x as [ s | s | | s m e ]; try discriminate; destruct y as [ t | t | | t k f ]; try discriminate; cbn in Ex, Ey, Sg; injection Ex as <-; injection Ey as <-; subst t.
  - reflexivity.
  - exfalso. exact (same_zero s k f S).
  - exfalso. exact (same_zero s m e (same_sym _ _ S)).
  - assert (Sp : same_num (Zpos m, e) (Zpos k, f)) by (destruct s; [ exact (same_opp _ _ S) | exact S ]).
    apply valid_finite in Vx. apply valid_finite in Vy. pose proof (digits_same _ _ _ _ Sp) as D. assert (e = f) by lia. subst f.
    specialize (Sp e). cbn [snd] in Sp. specialize (Sp ltac:(lia) ltac:(lia)). unfold scaled in Sp. cbn [fst snd] in Sp. rewrite Z.sub_diag, !Z.mul_1_r in Sp. injection Sp as ->. reflexivity.
Qed.
End Rounds.
