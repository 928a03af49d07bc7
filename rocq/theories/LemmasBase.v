(** Basic facts about bytes, joins and decimal text. *)
From Verif Require Import Base ModelStrconv.
From Coq Require Import Decimal DecimalFacts DecimalN DecimalPos.

Lemma beq_eq a b : beq a b = true <-> a = b.
Proof. unfold beq. apply Ascii.eqb_eq. Qed.
Lemma beq_neq a b : beq a b = false <-> a <> b.
Proof. unfold beq. apply Ascii.eqb_neq. Qed.
Lemma beq_refl a : beq a a = true.
Proof. apply beq_eq; reflexivity. Qed.

Lemma bseq_eq a : forall b, bseq a b = true <-> a = b.
Proof.
  induction a as [|x a IH]; intros [|y b]; cbn [bseq]; split; intro H;
    try reflexivity; try discriminate.
  - apply andb_true_iff in H as [H1 H2]. apply beq_eq in H1. apply IH in H2. congruence.
  - inversion H; subst. rewrite beq_refl. cbn. apply IH. reflexivity.
Qed.
Lemma bseq_refl a : bseq a a = true.
Proof. apply bseq_eq; reflexivity. Qed.
Lemma bseq_neq a b : bseq a b = false <-> a <> b.
Proof.
  split; intro H.
  - intro E. apply bseq_eq in E. congruence.
  - destruct (bseq a b) eqn:E; [|reflexivity]. apply bseq_eq in E. contradiction.
Qed.
Lemma bytes_eq_dec (a b : bytes) : {a = b} + {a <> b}.
Proof. destruct (bseq a b) eqn:E; [left; apply bseq_eq, E | right; apply bseq_neq, E]. Qed.

Lemma bmem_In x l : bmem x l = true <-> In x l.
Proof.
  induction l as [|y l IH]; cbn [bmem In]; [split; [discriminate|tauto]|].
  rewrite orb_true_iff, IH, bseq_eq. intuition congruence.
Qed.
Lemma bmem_not_In x l : bmem x l = false <-> ~ In x l.
Proof. rewrite <- bmem_In. destruct (bmem x l); intuition congruence. Qed.

Lemma code_chr n : (n < 256)%N -> code (chr n) = n.
Proof. intro H. unfold code, chr. apply N_ascii_embedding, H. Qed.
Lemma chr_code c : chr (code c) = c.
Proof. unfold code, chr. apply ascii_N_embedding. Qed.
Lemma code_lt c : (code c < 256)%N.
Proof. unfold code. apply N_ascii_bounded. Qed.
Lemma code_inj a b : code a = code b -> a = b.
Proof. intro H. rewrite <- (chr_code a), <- (chr_code b), H. reflexivity. Qed.

Lemma join_cons sep x y l : join sep (x :: y :: l) = x ++ sep ++ join sep (y :: l).
Proof. reflexivity. Qed.
Lemma join_one sep x : join sep [x] = x.
Proof. reflexivity. Qed.

Lemma has_prefix_spec p : forall s, has_prefix s p = true <-> exists r, s = p ++ r.
Proof.
  induction p as [|x p IH]; intros s; cbn [has_prefix].
  - split; [exists s; reflexivity | intros _; destruct s; reflexivity].
  - destruct s as [|y s].
    + split; [discriminate | intros [r Hr]; discriminate].
    + rewrite andb_true_iff, beq_eq, IH. split.
      * intros [-> [r ->]]. exists r. reflexivity.
      * intros [r Hr]. inversion Hr; subst. split; [reflexivity | exists r; reflexivity].
Qed.

(** Decimal text. *)
Definition all_digits (s : bytes) : Prop := Forall (fun c => is_digit c = true) s.

Lemma uint_bytes_digits u : all_digits (uint_bytes u).
Proof. unfold all_digits. induction u; cbn [uint_bytes]; constructor; auto. Qed.

Lemma format_uint_digits n : all_digits (format_uint n).
Proof. apply uint_bytes_digits. Qed.

Lemma format_uint_nonempty n : format_uint n <> [].
Proof.
  unfold format_uint. intro H.
  assert (E : N.to_uint n = Nil) by (destruct (N.to_uint n); [reflexivity | discriminate ..]).
  destruct n as [|p]; [discriminate|]. cbn in E.
  exact (DecimalPos.Unsigned.to_uint_nonnil p E).
Qed.

Fixpoint uint_val (acc : N) (u : Decimal.uint) : N :=
  match u with
  | Nil => acc
  | D0 u => uint_val (acc * 10 + 0) u
  | D1 u => uint_val (acc * 10 + 1) u
  | D2 u => uint_val (acc * 10 + 2) u
  | D3 u => uint_val (acc * 10 + 3) u
  | D4 u => uint_val (acc * 10 + 4) u
  | D5 u => uint_val (acc * 10 + 5) u
  | D6 u => uint_val (acc * 10 + 6) u
  | D7 u => uint_val (acc * 10 + 7) u
  | D8 u => uint_val (acc * 10 + 8) u
  | D9 u => uint_val (acc * 10 + 9) u
  end.

Lemma digits_val_uint u : forall acc, digits_val acc (uint_bytes u) = Some (uint_val acc u).
Proof.
  induction u as [|u IH|u IH|u IH|u IH|u IH|u IH|u IH|u IH|u IH|u IH]; intro acc;
    cbn [uint_bytes digits_val uint_val];
    [reflexivity | ..];
    match goal with |- context [is_digit ?c] => change (is_digit c) with true end;
    cbv iota; rewrite IH; reflexivity.
Qed.

Lemma uint_val_of_uint u : forall acc : N,
  uint_val acc u = match acc with 0%N => Pos.of_uint u | Npos p => Npos (Pos.of_uint_acc u p) end.
Proof.
  induction u as [|u IH|u IH|u IH|u IH|u IH|u IH|u IH|u IH|u IH|u IH]; intros [|p];
    cbn [uint_val Pos.of_uint Pos.of_uint_acc]; try reflexivity; rewrite IH;
    match goal with
    | |- match (0 * 10 + ?k)%N with 0%N => _ | N.pos _ => _ end = _ => reflexivity
    | |- _ = N.pos (Pos.of_uint_acc _ ?q) =>
      match goal with |- match ?e with 0%N => _ | N.pos _ => _ end = _ =>
        replace e with (N.pos q) by lia; reflexivity end
    end.
Qed.

Lemma digits_val_format n : digits_val 0 (format_uint n) = Some n.
Proof.
  unfold format_uint. rewrite digits_val_uint, uint_val_of_uint.
  f_equal. exact (DecimalN.Unsigned.of_to n).
Qed.

Lemma parse_digits_format n : parse_digits (format_uint n) = Some n.
Proof.
  unfold parse_digits. pose proof (format_uint_nonempty n) as H.
  pose proof (digits_val_format n) as D.
  destruct (format_uint n); [contradiction | exact D].
Qed.

Lemma format_uint_inj a b : format_uint a = format_uint b -> a = b.
Proof. intro H. pose proof (digits_val_format a) as D. rewrite H, digits_val_format in D. congruence. Qed.

Lemma parse_uint_format bits n : (n < 2 ^ bits)%N -> parse_uint bits (format_uint n) = Some n.
Proof.
  intro H. unfold parse_uint. rewrite parse_digits_format.
  apply N.ltb_lt in H. rewrite H. reflexivity.
Qed.

Lemma digit_not c d : is_digit c = true -> is_digit d = false -> c <> d.
Proof. intros H1 H2 E. subst. congruence. Qed.

Lemma parse_int_format bits z :
  (0 < bits)%N ->
  (- 2 ^ (Z.of_N bits - 1) <= z < 2 ^ (Z.of_N bits - 1))%Z ->
  parse_int bits (format_int z) = Some z.
Proof.
  intros Hb Hz.
  assert (Hp : Z.of_N (2 ^ (bits - 1)) = (2 ^ (Z.of_N bits - 1))%Z)
    by (rewrite N2Z.inj_pow, N2Z.inj_sub by lia; reflexivity).
  assert (Hpos : forall n, (Z.of_N n < 2 ^ (Z.of_N bits - 1))%Z ->
     parse_int bits (format_uint n) = Some (Z.of_N n)).
  { intros n Hn. unfold parse_int.
    pose proof (format_uint_digits n) as D. pose proof (parse_digits_format n) as P.
    pose proof (format_uint_nonempty n) as NE.
    destruct (format_uint n) as [|c d]; [contradiction|].
    inversion D as [|? ? Dc Dd]; subst.
    replace (beq c "-"%char) with false
      by (symmetry; apply beq_neq, (digit_not _ _ Dc); reflexivity).
    replace (beq c "+"%char) with false
      by (symmetry; apply beq_neq, (digit_not _ _ Dc); reflexivity).
    rewrite P.
    replace (N.ltb n (2 ^ (bits - 1))) with true; [reflexivity|].
    symmetry. apply N.ltb_lt. lia. }
  destruct z as [|p|p]; cbn [format_int].
  - rewrite Hpos by (cbn; lia). reflexivity.
  - rewrite Hpos by (cbn; lia). reflexivity.
  - unfold parse_int. rewrite beq_refl, parse_digits_format.
    replace (N.leb (N.pos p) (2 ^ (bits - 1))) with true; [reflexivity|].
    symmetry. apply N.leb_le. lia.
Qed.

Lemma wrap_signed_id bits z :
  (0 < bits)%N ->
  (- 2 ^ (Z.of_N bits - 1) <= z < 2 ^ (Z.of_N bits - 1))%Z -> wrap_signed bits z = z.
Proof.
  intros Hb Hz. unfold wrap_signed.
  assert (E : (2 ^ Z.of_N bits = 2 * 2 ^ (Z.of_N bits - 1))%Z).
  { rewrite <- Z.pow_succ_r by lia. f_equal. lia. }
  set (h := (2 ^ (Z.of_N bits - 1))%Z) in *. rewrite E.
  destruct (Z.ltb_spec z 0) as [Hn|Hn].
  - replace (z mod (2 * h))%Z with (z + 2 * h)%Z.
    + destruct (Z.ltb_spec (z + 2 * h) h); lia.
    + symmetry. rewrite <- (Z_mod_plus_full z 1). rewrite Z.mul_1_l. apply Z.mod_small. lia.
  - rewrite Z.mod_small by lia. destruct (Z.ltb_spec z h); lia.
Qed.

Lemma wrap_unsigned_id bits z : (0 <= z < 2 ^ Z.of_N bits)%Z -> wrap_unsigned bits z = z.
Proof. intro H. unfold wrap_unsigned. apply Z.mod_small, H. Qed.

Lemma hex_val_digit n : (n < 16)%N -> hex_val (hex_digit n) = Some n.
Proof.
  intro H. destruct n as [|p]; [reflexivity|].
  do 4 (destruct p as [p|p|]; try reflexivity; try lia).
Qed.

Lemma hex_roundtrip s : hex_decode (hex_encode s) = Some s.
Proof.
  induction s as [|c s IH]; [reflexivity|].
  cbn [hex_encode hex_decode].
  pose proof (code_lt c) as Hc.
  rewrite !hex_val_digit.
  - rewrite IH. f_equal. f_equal. rewrite <- (chr_code c) at 3. f_equal.
    pose proof (N.div_mod (code c) 16). lia.
  - apply N.mod_lt. lia.
  - apply N.div_lt_upper_bound; lia.
Qed.

Definition is_hex (c : byte) : bool := is_digit c || in_range 97 102 c.
Lemma hex_digit_is_hex n : (n < 16)%N -> is_hex (hex_digit n) = true.
Proof.
  intro H. destruct n as [|p]; [reflexivity|].
  do 4 (destruct p as [p|p|]; try reflexivity; try lia).
Qed.
Lemma hex_encode_is_hex s : Forall (fun c => is_hex c = true) (hex_encode s).
Proof.
  induction s as [|c s IH]; cbn [hex_encode]; [constructor|].
  pose proof (code_lt c) as Hc.
  constructor; [|constructor; [|exact IH]]; apply hex_digit_is_hex.
  - apply N.div_lt_upper_bound; lia.
  - apply N.mod_lt. lia.
Qed.
