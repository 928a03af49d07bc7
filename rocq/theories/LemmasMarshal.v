(** Lemmas for PropMarshal. *)
From Coq Require Import ZArith Floats.SpecFloat Lia.
From Verif Require Import Base ModelStrconv ModelArray ModelUtf8 ModelEncoding ModelMarshal SpecText SpecJson SpecMarshal
  LemmasBase LemmasArray LemmasArray2 LemmasJson.
Local Open Scope list_scope.

Lemma round_even_near num den : (den <> 0)%N ->
  (2 * Z.abs (Z.of_N (round_even num den) * Z.of_N den - Z.of_N num) <= Z.of_N den)%Z /\
  ((2 * Z.abs (Z.of_N (round_even num den) * Z.of_N den - Z.of_N num) = Z.of_N den)%Z -> N.even (round_even num den) = true).
Proof.
  intro D. unfold round_even.
  pose proof (N.div_mod num den D) as E. pose proof (N.mod_lt num den D) as L.
  set (q := (num / den)%N) in *. set (r := (num mod den)%N) in *. clearbody q r.
  assert (EZ : (Z.of_N num = Z.of_N den * Z.of_N q + Z.of_N r)%Z) by lia.
  destruct (N.compare_spec (2 * r) den) as [C|C|C].
  - destruct (N.even q) eqn:Ev.
    + split; [ nia | intros _; exact Ev ].
    + split; [ nia | intros _ ]. rewrite N.even_succ. unfold N.odd. now rewrite Ev.
  - split; [ nia | intro A; exfalso; nia ].
  - split; [ nia | intro A; exfalso; nia ].
Qed.

Lemma digit_code k : N_of_ascii (ascii_of_N (48 + k mod 10)) = (48 + k mod 10)%N.
Proof. apply N_ascii_embedding. pose proof (N.mod_lt k 10 ltac:(discriminate)). lia. Qed.
Lemma fixed_digits_digits p : forall k, Forall (fun c => (48 <= N_of_ascii c <= 57)%N) (fixed_digits p k).
Proof.
  induction p as [|p IH]; intro k; cbn [fixed_digits]; [ constructor | ].
  apply Forall_app. split; [ apply IH | ]. constructor; [ | constructor ].
  rewrite digit_code. pose proof (N.mod_lt k 10 ltac:(discriminate)) as L. clear IH. revert L. generalize (k mod 10)%N. intros r L. lia.
Qed.
Lemma fixed_digits_length p : forall k, length (fixed_digits p k) = p.
Proof.
  induction p as [|p IH]; intro k; cbn [fixed_digits]; [ reflexivity | ].
  rewrite app_length, IH. cbn. lia.
Qed.
Lemma fixed_digits_value p : forall k acc,
  (fold_left (fun a c => a * 10 + (Z.of_N (N_of_ascii c) - 48)) (fixed_digits p k) acc
   = acc * 10 ^ Z.of_nat p + Z.of_N (k mod 10 ^ N.of_nat p))%Z.
Proof.
  induction p as [|p IH]; intros k acc; cbn [fixed_digits fold_left].
  - change (10 ^ N.of_nat 0)%N with 1%N. rewrite N.mod_1_r. cbn. lia.
  - rewrite fold_left_app, IH. cbn [fold_left]. rewrite digit_code.
    rewrite !Nat2N.inj_succ, N.pow_succ_r', Nat2Z.inj_succ, Z.pow_succ_r by lia.
    rewrite (N.mod_mul_r k 10 (10 ^ N.of_nat p)) by (try apply N.pow_nonzero; lia).
    lia.
Qed.


Lemma fixed_digits_c p k : Forall (fun c => is_digit c = true) (fixed_digits p k).
Proof. eapply Forall_impl; [ | apply fixed_digits_digits ]. intros c H. now apply is_digit_range. Qed.

(** The digits of the text, without the point, are those of the number. *)
Lemma uint_digits q : decimal_digits (format_uint q) /\ digits_to_Z (format_uint q) = Z.of_N q.
Proof.
  pose proof (parse_digits_format q) as P. apply parse_digits_spec in P. destruct P as [A V]. split; [ exact A | now symmetry ].
Qed.
Lemma all_digits p n : decimal_digits (format_uint (n / 10 ^ N.of_nat p) ++ fixed_digits p n) /\
  digits_to_Z (format_uint (n / 10 ^ N.of_nat p) ++ fixed_digits p n) = Z.of_N n.
Proof.
  destruct (uint_digits (n / 10 ^ N.of_nat p)) as [[A1 A2] V]. split.
  - split; [ | apply Forall_app; split; [ exact A2 | apply fixed_digits_digits ] ].
    destruct (format_uint (n / 10 ^ N.of_nat p)); [ contradiction | discriminate ].
  - unfold digits_to_Z in *. rewrite fold_left_app, V, fixed_digits_value.
    pose proof (N.div_mod n (10 ^ N.of_nat p) ltac:(apply N.pow_nonzero; lia)) as E.
    assert (P : (10 ^ Z.of_nat p = Z.of_N (10 ^ N.of_nat p))%Z) by (rewrite N2Z.inj_pow, nat_N_Z; reflexivity).
    rewrite P. lia.
Qed.

Lemma fixed_denotes s p n :
  denotes_decimal (sign_text s ++ fixed_text p n) (if s then - Z.of_N n else Z.of_N n)%Z p.
Proof.
  destruct (all_digits p n) as [A V].
  assert (D : denotes_int (sign_text s ++ format_uint (n / 10 ^ N.of_nat p) ++ fixed_digits p n)
                (if s then - Z.of_N n else Z.of_N n)%Z).
  { rewrite <- V. destruct s; cbn [sign_text]; [ apply DI_minus, A | apply DI_plain, A ]. }
  unfold fixed_text. destruct p as [|p].
  - rewrite app_nil_r. cbn [fixed_digits] in D. rewrite app_nil_r in D. now constructor.
  - pose proof (fixed_digits_length (S p) n) as FL.
    change (B "." ++ fixed_digits (S p) n) with ("."%char :: fixed_digits (S p) n).
    remember (fixed_digits (S p) n) as b eqn:Eb. rewrite app_assoc.
    enough (DD : denotes_decimal ((sign_text s ++ format_uint (n / 10 ^ N.of_nat (S p))) ++ "."%char :: b)
                   (if s then - Z.of_N n else Z.of_N n)%Z (length b)) by (rewrite FL in DD; exact DD).
    subst b. constructor; [ now rewrite <- app_assoc | ].
    split; [ | apply fixed_digits_digits ].
    intro E. pose proof (fixed_digits_length (S p) n) as L. rewrite E in L. discriminate.
Qed.

(** The text is a JSON number. *)
Lemma frac_fixed p n : frac_ok (match p with O => [] | _ => B "." ++ fixed_digits p n end) = true.
Proof.
  destruct p as [|p]; [ reflexivity | ].
  change (B "." ++ fixed_digits (S p) n) with ("."%char :: fixed_digits (S p) n).
  cbn [frac_ok]. change (Ascii.eqb "." ".") with true. cbn iota.
  pose proof (digits_digit_c _ (fixed_digits_c (S p) n)) as D.
  rewrite (span_all _ _ D). unfold all_dig.
  destruct (fixed_digits (S p) n) as [|c r] eqn:E; [ | now rewrite D ].
  pose proof (fixed_digits_length (S p) n) as L. rewrite E in L. discriminate.
Qed.
Lemma span_point q p n : Forall (fun c => is_digit c = true) q ->
  span digit_c (q ++ match p with O => [] | _ => B "." ++ fixed_digits p n end)
  = (q, match p with O => [] | _ => B "." ++ fixed_digits p n end).
Proof.
  intro D. apply digits_digit_c in D. destruct p as [|p].
  - rewrite app_nil_r. now apply span_all.
  - apply span_stop; [ exact D | reflexivity ].
Qed.
Lemma number_ok_fixed s p n : number_ok (sign_text s ++ fixed_text p n) = true.
Proof.
  assert (X : forall c r, fixed_text p n = c :: r ->
    Ascii.eqb c "-" = false /\ (if Ascii.eqb c "0" then frac_ok r else digit_c c && let (_, f) := span digit_c r in frac_ok f) = true).
  { intros c r E. unfold fixed_text in E. set (q := (n / 10 ^ N.of_nat p)%N) in *.
    pose proof (format_uint_digits q) as D. pose proof (format_uint_head q) as HH.
    destruct (N.eq_dec q 0) as [Z|NZ].
    - rewrite Z in E. change (format_uint 0) with (B "0") in E. cbn [B list_ascii_of_string app] in E. injection E as <- <-.
      split; [ reflexivity | ]. change (Ascii.eqb "0" "0") with true. cbn iota. exact (frac_fixed p n).
    - pose proof (format_uint_no_leading_zero q NZ) as NL.
      destruct (format_uint q) as [|c' r']; [ contradiction | ]. rewrite <- app_comm_cons in E. injection E as <- <-.
      inversion D as [|? ? Dc Dr]; subst.
      split. { apply eqb_neq. intro; subst. discriminate. }
      rewrite (eqb_neq _ _ NL), HH. pose proof (span_point r' p n Dr) as SP. 
      match goal with |- context [span digit_c ?x] => change (span digit_c x) with (span digit_c (r' ++ match p with O => [] | _ => B "." ++ fixed_digits p n end)) end.
      rewrite SP. exact (frac_fixed p n). }
  destruct (fixed_text p n) as [|c r] eqn:E.
  - exfalso. unfold fixed_text in E. pose proof (format_uint_head (n / 10 ^ N.of_nat p)) as HH.
    destruct (format_uint (n / 10 ^ N.of_nat p)); [ contradiction | discriminate ].
  - destruct (X c r eq_refl) as [X1 X2]. unfold number_ok.
    destruct s; cbn [sign_text B list_ascii_of_string app].
    + change (Ascii.eqb "-" "-") with true. exact X2.
    + rewrite X1. exact X2.
Qed.
Lemma fixed_elem s p n : json_elem (sign_text s ++ fixed_text p n) (JNum (sign_text s ++ fixed_text p n)).
Proof.
  apply number_elem; [ apply number_ok_fixed | | ].
  - rewrite forallb_app. apply andb_true_intro. split; [ destruct s; reflexivity | ].
    unfold fixed_text. rewrite forallb_app. apply andb_true_intro. split; [ apply digits_num_c, format_uint_digits | ].
    destruct p; [ reflexivity | ]. rewrite forallb_app. apply andb_true_intro. split; [ reflexivity | ].
    apply digits_num_c, fixed_digits_c.
  - destruct s; [ right; reflexivity | ]. cbn [sign_text app]. unfold fixed_text.
    pose proof (format_uint_head (n / 10 ^ N.of_nat p)) as HH.
    destruct (format_uint (n / 10 ^ N.of_nat p)); [ contradiction | left; exact HH ].
Qed.

Lemma float_elem p x : is_number x -> json_elem (format_fixed p x) (JNum (format_fixed p x)).
Proof. destruct x; intro H; try contradiction; apply fixed_elem. Qed.

Lemma scaled_near s m e p :
  nearest (S754_finite s m e) (if s then - Z.of_N (scaled p m e) else Z.of_N (scaled p m e))%Z p.
Proof.
  unfold nearest, top, bottom, scaled.
  destruct (round_even_near (Npos m * 2 ^ Z.to_N e * 10 ^ N.of_nat p) (2 ^ Z.to_N (- e)) ltac:(apply N.pow_nonzero; lia)) as [R1 R2].
  set (k := round_even _ _) in *. clearbody k.
  assert (P : Z.of_N (2 ^ Z.to_N (- e)) = (2 ^ Z.max 0 (- e))%Z).
  { rewrite N2Z.inj_pow, Z2N.inj_max || rewrite N2Z.inj_pow. f_equal. lia. }
  assert (Q : Z.of_N (Npos m * 2 ^ Z.to_N e * 10 ^ N.of_nat p) = (Zpos m * 2 ^ Z.max 0 e * 10 ^ Z.of_nat p)%Z).
  { rewrite !N2Z.inj_mul, !N2Z.inj_pow, nat_N_Z. change (Z.of_N 2) with 2%Z. change (Z.of_N 10) with 10%Z.
    change (Z.of_N (Npos m)) with (Zpos m). do 3 f_equal. lia. }
  rewrite P, Q in R1, R2. clear P Q.
  assert (Ev : forall z, Z.even (- z) = Z.even z) by (intro z; apply Z.even_opp).
  assert (EN : Z.even (Z.of_N k) = N.even k) by (destruct k as [|[]]; reflexivity).
  set (b := (2 ^ Z.max 0 (- e))%Z) in *. set (a := (2 ^ Z.max 0 e)%Z) in *. set (t := (10 ^ Z.of_nat p)%Z) in *. clearbody a b t.
  destruct s.
  - replace (- Z.of_N k * b - Zneg m * a * t)%Z with (- (Z.of_N k * b - Zpos m * a * t))%Z by (change (Zneg m) with (- Zpos m)%Z; ring).
    rewrite Z.abs_opp, Ev, EN. now split.
  - rewrite EN. now split.
Qed.

Lemma float_denotes p x : is_number x -> exists n, denotes_decimal (format_fixed p x) n p /\ nearest x n p.
Proof.
  destruct x as [s|s| |s m e]; intro H; try contradiction.
  - exists (if s then - Z.of_N 0 else Z.of_N 0)%Z. split; [ apply fixed_denotes | ].
    unfold nearest, top, bottom. destruct s; cbn; split; try lia; reflexivity.
  - eexists. split; [ apply fixed_denotes | apply scaled_near ].
Qed.
