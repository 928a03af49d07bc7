(** C71: float columns. *)
From Coq Require Import ZArith Lia Floats.SpecFloat.
From Verif Require Import Base ModelTypes ModelEncoding SpecIeee SpecFloatColumn LemmasFloat ModelFloat PropScan.
Open Scope Z_scope.

Lemma w_prec w : 1 < prec w. Proof. destruct w; reflexivity. Qed.
Lemma w_emax w : prec w < emax w. Proof. destruct w; reflexivity. Qed.
(** The values of float32 and of float64. *)
Definition float32 (x : spec_float) : Prop := valid_binary 24 128 x = true.
Definition float64 (x : spec_float) : Prop := valid_binary 53 1024 x = true.
Definition is_float (w : width) (x : spec_float) : Prop := match w with F32 => float32 x | F64 => float64 x end.
Lemma is_float_valid w x : is_float w x <-> valid_binary (prec w) (emax w) x = true. Proof. destruct w; reflexivity. Qed.

Lemma convert_converted w x : converted (prec w) (emax w) x (convert_float w x).
Proof. destruct x as [ s | s | | s m e ]; try reflexivity. apply (rounds_round _ _ (w_prec w) (w_emax w)). Qed.
Lemma convert_int_rounds w z : z <> 0 -> rounds (prec w) (emax w) (z, 0) (convert_int w z).
Proof. intros H. destruct z as [ | p | p ]; [ easy | exact (rounds_pos _ _ (w_prec w) (w_emax w) p 0) | exact (rounds_neg _ _ (w_prec w) (w_emax w) p 0) ]. Qed.

Lemma converted_valid p e x y : valid_binary p e x = true \/ (exists v, value x = Some v) -> converted p e x y -> valid_binary p e y = true.
Proof. destruct x as [ s | s | | s m k ]; intros H C; cbn [converted] in C; try (rewrite C; reflexivity). apply C. Qed.
(** Conversion of a float that the format has gives that float. *)
Lemma converted_self p e x y : 1 < p -> p < e -> valid_binary p e x = true -> converted p e x y -> y = x.
Proof.
  intros Hp He V C. destruct x as [ s | s | | s m k ]; try exact C. cbn [converted] in C.
  destruct (proj2 (rounds_exact p e _ _ C)) as (b & Eb & Sb); [ apply (valid_format p e Hp He (S754_finite s m k)); [ exact V | reflexivity ] | ].
  symmetry. apply (same_float p e (S754_finite s m k) y (if s then Zneg m else Zpos m, k) b V); [ apply C | reflexivity | exact Eb | exact Sb | ].
  destruct C as (_ & -> & _). destruct s; reflexivity.
Qed.
(** The number is kept when the format has it, whatever the float it is given as. *)
Lemma converted_number p e x v y : value x = Some v -> format_num p e v -> 0 <= p -> converted p e x y -> (exists b, value y = Some b /\ same_num v b) /\ negative y = negative x.
Proof.
  intros Ex F Hp C. destruct x as [ s | s | | s m k ]; try discriminate; cbn [value] in Ex; injection Ex as <-.
  - cbn [converted] in C. subst y. split; [ | reflexivity ]. exists (0, 0). split; [ reflexivity | apply same_refl ].
  - cbn [converted] in C. split; [ now apply (rounds_exact p e _ _ C) | ]. destruct C as (_ & -> & _). destruct s; reflexivity.
Qed.
Lemma converted_change p e x v y : value x = Some v -> ~ format_num p e v -> 1 < p -> p < e -> converted p e x y -> y <> x.
Proof.
  intros Ex F Hp He C ->. destruct x as [ s | s | | s m k ]; try discriminate; cbn [value] in Ex; injection Ex as <-.
  - apply F. apply (valid_format p e Hp He (S754_zero s)); reflexivity.
  - apply F. cbn [converted] in C. apply (rounds_exact p e _ _ C). exists (if s then Zneg m else Zpos m, k). split; [ reflexivity | apply same_refl ].
Qed.

(** Every pattern of bits is a float64 and every float64 has one. *)
Lemma digits_range p k : 0 < k -> 2 ^ (k - 1) <= Zpos p < 2 ^ k -> Zpos (digits2_pos p) = k.
Proof. intros _. apply digits_unique. Qed.
Lemma digits_le p k : 0 <= k -> Zpos p < 2 ^ k -> Zpos (digits2_pos p) <= k.
Proof.
  intros Hk H. pose proof (digits_bounds p) as [D _]. destruct (Z.le_gt_cases (Zpos (digits2_pos p)) k) as [ L | G ]; [ exact L | exfalso ].
  assert (2 ^ k <= 2 ^ (Zpos (digits2_pos p) - 1)) by (apply Z.pow_le_mono_r; lia). lia.
Qed.
Lemma bits_valid b : float64 (float_of_bits b).
Proof.
  unfold float64, float_of_bits. set (s := N.testbit b 63). pose proof (N.mod_lt b (2 ^ 52) ltac:(discriminate)) as Hm. set (m := (b mod 2 ^ 52)%N) in *.
  pose proof (N.mod_lt (b / 2 ^ 52) (2 ^ 11) ltac:(discriminate)) as He. set (e := ((b / 2 ^ 52) mod 2 ^ 11)%N) in *.
  destruct (N.eqb_spec e 0).
  - destruct m as [ | p ] eqn:Em; [ reflexivity | ]. apply valid_finite. pose proof (digits_le p 52 ltac:(lia)) as D. change (2 ^ 52)%N with 4503599627370496%N in Hm. change (2 ^ 52) with 4503599627370496 in D. lia.
  - destruct (N.eqb_spec e 2047); [ destruct m; reflexivity | ].
    destruct (m + 2 ^ 52)%N as [ | p ] eqn:Ep; [ reflexivity | ]. apply valid_finite. change (2 ^ 11)%N with 2048%N in He. change (2 ^ 52)%N with 4503599627370496%N in *.
    rewrite (digits_unique p 53); [ lia | ]. change (2 ^ (53 - 1)) with 4503599627370496. change (2 ^ 53) with 9007199254740992. lia.
Qed.
Lemma bits_make (s : bool) (e m : N) : (e < 2 ^ 11)%N -> (m < 2 ^ 52)%N -> let b := ((if s then 2 ^ 63 else 0) + e * 2 ^ 52 + m)%N in
  N.testbit b 63 = s /\ (b mod 2 ^ 52 = m)%N /\ ((b / 2 ^ 52) mod 2 ^ 11 = e)%N.
Proof.
  intros He Hm b. change (2 ^ 11)%N with 2048%N in *. change (2 ^ 52)%N with 4503599627370496%N in *.
  assert (Eb : b = (((if s then 2048 else 0) + e) * 4503599627370496 + m)%N) by (unfold b; destruct s; [ change (2 ^ 63)%N with (2048 * 4503599627370496)%N | ]; ring).
  assert (Eq : (b / 4503599627370496 = (if s then 2048 else 0) + e)%N) by (rewrite Eb, N.div_add_l by discriminate; rewrite (N.div_small m) by exact Hm; apply N.add_0_r).
  split; [ | split ].
  - rewrite N.testbit_eqb. change (2 ^ 63)%N with (4503599627370496 * 2048)%N. rewrite <- N.div_div by discriminate. rewrite Eq.
    destruct s.
    + rewrite N.add_comm. replace (e + 2048)%N with (e + 1 * 2048)%N by lia. rewrite N.div_add by discriminate. rewrite (N.div_small e) by exact He. reflexivity.
    + rewrite N.div_small by exact He. reflexivity.
  - rewrite Eb, N.add_comm, N.mod_add by discriminate. now apply N.mod_small.
  - rewrite Eq. destruct s.
    + rewrite N.add_comm. replace (e + 2048)%N with (e + 1 * 2048)%N by lia. rewrite N.mod_add by discriminate. now apply N.mod_small.
    + now apply N.mod_small.
Qed.
Lemma bits_small (s : bool) e m : (e < 2 ^ 11)%N -> (m < 2 ^ 52)%N -> ((if s then 2 ^ 63 else 0) + e * 2 ^ 52 + m < 2 ^ 64)%N.
Proof.
  change (2 ^ 11)%N with 2048%N. change (2 ^ 52)%N with 4503599627370496%N. change (2 ^ 63)%N with 9223372036854775808%N. change (2 ^ 64)%N with 18446744073709551616%N. destruct s; lia.
Qed.
Lemma bits_exist x : float64 x -> exists b, (b < 2 ^ 64)%N /\ float_of_bits b = x.
Proof.
  intros V. assert (M : forall (s : bool) (e m : N), (e < 2 ^ 11)%N -> (m < 2 ^ 52)%N -> float_of_bits ((if s then 2 ^ 63 else 0) + e * 2 ^ 52 + m) =
     if (e =? 0)%N then match m with N0 => S754_zero s | Npos p => S754_finite s p (-1074) end
     else if (e =? 2047)%N then match m with N0 => S754_infinity s | _ => S754_nan end
     else match (m + 2 ^ 52)%N with N0 => S754_nan | Npos p => S754_finite s p (Z.of_N e - 1075) end).
  { intros s e m He Hm. destruct (bits_make s e m He Hm) as (H1 & H2 & H3). unfold float_of_bits. rewrite H1, H2, H3. reflexivity. }
  destruct x as [ s | s | | s m e ].
  - eexists. split; [ apply (bits_small s 0 0); reflexivity | rewrite (M s 0%N 0%N); reflexivity ].
  - eexists. split; [ apply (bits_small s 2047 0); reflexivity | rewrite (M s 2047%N 0%N); reflexivity ].
  - eexists. split; [ apply (bits_small false 2047 1); reflexivity | rewrite (M false 2047%N 1%N); reflexivity ].
  - apply valid_finite in V. destruct V as [V1 V2]. pose proof (digits_bounds m) as [D1 D2]. set (dg := Zpos (digits2_pos m)) in *.
    change (3 - 1024 - 53) with (-1074) in V1. change (1024 - 53) with 971 in V2.
    destruct (Z.lt_ge_cases (Zpos m) 4503599627370496) as [ L | G ].
    + assert (E : e = -1074). { pose proof (digits_le m 52 ltac:(lia) L). fold dg in H. lia. }
      exists ((if s then 2 ^ 63 else 0) + 0 * 2 ^ 52 + Npos m)%N. split; [ apply bits_small; [ reflexivity | change (2 ^ 52)%N with 4503599627370496%N; lia ] | ]. rewrite M; [ subst e; reflexivity | reflexivity | change (2 ^ 52)%N with 4503599627370496%N; lia ].
    + assert (dg = 53). { assert (2 ^ 52 < 2 ^ dg) by (change (2 ^ 52) with 4503599627370496; lia). destruct (Z.le_gt_cases dg 52); [ | lia ]. assert (2 ^ dg <= 2 ^ 52) by (apply Z.pow_le_mono_r; lia). lia. }
      rewrite H in D2. change (2 ^ 53) with 9007199254740992 in D2.
      exists ((if s then 2 ^ 63 else 0) + Z.to_N (e + 1075) * 2 ^ 52 + (Npos m - 2 ^ 52))%N.
      split; [ apply bits_small; [ change (2 ^ 11)%N with 2048%N; lia | change (2 ^ 52)%N with 4503599627370496%N; lia ] | ]. change (2 ^ 52)%N with 4503599627370496%N. change 4503599627370496%N with (2 ^ 52)%N at 1.
      rewrite M; [ | change (2 ^ 11)%N with 2048%N; lia | change (2 ^ 52)%N with 4503599627370496%N; lia ].
      destruct (N.eqb_spec (Z.to_N (e + 1075)) 0); [ lia | ]. destruct (N.eqb_spec (Z.to_N (e + 1075)) 2047); [ lia | ].
      replace (Npos m - 4503599627370496 + 2 ^ 52)%N with (Npos m) by (change (2 ^ 52)%N with 4503599627370496%N; lia). rewrite Z2N.id by lia. f_equal. lia.
Qed.

(** The bits of a float64 mean what IEEE 754 says, every pattern is a float64, and every float64 has a pattern of 64 bits. *)
Theorem C71_patterns : (forall b, float64 (float_of_bits b)) /\ (forall x, float64 x -> exists b, (b < 2 ^ 64)%N /\ float_of_bits b = x) /\
  forall (s : bool) (e m : N), (e < 2 ^ 11)%N -> (m < 2 ^ 52)%N ->
    let x := float_of_bits ((if s then 2 ^ 63 else 0) + e * 2 ^ 52 + m) in
    if (e =? 2047)%N then x = (if (m =? 0)%N then S754_infinity s else S754_nan)
    else negative x = s /\ exists u, value x = Some u /\
      same_num u ((if s then -1 else 1) * (Z.of_N m + if (e =? 0)%N then 0 else 2 ^ 52), Z.max (Z.of_N e) 1 - 1075).
Proof.
  split; [ exact bits_valid | split; [ exact bits_exist | ] ]. intros s e m He Hm x. subst x. destruct (bits_make s e m He Hm) as (H1 & H2 & H3).
  unfold float_of_bits. rewrite H1, H2, H3. destruct (N.eqb_spec e 2047) as [ -> | N1 ]; [ destruct m; reflexivity | ].
  destruct (N.eqb_spec e 0) as [ -> | N0 ].
  - destruct m as [ | p ]; (split; [ reflexivity | ]); eexists; (split; [ reflexivity | ]).
    + apply (same_at (-1074)); cbn [snd]; [ lia | lia | ]. destruct s; reflexivity.
    + change (Z.max (Z.of_N 0) 1 - 1075) with (-1074). replace ((if s then -1 else 1) * (Z.of_N (Npos p) + 0)) with (if s then Zneg p else Zpos p) by (destruct s; lia). apply same_refl.
  - destruct (m + 2 ^ 52)%N as [ | p ] eqn:Ep; [ change (2 ^ 52)%N with 4503599627370496%N in Ep; lia | ]. split; [ reflexivity | ]. eexists. split; [ reflexivity | ].
    replace (Z.max (Z.of_N e) 1 - 1075) with (Z.of_N e - 1075) by lia. change (2 ^ 52)%N with 4503599627370496%N in Ep. change (2 ^ 52) with 4503599627370496.
    replace ((if s then -1 else 1) * (Z.of_N m + 4503599627370496)) with (if s then Zneg p else Zpos p) by (destruct s; lia). apply same_refl.
Qed.
Print Assumptions C71_patterns.

(** ** C71.  What a float field holds after a scan, for every kind of value: the driver's float rounded once to the field's format (so
    unchanged for float64), an integer rounded once, what ParseFloat made of a text, zero or nil for NULL; every other value is an error
    and leaves the field as it was, as is a text in strict mode or one that ParseFloat refuses.
    Missing part: ParseFloat itself is not modelled (its result is taken to be a value of the field's format). *)
Theorem C71_read_partial : forall parse (w : width) strict (tgt : target spec_float),
  (forall s f, parse w s = Some f -> is_float F64 f /\ forall v, value f = Some v -> format_num (prec w) (emax w) v) ->
  (match float_scanner parse w strict tgt (Driver VNull) with (TVal z, r) => z = S754_zero false /\ r = Ok tt /\ (exists o, tgt = TVal o) | (TPtr p, r) => p = None /\ r = Ok tt /\ (exists o, tgt = TPtr o) end) /\
  (forall b, exists y, gives tgt (float_scanner parse w strict tgt (Driver (VFloat b))) (Some y) (Ok tt) /\ converted (prec w) (emax w) (float_of_bits b) y /\ (w = F64 -> y = float_of_bits b)) /\
  (forall z, exists y, gives tgt (float_scanner parse w strict tgt (Driver (VInt z))) (Some y) (Ok tt) /\ if z =? 0 then y = S754_zero false else rounds (prec w) (emax w) (z, 0) y) /\
  (forall s src, src = Driver (VString s) \/ src = Driver (VBytes s) ->
     match parse w s with
     | Some f => if strict then float_scanner parse w strict tgt src = (tgt, Err) else
         exists y, gives tgt (float_scanner parse w strict tgt src) (Some y) (Ok tt) /\ negative y = negative f /\
           match value f with Some v => exists u, value y = Some u /\ same_num v u | None => y = f end
     | None => float_scanner parse w strict tgt src = (tgt, Err)
     end) /\
  (forall b, float_scanner parse w strict tgt (Driver (VBool b)) = (tgt, Err)) /\
  (forall t, float_scanner parse w strict tgt (Driver (VTime t)) = (tgt, Err)).
Proof.
  intros parse w strict tgt HP. split; [ destruct tgt; cbn; eauto | ].
  assert (G : forall y, gives tgt (store tgt y, Ok tt) (Some y) (Ok tt)) by (intros y; unfold gives; destruct tgt; cbn; auto).
  split; [ | split; [ | split; [ | split; reflexivity ] ] ].
  - intros b. eexists. split; [ apply G | split; [ apply convert_converted | ] ]. intros ->.
    exact (converted_self 53 1024 _ _ ltac:(lia) ltac:(lia) (bits_valid b) (convert_converted F64 _)).
  - intros z. eexists. split; [ apply G | ]. destruct (Z.eqb_spec z 0) as [ -> | N ]; [ reflexivity | now apply convert_int_rounds ].
  - intros s src Hs. assert (E : float_scanner parse w strict tgt src = if strict then (tgt, Err) else match parse w s with Some f => (store tgt (convert_float w f), Ok tt) | None => (tgt, Err) end) by (destruct Hs as [-> | ->]; reflexivity).
    rewrite E. destruct (parse w s) as [ f | ] eqn:Ef; [ | destruct strict; reflexivity ]. destruct strict; [ reflexivity | ].
    eexists. split; [ apply G | ]. destruct (HP s f Ef) as [ _ HF ]. destruct (value f) as [ v | ] eqn:Ev.
    + destruct (converted_number (prec w) (emax w) f v _ Ev (HF v eq_refl) ltac:(destruct w; discriminate) (convert_converted w f)) as [ ? ? ]. split; assumption.
    + destruct f; try discriminate; split; reflexivity.
Qed.
Print Assumptions C71_read_partial.

(** The number read is the number sent exactly when the field's format has it. *)
Theorem C71_exact : forall parse w strict tgt b v, value (float_of_bits b) = Some v ->
  ((exists y u, gives tgt (float_scanner parse w strict tgt (Driver (VFloat b))) (Some y) (Ok tt) /\ value y = Some u /\ same_num v u) <-> format_num (prec w) (emax w) v).
Proof.
  intros parse w strict tgt b v Ev. set (x := float_of_bits b) in *.
  assert (G : forall y, gives tgt (float_scanner parse w strict tgt (Driver (VFloat b))) (Some y) (Ok tt) <-> y = convert_float w x).
  { intros y. unfold gives. cbn [float_scanner]. fold x. destruct tgt; cbn; split; [ intros (_ & [= <-] & _); reflexivity | intros ->; auto | intros (_ & [= <-] & _); reflexivity | intros ->; auto ]. }
  split.
  - intros (y & u & Hy & Eu & Su). apply G in Hy. subst y. pose proof (convert_converted w x) as C. destruct x as [ s | s | | s m e ]; try discriminate; cbn [value] in Ev; injection Ev as <-.
    + apply (valid_format _ _ (w_prec w) (w_emax w) (S754_zero s)); reflexivity.
    + apply (rounds_exact _ _ _ _ C). exists u. split; assumption.
  - intros F. destruct (converted_number (prec w) (emax w) x v _ Ev F ltac:(destruct w; discriminate) (convert_converted w x)) as [ (u & Eu & Su) _ ].
    exists (convert_float w x), u. split; [ now apply G | split; assumption ].
Qed.
Print Assumptions C71_exact.
Theorem C71_exact_int : forall parse w strict tgt z,
  ((exists y u, gives tgt (float_scanner parse w strict tgt (Driver (VInt z))) (Some y) (Ok tt) /\ value y = Some u /\ same_num (z, 0) u) <-> format_num (prec w) (emax w) (z, 0)).
Proof.
  intros parse w strict tgt z.
  assert (G : forall y, gives tgt (float_scanner parse w strict tgt (Driver (VInt z))) (Some y) (Ok tt) <-> y = convert_int w z).
  { intros y. unfold gives. cbn [float_scanner]. destruct tgt; cbn [store fst snd content same_kind]; split; [ intros (_ & [= <-] & _); reflexivity | intros ->; auto | intros (_ & [= <-] & _); reflexivity | intros ->; auto ]. }
  destruct (Z.eq_dec z 0) as [ -> | N ].
  - split; [ intros _ | intros _ ].
    + apply (valid_format _ _ (w_prec w) (w_emax w) (S754_zero false)); reflexivity.
    + exists (S754_zero false), (0, 0). split; [ now apply G | split; [ reflexivity | apply same_refl ] ].
  - rewrite <- (rounds_exact _ _ _ _ (convert_int_rounds w z N)). split.
    + intros (y & u & Hy & Eu & Su). apply G in Hy. subst y. exists u. split; assumption.
    + intros (u & Eu & Su). exists (convert_int w z), u. split; [ now apply G | split; assumption ].
Qed.
Print Assumptions C71_exact_int.

(** A finite value of a field comes back unchanged through the column the generator declares for it, in every dialect and for both
    widths, except a float64 in MySQL (refuted below).  Missing part: infinities and NaN, which the databases treat differently. *)
Theorem C71_round_trip_partial : forall parse d w strict tgt x b,
  is_float w x -> finite x -> ~ (d = MySQL /\ w = F64) ->
  through_column d (float_column d w) (float_valuer x) (float_of_bits b) ->
  gives tgt (float_scanner parse w strict tgt (Driver (VFloat b))) (Some x) (Ok tt).
Proof.
  intros parse d w strict tgt x b Hx [v Ev] ND (p & e & held & Hin & C1 & HF & C2). apply is_float_valid in Hx.
  assert (Fw : format_num (prec w) (emax w) v) by exact (valid_format _ _ (w_prec w) (w_emax w) x v Hx Ev).
  assert (Wd : forall p e p' e' a, 1 < p -> p <= p' -> e <= e' -> 3 - e' - p' <= 3 - e - p -> format_num p e a -> format_num p' e' a).
  { clear. intros p e p' e' a H0 H1 H2 H3 [(k & y & K1 & K2 & K3) L]. split.
    - exists k, y. split; [ eapply Z.lt_le_trans; [ exact K1 | apply Z.pow_le_mono_r; lia ] | split; [ lia | exact K3 ] ].
    - apply (less_at (Z.min (snd a) e)); cbn [snd]; [ lia | lia | ]. specialize (L (Z.min (snd a) e)). cbn [snd] in L. specialize (L ltac:(lia) ltac:(lia)). eapply Z.lt_le_trans; [ exact L | ].
      unfold scaled. cbn [fst snd]. rewrite !Z.mul_1_l. apply Z.pow_le_mono_r; lia. }
  assert (F64' : format_num 53 1024 v) by (destruct w; [ apply (Wd 24 128); try lia; exact Fw | exact Fw ]).
  assert (Fc : format_num p e v).
  { destruct d, w; cbn in Hin; repeat (destruct Hin as [Hin | Hin]; [ try discriminate Hin; injection Hin as <- <-; try exact Fw; try exact F64' | ]); try contradiction; exfalso; apply ND; now split. }
  assert (Hp : 0 <= p) by (clear - Hin; cbn in Hin; intuition; repeat match goal with H : (_, _, _) = _ |- _ => injection H as ? ? ? ?; subst end; lia).
  destruct (converted_number 53 1024 x v _ Ev F64' ltac:(lia) (convert_converted F64 x)) as [(v1 & E1 & S1) N1].
  fold (float_valuer x) in E1, N1.
  assert (F1 : format_num p e v1) by exact (format_same p e v v1 S1 Fc).
  destruct (converted_number p e (float_valuer x) v1 held E1 F1 Hp C1) as [(v2 & E2 & S2) N2].
  assert (S02 : same_num v v2) by exact (same_trans _ _ _ S1 S2).
  destruct (converted_number 53 1024 held v2 _ E2 (format_same _ _ _ _ S02 F64') ltac:(lia) C2) as [(v3 & E3 & S3) N3].
  assert (S03 : same_num v v3) by exact (same_trans _ _ _ S02 S3).
  destruct (converted_number (prec w) (emax w) (float_of_bits b) v3 _ E3 (format_same _ _ _ _ S03 Fw) ltac:(destruct w; discriminate) (convert_converted w _)) as [(v4 & E4 & S4) N4].
  assert (Q : convert_float w (float_of_bits b) = x).
  { symmetry. apply (same_float (prec w) (emax w) x _ v v4 Hx); [ | exact Ev | exact E4 | exact (same_trans _ _ _ S03 S4) | congruence ].
    apply (converted_valid _ _ (float_of_bits b)); [ right; eauto | apply convert_converted ]. }
  unfold gives. cbn [float_scanner]. rewrite Q. destruct tgt; cbn; auto.
Qed.
Print Assumptions C71_round_trip_partial.

(** The column accepts every finite value of the field. *)
Theorem C71_accepted : forall d w x, is_float w x -> finite x -> ~ (d = MySQL /\ w = F64) ->
  exists b, through_column d (float_column d w) (float_valuer x) (float_of_bits b).
Proof.
  intros d w x Hx [v Ev] ND. apply is_float_valid in Hx.
  assert (Col : exists c : width, In (d, float_column d w, (prec c, emax c)) column_formats /\ (c = w \/ c = F64)).
  { destruct d, w; [ exists F32; cbn; tauto | exfalso; apply ND; now split | exists F32 | exists F64 | exists F64 | exists F64 ]; cbn; tauto. }
  destruct Col as (c & Hin & Hc). set (held := convert_float c (float_valuer x)).
  destruct (bits_exist (convert_float F64 held)) as (b & _ & Eb).
  { apply (converted_valid 53 1024 held); [ | exact (convert_converted F64 held) ]. subst held. destruct x as [ s | s | | s m e ]; try discriminate; [ left; reflexivity | ].
    destruct (convert_float c (float_valuer (S754_finite s m e))) as [ | | | ]; [ left | left | left | right; eexists ]; reflexivity. }
  exists b. rewrite Eb. exists (prec c), (emax c), held. split; [ exact Hin | split; [ apply convert_converted | split; [ intros _ | exact (convert_converted F64 held) ] ] ].
  assert (Fw : format_num (prec w) (emax w) v) by exact (valid_format _ _ (w_prec w) (w_emax w) x v Hx Ev).
  assert (F64' : format_num 53 1024 v).
  { destruct w; [ | exact Fw ]. destruct Fw as [(k & y & K1 & K2 & K3) L]. split.
    - exists k, y. split; [ eapply Z.lt_le_trans; [ exact K1 | apply Z.pow_le_mono_r; cbn; lia ] | split; [ cbn in K2; lia | exact K3 ] ].
    - apply (less_at (Z.min (snd v) 128)); cbn [snd]; [ lia | lia | ]. specialize (L (Z.min (snd v) 128)). cbn [snd emax] in L. specialize (L ltac:(lia) ltac:(lia)). eapply Z.lt_le_trans; [ exact L | ].
      unfold scaled. cbn [fst snd]. rewrite !Z.mul_1_l. apply Z.pow_le_mono_r; lia. }
  assert (Fc : format_num (prec c) (emax c) v) by (destruct Hc as [-> | ->]; [ exact Fw | exact F64' ]).
  destruct (converted_number 53 1024 x v _ Ev F64' ltac:(lia) (convert_converted F64 x)) as [(v1 & E1 & S1) _].
  destruct (converted_number (prec c) (emax c) (float_valuer x) v1 held E1 (format_same _ _ _ _ S1 Fc) ltac:(destruct c; discriminate) (convert_converted c _)) as [(v2 & E2 & _) _].
  exists v2. exact E2.
Qed.
Print Assumptions C71_accepted.

(** In MySQL both widths are declared FLOAT, which is single precision: every float64 that is not a single precision number is changed by
    the column, and nothing reports it. *)
Theorem C71_mysql_refuted : forall parse strict tgt x v b,
  float64 x -> value x = Some v -> ~ format_num 24 128 v ->
  through_column MySQL (float_column MySQL F64) (float_valuer x) (float_of_bits b) ->
  exists y, gives tgt (float_scanner parse F64 strict tgt (Driver (VFloat b))) (Some y) (Ok tt) /\ y <> x.
Proof.
  intros parse strict tgt x v b Hx Ev NF (p & e & held & Hin & C1 & HF & C2).
  assert (PE : p = 24 /\ e = 128) by (cbn in Hin; repeat (destruct Hin as [Hin | Hin]; [ try discriminate Hin; injection Hin as <- <-; now split | ]); contradiction). destruct PE as [-> ->].
  assert (Q : float_valuer x = x) by exact (converted_self 53 1024 x _ ltac:(lia) ltac:(lia) Hx (convert_converted F64 x)). rewrite Q in *.
  exists (convert_float F64 (float_of_bits b)). split; [ unfold gives; cbn [float_scanner]; destruct tgt; cbn; auto | ].
  rewrite (converted_self 53 1024 _ _ ltac:(lia) ltac:(lia) (bits_valid b) (convert_converted F64 (float_of_bits b))).
  intros E. assert (Fx : finite x) by (exists v; exact Ev). destruct (HF Fx) as [u Eu].
  assert (Vh : valid_binary 24 128 held = true) by (apply (converted_valid _ _ x); [ right; eauto | exact C1 ]).
  pose proof (valid_format 24 128 ltac:(lia) ltac:(lia) held u Vh Eu) as Fu.
  assert (Fu' : format_num 53 1024 u).
  { destruct Fu as [(k & y & K1 & K2 & K3) L]. split.
    - exists k, y. split; [ eapply Z.lt_le_trans; [ exact K1 | apply Z.pow_le_mono_r; lia ] | split; [ lia | exact K3 ] ].
    - apply (less_at (Z.min (snd u) 128)); cbn [snd]; [ lia | lia | ]. specialize (L (Z.min (snd u) 128)). cbn [snd] in L. specialize (L ltac:(lia) ltac:(lia)). eapply Z.lt_le_trans; [ exact L | ].
      unfold scaled. cbn [fst snd]. rewrite !Z.mul_1_l. apply Z.pow_le_mono_r; lia. }
  destruct (converted_number 53 1024 held u _ Eu Fu' ltac:(lia) C2) as [(u' & Eu' & Su) _]. rewrite E, Ev in Eu'. injection Eu' as <-.
  apply NF. exact (format_same 24 128 u v Su Fu).
Qed.
Print Assumptions C71_mysql_refuted.

(** Reading loses silently as well: every odd integer above 2^53 (2^24 for a float32 field) is changed, a float64 that is not a single
    precision number is changed by a float32 field, and one of at least 2^128 becomes infinite there. *)
Theorem C71_lossy_refuted : forall parse strict tgt,
  (forall w z, Z.odd z = true -> 2 ^ prec w < Z.abs z ->
     exists y, gives tgt (float_scanner parse w strict tgt (Driver (VInt z))) (Some y) (Ok tt) /\ forall u, value y = Some u -> ~ same_num (z, 0) u) /\
  (forall b v, value (float_of_bits b) = Some v -> ~ format_num 24 128 v ->
     exists y, gives tgt (float_scanner parse F32 strict tgt (Driver (VFloat b))) (Some y) (Ok tt) /\ forall u, value y = Some u -> ~ same_num v u) /\
  (forall b v, value (float_of_bits b) = Some v -> ~ less (Z.abs (fst v), snd v) (1, 128) ->
     gives tgt (float_scanner parse F32 strict tgt (Driver (VFloat b))) (Some (S754_infinity (fst v <? 0))) (Ok tt)).
Proof.
  intros parse strict tgt.
  assert (G : forall y, gives tgt (store tgt y, Ok tt) (Some y) (Ok tt)) by (intros y; unfold gives; destruct tgt; cbn; auto).
  split; [ | split ].
  - intros w z Od Big. assert (NF : ~ format_num (prec w) (emax w) (z, 0)).
    { intros [(k & x & K1 & K2 & K3) _]. destruct (Z.le_gt_cases x 0) as [ L | Gt ].
      - specialize (K3 x). cbn [snd] in K3. specialize (K3 L ltac:(lia)). unfold scaled in K3. cbn [fst snd] in K3. rewrite Z.sub_diag, Z.mul_1_r in K3. rewrite <- K3, Z.abs_mul in K1.
        pose proof (pow_pos (0 - x) ltac:(lia)). rewrite (Z.abs_eq (2 ^ (0 - x))) in K1 by lia. assert (Z.abs z * 1 <= Z.abs z * 2 ^ (0 - x)) by (apply Z.mul_le_mono_nonneg_l; lia). lia.
      - specialize (K3 0). cbn [snd] in K3. specialize (K3 ltac:(lia) ltac:(lia)). unfold scaled in K3. cbn [fst snd] in K3. rewrite Z.sub_diag, Z.mul_1_r, Z.sub_0_r in K3.
        rewrite K3, Z.odd_mul, Z.odd_pow in Od by lia. rewrite andb_false_r in Od. discriminate. }
    exists (convert_int w z). split; [ apply G | ]. intros u Eu Su. apply NF.
    apply (proj1 (C71_exact_int parse w strict tgt z)). exists (convert_int w z), u. split; [ apply G | split; assumption ].
  - intros b v Ev NF. exists (convert_float F32 (float_of_bits b)). split; [ apply G | ]. intros u Eu Su. apply NF.
    apply (proj1 (C71_exact parse F32 strict tgt b v Ev)). exists (convert_float F32 (float_of_bits b)), u. split; [ apply G | split; assumption ].
  - intros b v Ev NL. cbn [float_scanner]. replace (S754_infinity (fst v <? 0)) with (convert_float F32 (float_of_bits b)); [ apply G | ].
    pose proof (convert_converted F32 (float_of_bits b)) as C. destruct (float_of_bits b) as [ s | s | | s m e ]; try discriminate; cbn [value] in Ev; injection Ev as <-.
    + exfalso. apply NL. apply (less_at 0); cbn; lia.
    + cbn [converted] in C. set (y := convert_float F32 (S754_finite s m e)) in *. destruct C as (V & Sg & a & N & Cy).
      assert (NA : ~ less (Z.abs (fst a), snd a) (1, 128)).
      { intros LA. destruct N as (_ & Cl & _).
        assert (UT : forall t : bool, unbounded_num 24 128 (if t then -1 else 1, 128)).
        { intros t. exists (if t then -1 else 1), 128. split; [ destruct t; reflexivity | split; [ lia | apply same_refl ] ]. }
        specialize (Cl _ (UT s)). set (d := Z.min (snd a) (Z.min e 128)). specialize (Cl d). cbn [snd] in Cl. specialize (Cl ltac:(lia) ltac:(lia) ltac:(lia)).
        specialize (LA d). cbn [snd] in LA. specialize (LA ltac:(lia) ltac:(lia)).
        apply NL. apply (less_at d); cbn [snd]; [ lia | lia | ].
        unfold scaled in *. cbn [fst snd] in *. pose proof (pow_pos (e - d) ltac:(lia)). pose proof (pow_pos (128 - d) ltac:(lia)). pose proof (pow_pos (snd a - d) ltac:(lia)).
        assert (EA : Z.abs (fst a * 2 ^ (snd a - d)) = Z.abs (fst a) * 2 ^ (snd a - d)) by (rewrite Z.abs_mul, (Z.abs_eq (2 ^ (snd a - d))) by lia; reflexivity).
        set (A := fst a * 2 ^ (snd a - d)) in *. rewrite <- EA in LA. set (W := 2 ^ (128 - d)) in *. set (q := 2 ^ (e - d)) in *.
        destruct s; cbn [Z.abs].
        - change (Zneg m) with (- Zpos m) in Cl. rewrite Z.mul_opp_l in Cl. set (M := Zpos m * q) in *. lia.
        - set (M := Zpos m * q) in *. lia. }
      destruct y as [ t | t | | t k x ]; cbn [value negative] in *.
      * exfalso. apply NA. apply Cy.
      * subst t. reflexivity.
      * exfalso. now apply Cy.
      * exfalso. apply NA. apply Cy.
Qed.
Print Assumptions C71_lossy_refuted.

(** A driver that hands over a float32 (the MySQL driver does so for the FLOAT columns of a prepared statement) is refused by both
    scanners, strict or not: no float column of such a driver can be read. *)
Theorem C71_single_refuted : forall parse w strict tgt x, float_scanner parse w strict tgt (Single x) = (tgt, Err).
Proof. reflexivity. Qed.
Print Assumptions C71_single_refuted.

(** 0.1 as a float64 (bits 3FB999999999999A) and as a float32, read and written. *)
Definition tenth64 := S754_finite false 7205759403792794 (-56).
Definition tenth32 := S754_finite false 13421773 (-27).
Example C71_bits : float_of_bits 4591870180066957722 = tenth64 /\ float_of_bits 4607182418800017408 = S754_finite false 4503599627370496 (-52) /\
  float_of_bits 9223372036854775808 = S754_zero true /\ float_of_bits 1 = S754_finite false 1 (-1074) /\ float_of_bits 18442240474082181120 = S754_infinity true.
Proof. vm_compute. repeat split. Qed.
Example C71_cases : let parse (_ : width) (_ : bytes) : option spec_float := None in
  float_scanner parse F64 false (TPtr None) (Driver (VFloat 4591870180066957722)) = (TPtr (Some tenth64), Ok tt) /\
  float_scanner parse F32 false (TVal S754_nan) (Driver (VFloat 4591870180066957722)) = (TVal tenth32, Ok tt) /\
  float_scanner parse F32 true (TVal S754_nan) (Driver (VInt 16777217)) = (TVal (S754_finite false 8388608 1), Ok tt) /\
  float_scanner parse F64 true (TVal S754_nan) (Driver (VString (B "1"))) = (TVal S754_nan, Err) /\
  float_scanner parse F32 true (TVal S754_nan) (Driver (VFloat 5183643171103440896)) = (TVal (S754_infinity false), Ok tt).
Proof. vm_compute. repeat split. Qed.
Lemma tenth_not_single : ~ format_num 24 128 (7205759403792794, -56).
Proof.
  intros F. pose proof (rounds_pos 24 128 ltac:(lia) ltac:(lia) 7205759403792794 (-56)) as C.
  destruct (proj2 (rounds_exact 24 128 _ _ C) F) as (b & Eb & Sb). vm_compute in Eb. injection Eb as <-. specialize (Sb (-60)). vm_compute in Sb. discriminate Sb; discriminate.
Qed.
(** 0.1 reaches the MySQL column, and comes back as another number; through the others it comes back. *)
Example C71_mysql_case : float64 tenth64 /\ ~ format_num 24 128 (7205759403792794, -56) /\
  exists b, through_column MySQL (float_column MySQL F64) (float_valuer tenth64) (float_of_bits b) /\
  through_column Postgres (float_column Postgres F64) (float_valuer tenth64) (float_of_bits 4591870180066957722) /\
  float_of_bits b = S754_finite false 7205759511166976 (-56).
Proof.
  split; [ reflexivity | split; [ exact tenth_not_single | ] ]. exists 4591870180174331904%N. split; [ | split; [ | vm_compute; reflexivity ] ].
  - exists 24, 128, tenth32. split; [ left; reflexivity | split; [ | split ] ].
    + exact (rounds_round 24 128 ltac:(lia) ltac:(lia) false 7205759403792794 (-56)).
    + intros _. eexists. reflexivity.
    + exact (rounds_round 53 1024 ltac:(lia) ltac:(lia) false 13421773 (-27)).
  - exists 53, 1024, tenth64. split; [ right; right; right; left; reflexivity | split; [ | split ] ].
    + exact (rounds_round 53 1024 ltac:(lia) ltac:(lia) false 7205759403792794 (-56)).
    + intros _. eexists. reflexivity.
    + exact (rounds_round 53 1024 ltac:(lia) ltac:(lia) false 7205759403792794 (-56)).
Qed.
(** A parser that meets the hypothesis of the first theorem. *)
Example C71_parse_case : let parse (w : width) (s : bytes) := if bseq s (B "0.1") then Some (match w with F64 => tenth64 | F32 => S754_finite false 7205759511166976 (-56) end) else None in
  forall w s f, parse w s = Some f -> is_float F64 f /\ forall v, value f = Some v -> format_num (prec w) (emax w) v.
Proof.
  intros parse w s f H. unfold parse in H. destruct (bseq s (B "0.1")); [ | discriminate ]. injection H as <-. destruct w.
  - split; [ reflexivity | ]. intros v [= <-]. apply (format_same 24 128 (13421773, -27)).
    + apply (same_at (-56)); cbn [snd]; [ lia | lia | reflexivity ].
    + apply (valid_format 24 128 ltac:(lia) ltac:(lia) tenth32); reflexivity.
  - split; [ reflexivity | ]. intros v Ev. apply (valid_format 53 1024 ltac:(lia) ltac:(lia) tenth64); [ reflexivity | exact Ev ].
Qed.
