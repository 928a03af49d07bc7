(** Property C101: the text of a list of times. *)
From Coq Require Import ZArith Lia.
From Verif Require Import Base ModelStrconv ModelArray ModelUtf8 ModelEncoding ModelTime ModelMarshal ModelMarshalTime SpecText SpecJson SpecTime SpecMarshalTime
  LemmasBase LemmasArray LemmasArray2 LemmasJson LemmasMarshal.
Local Open Scope list_scope.

Lemma append_two n : (n < 100)%N -> append_int 2 n = two n.
Proof.
  intro L. unfold append_int. change (10 ^ N.of_nat 2)%N with 100%N. rewrite (proj2 (N.ltb_lt _ _) L).
  cbn [fixed_digits app]. unfold two, dig. do 3 f_equal. apply N.mod_small. apply N.div_lt_upper_bound; lia.
Qed.
Lemma append_four n : (n <= 9999)%N -> append_int 4 n = four n.
Proof.
  intro L. unfold append_int. change (10 ^ N.of_nat 4)%N with 10000%N. rewrite (proj2 (N.ltb_lt n 10000)) by lia.
  cbn [fixed_digits app]. unfold four, two, dig. cbn [app].
  assert (E1 : (n / 10 / 10 / 10 mod 10 = n / 100 / 10)%N).
  { rewrite !N.div_div by lia. change (10 * 10 * 10)%N with 1000%N. change (100 * 10)%N with 1000%N. apply N.mod_small. apply N.div_lt_upper_bound; lia. }
  assert (E2 : (n / 10 / 10 mod 10 = n / 100 mod 10)%N) by (rewrite N.div_div by lia; reflexivity).
  assert (E3 : ((n / 10) mod 10 = n mod 100 / 10)%N).
  { change 100%N with (10 * 10)%N. rewrite N.mod_mul_r by lia. rewrite N.mul_comm, N.div_add by lia. rewrite (N.div_small (n mod 10) 10) by (apply N.mod_lt; lia). reflexivity. }
  assert (E4 : (n mod 10 = (n mod 100) mod 10)%N).
  { change 100%N with (10 * 10)%N. rewrite N.mod_mul_r by lia. rewrite N.mul_comm, N.mod_add by lia. now rewrite N.mod_mod by lia. }
  rewrite E1, E2, E3, <- E4. reflexivity.
Qed.

Lemma zone_ok c : minute_zone c -> zone_text (c_off c) (format_zone (c_off c)).
Proof.
  intros [[m E] L]. unfold format_zone. destruct (Z.eqb_spec (c_off c) 0) as [Z|NZ]; [ rewrite Z; constructor | ].
  rewrite E in *. clear E. rewrite (Z.mul_comm 60 m), Z.quot_mul by lia.
  set (a := Z.to_N (Z.abs m)).
  assert (La : (a < 1440)%N) by lia.
  assert (H1 : (a / 60 < 24)%N) by (apply N.div_lt_upper_bound; lia).
  assert (H2 : (a mod 60 < 60)%N) by (apply N.mod_lt; lia).
  rewrite !append_two by lia. pose proof (N.div_mod a 60 ltac:(lia)) as DM.
  destruct (Z.ltb_spec m 0).
  - replace (m * 60)%Z with (- Z.of_N (3600 * (a / 60) + 60 * (a mod 60)))%Z by lia. now constructor.
  - replace (m * 60)%Z with (Z.of_N (3600 * (a / 60) + 60 * (a mod 60)))%Z by lia. now constructor.
Qed.
Lemma month_bounds y m n : month_length y m n -> (m < 100 /\ n < 100)%N.
Proof.
  intros [[I ->]|[[I ->]|[(-> & _ & ->)|(-> & _ & ->)]]]; try (split; lia); cbn in I; (split; [ | lia ]);
    repeat (destruct I as [<-|I]; [ lia | ]); destruct I.
Qed.

Lemma format_text c : real_time c -> format_rfc3339 c = date_text c ++ B "T" ++ clock_text c ++ format_zone (c_off c).
Proof.
  intros (Y & (n & M & D) & H & Mi & S). apply month_bounds in M as [M1 M2]. unfold format_rfc3339, date_text, clock_text.
  rewrite append_four by exact Y. rewrite !append_two by lia. rewrite <- !app_assoc. reflexivity.
Qed.
Lemma format_rfc c : real_time c -> minute_zone c -> rfc_text (whole_second c) (format_rfc3339 c).
Proof.
  intros R Z. rewrite format_text by exact R.
  exact (RTPlain (whole_second c) (format_zone (c_off c)) eq_refl (zone_ok c Z)).
Qed.

(** Nothing in the text has to be escaped. *)
Definition plain_byte (c : byte) : Prop := (32 <= N_of_ascii c)%N /\ c <> dquote /\ c <> backslash.
Lemma digit_plain p k : Forall plain_byte (fixed_digits p k).
Proof.
  eapply Forall_impl; [ | apply fixed_digits_digits ]. intros c H. cbv beta in H. unfold plain_byte. split; [ lia | ].
  split; intro E; subst c; vm_compute in H; destruct H as [H1 H2]; (apply H1; reflexivity) || (apply H2; reflexivity).
Qed.
Lemma append_plain w n : Forall plain_byte (append_int w n).
Proof.
  unfold append_int. destruct (N.ltb n _); [ apply digit_plain | ].
  eapply Forall_impl; [ | apply format_uint_digits ]. intros c H. apply is_digit_range in H. unfold plain_byte. split; [ lia | ].
  split; intro E; subst c; vm_compute in H; destruct H as [H1 H2]; (apply H1; reflexivity) || (apply H2; reflexivity).
Qed.
Lemma plain_one c : forall H : (N.leb 32 (N_of_ascii c) && negb (Ascii.eqb c dquote) && negb (Ascii.eqb c backslash)) = true, Forall plain_byte [c].
Proof.
  intro H. apply andb_prop in H as [H H3]. apply andb_prop in H as [H1 H2]. apply N.leb_le in H1. apply negb_true_iff in H2, H3.
  apply Ascii.eqb_neq in H2, H3. constructor; [ split; [ exact H1 | now split ] | constructor ].
Qed.
Lemma format_plain c : Forall plain_byte (format_rfc3339 c).
Proof.
  unfold format_rfc3339, format_zone. repeat (apply Forall_app; split); try apply append_plain; try (apply plain_one; reflexivity).
  destruct (Z.eqb _ 0); [ apply plain_one; reflexivity | ].
  repeat (apply Forall_app; split); try apply append_plain; try (apply plain_one; reflexivity).
  destruct (Z.ltb _ 0); apply plain_one; reflexivity.
Qed.
Lemma plain_body t : Forall plain_byte t -> forall rest, string_body (t ++ dquote :: rest) = Some (t, rest).
Proof.
  induction 1 as [|c t (H1 & H2 & H3) F IH]; intro rest; [ reflexivity | ]. cbn [app].
  rewrite string_body_cons_plain by assumption. rewrite IH. reflexivity.
Qed.
Lemma time_elem c : json_elem (dquote :: format_rfc3339 c ++ [dquote]) (JStr (format_rfc3339 c)).
Proof.
  split; [ | split; [ reflexivity | discriminate ] ].
  intros f x rest _. rewrite <- app_comm_cons, <- app_assoc. apply value_string.
  change ([dquote] ++ x :: rest) with (dquote :: x :: rest). apply plain_body, format_plain.
Qed.

(** Whatever the times, the text is a JSON array of as many strings. *)
Lemma times_json l : read_json (marshal_times l) = Some (JArr (map (fun c => JStr (format_rfc3339 c)) l)).
Proof.
  unfold marshal_times. rewrite marshal_list_text. apply (read_json_list (fun c => dquote :: format_rfc3339 c ++ [dquote])).
  apply Forall_forall. intros c _. apply time_elem.
Qed.

(** For times of the years 0 to 9999 in zones of whole minutes each string is the RFC 3339 text of the time, to the second.  Missing: the fractions, the seconds of a
    zone and later years, for which it is false (C101_fraction_refuted, C101_zone_refuted, C101_year_refuted). *)
Theorem C101_seconds_partial : forall l, Forall (fun c => real_time c /\ minute_zone c) l ->
  exists ts, read_json (marshal_times l) = Some (JArr (map JStr ts)) /\ Forall2 (fun t c => rfc_text (whole_second c) t) ts l.
Proof.
  intros l H. exists (map format_rfc3339 l). split; [ rewrite map_map; apply times_json | ].
  induction H as [|c l [R Z] H IH]; cbn [map]; constructor; [ now apply format_rfc | exact IH ].
Qed.
Print Assumptions C101_seconds_partial.

(** Times without a fraction come out as they are. *)
Theorem C101_exact_partial : forall l, Forall (fun c => real_time c /\ minute_zone c /\ c_nsec c = 0%N) l ->
  exists ts, read_json (marshal_times l) = Some (JArr (map JStr ts)) /\ Forall2 (fun t c => rfc_text c t) ts l.
Proof.
  intros l H. destruct (C101_seconds_partial l) as (ts & R & F).
  { eapply Forall_impl; [ | exact H ]. intros c (A & Z & _). now split. }
  exists ts. split; [ exact R | ]. clear R. induction F as [|t c ts l T F IH]; [ constructor | ].
  inversion H as [|? ? (_ & _ & N) H']; subst. constructor; [ | now apply IH ].
  assert (E : whole_second c = c) by (destruct c; cbn in *; subst; reflexivity). now rewrite E in T.
Qed.
Print Assumptions C101_exact_partial.

(** The fraction of the second is lost: lists that differ only there have one text. *)
Theorem C101_fraction_refuted : forall l l', map whole_second l = map whole_second l' -> marshal_times l = marshal_times l'.
Proof.
  intros l l' E. unfold marshal_times. rewrite !marshal_list_text. f_equal.
  revert l' E. induction l as [|c l IH]; intros [|c' l'] E; try discriminate; [ reflexivity | ].
  cbn [map] in *. injection E as E1 E2 E3 E4 E5 E6 E7 E8. rewrite (IH l') by assumption.
  unfold format_rfc3339. rewrite E1, E2, E3, E4, E5, E6, E7. reflexivity.
Qed.
Print Assumptions C101_fraction_refuted.

(** In a zone with seconds (the local time of a place, as it was before time zones) the string is that of another time: the same reading in the zone without
    its seconds. *)
Theorem C101_zone_refuted : forall c, real_time c -> (Z.abs (c_off c) < 86400)%Z -> (c_off c mod 60 <> 0)%Z -> (60 <= Z.abs (c_off c))%Z ->
  exists other, rfc_text other (format_rfc3339 c) /\ c_off other <> c_off c /\
    (c_year other, c_month other, c_day other, c_hour other, c_min other, c_sec other) = (c_year c, c_month c, c_day c, c_hour c, c_min c, c_sec c).
Proof.
  intros c R L N G. set (z := (60 * Z.quot (c_off c) 60)%Z).
  exists {| c_year := c_year c; c_month := c_month c; c_day := c_day c; c_hour := c_hour c; c_min := c_min c; c_sec := c_sec c; c_nsec := 0; c_off := z |}.
  assert (QR : (c_off c = 60 * Z.quot (c_off c) 60 + Z.rem (c_off c) 60)%Z) by (apply Z.quot_rem'; lia).
  assert (RB : (Z.abs (Z.rem (c_off c) 60) < 60)%Z) by (apply (Z.rem_bound_abs (c_off c) 60); lia).
  assert (NR : (z <> c_off c)%Z).
  { intro E. apply N. rewrite <- E. unfold z. rewrite Z.mul_comm. apply Z.mod_mul. lia. }
  split; [ | split; [ exact NR | reflexivity ] ].
  rewrite format_text by exact R.
  assert (F : format_zone (c_off c) = format_zone z).
  { unfold format_zone, z. rewrite (Z.mul_comm 60 (Z.quot (c_off c) 60)), Z.quot_mul by lia.
    destruct (Z.eqb_spec (c_off c) 0) as [E|_]; [ lia | ].
    destruct (Z.eqb_spec (Z.quot (c_off c) 60 * 60) 0) as [E|_]; [ lia | reflexivity ]. }
  rewrite F. pose (o := {| c_year := c_year c; c_month := c_month c; c_day := c_day c; c_hour := c_hour c; c_min := c_min c; c_sec := c_sec c; c_nsec := 0; c_off := z |}).
  assert (MZ : minute_zone o). { split; [ exists (Z.quot (c_off c) 60); reflexivity | cbn [c_off o]; unfold z; clear - L; Z.to_euclidean_division_equations; lia ]. }
  exact (RTPlain o (format_zone z) eq_refl (zone_ok o MZ)).
Qed.
Print Assumptions C101_zone_refuted.

Lemma digits_below s : Forall (fun c => (48 <= N_of_ascii c <= 57)%N) s -> forall acc,
  (fold_left (fun a c => a * 10 + (Z.of_N (N_of_ascii c) - 48)) s acc < (acc + 1) * 10 ^ Z.of_nat (length s))%Z.
Proof.
  induction 1 as [|c s H F IH]; intro acc; cbn [fold_left length]; [ cbn; lia | ].
  specialize (IH (acc * 10 + (Z.of_N (N_of_ascii c) - 48))%Z). rewrite Nat2Z.inj_succ, Z.pow_succ_r by lia.
  pose proof (Z.pow_pos_nonneg 10 (Z.of_nat (length s)) ltac:(lia) ltac:(lia)). nia.
Qed.
(** A year of five digits: the string begins with five digits, which no RFC 3339 text does. *)
Theorem C101_year_refuted : forall c, (9999 < c_year c)%N -> forall other t, real_time other -> rfc_text other t -> format_rfc3339 c <> t.
Proof.
  intros c Y other t _ T E.
  assert (D : exists a b c' d r, t = a :: b :: c' :: d :: "-"%char :: r).
  { destruct T; unfold date_text, four, two; cbn [app]; repeat eexists. }
  destruct D as (a & b & c' & d & r & ->). unfold format_rfc3339, append_int in E. change (10 ^ N.of_nat 4)%N with 10000%N in E.
  rewrite (proj2 (N.ltb_ge (c_year c) 10000)) in E by lia.
  destruct (uint_digits (c_year c)) as [[_ A2] V]. 
  assert (LEN : (5 <= length (format_uint (c_year c)))%nat).
  { destruct (Nat.le_gt_cases 5 (length (format_uint (c_year c)))) as [G|G]; [ exact G | exfalso ].
    assert (B4 : (digits_to_Z (format_uint (c_year c)) < 10000)%Z).
    { unfold digits_to_Z. pose proof (digits_below _ A2 0%Z) as DB.
      assert (P : (10 ^ Z.of_nat (length (format_uint (c_year c))) <= 10 ^ 4)%Z) by (apply Z.pow_le_mono_r; lia).
      change (10 ^ 4)%Z with 10000%Z in P. lia. }
    lia. }
  destruct (format_uint (c_year c)) as [|x1 [|x2 [|x3 [|x4 [|x5 s]]]]]; cbn [length] in LEN; try lia.
  cbn [app] in E. injection E as _ _ _ _ E5 _. subst x5.
  rewrite Forall_forall in A2. specialize (A2 "-"%char ltac:(cbn; tauto)). vm_compute in A2. destruct A2 as [A2 _]. apply A2. reflexivity.
Qed.
Print Assumptions C101_year_refuted.

(** Noon of a leap day half an hour west, with nanoseconds. *)
Example C101_case :
  let c := {| c_year := 2024; c_month := 2; c_day := 29; c_hour := 12; c_min := 0; c_sec := 5; c_nsec := 120; c_off := (-1800)%Z |} in
  real_time c /\ minute_zone c /\ marshal_times [c; c] = B "[""2024-02-29T12:00:05-00:30"",""2024-02-29T12:00:05-00:30""]" /\ whole_second c <> c.
Proof.
  cbn zeta. split; [ | split; [ | split ] ].
  - repeat split; cbn; try lia. exists 29%N. split; [ right; right; left; repeat split; try reflexivity; left; split; [ reflexivity | discriminate ] | lia ].
  - split; [ exists (-30)%Z; reflexivity | cbn; lia ].
  - vm_compute. reflexivity.
  - discriminate.
Qed.
