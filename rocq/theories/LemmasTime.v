(** Proofs about time texts. *)
From Verif Require Import Base ModelEncoding ModelTime SpecTime.
Open Scope N_scope.

Lemma small_cases n k (P : N -> Prop) : n < N.of_nat k -> Forall P (map N.of_nat (seq 0 k)) -> P n.
Proof.
  intros H F. rewrite Forall_forall in F. apply F. apply in_map_iff. exists (N.to_nat n).
  split; [ apply N2Nat.id | apply in_seq; lia ].
Qed.

Lemma dig_ok n : n < 10 -> is_digit (dig n) = true /\ code (dig n) - 48 = n.
Proof.
  intros H. apply (small_cases n 10 (fun n => is_digit (dig n) = true /\ code (dig n) - 48 = n)); [ exact H | ].
  cbn [seq map]. repeat constructor.
Qed.
Lemma dig_is n : n < 10 -> is_digit (dig n) = true. Proof. intros H. now apply dig_ok. Qed.
Lemma dig_val n : n < 10 -> code (dig n) - 48 = n. Proof. intros H. now apply dig_ok. Qed.

Lemma is_digit_bound c : is_digit c = true <-> 48 <= code c <= 57.
Proof. unfold is_digit, in_range. rewrite andb_true_iff, !N.leb_le. reflexivity. Qed.
Lemma digit_dig c : is_digit c = true -> c = dig (code c - 48) /\ code c - 48 < 10.
Proof.
  intros H. apply is_digit_bound in H. split; [ | lia ].
  unfold dig. replace (48 + (code c - 48)) with (code c) by lia. symmetry. apply ascii_N_embedding.
Qed.

Lemma div10 n : n < 100 -> n / 10 < 10. Proof. intros H. apply N.div_lt_upper_bound; lia. Qed.
Lemma mod10 n : n mod 10 < 10. Proof. apply N.mod_lt. lia. Qed.
Lemma split10 n : n / 10 * 10 + n mod 10 = n.
Proof. rewrite (N.mul_comm (n / 10) 10). symmetry. apply N.div_mod. lia. Qed.
Lemma div100 n : n <= 9999 -> n / 100 < 100. Proof. intros H. apply N.div_lt_upper_bound; lia. Qed.
Lemma mod100 n : n mod 100 < 100. Proof. apply N.mod_lt. lia. Qed.
Lemma split100 n : n / 100 * 100 + n mod 100 = n.
Proof. rewrite (N.mul_comm (n / 100) 100). symmetry. apply N.div_mod. lia. Qed.

Lemma getnum_two f n r : n < 100 -> getnum f (two n ++ r) = Some (n, r).
Proof.
  intros H. unfold two, getnum; cbn [app].
  rewrite (dig_is _ (div10 _ H)), (dig_is _ (mod10 n)), (dig_val _ (div10 _ H)), (dig_val _ (mod10 n)), split10. reflexivity.
Qed.
Lemma fixed_two n r : n < 100 -> fixed_num 2 0 (two n ++ r) = Some (n, r).
Proof.
  intros H. unfold two; cbn [app fixed_num].
  rewrite (dig_is _ (div10 _ H)), (dig_is _ (mod10 n)), (dig_val _ (div10 _ H)), (dig_val _ (mod10 n)).
  rewrite N.mul_0_l, N.add_0_l, split10. reflexivity.
Qed.
Lemma fixed_four n r : n <= 9999 -> fixed_num 4 0 (four n ++ r) = Some (n, r).
Proof.
  intros H. unfold four, two; cbn [app fixed_num].
  pose proof (div100 _ H) as H1. pose proof (mod100 n) as H2.
  rewrite (dig_is _ (div10 _ H1)), (dig_is _ (mod10 (n / 100))), (dig_val _ (div10 _ H1)), (dig_val _ (mod10 (n / 100))).
  rewrite (dig_is _ (div10 _ H2)), (dig_is _ (mod10 (n mod 100))), (dig_val _ (div10 _ H2)), (dig_val _ (mod10 (n mod 100))).
  do 2 f_equal.
  pose proof (split10 (n / 100)). pose proof (split10 (n mod 100)). pose proof (split100 n). lia.
Qed.

Lemma two_is a b : is_digit a = true -> is_digit b = true -> exists n, n < 100 /\ [a; b] = two n.
Proof.
  intros Ha Hb. apply digit_dig in Ha as [Ea La]. apply digit_dig in Hb as [Eb Lb].
  revert Ea La Eb Lb. generalize (code a - 48) as x. generalize (code b - 48) as y. intros y x -> La -> Lb.
  exists (x * 10 + y). split; [ lia | ]. unfold two.
  rewrite (N.mul_comm x 10).
  rewrite <- (N.div_unique (10 * x + y) 10 x y); [ | lia | reflexivity ].
  rewrite <- (N.mod_unique (10 * x + y) 10 x y); [ reflexivity | lia | reflexivity ].
Qed.
Lemma four_is a b c d : is_digit a = true -> is_digit b = true -> is_digit c = true -> is_digit d = true ->
  exists n, n <= 9999 /\ [a; b; c; d] = four n.
Proof.
  intros Ha Hb Hc Hd. destruct (two_is a b Ha Hb) as (x & Lx & Ex). destruct (two_is c d Hc Hd) as (y & Ly & Ey).
  exists (x * 100 + y). split; [ lia | ]. unfold four. rewrite (N.mul_comm x 100).
  rewrite <- (N.div_unique (100 * x + y) 100 x y); [ | lia | reflexivity ].
  rewrite <- (N.mod_unique (100 * x + y) 100 x y); [ | lia | reflexivity ].
  rewrite <- Ex, <- Ey. reflexivity.
Qed.

Lemma re_seq_app p q s : re_seq (p ++ q) s = match re_seq p s with Some r => re_seq q r | None => None end.
Proof. revert s; induction p as [ | a p IH ]; intros s; [ reflexivity | ]. destruct s; [ reflexivity | ]. cbn. destruct (a a0); [ apply IH | reflexivity ]. Qed.

Lemma two_digits n : n < 100 -> exists a b, two n = [a; b] /\ is_digit a = true /\ is_digit b = true.
Proof. intros H. exists (dig (n / 10)), (dig (n mod 10)). split; [ reflexivity | ]. split; apply dig_is; [ now apply div10 | apply mod10 ]. Qed.

Lemma re_date y m d r : y <= 9999 -> m < 100 -> d < 100 ->
  re_seq date_re (four y ++ B "-" ++ two m ++ B "-" ++ two d ++ r) = Some r.
Proof.
  intros Hy Hm Hd. unfold four.
  destruct (two_digits _ (div100 _ Hy)) as (a1 & a2 & -> & A1 & A2).
  destruct (two_digits _ (mod100 y)) as (b1 & b2 & -> & B1 & B2).
  destruct (two_digits _ Hm) as (c1 & c2 & -> & C1 & C2).
  destruct (two_digits _ Hd) as (d1 & d2 & -> & D1 & D2).
  change (B "-") with ["-"%char]. cbn [app date_re re_seq].
  now rewrite A1, A2, B1, B2, C1, C2, D1, D2.
Qed.
Lemma re_clock h m s r : h < 100 -> m < 100 -> s < 100 ->
  re_seq clock_re (two h ++ B ":" ++ two m ++ B ":" ++ two s ++ r) = Some r.
Proof.
  intros Hh Hm Hs.
  destruct (two_digits _ Hh) as (a1 & a2 & -> & A1 & A2).
  destruct (two_digits _ Hm) as (c1 & c2 & -> & C1 & C2).
  destruct (two_digits _ Hs) as (d1 & d2 & -> & D1 & D2).
  change (B ":") with [":"%char]. cbn [app clock_re re_seq].
  now rewrite A1, A2, C1, C2, D1, D2.
Qed.

Ltac step H := match type of H with
  | match ?s with [] => None | _ :: _ => _ end = _ => destruct s as [ | ? ? ]; [ discriminate | ]
  | (if ?p ?c then _ else None) = _ => let E := fresh "D" in destruct (p c) eqn:E; [ | discriminate ]
  end.

Lemma re_date_inv s r : re_seq date_re s = Some r -> exists y m d,
  y <= 9999 /\ m < 100 /\ d < 100 /\ s = four y ++ B "-" ++ two m ++ B "-" ++ two d ++ r.
Proof.
  unfold date_re. cbn [re_seq]. intros H. repeat step H. injection H as ->.
  repeat match goal with E : beq ?x ?c = true |- _ => apply Ascii.eqb_eq in E; subst c end.
  match goal with |- exists _ _ _, _ /\ _ /\ _ /\ ?a :: ?b :: ?c :: ?d :: _ :: ?e :: ?f :: _ :: ?g :: ?h :: _ = _ =>
    destruct (four_is a b c d) as (yy & Hy & Ey); try assumption;
    destruct (two_is e f) as (mm & Hm & Em); try assumption;
    destruct (two_is g h) as (dd & Hd & Ed); try assumption end.
  exists yy, mm, dd. repeat (split; [ assumption | ]). rewrite <- Ey, <- Em, <- Ed. reflexivity.
Qed.
Lemma re_clock_inv s r : re_seq clock_re s = Some r -> exists h m d,
  h < 100 /\ m < 100 /\ d < 100 /\ s = two h ++ B ":" ++ two m ++ B ":" ++ two d ++ r.
Proof.
  unfold clock_re. cbn [re_seq]. intros H. repeat step H. injection H as ->.
  repeat match goal with E : beq ?x ?c = true |- _ => apply Ascii.eqb_eq in E; subst c end.
  match goal with |- exists _ _ _, _ /\ _ /\ _ /\ ?a :: ?b :: _ :: ?e :: ?f :: _ :: ?g :: ?h :: _ = _ =>
    destruct (two_is a b) as (yy & Hy & Ey); try assumption;
    destruct (two_is e f) as (mm & Hm & Em); try assumption;
    destruct (two_is g h) as (dd & Hd & Ed); try assumption end.
  exists yy, mm, dd. repeat (split; [ assumption | ]). rewrite <- Ey, <- Em, <- Ed. reflexivity.
Qed.

(** The calendar. *)
Lemma is_leap_spec y : is_leap y = true <-> leap_year y.
Proof.
  unfold is_leap, leap_year. rewrite andb_true_iff, orb_true_iff, negb_true_iff, !N.eqb_eq, N.eqb_neq.
  split; [ tauto | ]. intros [[? ?] | H]; [ tauto | ]. split; [ | tauto ].
  apply N.mod_divide in H; [ | lia ]. destruct H as [k ->].
  replace (k * 400) with (k * 100 * 4) by lia. apply N.mod_mul. lia.
Qed.
Lemma days_in_spec m y : 1 <= m <= 12 -> month_length y m (days_in m y).
Proof.
  intros H. unfold month_length, days_in.
  assert (E : In m [1; 2; 3; 4; 5; 6; 7; 8; 9; 10; 11; 12]) by (cbn; lia).
  cbn in E. destruct (N.eqb m 2) eqn:Em.
  - apply N.eqb_eq in Em as ->. destruct (is_leap y) eqn:L.
    + apply is_leap_spec in L. tauto.
    + do 3 right. split; [ reflexivity | ]. split; [ | reflexivity ]. rewrite <- is_leap_spec. congruence.
  - repeat (destruct E as [<- | E]; [ (left; split; [ cbn; tauto | reflexivity ]) || (right; left; split; [ cbn; tauto | reflexivity ]) || discriminate | ]).
    contradiction.
Qed.
Lemma month_length_fun y m n n' : month_length y m n -> month_length y m n' -> n = n'.
Proof.
  unfold month_length. cbn [In]. intros H H'.
  destruct H as [[H ->] | [[H ->] | [[-> [H ->]] | [-> [H ->]]]]];
    destruct H' as [[K ->] | [[K ->] | [[K0 [K ->]] | [K0 [K ->]]]]]; try reflexivity; try (exfalso; intuition lia); intuition.
Qed.
Lemma month_range y m n : month_length y m n -> 1 <= m <= 12 /\ n <= 31.
Proof. unfold month_length. cbn [In]. intros H. intuition lia. Qed.
Lemma day_spec y m d : 1 <= m <= 12 ->
  (1 <= d <= days_in m y <-> exists n, month_length y m n /\ 1 <= d <= n).
Proof.
  intros H. split; [ eauto using days_in_spec | ]. intros (n & Hn & Hd).
  now rewrite (month_length_fun _ _ _ _ (days_in_spec m y H) Hn).
Qed.

(** Fractions. *)
Lemma digits_n_value ds a : fold_left (fun a c => a * 10 + (code c - 48)) ds a = fold_left (fun a c => 10 * a + (N_of_ascii c - 48)) ds a.
Proof. revert a; induction ds as [ | c ds IH ]; intros a; [ reflexivity | ]. cbn [fold_left]. rewrite IH. f_equal. unfold code. lia. Qed.
Lemma fold_acc ds : forall a, fold_left (fun a c => 10 * a + (N_of_ascii c - 48)) ds a = a * 10 ^ N.of_nat (length ds) + digits_value ds.
Proof.
  unfold digits_value. induction ds as [ | c ds IH ]; intros a; [ cbn; lia | ].
  cbn [fold_left length]. rewrite IH, (IH (10 * 0 + (N_of_ascii c - 48))), Nat2N.inj_succ, N.pow_succ_r'.
  generalize (N_of_ascii c - 48) (10 ^ N.of_nat (length ds)) (fold_left (fun a c => 10 * a + (N_of_ascii c - 48)) ds 0). intros. ring.
Qed.
Lemma digits_value_app a b : digits_value (a ++ b) = digits_value a * 10 ^ N.of_nat (length b) + digits_value b.
Proof. unfold digits_value at 1. rewrite fold_left_app, fold_acc. reflexivity. Qed.
Lemma digits_value_lt ds : digit_text ds -> digits_value ds < 10 ^ N.of_nat (length ds).
Proof.
  induction 1 as [ | c ds Hc Hd IH ]; [ cbn; lia | ].
  change (c :: ds) with ([c] ++ ds). rewrite digits_value_app, app_length. cbn [length].
  rewrite Nat2N.inj_add, N.pow_add_r. change (10 ^ N.of_nat 1) with 10.
  unfold digits_value at 1. cbn [fold_left].
  assert (N_of_ascii c - 48 <= 9) by lia. nia.
Qed.
Lemma pow10_pos n : 10 ^ n <> 0. Proof. apply N.pow_nonzero. lia. Qed.

Lemma nanos_spec ds : digit_text ds -> nanos ds = fraction_ns ds.
Proof.
  intros H. unfold nanos, fraction_ns, digits_n. rewrite digits_n_value. fold (digits_value (firstn 9 ds)).
  destruct (Nat.le_gt_cases (length ds) 9) as [L | L].
  - rewrite firstn_all2 by exact L.
    replace 9 with ((9 - N.of_nat (length ds)) + N.of_nat (length ds)) at 2 by lia.
    rewrite N.pow_add_r, N.mul_assoc, N.div_mul by apply pow10_pos. reflexivity.
  - rewrite firstn_length_le by lia. replace (9 - N.of_nat 9) with 0 by reflexivity. rewrite N.pow_0_r, N.mul_1_r.
    rewrite <- (firstn_skipn 9 ds) at 2 3. rewrite app_length, firstn_length_le by lia.
    rewrite digits_value_app, Nat2N.inj_add, N.pow_add_r. change (N.of_nat 9) with 9.
    rewrite (N.mul_comm (10 ^ 9)), N.div_mul_cancel_r by apply pow10_pos.
    rewrite N.div_add_l by apply pow10_pos. rewrite N.div_small; [ lia | ].
    apply digits_value_lt. unfold digit_text in *. rewrite <- (firstn_skipn 9 ds) in H. now apply Forall_app in H.
Qed.

Lemma digit_text_forallb ds : digit_text ds <-> forallb is_digit ds = true.
Proof.
  unfold digit_text. rewrite forallb_forall, Forall_forall.
  split; intros H c Hc; [ apply is_digit_bound | apply is_digit_bound ]; now apply H.
Qed.
Lemma digit_run_app ds r : digit_text ds -> match r with [] => True | c :: _ => is_digit c = false end ->
  digit_run (ds ++ r) = (ds, r).
Proof.
  intros H R. induction H as [ | c ds Hc Hd IH ]; cbn [app digit_run].
  - destruct r; [ reflexivity | ]. cbn. now rewrite R.
  - apply is_digit_bound in Hc. rewrite Hc, IH. reflexivity.
Qed.

(** time.Parse on well-shaped texts. *)
Lemma parse_date_items l y m d r c : y <= 9999 -> m < 100 -> d < 100 ->
  parse_items (layout_date ++ l) (four y ++ B "-" ++ two m ++ B "-" ++ two d ++ r) c =
  if N.leb 1 m && N.leb m 12 then parse_items l r (set_day (set_month (set_year c y) m) d) else None.
Proof.
  intros Hy Hm Hd. unfold layout_date. cbn [app parse_items].
  rewrite fixed_four by exact Hy. change (B "-") with ["-"%char]. cbn [app].
  change (beq "-" "-") with true. change (beq "-" " ") with false. cbn iota.
  rewrite (getnum_two true m) by exact Hm. destruct (N.leb 1 m && N.leb m 12); [ | reflexivity ].
  rewrite (getnum_two true d) by exact Hd. reflexivity.
Qed.
Lemma cutspace_two n r : n < 100 -> cutspace (two n ++ r) = two n ++ r.
Proof.
  intros H. destruct (two_digits _ H) as (a & b & -> & A & _). cbn [app cutspace].
  destruct (beq a " ") eqn:E; [ | reflexivity ]. apply Ascii.eqb_eq in E as ->. discriminate A.
Qed.
Lemma parse_clock_items l h m s r c : h < 100 -> m < 100 -> s < 100 ->
  parse_items ([LLit " "; LHour; LLit ":"; LMin; LLit ":"; LSec] ++ l) (" "%char :: two h ++ B ":" ++ two m ++ B ":" ++ two s ++ r) c =
  if N.ltb h 24 && (N.ltb m 60 && N.ltb s 60) then parse_items l r (set_sec (set_min (set_hour c h) m) s) else None.
Proof.
  intros Hh Hm Hs. cbn [app parse_items].
  change (beq " " " ") with true. cbn iota. rewrite cutspace_two by exact Hh.
  rewrite (getnum_two false h) by exact Hh. destruct (N.ltb h 24); [ | reflexivity ].
  change (B ":") with [":"%char]. cbn [app].
  change (beq ":" ":") with true. change (beq ":" " ") with false. cbn iota.
  rewrite (getnum_two true m) by exact Hm. destruct (N.ltb m 60); [ | reflexivity ].
  rewrite (getnum_two true s) by exact Hs. reflexivity.
Qed.

Lemma time_parse_ok (l : list item) s c : time_parse l s = Some c ->
  parse_items l s zero_civil = Some c /\ 1 <= c_day c <= days_in (c_month c) (c_year c).
Proof.
  unfold time_parse. destruct (parse_items l s zero_civil) as [ c' | ]; [ | discriminate ].
  destruct (N.leb 1 (c_day c')) eqn:A; [ | discriminate ]. destruct (N.leb (c_day c') _) eqn:E; [ | discriminate ].
  intros H; injection H as ->. apply N.leb_le in A. apply N.leb_le in E. tauto.
Qed.
Lemma time_parse_intro (l : list item) s c : parse_items l s zero_civil = Some c ->
  1 <= c_day c -> c_day c <= days_in (c_month c) (c_year c) -> time_parse l s = Some c.
Proof. intros E A A'. unfold time_parse. rewrite E. apply N.leb_le in A. apply N.leb_le in A'. now rewrite A, A'. Qed.

Lemma real_bounds c : real_time c -> c_year c <= 9999 /\ 1 <= c_month c <= 12 /\ 1 <= c_day c /\
  c_day c <= days_in (c_month c) (c_year c) /\ c_day c < 100 /\ c_hour c < 24 /\ c_min c < 60 /\ c_sec c < 60.
Proof.
  intros (Hy & (n & Hn & Hd) & Hh & Hm & Hs). pose proof (month_range _ _ _ Hn) as [Hr L].
  assert (1 <= c_day c <= days_in (c_month c) (c_year c)) by (apply day_spec; [ exact Hr | eauto ]).
  repeat split; try tauto; lia.
Qed.
Lemma real_intro c : c_year c <= 9999 -> 1 <= c_month c <= 12 -> 1 <= c_day c <= days_in (c_month c) (c_year c) ->
  c_hour c < 24 -> c_min c < 60 -> c_sec c < 60 -> real_time c.
Proof. intros. unfold real_time. repeat (split; [ assumption || (apply day_spec; assumption) | ]). assumption. Qed.

Lemma shape_datetime c r : real_time c ->
  re_seq (date_re ++ space_re :: clock_re) (date_text c ++ B " " ++ clock_text c ++ r) = Some r.
Proof.
  intros H. destruct (real_bounds c H) as (Y & M & _ & _ & D & Hh & Mi & Se).
  unfold date_text, clock_text. rewrite re_seq_app, <- !app_assoc, re_date by lia.
  change (B " ") with [" "%char]. cbn [app re_seq]. change (space_re " ") with true. cbn iota.
  apply re_clock; lia.
Qed.
Lemma shape_date c r : real_time c -> re_seq date_re (date_text c ++ r) = Some r.
Proof.
  intros H. destruct (real_bounds c H) as (Y & M & _ & _ & D & Hh & Mi & Se).
  unfold date_text. rewrite <- !app_assoc. apply re_date; lia.
Qed.

Lemma leb_range m : 1 <= m <= 12 -> N.leb 1 m && N.leb m 12 = true.
Proof. intros H. apply andb_true_iff. rewrite !N.leb_le. exact H. Qed.

Lemma plain_parses lax c s : real_time c -> c_off c = 0%Z -> plain_text c s -> parse_time lax s = Some c.
Proof.
  intros H O P. destruct (real_bounds c H) as (Y & M & D1 & D2 & D & Hh & Mi & Se).
  unfold parse_time. destruct P as [ Z1 Z2 Z3 Z4 | Z4 | ds Hne Hds Ens ].
  - unfold match_date. rewrite <- (app_nil_r (date_text c)), shape_date by exact H.
    rewrite app_nil_r. apply time_parse_intro; try assumption.
    unfold date_text. rewrite <- (app_nil_r (two (c_day c))), <- (app_nil_r layout_date), parse_date_items by lia.
    rewrite (leb_range _ M). cbn [parse_items]. unfold zero_civil, set_day, set_month, set_year; cbn.
    destruct c; cbn in *. subst. reflexivity.
  - unfold match_date. rewrite shape_date by exact H. change (B " ") with [" "%char]. cbn [app]. cbn iota.
    unfold match_datetime. change (" "%char :: clock_text c) with (B " " ++ clock_text c).
    rewrite <- (app_nil_r (clock_text c)), shape_datetime by exact H.
    apply time_parse_intro; try assumption.
    unfold date_text, clock_text, layout_datetime. rewrite <- !app_assoc, parse_date_items by lia.
    rewrite (leb_range _ M). change (B " ") with [" "%char]. cbn [app].
    match goal with |- parse_items ?l ?x ?y = _ => change l with ([LLit " "; LHour; LLit ":"; LMin; LLit ":"; LSec] ++ []) end.
    rewrite parse_clock_items by lia.
    rewrite (proj2 (N.ltb_lt _ _) Hh), (proj2 (N.ltb_lt _ _) Mi), (proj2 (N.ltb_lt _ _) Se).
    cbn [andb parse_items]. destruct c; cbn in *. subst. reflexivity.
  - unfold match_date. rewrite shape_date by exact H. change (B " ") with [" "%char]. cbn [app]. cbn iota.
    unfold match_datetime, match_datetime_frac.
    match goal with |- context [re_seq ?p (date_text c ++ ?x)] => change (date_text c ++ x) with (date_text c ++ B " " ++ clock_text c ++ B "." ++ ds) end.
    rewrite shape_datetime by exact H. change (B ".") with ["."%char]. cbn [app].
    destruct ds as [ | a ds ]; [ contradiction | ]. change (beq "." ".") with true. cbn [andb].
    rewrite (proj1 (digit_text_forallb _) Hds).
    apply time_parse_intro; try assumption.
    unfold date_text, clock_text, layout_frac, layout_datetime. rewrite <- !app_assoc, parse_date_items by lia.
    rewrite (leb_range _ M). change (B " ") with [" "%char]. cbn [app].
    match goal with |- parse_items ?l ?x ?y = _ => change l with ([LLit " "; LHour; LLit ":"; LMin; LLit ":"; LSec] ++ [LFrac]) end.
    rewrite parse_clock_items by lia.
    rewrite (proj2 (N.ltb_lt _ _) Hh), (proj2 (N.ltb_lt _ _) Mi), (proj2 (N.ltb_lt _ _) Se).
    cbn [andb]. cbn [parse_items]. change (beq "." ".") with true. cbn iota.
    pose proof (digit_run_app (a :: ds) [] Hds I) as E. rewrite app_nil_r in E. rewrite E. cbn iota.
    rewrite (nanos_spec _ Hds), <- Ens. cbn [parse_items]. destruct c; cbn in *. subst. reflexivity.
Qed.

Lemma digit_run_inv s : forall ds r, digit_run s = (ds, r) -> s = ds ++ r /\ digit_text ds /\
  match r with [] => True | c :: _ => is_digit c = false end.
Proof.
  induction s as [ | c s IH ]; intros ds r; cbn [digit_run].
  - intros H; injection H as <- <-. repeat split. constructor.
  - destruct (is_digit c) eqn:E.
    + destruct (digit_run s) as [d r'] eqn:R. intros H; injection H as <- <-.
      destruct (IH _ _ eq_refl) as (-> & Hd & Hr). repeat split; [ | exact Hr ].
      constructor; [ now apply is_digit_bound in E | exact Hd ].
    + intros H; injection H as <- <-. repeat split; [ constructor | exact E ].
Qed.

Lemma if_true {A} (b : bool) (x : option A) v : (if b then x else None) = Some v -> b = true /\ x = Some v.
Proof. destruct b; [ tauto | discriminate ]. Qed.

Lemma space_lit c (l : list item) s k x : parse_items (LLit " " :: l) (c :: s) k = Some x -> c = " "%char.
Proof. cbn [parse_items]. intros H. apply if_true in H as [H _]. symmetry. now apply Ascii.eqb_eq. Qed.

Lemma shaped_inv lax s c : match_date s || match_datetime s || match_datetime_frac s = true ->
  parse_time lax s = Some c -> real_time c /\ c_off c = 0%Z /\ plain_text c s.
Proof.
  intros Hs. unfold parse_time. destruct (match_date s) eqn:E1.
  { clear Hs. unfold match_date in E1. destruct (re_seq date_re s) as [ [ | ] | ] eqn:R; try discriminate.
    apply re_date_inv in R as (y & m & d & Hy & Hm & Hd & ->). intros P. apply time_parse_ok in P as [P Dd].
    rewrite <- (app_nil_r layout_date), parse_date_items in P by assumption.
    apply if_true in P as [Hm' P]. cbn [parse_items] in P. injection P as <-. cbn in *.
    apply andb_true_iff in Hm' as [M1 M2]. apply N.leb_le in M1. apply N.leb_le in M2.
    split; [ apply real_intro; cbn; try assumption; lia | ]. split; [ reflexivity | ].
    apply (PTDate (set_day (set_month (set_year zero_civil y) m) d)); reflexivity. }
  destruct (match_datetime s) eqn:E2.
  { clear Hs E1. unfold match_datetime in E2. destruct (re_seq _ s) as [ [ | ] | ] eqn:R; try discriminate.
    rewrite re_seq_app in R. destruct (re_seq date_re s) as [ r1 | ] eqn:R1; [ | discriminate ].
    apply re_date_inv in R1 as (y & m & d & Hy & Hm & Hd & ->).
    destruct r1 as [ | sp r2 ]; [ discriminate | ]. cbn [re_seq] in R. apply if_true in R as [_ R].
    apply re_clock_inv in R as (h & mi & se & Hh & Hmi & Hse & ->).
    intros P. apply time_parse_ok in P as [P Dd]. unfold layout_datetime in P.
    rewrite parse_date_items in P by assumption.
    apply if_true in P as [Hm' P]. pose proof (space_lit _ _ _ _ _ P) as ->.
    change [LLit " "; LHour; LLit ":"; LMin; LLit ":"; LSec] with ([LLit " "; LHour; LLit ":"; LMin; LLit ":"; LSec] ++ []) in P.
    rewrite parse_clock_items in P by assumption. apply if_true in P as [Hc P].
    cbn [parse_items] in P. injection P as <-. cbn in Dd.
    apply andb_true_iff in Hm' as [M1 M2]. apply N.leb_le in M1. apply N.leb_le in M2.
    apply andb_true_iff in Hc as [C1 Hc]. apply andb_true_iff in Hc as [C2 C3].
    apply N.ltb_lt in C1. apply N.ltb_lt in C2. apply N.ltb_lt in C3.
    split; [ apply real_intro; cbn; try assumption; lia | ]. split; [ reflexivity | ].
    match goal with |- plain_text ?c _ => pose proof (PTTime c eq_refl) as T end.
    unfold date_text, clock_text in T. cbn [c_year c_month c_day c_hour c_min c_sec set_nsec set_sec set_min set_hour set_day set_month set_year] in T. change (B " ") with [" "%char] in T.
    rewrite app_nil_r. rewrite <- !app_assoc in T. exact T. }
  destruct (match_datetime_frac s) eqn:E3; [ | discriminate ].
  clear Hs E1 E2. unfold match_datetime_frac in E3. destruct (re_seq _ s) as [ [ | p [ | d0 ds ] ] | ] eqn:R; try discriminate.
  apply andb_true_iff in E3 as [Ep Eds]. apply Ascii.eqb_eq in Ep as ->. apply digit_text_forallb in Eds.
  rewrite re_seq_app in R. destruct (re_seq date_re s) as [ r1 | ] eqn:R1; [ | discriminate ].
  apply re_date_inv in R1 as (y & m & d & Hy & Hm & Hd & ->).
  destruct r1 as [ | sp r2 ]; [ discriminate | ]. cbn [re_seq] in R. apply if_true in R as [_ R].
  apply re_clock_inv in R as (h & mi & se & Hh & Hmi & Hse & ->).
  intros P. apply time_parse_ok in P as [P Dd]. unfold layout_frac, layout_datetime in P. rewrite <- app_assoc in P.
  rewrite parse_date_items in P by assumption.
  apply if_true in P as [Hm' P]. pose proof (space_lit _ _ _ _ _ P) as ->.
  rewrite parse_clock_items in P by assumption. apply if_true in P as [Hc P].
  cbn [parse_items] in P. change (beq "." ".") with true in P. cbn iota in P.
  pose proof (digit_run_app (d0 :: ds) [] Eds I) as E. rewrite app_nil_r in E. rewrite E in P. cbn iota in P.
  rewrite (nanos_spec _ Eds) in P.
  injection P as <-. cbn in Dd.
  apply andb_true_iff in Hm' as [M1 M2]. apply N.leb_le in M1. apply N.leb_le in M2.
  apply andb_true_iff in Hc as [C1 Hc]. apply andb_true_iff in Hc as [C2 C3].
  apply N.ltb_lt in C1. apply N.ltb_lt in C2. apply N.ltb_lt in C3.
  split; [ apply real_intro; cbn; try assumption; lia | ]. split; [ reflexivity | ].
  match goal with |- plain_text ?c _ => pose proof (PTFrac c (d0 :: ds) ltac:(discriminate) Eds eq_refl) as T end.
  unfold date_text, clock_text in T. cbn [c_year c_month c_day c_hour c_min c_sec set_nsec set_sec set_min set_hour set_day set_month set_year] in T.
  change (B " ") with [" "%char] in T. change (B ".") with ["."%char] in T.
  rewrite <- !app_assoc in T. exact T.
Qed.

(** The strict RFC 3339 parser. *)
Lemma bounded_two lo hi n r : n < 100 -> lo <= n <= hi -> bounded 2 lo hi (two n ++ r) = Some (n, r).
Proof.
  intros H [L1 L2]. unfold bounded. rewrite fixed_two by exact H.
  apply N.leb_le in L1. apply N.leb_le in L2. now rewrite L1, L2.
Qed.
Lemma bounded_four lo hi n r : n <= 9999 -> lo <= n <= hi -> bounded 4 lo hi (four n ++ r) = Some (n, r).
Proof.
  intros H [L1 L2]. unfold bounded. rewrite fixed_four by exact H.
  apply N.leb_le in L1. apply N.leb_le in L2. now rewrite L1, L2.
Qed.
Lemma bounded_two_inv lo hi s n r : bounded 2 lo hi s = Some (n, r) -> s = two n ++ r /\ n < 100 /\ lo <= n <= hi.
Proof.
  unfold bounded. destruct (fixed_num 2 0 s) as [ [v s'] | ] eqn:E; [ | discriminate ].
  intros H. apply if_true in H as [L H]. injection H as -> ->.
  apply andb_true_iff in L as [L1 L2]. apply N.leb_le in L1. apply N.leb_le in L2.
  cbn [fixed_num] in E. repeat step E. 
  match goal with _ : Some (_, ?r0) = _ |- ?a :: ?b :: ?r0 = _ /\ _ => destruct (two_is a b) as (k & Hk & Ek); try assumption;
    change (a :: b :: r0) with ([a; b] ++ r0);
    assert (F : fixed_num 2 0 (two k ++ r0) = Some (k, r0)) by (apply fixed_two; exact Hk) end.
  rewrite <- Ek in F. cbn [app fixed_num] in F. rewrite D, D0 in F. rewrite F in E. injection E as -> ->.
  rewrite Ek. tauto.
Qed.
Lemma bounded_four_inv lo hi s n r : bounded 4 lo hi s = Some (n, r) -> s = four n ++ r /\ n <= 9999.
Proof.
  unfold bounded. destruct (fixed_num 4 0 s) as [ [v s'] | ] eqn:E; [ | discriminate ].
  intros H. apply if_true in H as [L H]. injection H as -> ->. clear L.
  cbn [fixed_num] in E. repeat step E.
  match goal with _ : Some (_, ?r0) = _ |- ?a :: ?b :: ?c :: ?d :: ?r0 = _ /\ _ => destruct (four_is a b c d) as (k & Hk & Ek); try assumption;
    change (a :: b :: c :: d :: r0) with ([a; b; c; d] ++ r0);
    assert (F : fixed_num 4 0 (four k ++ r0) = Some (k, r0)) by (apply fixed_four; exact Hk) end.
  rewrite <- Ek in F. cbn [app fixed_num] in F. rewrite D, D0, D1, D2 in F. rewrite F in E. injection E as -> ->.
  rewrite Ek. tauto.
Qed.
Lemma sep_inv a s r : sep a s = Some r -> s = a :: r.
Proof. destruct s as [ | c s ]; [ discriminate | ]. cbn. intros H. apply if_true in H as [E H]. apply Ascii.eqb_eq in E. congruence. Qed.
Lemma sep_ok a r : sep a (a :: r) = Some r.
Proof. cbn. unfold beq. now rewrite Ascii.eqb_refl. Qed.

Lemma rfc_zone_spec s o : rfc_zone s = Some o <-> zone_text o s.
Proof.
  split.
  - destruct s as [ | sg s1 ]; [ discriminate | ]. intros H.
    destruct s1 as [ | a s1' ] eqn:Es1.
    + cbn in H. apply if_true in H as [E H]. apply Ascii.eqb_eq in E as ->. injection H as <-. constructor.
    + unfold rfc_zone in H. rewrite <- Es1 in *. clear a s1' Es1.
      rename H into K.
      destruct (bounded 2 0 23 s1) as [ [hh s2] | ] eqn:E1; [ | discriminate ].
      apply bounded_two_inv in E1 as (-> & _ & Hh).
      destruct (sep ":" s2) as [ s3 | ] eqn:E2; [ | discriminate ]. apply sep_inv in E2 as ->.
      destruct (bounded 2 0 59 s3) as [ [mm [ | ? ? ] ] | ] eqn:E3; try discriminate.
      apply bounded_two_inv in E3 as (-> & _ & Hm). cbn zeta in K.
      replace ((hh * 60 + mm) * 60) with (3600 * hh + 60 * mm) in K by lia.
      destruct (beq sg "+") eqn:P.
      * apply Ascii.eqb_eq in P as ->. injection K as <-. rewrite app_nil_r.
        change ("+"%char :: two hh ++ ":"%char :: two mm) with (B "+" ++ two hh ++ B ":" ++ two mm). constructor; lia.
      * destruct (beq sg "-") eqn:Mn; [ | discriminate ]. apply Ascii.eqb_eq in Mn as ->. injection K as <-. rewrite app_nil_r.
        change ("-"%char :: two hh ++ ":"%char :: two mm) with (B "-" ++ two hh ++ B ":" ++ two mm). constructor; lia.
  - assert (K : forall sg h m, h < 24 -> m < 60 -> rfc_zone (sg :: two h ++ B ":" ++ two m) =
      if beq sg "+" then Some (Z.of_N ((h * 60 + m) * 60)) else if beq sg "-" then Some (- Z.of_N ((h * 60 + m) * 60))%Z else None).
    { intros sg h m Hh Hm. unfold rfc_zone.
      destruct (two h ++ B ":" ++ two m) as [ | a s1 ] eqn:E; [ discriminate E | ]. rewrite <- E.
      rewrite bounded_two by lia. change (B ":" ++ two m) with (":"%char :: two m). rewrite sep_ok.
      rewrite <- (app_nil_r (two m)), bounded_two by lia. reflexivity. }
    intros H. destruct H as [ | h m Hh Hm | h m Hh Hm ]; [ reflexivity | | ].
    + change (B "+" ++ two h ++ B ":" ++ two m) with ("+"%char :: two h ++ B ":" ++ two m). rewrite K by assumption.
      change (beq "+" "+") with true. cbn iota. do 2 f_equal. lia.
    + change (B "-" ++ two h ++ B ":" ++ two m) with ("-"%char :: two h ++ B ":" ++ two m). rewrite K by assumption.
      change (beq "-" "+") with false. change (beq "-" "-") with true. cbn iota. do 3 f_equal. lia.
Qed.
Lemma zone_head o s : zone_text o s -> match s with [] => True | c :: _ => is_digit c = false /\ c <> "."%char end.
Proof. intros H; destruct H; cbn; split; (reflexivity || discriminate). Qed.

Lemma rfc_quick_ok c s : real_time c -> rfc_text c s -> rfc_quick s = Some c.
Proof.
  intros H R. destruct (real_bounds c H) as (Y & M & D1 & D2 & D & Hh & Mi & Se).
  assert (K : forall t, rfc_quick (date_text c ++ B "T" ++ clock_text c ++ t) =
    let '(ns, t) := match t with
    | p :: s1 => if beq p "." then match digit_run s1 with ([], _) => (0, t) | (ds, s') => (nanos ds, s') end else (0, t)
    | [] => (0, t) end in
    obind (rfc_zone t) (fun o => Some (Civil (c_year c) (c_month c) (c_day c) (c_hour c) (c_min c) (c_sec c) ns o))).
  { intros t. unfold rfc_quick, date_text, clock_text. rewrite <- !app_assoc.
    rewrite bounded_four by lia. cbn [obind]. change (B "-") with ["-"%char]. change (B "T") with ["T"%char]. change (B ":") with [":"%char].
    cbn [app]. rewrite !sep_ok. cbn [obind]. rewrite bounded_two by lia. cbn [obind]. rewrite sep_ok. cbn [obind].
    rewrite bounded_two by lia. cbn [obind]. rewrite sep_ok. cbn [obind]. rewrite bounded_two by lia. cbn [obind].
    rewrite sep_ok. cbn [obind]. rewrite bounded_two by lia. cbn [obind]. rewrite sep_ok. cbn [obind].
    rewrite bounded_two by lia. cbn [obind]. reflexivity. }
  destruct R as [ z Z0 Hz | ds z Hne Hds Ens Hz ]; rewrite K.
  - pose proof (zone_head _ _ Hz) as Zh. destruct z as [ | p z ]; [ inversion Hz | ].
    destruct (beq p ".") eqn:E; [ apply Ascii.eqb_eq in E; destruct Zh; congruence | ].
    rewrite (proj2 (rfc_zone_spec _ _) Hz). cbn. destruct c; cbn in *. congruence.
  - change (B "." ++ ds ++ z) with ("."%char :: ds ++ z). change (beq "." ".") with true. cbn iota.
    rewrite digit_run_app; [ | exact Hds | pose proof (zone_head _ _ Hz); destruct z; tauto ].
    destruct ds as [ | a ds ]; [ contradiction | ]. change (beq "." ".") with true. lazy beta iota zeta.
    rewrite (proj2 (rfc_zone_spec _ _) Hz), (nanos_spec _ Hds), <- Ens. cbn. destruct c; reflexivity.
Qed.

Ltac ostep H := match type of H with obind ?x _ = Some _ => let E := fresh "E" in destruct x as [ ? | ] eqn:E; [ cbn [obind] in H | discriminate ] end.

Lemma rfc_quick_inv c s : rfc_quick s = Some c -> real_time c /\ rfc_text c s.
Proof.
  unfold rfc_quick. intros H.
  ostep H. destruct p as [y s1]. apply bounded_four_inv in E as [-> Hy].
  ostep H. apply sep_inv in E as ->.
  ostep H. destruct p as [mo s3]. apply bounded_two_inv in E as (-> & _ & Hmo).
  ostep H. apply sep_inv in E as ->.
  ostep H. destruct p as [d s4]. apply bounded_two_inv in E as (-> & _ & Hd).
  ostep H. apply sep_inv in E as ->.
  ostep H. destruct p as [h s6]. apply bounded_two_inv in E as (-> & _ & Hh).
  ostep H. apply sep_inv in E as ->.
  ostep H. destruct p as [mi s8]. apply bounded_two_inv in E as (-> & _ & Hmi).
  ostep H. apply sep_inv in E as ->.
  ostep H. destruct p as [se t]. apply bounded_two_inv in E as (-> & _ & Hse).
  assert (K : exists ns z o, obind (rfc_zone z) (fun o => Some (Civil y mo d h mi se ns o)) = Some c /\ rfc_zone z = Some o /\
     ((ns = 0 /\ t = z) \/ exists ds, ds <> [] /\ digit_text ds /\ ns = fraction_ns ds /\ t = B "." ++ ds ++ z)).
  { destruct t as [ | p t1 ].
    - ostep H. exists 0, [], z. rewrite E. auto.
    - destruct (beq p ".") eqn:Ep.
      + apply Ascii.eqb_eq in Ep as ->. destruct (digit_run t1) as [ds z] eqn:Er.
        apply digit_run_inv in Er as (-> & Hds & _).
        destruct ds as [ | a ds ].
        * ostep H. apply rfc_zone_spec in E. apply zone_head in E. destruct E; congruence.
        * ostep H. exists (nanos (a :: ds)), z, z0. rewrite E. split; [ exact H | ]. split; [ reflexivity | ].
          right. exists (a :: ds). rewrite (nanos_spec _ Hds). repeat split; [ discriminate | exact Hds ].
      + ostep H. exists 0, (p :: t1), z. rewrite E. auto. }
  destruct K as (ns & z & o & K & Ez & K'). rewrite Ez in K. cbn [obind] in K. injection K as <-.
  apply rfc_zone_spec in Ez.
  split; [ apply real_intro; cbn; lia | ].
  destruct K' as [ [-> ->] | (ds & Hne & Hds & -> & ->) ].
  - match goal with |- rfc_text ?c _ => pose proof (RTPlain c z eq_refl Ez) as T end.
    unfold date_text, clock_text in T. cbn [c_year c_month c_day c_hour c_min c_sec] in T. rewrite <- !app_assoc in T. exact T.
  - match goal with |- rfc_text ?c _ => pose proof (RTFrac c ds z Hne Hds eq_refl Ez) as T end.
    unfold date_text, clock_text in T. cbn [c_year c_month c_day c_hour c_min c_sec] in T. rewrite <- !app_assoc in T. exact T.
Qed.

Lemma nth_date y m d r : nth_error (four y ++ B "-" ++ two m ++ B "-" ++ two d ++ r) 10 = nth_error r 0.
Proof. reflexivity. Qed.

Lemma rfc_not_shaped c s : real_time c -> rfc_text c s -> match_date s || match_datetime s || match_datetime_frac s = false.
Proof.
  intros H R.
  assert (K : exists t, s = date_text c ++ "T"%char :: t) by (destruct R; eexists; reflexivity).
  destruct K as [t ->]. unfold match_date, match_datetime, match_datetime_frac.
  rewrite re_seq_app, shape_date by exact H. cbn [re_seq]. change (space_re "T") with false. reflexivity.
Qed.

Lemma parse_time_rfc lax c s : real_time c -> rfc_text c s -> parse_time lax s = Some c.
Proof.
  intros H R. pose proof (rfc_not_shaped c s H R) as E. apply orb_false_iff in E as [E E3]. apply orb_false_iff in E as [E1 E2].
  unfold parse_time. rewrite E1, E2, E3. unfold rfc_parse. now rewrite (rfc_quick_ok c s H R).
Qed.

Lemma parse_time_inv lax c s : parse_time lax s = Some c ->
  (real_time c /\ (c_off c = 0%Z /\ plain_text c s \/ rfc_text c s)) \/ (nth_error s 10 = Some "T"%char /\ lax s = Some c).
Proof.
  intros P. destruct (match_date s || match_datetime s || match_datetime_frac s) eqn:E.
  - destruct (shaped_inv lax s c E P) as (? & ? & ?). tauto.
  - apply orb_false_iff in E as [E E3]. apply orb_false_iff in E as [E1 E2].
    unfold parse_time in P. rewrite E1, E2, E3 in P. unfold rfc_parse in P.
    destruct (rfc_quick s) as [ c' | ] eqn:Q.
    + injection P as ->. apply rfc_quick_inv in Q. tauto.
    + destruct (re_seq (date_re ++ [beq "T"]) s) as [ r | ] eqn:R; [ | discriminate ]. right. split; [ | exact P ].
      rewrite re_seq_app in R. destruct (re_seq date_re s) as [ r1 | ] eqn:R1; [ | discriminate ].
      apply re_date_inv in R1 as (y & m & d & _ & _ & _ & ->). rewrite nth_date.
      destruct r1 as [ | t r1 ]; [ discriminate | ]. cbn [re_seq] in R. apply if_true in R as [R _].
      apply Ascii.eqb_eq in R as <-. reflexivity.
Qed.
