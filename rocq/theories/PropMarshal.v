(** Property C100: the text of a list of floats. *)
From Coq Require Import ZArith Floats.SpecFloat Lia.
From Verif Require Import Base ModelStrconv ModelArray ModelUtf8 ModelEncoding ModelFloat ModelMarshal SpecText SpecJson SpecMarshal
  LemmasBase LemmasArray LemmasArray2 LemmasJson LemmasMarshal.
Local Open Scope list_scope.

(** The precision of a call: the first one given, or zero. *)
Definition precision (prec : list nat) : nat := hd 0%nat prec.

Lemma marshal_floats_text l prec : marshal_floats l prec = list_text "["%char "]"%char (map (format_fixed (precision prec)) l).
Proof. unfold marshal_floats. rewrite marshal_list_text. destruct prec; reflexivity. Qed.

(** A list of numbers is a JSON array of as many numbers, each the decimal with the asked number of digits nearest to the element.
    Missing: that the numbers are those of the list, which is false (C100_fraction_refuted), and lists with an element that is not a number, whose text
    is not JSON (C100_not_json_refuted). *)
Theorem C100_nearest_partial : forall l prec, Forall is_number l ->
  exists ts, read_json (marshal_floats l prec) = Some (JArr (map JNum ts)) /\
  Forall2 (fun t x => exists n, denotes_decimal t n (precision prec) /\ nearest x n (precision prec)) ts l.
Proof.
  intros l prec H. exists (map (format_fixed (precision prec)) l). split.
  - rewrite marshal_floats_text, map_map. apply (read_json_list (format_fixed (precision prec))).
    eapply Forall_impl; [ | exact H ]. intros x Hx. now apply float_elem.
  - induction H as [|x l Hx H IH]; cbn [map]; constructor; [ now apply float_denotes | exact IH ].
Qed.
Print Assumptions C100_nearest_partial.

Lemma nearest_exact x n p : nearest x n p -> has_digits x p -> same_number x n p.
Proof.
  unfold nearest, has_digits, same_number. intros [N _] [k K]. rewrite <- K in N |- *.
  assert (P : (0 < bottom x)%Z) by (destruct x; cbn [bottom]; try lia; apply Z.pow_pos_nonneg; lia).
  replace (n * bottom x - k * bottom x)%Z with ((n - k) * bottom x)%Z in N by ring.
  rewrite Z.abs_mul, (Z.abs_eq (bottom x)) in N by lia. assert (n = k) by nia. now subst.
Qed.

(** Numbers with no more digits after the point than the precision asked for come out as they are. *)
Theorem C100_exact_partial : forall l prec, Forall is_number l -> Forall (fun x => has_digits x (precision prec)) l ->
  exists ts, read_json (marshal_floats l prec) = Some (JArr (map JNum ts)) /\
  Forall2 (fun t x => exists n, denotes_decimal t n (precision prec) /\ same_number x n (precision prec)) ts l.
Proof.
  intros l prec H D. destruct (C100_nearest_partial l prec H) as (ts & R & F). exists ts. split; [ exact R | ].
  clear R H. induction F as [|t x ts l (n & T & N) F IH]; [ constructor | ].
  inversion D; subst. constructor; [ | now apply IH ]. exists n. split; [ exact T | now apply nearest_exact ].
Qed.
Print Assumptions C100_exact_partial.

Lemma enough_digits x p : is_number x -> (match x with S754_finite _ _ e => (- e <= Z.of_nat p)%Z | _ => True end) -> has_digits x p.
Proof.
  unfold has_digits, same_number. destruct x as [s|s| |s m e]; intros H L; try contradiction; [ exists 0%Z; reflexivity | ].
  cbn [top bottom]. set (k := Z.max 0 (- e)). assert (K : (0 <= k <= Z.of_nat p)%Z) by lia.
  exists ((if s then Zneg m else Zpos m) * 2 ^ Z.max 0 e * (5 ^ Z.of_nat p * 2 ^ (Z.of_nat p - k)))%Z.
  assert (P : (10 ^ Z.of_nat p = 2 ^ k * 2 ^ (Z.of_nat p - k) * 5 ^ Z.of_nat p)%Z).
  { change 10%Z with (2 * 5)%Z. rewrite Z.pow_mul_l, <- Z.pow_add_r by lia. do 2 f_equal. lia. }
  rewrite P. ring.
Qed.
(** A precision that no binary exponent exceeds loses nothing (1074 for every float64): each number of the text is the element. *)
Theorem C100_enough_partial : forall l p rest, Forall is_number l ->
  Forall (fun x => match x with S754_finite _ _ e => (- e <= Z.of_nat p)%Z | _ => True end) l ->
  exists ts, read_json (marshal_floats l (p :: rest)) = Some (JArr (map JNum ts)) /\
  Forall2 (fun t x => exists n, denotes_decimal t n p /\ same_number x n p) ts l.
Proof.
  intros l p rest H D. apply (C100_exact_partial l (p :: rest) H).
  clear - H D. induction H as [|x l Hx H IH]; [ constructor | ]. inversion D; subst. constructor; [ now apply enough_digits | now apply IH ].
Qed.
Print Assumptions C100_enough_partial.

(** Without a precision every fraction is lost: the text is that of whole numbers, for an element with a fraction it is another number, and lists that
    differ have one text. *)
Theorem C100_fraction_refuted :
  (forall x, is_number x -> ~ has_digits x 0 ->
    exists t n, marshal_floats [x] [] = B "[" ++ t ++ B "]" /\ denotes_int t n /\ ~ same_number x n 0) /\
  (exists x y, is_number x /\ is_number y /\ (top x * bottom y <> top y * bottom x)%Z /\ marshal_floats [x] [] = marshal_floats [y] []).
Proof.
  split.
  - intros x H D. destruct (float_denotes 0 x H) as (n & T & _). exists (format_fixed 0 x), n.
    split; [ reflexivity | split ].
    + inversion T as [t' n' T' E1 E2 E3 | a b n' T' Db E1 E2 E3]; [ exact T' | ].
      destruct Db as [Nb _]. destruct b; [ contradiction | discriminate ].
    + intro S. apply D. now exists n.
  - exists (S754_finite false 1 (-1)), (S754_zero false). repeat split; try exact I; try reflexivity. vm_compute. discriminate.
Qed.
Print Assumptions C100_fraction_refuted.

Lemma bad_value p x f rest : ~ is_number x -> value f (format_fixed p x ++ rest) = None.
Proof.
  intro H. destruct f; [ reflexivity | ]. destruct x as [s|s| |s m e]; try (exfalso; apply H; exact I); [ destruct s | ]; reflexivity.
Qed.
Lemma bad_elements p x post : ~ is_number x -> forall pre, Forall is_number pre -> forall f rest,
  elements f (join (B ",") (map (format_fixed p) (pre ++ x :: post)) ++ rest) = None.
Proof.
  intros H pre. induction pre as [|y pre IH]; intros HP f rest.
  - destruct f; [ reflexivity | ]. rewrite elements_S. cbn [List.app map].
    replace (join (B ",") (format_fixed p x :: map (format_fixed p) post) ++ rest)
      with (format_fixed p x ++ (concat (map (fun y => B "," ++ y) (map (format_fixed p) post)) ++ rest))
      by (rewrite join_concat, app_assoc; reflexivity).
    rewrite bad_value by exact H. reflexivity.
  - inversion HP as [|? ? Hy HP']; subst. destruct f; [ reflexivity | ]. rewrite elements_S.
    destruct f as [|f]; [ reflexivity | ].
    assert (E : join (B ",") (map (format_fixed p) ((y :: pre) ++ x :: post)) ++ rest =
                format_fixed p y ++ ","%char :: (join (B ",") (map (format_fixed p) (pre ++ x :: post)) ++ rest)).
    { cbn [List.app map]. destruct (map (format_fixed p) (pre ++ x :: post)) as [|z zs] eqn:E; [ destruct pre; discriminate | ].
      change (join (B ",") (format_fixed p y :: z :: zs)) with (format_fixed p y ++ B "," ++ join (B ",") (z :: zs)).
      rewrite <- !app_assoc. reflexivity. }
    rewrite E. destruct (float_elem p y Hy) as [V _]. rewrite V by (left; reflexivity).
    cbn [skip_ws]. change (is_ws ",") with false. cbn iota. change (Ascii.eqb "," ",") with true. cbn iota.
    rewrite IH by exact HP'. reflexivity.
Qed.

(** With an infinity or a NaN in the list the text is not JSON, and no error is reported. *)
Theorem C100_not_json_refuted : forall pre x post prec, Forall is_number pre -> ~ is_number x ->
  read_json (marshal_floats (pre ++ x :: post) prec) = None.
Proof.
  intros pre x post prec HP H. rewrite marshal_floats_text. set (p := precision prec).
  unfold read_json, list_text. rewrite value_arr.
  match goal with |- context [elements ?f ?s] => assert (E : elements f s = None) by exact (bad_elements p x post H pre HP f _) end.
  assert (Hd : exists c r, join (B ",") (map (format_fixed p) (pre ++ x :: post)) ++ ["]"%char] = c :: r /\ is_ws c = false /\ c <> "]"%char).
  { assert (G : forall y, match format_fixed p y with [] => False | c :: _ => is_ws c = false /\ c <> "]"%char end).
    { intro y. destruct y as [s|s| |s m e].
      - exact (proj2 (float_elem p (S754_zero s) I)).
      - destruct s; split; [ reflexivity | discriminate | reflexivity | discriminate ].
      - split; [ reflexivity | discriminate ].
      - exact (proj2 (float_elem p (S754_finite s m e) I)). }
    assert (exists y l, pre ++ x :: post = y :: l) as (y & l & ->) by (destruct pre; cbn; eauto).
    cbn [map]. rewrite join_concat. specialize (G y). destruct (format_fixed p y) as [|c r]; [ contradiction | ].
    exists c. eexists. split; [ reflexivity | exact G ]. }
  destruct Hd as (c & r & Ec & W & NB). rewrite Ec in *. cbn [skip_ws]. rewrite W, (eqb_neq _ _ NB), E. reflexivity.
Qed.
Print Assumptions C100_not_json_refuted.

(** 12.4526 asked with four digits, 2.5 with one, and halves without digits go to the even number. *)
Example C100_case : let x := float_of_bits 4623199808644732630 in
  is_number x /\ marshal_floats [x] [4%nat] = B "[12.4526]" /\
  marshal_floats [S754_finite true 5 (-1); S754_zero true; S754_finite false 3 70] [1%nat; 7%nat] = B "[-2.5,-0.0,3541774862152233910272.0]" /\
  marshal_floats [S754_finite false 5 (-1); S754_finite false 7 (-1); S754_finite true 1 (-9)] [] = B "[2,4,-0]" /\
  has_digits (S754_finite true 5 (-1)) 1%nat /\ ~ has_digits (S754_finite true 5 (-1)) 0%nat.
Proof.
  repeat split; try (vm_compute; reflexivity).
  - exists (-25)%Z. reflexivity.
  - intros [n N]. unfold same_number in N. cbn in N. lia.
Qed.
