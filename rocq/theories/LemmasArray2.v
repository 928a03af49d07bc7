From Verif Require Import Base ModelStrconv ModelArray SpecText LemmasBase LemmasArray.

(** Decimal reading agrees with the relational specification. *)
Lemma is_digit_range c : is_digit c = true <-> (48 <= N_of_ascii c <= 57)%N.
Proof. unfold is_digit, in_range, code. rewrite andb_true_iff, !N.leb_le. tauto. Qed.

Lemma digits_val_spec s : forall acc n, digits_val acc s = Some n ->
  Forall (fun c => 48 <= N_of_ascii c <= 57)%N s /\
  Z.of_N n = fold_left (fun a c => a * 10 + (Z.of_N (N_of_ascii c) - 48))%Z s (Z.of_N acc).
Proof.
  induction s as [|c s IH]; intros acc n H; cbn [digits_val] in H.
  - inversion H; subst. split; [constructor|reflexivity].
  - destruct (is_digit c) eqn:E; [|discriminate]. apply is_digit_range in E.
    destruct (IH _ _ H) as [F V]. split; [constructor; assumption|].
    cbn [fold_left]. rewrite V. f_equal. unfold code. lia.
Qed.

Lemma parse_digits_spec s n : parse_digits s = Some n ->
  decimal_digits s /\ Z.of_N n = digits_to_Z s.
Proof.
  unfold parse_digits. destruct s as [|c s]; [discriminate|]. intro H.
  destruct (digits_val_spec _ _ _ H) as [F V]. refine (conj (conj _ F) V). discriminate.
Qed.

Lemma parse_digits_nonneg s n : parse_digits s = Some n -> (0 <= digits_to_Z s)%Z.
Proof. intro H. apply parse_digits_spec in H. destruct H. lia. Qed.

Lemma pow_N_Z b : Z.of_N (2 ^ b) = (2 ^ Z.of_N b)%Z.
Proof. rewrite N2Z.inj_pow. reflexivity. Qed.

Lemma parse_int_denotes bits s z : (0 < bits)%N -> parse_int bits s = Some z ->
  denotes_int s z /\ fits_signed bits z.
Proof.
  intros Hb H. unfold parse_int in H.
  assert (P : Z.of_N (2 ^ (bits - 1)) = (2 ^ (Z.of_N bits - 1))%Z).
  { rewrite pow_N_Z. f_equal. lia. }
  destruct s as [|c d]; [discriminate|].
  destruct (beq c "-"%char) eqn:E1.
  - apply beq_eq in E1. subst.
    destruct (parse_digits d) as [n|] eqn:E; [|discriminate].
    destruct (N.leb_spec n (2 ^ (bits - 1))); [|discriminate].
    destruct (parse_digits_spec _ _ E) as [A V]. inversion H; subst.
    split; [rewrite V; apply DI_minus; exact A|]. unfold fits_signed. lia.
  - destruct (beq c "+"%char) eqn:E2.
    + apply beq_eq in E2. subst.
      destruct (parse_digits d) as [n|] eqn:E; [|discriminate].
      destruct (N.ltb_spec n (2 ^ (bits - 1))); [|discriminate].
      destruct (parse_digits_spec _ _ E) as [A V]. inversion H; subst.
      split; [rewrite V; apply DI_plus; exact A|]. unfold fits_signed. lia.
    + destruct (parse_digits (c :: d)) as [n|] eqn:E; [|discriminate].
      destruct (N.ltb_spec n (2 ^ (bits - 1))); [|discriminate].
      destruct (parse_digits_spec _ _ E) as [A V]. inversion H; subst.
      split; [rewrite V; apply DI_plain; exact A|]. unfold fits_signed. lia.
Qed.

Lemma parse_uint_denotes bits s n : parse_uint bits s = Some n ->
  denotes_int s (Z.of_N n) /\ fits_unsigned bits (Z.of_N n).
Proof.
  unfold parse_uint. destruct (parse_digits s) as [m|] eqn:E; [|discriminate].
  destruct (N.ltb_spec m (2 ^ bits)); [|discriminate]. intro H0. inversion H0; subst.
  destruct (parse_digits_spec _ _ E) as [A V].
  split; [rewrite V; constructor; exact A|]. unfold fits_unsigned. rewrite <- pow_N_Z. lia.
Qed.

(** The relation is functional. *)
Lemma decimal_digits_head c d : decimal_digits (c :: d) -> c <> "-"%char /\ c <> "+"%char.
Proof.
  intros [_ F]. inversion F; subst. split; intro; subst; cbn in *; lia.
Qed.
Lemma denotes_int_fun s z1 z2 : denotes_int s z1 -> denotes_int s z2 -> z1 = z2.
Proof.
  assert (X : forall d : bytes, decimal_digits ("+"%char :: d) -> False)
    by (intros d Hd; apply decimal_digits_head in Hd; tauto).
  assert (Y : forall d : bytes, decimal_digits ("-"%char :: d) -> False)
    by (intros d Hd; apply decimal_digits_head in Hd; tauto).
  intros H1 H2. inversion H1; subst; inversion H2; subst; try reflexivity; exfalso; eauto.
Qed.

Lemma all_elems_forall2 {A} (dec : option bytes -> option A) es l :
  all_elems dec es = Some l -> Forall2 (fun e a => dec e = Some a) es l.
Proof.
  revert l. induction es as [|e es IH]; intros l H; cbn [all_elems] in H.
  - inversion H. constructor.
  - destruct (dec e) as [a|] eqn:E; [|discriminate].
    destruct (all_elems dec es) as [r|] eqn:R; [|discriminate]. inversion H; subst.
    constructor; [exact E | apply IH; reflexivity].
Qed.

Lemma scan_ok_elems {A} br (dec : option bytes -> option A) dst src b l :
  src = SBytes b \/ src = SString b ->
  scan br dec dst src = (Some l, Ok tt) ->
  exists es, scan_linear br b = Ok es /\ Forall2 (fun e a => dec e = Some a) es l.
Proof.
  intros S H.
  assert (H' : scan_bytes br dec dst b = (Some l, Ok tt)) by (destruct S; subst; exact H).
  unfold scan_bytes in H'. destruct (scan_linear br b) as [es| |]; [|inversion H'|inversion H'].
  exists es. split; [reflexivity|].
  destruct dst as [d|]; [destruct es as [|e es]|].
  - inversion H'; subst. constructor.
  - destruct (all_elems dec (e :: es)) eqn:E; inversion H'; subst. apply all_elems_forall2, E.
  - destruct (all_elems dec es) eqn:E; inversion H'; subst. apply all_elems_forall2, E.
Qed.

(** Element texts of a list of plain number texts. *)
Definition num_text (s : bytes) : Prop :=
  s <> [] /\ Forall (fun c => In c (B "+-0123456789")) s.

Lemma num_text_raw br s : wf_br br -> Forall (fun c => c <> opn br /\ c <> cls br) (B "+-0123456789") ->
  num_text s -> elem_reads br s (Some s) /\ good_head br s.
Proof.
  intros W R [NE H]. rewrite Forall_forall in R.
  destruct s as [|x s]; [contradiction|].
  assert (F : Forall (raw_ok br) (x :: s)).
  { eapply Forall_impl; [|exact H]. intros c Hc. split; [|apply R, Hc].
    intro; subst. cbn in Hc. repeat destruct Hc as [Hc|Hc]; try discriminate; exact Hc. }
  inversion H as [|? ? Hx Hs]; subst.
  assert (NQ : x <> dquote).
  { intro; subst. cbn in Hx. repeat destruct Hx as [Hx|Hx]; try discriminate; exact Hx. }
  split.
  - pose proof (raw_elem_reads br x s F (proj1 (R x Hx)) NQ) as E.
    assert (RE : raw_elem (x :: s) = Some (x :: s)).
    { unfold raw_elem. destruct (bseq (x :: s) (B "NULL")) eqn:Q; [|reflexivity].
      apply bseq_eq in Q. inversion Q; subst. cbn in Hx.
      repeat destruct Hx as [Hx|Hx]; try discriminate; destruct Hx. }
    exact (eq_ind _ (fun v => elem_reads br (x :: s) v) E _ RE).
  - cbn. split; apply R, Hx.
Qed.

Lemma scan_linear_nums br ts : wf_br br ->
  Forall (fun c => c <> opn br /\ c <> cls br) (B "+-0123456789") ->
  Forall num_text ts -> scan_linear br (list_text (opn br) (cls br) ts) = Ok (map Some ts).
Proof.
  intros W R F. unfold list_text.
  pose proof (scan_linear_render br (fun s : bytes => s) Some ts W) as H.
  rewrite map_id in H. apply H. eapply Forall_impl; [|exact F].
  intros s Hs. apply num_text_raw; assumption.
Qed.
Lemma num_chars_pg : Forall (fun c => c <> opn pg /\ c <> cls pg) (B "+-0123456789").
Proof. repeat constructor; discriminate. Qed.
Lemma num_chars_js : Forall (fun c => c <> opn js /\ c <> cls js) (B "+-0123456789").
Proof. repeat constructor; discriminate. Qed.

Lemma denotes_num_text s z : denotes_int s z -> num_text s.
Proof.
  assert (D : forall ds, decimal_digits ds -> Forall (fun c => In c (B "+-0123456789")) ds).
  { intros ds [_ F]. eapply Forall_impl; [|exact F]. intros c Hc.
    apply is_digit_range in Hc. destruct c as [[] [] [] [] [] [] [] []]; try discriminate Hc; cbn; tauto. }
  intro H. inversion H; subst; split; try discriminate;
    try (constructor; [cbn; tauto|]); try (apply D; assumption).
  match goal with H : decimal_digits _ |- _ => apply H end.
Qed.

Lemma wrap_signed_id' bits z : (0 < bits)%N -> fits_signed bits z -> wrap_signed bits z = z.
Proof. intros. apply wrap_signed_id; assumption. Qed.

(** Exactness of integer scanning. *)
Definition exact_elems (es : list (option bytes)) (l : list Z) : Prop :=
  Forall2 (fun e z => exists s, e = Some s /\ denotes_int s z) es l.

Lemma dec_int64_exact e z : dec_int_conv (Signed 64) e = Some z ->
  exists s, e = Some s /\ denotes_int s z.
Proof.
  unfold dec_int_conv. destruct e as [s|]; [|discriminate].
  destruct (parse_int 64 s) as [n|] eqn:E; [|discriminate]. intro H. inversion H; subst.
  destruct (parse_int_denotes 64 s n ltac:(lia) E) as [D F].
  exists s. split; [reflexivity|]. cbn [convert].
  rewrite wrap_signed_id' by (try lia; exact F). exact D.
Qed.

Lemma dec_uint_exact bits e z : dec_uint_checked bits e = Some z ->
  exists s, e = Some s /\ denotes_int s z /\ fits_unsigned bits z.
Proof.
  unfold dec_uint_checked. destruct e as [s|].
  - destruct (parse_uint bits s) as [n|] eqn:E; [|discriminate]. intro H. inversion H; subst.
    exists s. split; [reflexivity|]. apply parse_uint_denotes, E.
  - discriminate.
Qed.

Lemma list_text_scan {A} br (dec : option bytes -> option A) dst src ts (l : list A) :
  forall (P : bytes -> A -> Prop),
  wf_br br -> Forall (fun c => c <> opn br /\ c <> cls br) (B "+-0123456789") ->
  Forall num_text ts ->
  src = SBytes (list_text (opn br) (cls br) ts) \/ src = SString (list_text (opn br) (cls br) ts) ->
  (forall e z, dec (Some e) = Some z -> P e z) ->
  scan br dec dst src = (Some l, Ok tt) -> Forall2 P ts l.
Proof.
  intros P W R F S HD H.
  destruct (scan_ok_elems br dec dst src _ l S H) as (es & E & F2).
  rewrite (scan_linear_nums br ts W R F) in E. inversion E; subst.
  clear - F2 HD. revert l F2. induction ts as [|t ts IH]; intros l F2; inversion F2; subst; constructor; auto.
Qed.

Lemma forall2_denotes_eq ts zs l :
  Forall2 denotes_int ts zs -> Forall2 denotes_int ts l -> l = zs.
Proof.
  intros H. revert l. induction H as [|t z ts zs D H IH]; intros l F; inversion F; subst; [reflexivity|].
  f_equal; [eapply denotes_int_fun; eassumption | apply IH; assumption].
Qed.

Lemma forall2_num_text ts zs : Forall2 denotes_int ts zs -> Forall num_text ts.
Proof. induction 1; constructor; [eapply denotes_num_text; eassumption|assumption]. Qed.

Definition given (src : dbsrc) (b : bytes) : Prop := src = SBytes b \/ src = SString b.

Lemma int64_scan_exact br dst src ts zs l :
  br = pg \/ br = js -> Forall2 denotes_int ts zs -> given src (list_text (opn br) (cls br) ts) ->
  scan br (dec_int_conv (Signed 64)) dst src = (Some l, Ok tt) -> l = zs.
Proof.
  intros Hbr HZ S H. apply (forall2_denotes_eq ts); [exact HZ|].
  eapply (list_text_scan br) with (P := denotes_int); try exact S; try exact H.
  - destruct Hbr; subst; [exact wf_pg|exact wf_js].
  - destruct Hbr; subst; [exact num_chars_pg|exact num_chars_js].
  - eapply forall2_num_text, HZ.
  - intros e z Hd. apply dec_int64_exact in Hd. destruct Hd as (s & E & D). congruence.
Qed.

Lemma uint_scan_exact bits dst src ts zs l :
  Forall2 denotes_int ts zs -> given src (list_text "["%char "]"%char ts) ->
  js_uint_scan bits dst src = (Some l, Ok tt) -> l = zs /\ Forall (fits_unsigned bits) zs.
Proof.
  intros HZ S H.
  assert (F : Forall2 (fun s z => denotes_int s z /\ fits_unsigned bits z) ts l).
  { eapply (list_text_scan js) with (P := fun s z => denotes_int s z /\ fits_unsigned bits z);
      try exact S; try exact H; [exact wf_js | exact num_chars_js | eapply forall2_num_text, HZ |].
    intros e z Hd. apply dec_uint_exact in Hd. destruct Hd as (s & E & D). inversion E; subst. exact D. }
  assert (L : l = zs).
  { apply (forall2_denotes_eq ts); [exact HZ|]. clear - F. induction F as [|? ? ? ? []]; constructor; auto. }
  split; [exact L|]. subst. clear - F. induction F as [|? ? ? ? []]; constructor; auto.
Qed.

(** Narrow signed types: exact only when every number fits. *)
Lemma int_scan_fits br bits dst src ts zs l :
  br = pg \/ br = js -> (0 < bits <= 64)%N -> Forall2 denotes_int ts zs -> Forall (fits_signed bits) zs ->
  given src (list_text (opn br) (cls br) ts) ->
  scan br (dec_int_conv (Signed bits)) dst src = (Some l, Ok tt) -> l = zs.
Proof.
  intros Hbr Hb HZ HF S H.
  assert (F : Forall2 (fun s z => forall y, denotes_int s y -> fits_signed bits y -> z = y) ts l).
  { eapply (list_text_scan br) with (P := fun s z => forall y, denotes_int s y -> fits_signed bits y -> z = y);
      try exact S; try exact H.
    - destruct Hbr; subst; [exact wf_pg|exact wf_js].
    - destruct Hbr; subst; [exact num_chars_pg|exact num_chars_js].
    - eapply forall2_num_text, HZ.
    - intros e z Hd y Dy Fy. unfold dec_int_conv in Hd.
      destruct (parse_int 64 e) as [n|] eqn:E; [|discriminate]. inversion Hd; subst.
      destruct (parse_int_denotes 64 e n ltac:(lia) E) as [D _].
      assert (n = y) by (eapply denotes_int_fun; eassumption). subst. cbn [convert].
      apply wrap_signed_id'; [lia|exact Fy]. }
  clear - HZ HF F. revert l F. induction HZ as [|t z ts zs D HZ IH]; intros l F; inversion F; subst; [reflexivity|].
  inversion HF; subst. f_equal; auto.
Qed.

(** Booleans: only t and f are accepted. *)
Lemma bool_scan_only br dst src b l : given src b ->
  scan br dec_bool dst src = (Some l, Ok tt) ->
  scan_linear br b = Ok (map (fun x : bool => Some (if x then B "t" else B "f")) l).
Proof.
  intros S H. destruct (scan_ok_elems br dec_bool dst src b l S H) as (es & E & F).
  rewrite E. f_equal. clear - F.
  induction F as [|e x es l D F IH]; [reflexivity|]. cbn [map]. f_equal; [|exact IH].
  unfold dec_bool in D. destruct e as [[|c [|]]|]; try discriminate.
  destruct (beq c "t"%char) eqn:E1; [apply beq_eq in E1; inversion D; subst; reflexivity|].
  destruct (beq c "f"%char) eqn:E2; [apply beq_eq in E2; inversion D; subst; reflexivity|discriminate].
Qed.
