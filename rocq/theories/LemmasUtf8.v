From Verif Require Import Base ModelUtf8 LemmasBase.

Lemma in_range_chr lo hi n : (n < 256)%N -> in_range lo hi (chr n) = (N.leb lo n && N.leb n hi)%bool.
Proof. intro H. unfold in_range. rewrite code_chr by exact H. reflexivity. Qed.

Lemma leb_true a b : (a <= b)%N -> N.leb a b = true. Proof. apply N.leb_le. Qed.
Lemma leb_false a b : (b < a)%N -> N.leb a b = false. Proof. apply N.leb_gt. Qed.
Lemma ltb_true a b : (a < b)%N -> N.ltb a b = true. Proof. apply N.ltb_lt. Qed.
Lemma ltb_false a b : (b <= a)%N -> N.ltb a b = false. Proof. apply N.ltb_ge. Qed.

Ltac ndec := repeat match goal with
  | |- context [N.leb ?a ?b] => (rewrite (leb_true a b) by lia) || (rewrite (leb_false a b) by lia)
  | |- context [N.ltb ?a ?b] => (rewrite (ltb_true a b) by lia) || (rewrite (ltb_false a b) by lia)
  | |- context [N.eqb ?a ?b] => (rewrite (proj2 (N.eqb_eq a b)) by lia) || (rewrite (proj2 (N.eqb_neq a b)) by lia)
  end.

Lemma scalar_spec u : scalar u = true -> (u < 55296 \/ 57343 < u < 1114112)%N.
Proof.
  unfold scalar. intro H. apply orb_prop in H. destruct H as [H|H].
  - apply N.ltb_lt in H. tauto.
  - apply andb_prop in H. destruct H as [H1 H2]. apply N.ltb_lt in H1, H2. tauto.
Qed.

(** Lead byte and second byte facts, by ranges of the lead byte. *)
Lemma lead2 c : (194 <= c <= 223)%N -> lead_info c = Some (2, 128%N, 191%N).
Proof. intro H. unfold lead_info. ndec. reflexivity. Qed.
Lemma lead3 c : (224 <= c <= 239)%N -> exists lo hi, lead_info c = Some (3, lo, hi) /\
  (c = 224 -> lo = 160 /\ hi = 191)%N /\ (c = 237 -> lo = 128 /\ hi = 159)%N /\
  (c <> 224 -> c <> 237 -> lo = 128 /\ hi = 191)%N.
Proof.
  intro H. unfold lead_info.
  destruct (N.eq_dec c 224) as [->|N1]; [eexists; eexists; split; [reflexivity|]; repeat split; lia|].
  destruct (N.eq_dec c 237) as [->|N2]; [eexists; eexists; split; [reflexivity|]; repeat split; lia|].
  destruct (N.le_gt_cases c 236).
  - exists 128%N, 191%N. ndec. cbn. repeat split; lia.
  - exists 128%N, 191%N. ndec. cbn. repeat split; lia.
Qed.
Lemma lead4 c : (240 <= c <= 244)%N -> exists lo hi, lead_info c = Some (4, lo, hi) /\
  (c = 240 -> lo = 144 /\ hi = 191)%N /\ (c = 244 -> lo = 128 /\ hi = 143)%N /\
  (c <> 240 -> c <> 244 -> lo = 128 /\ hi = 191)%N.
Proof.
  intro H. unfold lead_info.
  destruct (N.eq_dec c 240) as [->|N1]; [eexists; eexists; split; [reflexivity|]; repeat split; lia|].
  destruct (N.eq_dec c 244) as [->|N2]; [eexists; eexists; split; [reflexivity|]; repeat split; lia|].
  exists 128%N, 191%N. ndec. cbn. repeat split; lia.
Qed.

(** Splitting into 6-bit groups. *)
Lemma split_div u m : (m <> 0)%N -> u = (u / m * m + u mod m)%N.
Proof. intro H. rewrite N.mul_comm. apply N.div_mod. exact H. Qed.
Lemma modk q m a : (a < m)%N -> ((q * m + a) mod m = a)%N.
Proof. intro H. rewrite N.add_comm, N.mod_add by lia. apply N.mod_small, H. Qed.

Lemma split2 u : exists a b, (u = a * 64 + b)%N /\ (b < 64)%N /\ (u / 64 = a)%N /\ (u mod 64 = b)%N.
Proof.
  exists (u / 64)%N, (u mod 64)%N. repeat split.
  - apply split_div. discriminate.
  - apply N.mod_lt. discriminate.
Qed.
Lemma split3 u : exists a b c, (u = a * 4096 + b * 64 + c)%N /\ (b < 64)%N /\ (c < 64)%N /\
  (u / 4096 = a)%N /\ (u / 64 mod 64 = b)%N /\ (u mod 64 = c)%N.
Proof.
  destruct (split2 u) as (q & c & E & Hc & E1 & E2). destruct (split2 q) as (a & b & F & Hb & F1 & F2).
  exists a, b, c. repeat split; try assumption.
  - lia.
  - replace 4096%N with (64 * 64)%N by reflexivity. rewrite <- N.div_div by discriminate. rewrite E1. exact F1.
  - rewrite E1. exact F2.
Qed.
Lemma split4 u : exists a b c d, (u = a * 262144 + b * 4096 + c * 64 + d)%N /\ (b < 64)%N /\ (c < 64)%N /\ (d < 64)%N /\
  (u / 262144 = a)%N /\ (u / 4096 mod 64 = b)%N /\ (u / 64 mod 64 = c)%N /\ (u mod 64 = d)%N.
Proof.
  destruct (split2 u) as (q & d & E & Hd & E1 & E2). destruct (split3 q) as (a & b & c & F & Hb & Hc & F1 & F2 & F3).
  exists a, b, c, d. repeat split; try assumption.
  - lia.
  - replace 262144%N with (64 * 4096)%N by reflexivity. rewrite <- N.div_div by discriminate. rewrite E1. exact F1.
  - replace 4096%N with (64 * 64)%N by reflexivity. rewrite <- N.div_div by discriminate. rewrite E1. exact F2.
  - rewrite E1. exact F3.
Qed.

Lemma cont_ok b : (b < 64)%N -> is_cont (chr (128 + b)) = true.
Proof.
  intro H. unfold is_cont. rewrite in_range_chr by lia.
  rewrite leb_true, leb_true by lia. reflexivity.
Qed.
Lemma cont_val b : (b < 64)%N -> (code (chr (128 + b)) mod 64 = b)%N.
Proof. intro H. rewrite code_chr by lia. exact (modk 2 64 b H). Qed.

Lemma decode_1 u rest : (u < 128)%N -> decode_rune (chr u) rest = (u, rest, true).
Proof. intro H. unfold decode_rune. rewrite code_chr by lia. rewrite ltb_true by exact H. reflexivity. Qed.

Lemma decode_2 a b rest : (2 <= a < 32)%N -> (b < 64)%N ->
  decode_rune (chr (192 + a)) (chr (128 + b) :: rest) = ((a * 64 + b)%N, rest, true).
Proof.
  intros Ha Hb. unfold decode_rune. rewrite (code_chr (192 + a)) by lia.
  rewrite ltb_false by lia. rewrite lead2 by lia.
  change (in_range 128 191 (chr (128 + b))) with (is_cont (chr (128 + b))).
  rewrite cont_ok, cont_val by exact Hb.
  replace ((192 + a) mod 32)%N with a; [reflexivity|]. symmetry. apply (modk 6 32 a). lia.
Qed.

Lemma decode_3 a b c rest : (a < 16)%N -> (b < 64)%N -> (c < 64)%N ->
  (a = 0 -> 32 <= b)%N -> (a = 13 -> b < 32)%N ->
  decode_rune (chr (224 + a)) (chr (128 + b) :: chr (128 + c) :: rest)
  = ((a * 4096 + b * 64 + c)%N, rest, true).
Proof.
  intros Ha Hb Hc G1 G2. unfold decode_rune. rewrite (code_chr (224 + a)) by lia.
  rewrite ltb_false by lia.
  destruct (lead3 (224 + a)) as (lo & hi & E & A1 & A2 & A3); [lia|]. rewrite E.
  assert (IR : in_range lo hi (chr (128 + b)) = true).
  { rewrite in_range_chr by lia.
    assert (lo <= 128 + b /\ 128 + b <= hi)%N as [X Y].
    { destruct (N.eq_dec a 0) as [Z0|Z0]; [specialize (G1 Z0); destruct A1; lia|].
      destruct (N.eq_dec a 13) as [Z1|Z1]; [specialize (G2 Z1); destruct A2; lia|].
      destruct A3; lia. }
    rewrite leb_true, leb_true by assumption. reflexivity. }
  rewrite IR, cont_ok, !cont_val by assumption. cbn [andb].
  replace ((224 + a) mod 16)%N with a; [reflexivity|]. symmetry. apply (modk 14 16 a). exact Ha.
Qed.

Lemma decode_4 a b c d rest : (a < 5)%N -> (b < 64)%N -> (c < 64)%N -> (d < 64)%N ->
  (a = 0 -> 16 <= b)%N -> (a = 4 -> b < 16)%N ->
  decode_rune (chr (240 + a)) (chr (128 + b) :: chr (128 + c) :: chr (128 + d) :: rest)
  = ((a * 262144 + b * 4096 + c * 64 + d)%N, rest, true).
Proof.
  intros Ha Hb Hc Hd G1 G2. unfold decode_rune. rewrite (code_chr (240 + a)) by lia.
  rewrite ltb_false by lia.
  destruct (lead4 (240 + a)) as (lo & hi & E & A1 & A2 & A3); [lia|]. rewrite E.
  assert (IR : in_range lo hi (chr (128 + b)) = true).
  { rewrite in_range_chr by lia.
    assert (lo <= 128 + b /\ 128 + b <= hi)%N as [X Y].
    { destruct (N.eq_dec a 0) as [Z0|Z0]; [specialize (G1 Z0); destruct A1; lia|].
      destruct (N.eq_dec a 4) as [Z1|Z1]; [specialize (G2 Z1); destruct A2; lia|].
      destruct A3; lia. }
    rewrite leb_true, leb_true by assumption. reflexivity. }
  rewrite IR, !cont_ok, !cont_val by assumption. cbn [andb].
  replace ((240 + a) mod 8)%N with a; [reflexivity|]. symmetry. apply (modk 30 8 a). lia.
Qed.

Lemma decode_encode u rest : scalar u = true ->
  exists c r, encode_rune u ++ rest = c :: r /\ decode_rune c r = (u, rest, true).
Proof.
  intro S. apply scalar_spec in S. unfold encode_rune.
  destruct (N.ltb_spec u 128) as [L|L].
  { eexists; eexists; split; [reflexivity|]. apply decode_1, L. }
  destruct (N.ltb_spec u 2048) as [L2|L2].
  { destruct (split2 u) as (a & b & E & Hb & -> & ->).
    eexists; eexists; split; [reflexivity|]. rewrite decode_2 by lia. rewrite E. reflexivity. }
  destruct (N.ltb_spec u 65536) as [L3|L3].
  { destruct (split3 u) as (a & b & c & E & Hb & Hc & -> & -> & ->).
    eexists; eexists; split; [reflexivity|]. cbn [app]. rewrite decode_3 by lia. rewrite E. reflexivity. }
  destruct (split4 u) as (a & b & c & d & E & Hb & Hc & Hd & -> & -> & -> & ->).
  eexists; eexists; split; [reflexivity|]. cbn [app]. rewrite decode_4 by lia. rewrite E. reflexivity.
Qed.

Definition utf8 (us : list N) : bytes := concat (map encode_rune us).

Lemma encode_rune_nonempty u : encode_rune u <> [].
Proof. unfold encode_rune. repeat destruct (N.ltb _ _); discriminate. Qed.

Lemma runes_fuel_utf8 us : Forall (fun u => scalar u = true) us -> forall fuel,
  (length (utf8 us) <= length fuel)%nat ->
  runes_fuel fuel (utf8 us) = map (fun u => (u, encode_rune u, true)) us.
Proof.
  induction 1 as [|u us Hu Hus IH]; intros fuel Hf.
  - destruct fuel; reflexivity.
  - unfold utf8 in *. cbn [map concat] in *. rewrite app_length in Hf.
    destruct (decode_encode u (concat (map encode_rune us)) Hu) as (c & r & E & D).
    pose proof (encode_rune_nonempty u) as NE.
    destruct fuel as [|x fuel].
    { destruct (encode_rune u); [contradiction|cbn in Hf; lia]. }
    rewrite E. cbn [runes_fuel]. rewrite D. f_equal.
    + f_equal. f_equal. rewrite <- E.
      replace (length (encode_rune u ++ concat (map encode_rune us)) - length (concat (map encode_rune us)))
        with (length (encode_rune u)) by (rewrite app_length; lia).
      rewrite firstn_app, Nat.sub_diag, firstn_all. cbn. apply app_nil_r.
    + apply IH. destruct (encode_rune u); [contradiction|cbn in Hf; lia].
Qed.

Lemma runes_utf8 us : Forall (fun u => scalar u = true) us ->
  runes (utf8 us) = map (fun u => (u, encode_rune u, true)) us.
Proof. intro H. apply runes_fuel_utf8; [exact H|lia]. Qed.

(** Bytes of a multi-byte encoding are all at least 128. *)
Lemma encode_high u : scalar u = true -> (128 <= u)%N -> Forall (fun c => 128 <= code c)%N (encode_rune u).
Proof.
  intros S H. apply scalar_spec in S. unfold encode_rune. rewrite ltb_false by exact H.
  destruct (N.ltb_spec u 2048); [|destruct (N.ltb_spec u 65536)].
  - destruct (split2 u) as (a & b & E & Hb & -> & ->). repeat constructor; rewrite code_chr by lia; lia.
  - destruct (split3 u) as (a & b & c & E & Hb & Hc & -> & -> & ->). repeat constructor; rewrite code_chr by lia; lia.
  - destruct (split4 u) as (a & b & c & d & E & Hb & Hc & Hd & -> & -> & -> & ->).
    repeat constructor; rewrite code_chr by lia; lia.
Qed.
Lemma encode_low u : (u < 128)%N -> encode_rune u = [chr u].
Proof. intro H. unfold encode_rune. ndec. reflexivity. Qed.
