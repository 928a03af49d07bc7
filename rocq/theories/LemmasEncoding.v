From Coq Require Import ZifyN.
From Verif Require Import Base ModelStrconv ModelUtf8 ModelEncoding SpecText SpecJson
  LemmasBase LemmasArray LemmasArray2 LemmasUtf8 LemmasJson.

(** ** Integer column scanners *)
Definition stored {T} (tgt : target T) (v : T) : Prop := tgt = TVal v \/ tgt = TPtr (Some v).

Lemma store_stored {T} (tgt : target T) v : stored (store tgt v) v.
Proof. destruct tgt; [left|right]; reflexivity. Qed.
Lemma stored_inj {T} (tgt : target T) a b : stored tgt a -> stored tgt b -> a = b.
Proof. intros [H|H] [K|K]; congruence. Qed.

Lemma int_scanner_text bits tgt b tgt' : (0 < bits)%N ->
  int_scanner bits tgt (VBytes b) = (tgt', Ok tt) ->
  exists z, stored tgt' z /\ denotes_int b z /\ fits_signed bits z.
Proof.
  intros Hb H. cbn [int_scanner] in H. destruct (parse_int bits b) as [n|] eqn:E; [|inversion H].
  destruct (parse_int_denotes bits b n Hb E) as [D F].
  inversion H; subst. exists n. split; [|split; assumption].
  cbn [convert]. rewrite (wrap_signed_id' bits n Hb F). apply store_stored.
Qed.

Lemma wrap_unsigned_id' bits z : fits_unsigned bits z -> wrap_unsigned bits z = z.
Proof. intro H. unfold wrap_unsigned. apply Z.mod_small. exact H. Qed.

Lemma uint_scanner_text bits tgt b tgt' :
  uint_scanner bits tgt (VBytes b) = (tgt', Ok tt) ->
  exists z, stored tgt' z /\ denotes_int b z /\ fits_unsigned bits z.
Proof.
  intros H. cbn [uint_scanner] in H. destruct (parse_uint bits b) as [n|] eqn:E; [|inversion H].
  destruct (parse_uint_denotes bits b n E) as [D F].
  inversion H; subst. exists (Z.of_N n). split; [|split; assumption].
  cbn [convert]. rewrite (wrap_unsigned_id' bits _ F). apply store_stored.
Qed.

Lemma int_scanner_int bits tgt z : (0 < bits)%N -> fits_signed bits z ->
  exists tgt', int_scanner bits tgt (VInt z) = (tgt', Ok tt) /\ stored tgt' z.
Proof.
  intros Hb F. eexists. split; [reflexivity|]. cbn [convert].
  rewrite (wrap_signed_id' bits z Hb F). apply store_stored.
Qed.
Lemma uint_scanner_int bits tgt z : fits_unsigned bits z ->
  exists tgt', uint_scanner bits tgt (VInt z) = (tgt', Ok tt) /\ stored tgt' z.
Proof.
  intros F. eexists. split; [reflexivity|]. cbn [convert].
  rewrite (wrap_unsigned_id' bits z F). apply store_stored.
Qed.

(** Any out-of-range int64 is stored as a different number (so the property fails for all of them). *)
Lemma wrap_signed_fits bits z : (0 < bits)%N -> fits_signed bits (wrap_signed bits z).
Proof.
  intro Hb. unfold wrap_signed, fits_signed.
  assert (P : (2 ^ Z.of_N bits = 2 * 2 ^ (Z.of_N bits - 1))%Z).
  { rewrite <- Z.pow_succ_r by lia. f_equal. lia. }
  pose proof (Z.mod_pos_bound z (2 ^ Z.of_N bits) ltac:(lia)) as M.
  destruct (Z.ltb_spec (z mod 2 ^ Z.of_N bits) (2 ^ (Z.of_N bits - 1))); lia.
Qed.
Lemma wrap_unsigned_fits bits z : fits_unsigned bits (wrap_unsigned bits z).
Proof. unfold wrap_unsigned, fits_unsigned. apply Z.mod_pos_bound. lia. Qed.

Lemma int_scanner_changes bits tgt z : (0 < bits)%N -> ~ fits_signed bits z ->
  exists tgt' z', int_scanner bits tgt (VInt z) = (tgt', Ok tt) /\ stored tgt' z' /\ z' <> z.
Proof.
  intros Hb F. eexists. exists (wrap_signed bits z). split; [reflexivity|]. split; [apply store_stored|].
  intro E. apply F. rewrite <- E. apply wrap_signed_fits, Hb.
Qed.
Lemma uint_scanner_changes bits tgt z : ~ fits_unsigned bits z ->
  exists tgt' z', uint_scanner bits tgt (VInt z) = (tgt', Ok tt) /\ stored tgt' z' /\ z' <> z.
Proof.
  intros F. eexists. exists (wrap_unsigned bits z). split; [reflexivity|]. split; [apply store_stored|].
  intro E. apply F. rewrite <- E. apply wrap_unsigned_fits.
Qed.

(** ** Byte arrays *)
Lemma overwrite_full {T} (src : list T) : forall dst, (length src <= length dst)%nat ->
  overwrite dst src = src ++ skipn (length src) dst.
Proof.
  induction src as [|x src IH]; intros dst H.
  - destruct dst; reflexivity.
  - destruct dst as [|y dst]; cbn [length] in H; [lia|]. cbn [overwrite length skipn app].
    rewrite IH by lia. reflexivity.
Qed.

Lemma skipn_repeat {T} (x : T) k : forall n, skipn k (repeat x n) = repeat x (n - k).
Proof.
  induction k as [|k IH]; intro n; [rewrite Nat.sub_0_r; reflexivity|].
  destruct n as [|n]; [reflexivity|]. cbn [repeat skipn]. rewrite IH. reflexivity.
Qed.

Lemma byte_array_scan_ok v src b : src = VString b \/ src = VBytes b ->
  (length b <= length v)%nat ->
  byte_array_scan v src = (b ++ skipn (length b) v, Ok tt).
Proof.
  intros S L.
  assert (E : byte_array_scan v src = (if Nat.ltb (length v) (length b) then (v, Err) else (overwrite v b, Ok tt)))
    by (destruct S; subst; reflexivity).
  rewrite E. destruct (Nat.ltb_spec (length v) (length b)); [lia|]. rewrite overwrite_full by exact L. reflexivity.
Qed.
Lemma byte_array_scan_over v src b : src = VString b \/ src = VBytes b ->
  (length v < length b)%nat -> byte_array_scan v src = (v, Err).
Proof.
  intros S L.
  assert (E : byte_array_scan v src = (if Nat.ltb (length v) (length b) then (v, Err) else (overwrite v b, Ok tt)))
    by (destruct S; subst; reflexivity).
  rewrite E. destruct (Nat.ltb_spec (length v) (length b)); [reflexivity|lia].
Qed.

(** ** Rune arrays *)
Lemma write_runes_ok us : forall done old, (length us <= length old)%nat ->
  write_runes us (length done) (done ++ old) = (done ++ us ++ skipn (length us) old, Ok tt).
Proof.
  induction us as [|u us IH]; intros done old H; [reflexivity|].
  destruct old as [|o old]; cbn [length] in H; [lia|].
  cbn [write_runes]. rewrite app_length. cbn [length].
  destruct (Nat.leb_spec (length done + S (length old)) (length done)); [lia|].
  rewrite firstn_app, Nat.sub_diag, firstn_all. cbn [firstn]. rewrite app_nil_r.
  replace (skipn (S (length done)) (done ++ o :: old)) with old.
  2:{ rewrite skipn_app, skipn_all2 by lia. replace (S (length done) - length done)%nat with 1 by lia. reflexivity. }
  replace (S (length done)) with (length (done ++ [u])) by (rewrite app_length; cbn; lia).
  replace (done ++ u :: old) with ((done ++ [u]) ++ old) by (rewrite <- app_assoc; reflexivity).
  rewrite IH by lia. rewrite <- app_assoc. reflexivity.
Qed.

Lemma write_runes_over us : forall done old, (length old < length us)%nat ->
  snd (write_runes us (length done) (done ++ old)) = Err.
Proof.
  induction us as [|u us IH]; intros done old H; cbn [length] in H; [lia|].
  cbn [write_runes]. rewrite app_length.
  destruct old as [|o old].
  - cbn [length]. rewrite Nat.add_0_r, Nat.leb_refl. reflexivity.
  - cbn [length] in *. destruct (Nat.leb_spec (length done + S (length old)) (length done)); [lia|].
    rewrite firstn_app, Nat.sub_diag, firstn_all. cbn [firstn]. rewrite app_nil_r.
    replace (skipn (S (length done)) (done ++ o :: old)) with old.
    2:{ rewrite skipn_app, skipn_all2 by lia. replace (S (length done) - length done)%nat with 1 by lia. reflexivity. }
    replace (S (length done)) with (length (done ++ [u])) by (rewrite app_length; cbn; lia).
    replace (done ++ u :: old) with ((done ++ [u]) ++ old) by (rewrite <- app_assoc; reflexivity).
    apply IH. lia.
Qed.

Lemma rune_bytes_runes us : Forall (fun u => scalar u = true) us ->
  map (fun r : N * bytes * bool => fst (fst r)) (runes (utf8 us)) = us.
Proof. intro H. rewrite runes_utf8 by exact H. rewrite map_map. apply map_id. Qed.

Lemma rune_array_bytes v us : Forall (fun u => scalar u = true) us -> (length us <= length v)%nat ->
  rune_array_scan v (VBytes (utf8 us)) = (us ++ skipn (length us) v, Ok tt).
Proof.
  intros H L. cbn [rune_array_scan]. rewrite rune_bytes_runes by exact H.
  exact (write_runes_ok us [] v L).
Qed.
Lemma rune_array_bytes_over v us : Forall (fun u => scalar u = true) us -> (length v < length us)%nat ->
  snd (rune_array_scan v (VBytes (utf8 us))) = Err.
Proof.
  intros H L. cbn [rune_array_scan]. rewrite rune_bytes_runes by exact H.
  exact (write_runes_over us [] v L).
Qed.

(** ASCII text through the string path. *)
Lemma utf8_ascii us : Forall (fun u => u < 128)%N us -> utf8 us = map chr us.
Proof.
  induction 1 as [|u us Hu H IH]; [reflexivity|]. unfold utf8 in *. cbn [map concat].
  rewrite encode_low by exact Hu. rewrite IH. reflexivity.
Qed.
Lemma ascii_scalar u : (u < 128)%N -> scalar u = true.
Proof. intro H. unfold scalar. destruct (N.ltb_spec u 55296); [reflexivity|lia]. Qed.

Lemma write_lead_ascii us : Forall (fun u => u < 128)%N us -> forall done old,
  (length us <= length old)%nat ->
  write_lead_bytes (map (fun u => (u, encode_rune u, true)) us) (length done) (done ++ old)
  = done ++ us ++ skipn (length us) old.
Proof.
  induction 1 as [|u us Hu H IH]; intros done old L; [reflexivity|].
  destruct old as [|o old]; cbn [length] in L; [lia|].
  cbn [map write_lead_bytes]. rewrite encode_low by exact Hu. cbn [length].
  rewrite firstn_app, Nat.sub_diag, firstn_all. cbn [firstn]. rewrite app_nil_r.
  replace (skipn (S (length done)) (done ++ o :: old)) with old.
  2:{ rewrite skipn_app, skipn_all2 by lia. replace (S (length done) - length done)%nat with 1 by lia. reflexivity. }
  rewrite code_chr by lia.
  replace (length done + 1)%nat with (length (done ++ [u])) by (rewrite app_length; cbn; lia).
  replace (done ++ u :: old) with ((done ++ [u]) ++ old) by (rewrite <- app_assoc; reflexivity).
  rewrite IH by lia. rewrite <- app_assoc. reflexivity.
Qed.
Lemma rune_array_string_ascii v us : Forall (fun u => u < 128)%N us -> (length us <= length v)%nat ->
  rune_array_scan v (VString (utf8 us)) = (us ++ skipn (length us) v, Ok tt).
Proof.
  intros H L. cbn [rune_array_scan].
  assert (LE : length (utf8 us) = length us) by (rewrite utf8_ascii by exact H; apply map_length).
  rewrite LE. destruct (Nat.ltb_spec (length v) (length us)); [lia|].
  rewrite runes_utf8 by (eapply Forall_impl; [|exact H]; intros; apply ascii_scalar; assumption).
  f_equal. exact (write_lead_ascii us H [] v L).
Qed.

(** ** strconv.Quote as JSON *)
Definition json_safe (printable : N -> bool) (u : N) : Prop :=
  (32 <= u <= 126)%N \/ In u [8; 9; 10; 12; 13]%N \/ (128 <= u < 65536)%N \/ (128 <= u /\ printable u = true)%N.

Lemma string_body_high enc : Forall (fun c => 128 <= code c)%N enc -> forall r,
  string_body (enc ++ r) = match string_body r with Some (v, rest) => Some (enc ++ v, rest) | None => None end.
Proof.
  induction 1 as [|c enc Hc H IH]; intro r.
  - cbn [app]. destruct (string_body r) as [[]|]; reflexivity.
  - rewrite <- app_comm_cons, string_body_cons_plain.
    + rewrite IH. destruct (string_body r) as [[]|]; reflexivity.
    + unfold code in Hc. lia.
    + intro; subst. change (code dquote) with 34%N in Hc. lia.
    + intro; subst. change (code backslash) with 92%N in Hc. lia.
Qed.

Lemma hex_c_digit n : (n < 16)%N -> hex_c (hex_digit n) = Some n.
Proof.
  intro H. assert (In n (map N.of_nat (seq 0 16))) as I.
  { apply in_map_iff. exists (N.to_nat n). split; [lia|]. apply in_seq. lia. }
  cbn in I. repeat destruct I as [<-|I]; try reflexivity. destruct I.
Qed.

Ltac Zify.zify_post_hook ::= Z.div_mod_to_equations.
Lemma hex4_read u r : (u < 55296 \/ 57343 < u < 65536)%N ->
  string_body (B "\u" ++ hex4 u ++ r) =
  match string_body r with Some (v, rest) => Some (utf8_of u ++ v, rest) | None => None end.
Proof.
  intro H. unfold hex4, hex2.
  change (B "\u") with [backslash; "u"%char]. cbn [app].
  remember (hex_digit (u / 256 / 16)) as a eqn:Ea. remember (hex_digit (u / 256 mod 16)) as b eqn:Eb.
  remember (hex_digit (u mod 256 / 16)) as c eqn:Ec. remember (hex_digit (u mod 256 mod 16)) as d eqn:Ed.
  assert (E4 : hex4_c a b c d = Some u).
  { unfold hex4_c. subst. rewrite !hex_c_digit by lia. f_equal. lia. }
  cbn [string_body].
  change (N_of_ascii backslash) with 92%N. change (N_of_ascii "u") with 117%N. cbn [N.eqb N.ltb N.compare Pos.eqb Pos.compare Pos.compare_cont].
  rewrite E4. unfold half. destruct (N.leb_spec 55296 u); destruct (N.leb_spec u (55296 + 1023)); destruct (N.leb_spec 56320 u); destruct (N.leb_spec u (56320 + 1023)); try lia; reflexivity.
Qed.

Lemma utf8_of_encode u : utf8_of u = encode_rune u. Proof. reflexivity. Qed.

Lemma quote_rune_json printable u : scalar u = true -> json_safe printable u -> forall r,
  string_body (quote_rune printable (u, encode_rune u, true) ++ r) =
  match string_body r with Some (v, rest) => Some (encode_rune u ++ v, rest) | None => None end.
Proof.
  intros S J r.
  destruct (N.lt_ge_cases u 128) as [L|G].
  - assert (I : In u (map N.of_nat (seq 0 128))).
    { apply in_map_iff. exists (N.to_nat u). split; [lia|]. apply in_seq. lia. }
    assert (A : (32 <= u <= 126)%N \/ In u [8; 9; 10; 12; 13]%N).
    { destruct J as [J|[J|[J|J]]]; try tauto; lia. }
    rewrite encode_low by exact L. clear - I A.
    destruct A as [A|A].
    + assert (I2 : In u (map N.of_nat (seq 32 95))).
      { apply in_map_iff. exists (N.to_nat u). split; [lia|]. apply in_seq. lia. }
      clear I A. cbn in I2. repeat destruct I2 as [<-|I2]; try reflexivity. destruct I2.
    + cbn in A. repeat destruct A as [<-|A]; try reflexivity. destruct A.
  - pose proof (encode_high u S G) as EH.
    unfold quote_rune. cbn [negb].
    destruct (N.eqb_spec u 34); [lia|]. destruct (N.eqb_spec u 92); [lia|]. cbn [orb].
    destruct (N.ltb_spec u 128); [lia|].
    destruct (printable u) eqn:P; [apply string_body_high, EH|].
    destruct (N.eqb_spec u 7); [lia|]. destruct (N.eqb_spec u 8); [lia|].
    destruct (N.eqb_spec u 12); [lia|]. destruct (N.eqb_spec u 10); [lia|].
    destruct (N.eqb_spec u 13); [lia|]. destruct (N.eqb_spec u 9); [lia|].
    destruct (N.eqb_spec u 11); [lia|]. destruct (N.ltb_spec u 32); [lia|].
    destruct (N.eqb_spec u 127); [lia|]. cbn [orb].
    destruct (N.ltb_spec u 65536) as [L6|L6].
    + rewrite <- app_assoc. rewrite hex4_read; [ reflexivity | ].
      unfold scalar in S. destruct (N.ltb_spec u 55296); [ now left | ]. destruct (N.ltb_spec 57343 u); [ right; now split | discriminate ].
    + exfalso. destruct J as [J|[J|[J|[_ J]]]]; try lia; [|congruence].
      cbn in J. repeat destruct J as [J|J]; lia.
Qed.

Lemma go_quote_body printable us :
  Forall (fun u => scalar u = true /\ json_safe printable u) us -> forall rest,
  string_body (concat (map (quote_rune printable) (map (fun u => (u, encode_rune u, true)) us)) ++ dquote :: rest)
  = Some (utf8 us, rest).
Proof.
  induction 1 as [|u us [Hs Hj] H IH]; intro rest; [reflexivity|].
  cbn [map concat]. rewrite <- app_assoc, quote_rune_json by assumption. rewrite IH. reflexivity.
Qed.

Lemma go_quote_json printable us :
  Forall (fun u => scalar u = true /\ json_safe printable u) us ->
  json_elem (go_quote printable (utf8 us)) (JStr (utf8 us)).
Proof.
  intro H. unfold go_quote.
  rewrite runes_utf8 by (eapply Forall_impl; [|exact H]; intros a [Ha _]; exact Ha).
  split; [|split; [reflexivity|discriminate]].
  intros f c rest _. rewrite <- app_comm_cons, <- app_assoc. apply value_string.
  change ([dquote] ++ c :: rest) with (dquote :: c :: rest). apply go_quote_body, H.
Qed.

Lemma marshal_string_json printable uss :
  Forall (Forall (fun u => scalar u = true /\ json_safe printable u)) uss ->
  read_json (marshal_string_slice printable (map utf8 uss)) = Some (JArr (map (fun us => JStr (utf8 us)) uss)).
Proof.
  intro H. unfold marshal_string_slice. rewrite marshal_list_text, map_map.
  apply (read_json_list (fun us => go_quote printable (utf8 us))).
  eapply Forall_impl; [|exact H]. intros us Hus. apply go_quote_json, Hus.
Qed.

Lemma marshal_int_json l : read_json (marshal_int_slice l) = Some (JArr (map (fun z => JNum (format_int z)) l)).
Proof.
  unfold marshal_int_slice. rewrite marshal_list_text. apply (read_json_list format_int).
  apply Forall_forall. intros z _. apply int_elem.
Qed.
Lemma marshal_uint_json l :
  read_json (marshal_uint_slice l) = Some (JArr (map (fun z => JNum (format_uint (Z.to_N z))) l)).
Proof.
  unfold marshal_uint_slice. rewrite marshal_list_text.
  apply (read_json_list (fun z => format_uint (Z.to_N z)) (fun z => JNum (format_uint (Z.to_N z)))).
  apply Forall_forall. intros z _. apply uint_elem.
Qed.
Lemma marshal_bool_json l : read_json (marshal_bool_slice l) = Some (JArr (map JBool l)).
Proof.
  unfold marshal_bool_slice. rewrite marshal_list_text. apply (read_json_list format_bool).
  apply Forall_forall. intros z _. apply bool_elem.
Qed.
