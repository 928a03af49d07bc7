(** Proofs about the array codecs. *)
From Verif Require Import Base ModelStrconv ModelArray LemmasBase.

(** * Reading back a rendered array *)

(** [txt] is read as element [v] when followed by a comma or the closing bracket. *)
Definition elem_reads (br : brackets) (txt : bytes) (v : option bytes) : Prop :=
  forall c r st, c = comma \/ c = cls br ->
    go br (txt ++ c :: r) MElem st = go br (c :: r) MDelim (push_elem v st).

Definition good_head (br : brackets) (txt : bytes) : Prop :=
  match txt with [] => False | c :: _ => c <> opn br /\ c <> cls br end.

Definition wf_br (br : brackets) : Prop :=
  opn br <> comma /\ opn br <> dquote /\ cls br <> comma /\ cls br <> dquote /\ opn br <> cls br.
Lemma wf_pg : wf_br pg. Proof. repeat split; discriminate. Qed.
Lemma wf_js : wf_br js. Proof. repeat split; discriminate. Qed.

Lemma quoted_body br v : forall acc r st,
  go br (escape_elem v ++ dquote :: r) (MQuote acc false) st
  = go br r MDelim (push_elem (Some (acc ++ v)) st).
Proof.
  induction v as [|c v IH]; intros acc r st; cbn [escape_elem app].
  - cbn [go]. change (beq dquote backslash) with false. rewrite beq_refl, app_nil_r. reflexivity.
  - destruct (beq c dquote || beq c backslash) eqn:E.
    + cbn [app go]. rewrite beq_refl. cbn [app go].
      rewrite IH, <- app_assoc. reflexivity.
    + apply orb_false_iff in E as [E1 E2]. cbn [app go]. rewrite E1, E2.
      rewrite IH, <- app_assoc. reflexivity.
Qed.

Lemma quote_elem_reads br v : wf_br br -> elem_reads br (quote_elem v) (Some v).
Proof.
  intros (H1 & H2 & H3 & H4 & H5) c r st Hc. unfold quote_elem.
  rewrite <- app_comm_cons, <- app_assoc. cbn [go].
  replace (beq dquote (opn br)) with false by (symmetry; apply beq_neq; congruence).
  rewrite beq_refl. exact (quoted_body br v [] (c :: r) st).
Qed.

Definition raw_ok (br : brackets) (c : byte) : Prop := c <> comma /\ c <> cls br.

Lemma raw_body br s : Forall (raw_ok br) s -> forall acc c r st,
  c = comma \/ c = cls br ->
  go br (s ++ c :: r) (MRaw acc) st = go br (c :: r) MDelim (push_elem (raw_elem (acc ++ s)) st).
Proof.
  induction 1 as [|x s [Hx1 Hx2] Hs IH]; intros acc c r st Hc.
  - cbn [app go]. rewrite app_nil_r.
    replace (beq c comma || beq c (cls br)) with true; [reflexivity|].
    symmetry. apply orb_true_iff. rewrite !beq_eq. exact Hc.
  - rewrite <- app_comm_cons. cbn [go].
    apply beq_neq in Hx1, Hx2. rewrite Hx1, Hx2. cbn [orb].
    rewrite IH by exact Hc. rewrite <- app_assoc. reflexivity.
Qed.

Lemma raw_elem_reads br x s :
  Forall (raw_ok br) (x :: s) -> x <> opn br -> x <> dquote ->
  elem_reads br (x :: s) (raw_elem (x :: s)).
Proof.
  intros H Ho Hq c r st Hc. inversion H as [|? ? [Hx1 Hx2] Hs]; subst.
  rewrite <- app_comm_cons. cbn [go].
  apply beq_neq in Ho, Hq, Hx1, Hx2. rewrite Ho, Hq, Hx1, Hx2. cbn [orb].
  rewrite raw_body by assumption. reflexivity.
Qed.

Lemma push_push v1 st : push_elem v1 st =
  {| depth := depth st; dims := dims st; elems := elems st ++ [v1] |}.
Proof. reflexivity. Qed.

Lemma go_elems {A} br (enc : A -> bytes) (rd : A -> option bytes) :
  wf_br br ->
  forall l, l <> [] -> Forall (fun a => elem_reads br (enc a) (rd a)) l ->
  forall n es,
  go br (join [comma] (map enc l) ++ [cls br]) MElem {| depth := 1; dims := [n]; elems := es |}
  = finish MDelim {| depth := 0; dims := [n + length l]; elems := es ++ map rd l |}.
Proof.
  intros (W1 & W2 & W3 & W4 & W5).
  induction l as [|a l IH]; intros NE HF n es; [contradiction|].
  inversion HF as [|? ? Ha Hl]; subst.
  destruct l as [|b l].
  - cbn [map join]. rewrite Ha by (right; reflexivity). cbn [go].
    replace (beq (cls br) comma) with false by (symmetry; apply beq_neq; exact W3).
    rewrite beq_refl. cbn -[finish]. rewrite Nat.add_1_r. reflexivity.
  - change (map enc (a :: b :: l)) with (enc a :: map enc (b :: l)).
    change (map enc (b :: l)) with (enc b :: map enc l) at 1.
    rewrite join_cons, <- !app_assoc.
    change ([comma] ++ join [comma] (enc b :: map enc l) ++ [cls br])
      with (comma :: join [comma] (map enc (b :: l)) ++ [cls br]).
    rewrite Ha by (left; reflexivity).
    cbn [go]. rewrite beq_refl. cbn [push_elem depth dims elems Nat.ltb Nat.leb andb Nat.sub upd_nth].
    rewrite IH by (try discriminate; assumption).
    rewrite <- app_assoc. cbn [length map app]. f_equal. f_equal. f_equal. lia.
Qed.

Lemma scan_linear_render {A} br (enc : A -> bytes) (rd : A -> option bytes) l :
  wf_br br ->
  Forall (fun a => elem_reads br (enc a) (rd a) /\ good_head br (enc a)) l ->
  scan_linear br (opn br :: join [comma] (map enc l) ++ [cls br]) = Ok (map rd l).
Proof.
  intros W HF. pose proof W as (W1 & W2 & W3 & W4 & W5).
  unfold scan_linear, parse_array. rewrite beq_refl.
  destruct l as [|a l].
  - cbn [map join app go]. rewrite beq_refl.
    cbn [depth dims elems]. cbn [go].
    replace (beq (cls br) (opn br)) with false by (symmetry; apply beq_neq; congruence).
    rewrite beq_refl. reflexivity.
  - cbn [go]. rewrite beq_refl. cbn [depth dims elems].
    inversion HF as [|? ? [Ha Hh] Hl]; subst.
    assert (E : exists c s, enc a = c :: s /\ c <> opn br /\ c <> cls br).
    { destruct (enc a) as [|c s]; [contradiction|]. exists c, s. split; [reflexivity|exact Hh]. }
    destruct E as (c & s & E & Hc1 & Hc2).
    assert (E2 : exists t, join [comma] (map enc (a :: l)) ++ [cls br] = c :: t).
    { destruct l; cbn [map join]; rewrite E; eexists; reflexivity. }
    destruct E2 as (t & E2).
    assert (G : go br (join [comma] (map enc (a :: l)) ++ [cls br]) MOpen {| depth := 1; dims := []; elems := [] |}
              = go br (join [comma] (map enc (a :: l)) ++ [cls br]) MElem {| depth := 1; dims := [0]; elems := [] |}).
    { rewrite E2. cbn [go]. apply beq_neq in Hc1, Hc2. rewrite Hc1, Hc2. reflexivity. }
    rewrite G, (go_elems br enc rd W) ;
      [| discriminate | eapply Forall_impl; [|exact HF]; cbn; tauto].
    unfold finish. cbn [depth dims elems app existsb forallb].
    change (Nat.ltb 0 0) with false. cbv iota.
    rewrite map_length. cbn [length plus Nat.eqb orb].
    rewrite Nat.mod_same by discriminate. cbn. reflexivity.
Qed.

Lemma all_elems_map {A} (dec : option bytes -> option A) (rd : A -> option bytes) l :
  Forall (fun a => dec (rd a) = Some a) l -> all_elems dec (map rd l) = Some l.
Proof.
  induction 1 as [|a l Ha Hl IH]; cbn [map all_elems]; [reflexivity|]. rewrite Ha, IH. reflexivity.
Qed.

Definition codec_elem {A} (br : brackets) (enc : A -> bytes) (dec : option bytes -> option A) (a : A) : Prop :=
  good_head br (enc a) /\ exists v, elem_reads br (enc a) v /\ dec v = Some a.

Lemma scan_render {A} br (enc : A -> bytes) (dec : option bytes -> option A) l dst :
  wf_br br -> Forall (codec_elem br enc dec) l ->
  scan_bytes br dec dst (opn br :: join [comma] (map enc l) ++ [cls br]) = (Some l, Ok tt).
Proof.
  intros W H.
  assert (E : exists vs, length vs = length l /\
     Forall2 (fun a v => elem_reads br (enc a) v /\ good_head br (enc a) /\ dec v = Some a) l vs).
  { induction H as [|a l (Hh & v & Hv & Hd) Hl IH].
    - exists []. split; [reflexivity|constructor].
    - destruct IH as (vs & L & F). exists (v :: vs). split; [cbn; congruence|].
      constructor; auto. }
  destruct E as (vs & L & F).
  (* render through the pairs *)
  set (ps := combine l vs).
  assert (M1 : map fst ps = l).
  { unfold ps. clear - F. induction F; cbn [combine map fst]; [reflexivity|]. f_equal. assumption. }
  assert (M2 : map snd ps = vs).
  { unfold ps. clear - F. induction F; cbn [combine map snd]; [reflexivity|]. f_equal. assumption. }
  assert (Fp : Forall (fun p => elem_reads br (enc (fst p)) (snd p) /\ good_head br (enc (fst p))) ps
              /\ Forall (fun p => dec (snd p) = Some (fst p)) ps).
  { unfold ps. clear - F. induction F as [|a v l vs (H1 & H2 & H3) F IH]; cbn [combine].
    - split; constructor.
    - destruct IH. split; constructor; cbn; auto. }
  destruct Fp as [Fp Fd].
  unfold scan_bytes.
  replace (map enc l) with (map (fun p => enc (fst p)) ps)
    by (rewrite <- M1 at 1; rewrite map_map; reflexivity).
  rewrite (scan_linear_render br (fun p => enc (fst p)) snd ps W Fp).
  rewrite M2.
  assert (D : all_elems dec vs = Some l).
  { rewrite <- M1, <- M2. clear - Fd.
    induction Fd as [|p ps Hp Fd IH]; cbn [map all_elems]; [reflexivity|]. rewrite Hp, IH. reflexivity. }
  destruct dst as [d|]; destruct vs as [|v vs]; cbn [length] in L;
    try (rewrite D; reflexivity).
  destruct l; [reflexivity|discriminate].
Qed.

Lemma array_roundtrip {A} br (enc : A -> bytes) (dec : option bytes -> option A) l dst t :
  wf_br br -> Forall (codec_elem br enc dec) l ->
  array_value br enc (Some l) = Some t ->
  scan br dec dst (SBytes t) = (Some l, Ok tt) /\ scan br dec dst (SString t) = (Some l, Ok tt).
Proof.
  intros W H E. cbn [array_value] in E. inversion E; subst.
  cbn [scan]. rewrite scan_render by assumption. split; reflexivity.
Qed.

(** Element codecs *)

Lemma codec_string br v : wf_br br -> codec_elem br quote_elem dec_string v.
Proof.
  intro W. split.
  - unfold good_head, quote_elem. destruct W as (H1 & H2 & H3 & H4 & H5). split; congruence.
  - exists (Some v). split; [apply quote_elem_reads; exact W | reflexivity].
Qed.

Lemma string_roundtrip br l dst t :
  wf_br br -> string_value br (Some l) = Some t ->
  scan br dec_string dst (SBytes t) = (Some l, Ok tt) /\ scan br dec_string dst (SString t) = (Some l, Ok tt).
Proof.
  intros W. apply array_roundtrip; [exact W|]. apply Forall_forall. intros v _. apply codec_string, W.
Qed.

Lemma escape_elem_hex s : Forall (fun c => is_hex c = true) s -> escape_elem s = s.
Proof.
  induction 1 as [|c s Hc Hs IH]; cbn [escape_elem]; [reflexivity|].
  replace (beq c dquote || beq c backslash) with false; [rewrite IH; reflexivity|].
  symmetry. apply orb_false_iff. split; apply beq_neq; intro; subst; discriminate.
Qed.

Lemma codec_bytea v :
  codec_elem pg (fun x => dquote :: backslash :: backslash :: "x"%char :: hex_encode x ++ [dquote]) parse_bytea v.
Proof.
  split; [cbn; split; discriminate|].
  exists (Some (backslash :: "x"%char :: hex_encode v)). split.
  - pose proof (quote_elem_reads pg (backslash :: "x"%char :: hex_encode v) wf_pg) as H.
    unfold quote_elem in H. cbn [escape_elem] in H.
    change (beq backslash dquote || beq backslash backslash) with true in H.
    change (beq "x"%char dquote || beq "x"%char backslash) with false in H.
    cbv iota in H. rewrite escape_elem_hex in H by apply hex_encode_is_hex. exact H.
  - cbn [parse_bytea]. rewrite !beq_refl. cbn [andb]. apply hex_roundtrip.
Qed.

Lemma bytea_roundtrip l dst t :
  bytea_value (Some l) = Some t ->
  pg_bytea_scan dst (SBytes t) = (Some l, Ok tt) /\ pg_bytea_scan dst (SString t) = (Some l, Ok tt).
Proof.
  apply array_roundtrip; [exact wf_pg|]. apply Forall_forall. intros v _. apply codec_bytea.
Qed.

Definition wf_br_raw (br : brackets) : Prop :=
  wf_br br /\ Forall (fun c => c <> opn br /\ c <> cls br) (B "0123456789-tf").
Lemma wf_raw_pg : wf_br_raw pg.
Proof. split; [exact wf_pg|]. repeat constructor; discriminate. Qed.
Lemma wf_raw_js : wf_br_raw js.
Proof. split; [exact wf_js|]. repeat constructor; discriminate. Qed.

Lemma codec_bool br b : wf_br_raw br ->
  codec_elem br (fun b : bool => if b then B "t" else B "f") dec_bool b.
Proof.
  intros [W R]. rewrite Forall_forall in R.
  assert (Ht : "t"%char <> opn br /\ "t"%char <> cls br) by (apply R; cbn; tauto).
  assert (Hf : "f"%char <> opn br /\ "f"%char <> cls br) by (apply R; cbn; tauto).
  destruct b; (split; [cbn; tauto|]).
  - exists (Some (B "t")). split; [|reflexivity].
    apply (raw_elem_reads br "t"%char []); try tauto; try discriminate.
    constructor; [split; [discriminate|tauto]|constructor].
  - exists (Some (B "f")). split; [|reflexivity].
    apply (raw_elem_reads br "f"%char []); try tauto; try discriminate.
    constructor; [split; [discriminate|tauto]|constructor].
Qed.

Lemma bool_roundtrip br l dst t :
  wf_br_raw br -> bool_value br (Some l) = Some t ->
  scan br dec_bool dst (SBytes t) = (Some l, Ok tt) /\ scan br dec_bool dst (SString t) = (Some l, Ok tt).
Proof.
  intros W. apply array_roundtrip; [exact (proj1 W)|]. apply Forall_forall. intros v _. apply codec_bool, W.
Qed.

(** Decimal elements are read back as themselves. *)
Definition num_char (c : byte) : bool := is_digit c || beq c "-"%char.
Lemma num_char_in c : num_char c = true -> In c (B "0123456789-tf").
Proof.
  intro H. destruct c as [[] [] [] [] [] [] [] []]; try discriminate H; cbn; tauto.
Qed.

Lemma num_elem_reads br s : wf_br_raw br -> s <> [] -> Forall (fun c => num_char c = true) s ->
  good_head br s /\ elem_reads br s (Some s).
Proof.
  intros [W R] NE H. rewrite Forall_forall in R.
  assert (Hc : forall c, num_char c = true -> c <> opn br /\ c <> cls br)
    by (intros c E; apply R, num_char_in, E).
  destruct s as [|x s]; [contradiction|].
  assert (Hx : num_char x = true) by (inversion H; assumption).
  split; [exact (Hc x Hx)|].
  replace (Some (x :: s)) with (raw_elem (x :: s)).
  - apply raw_elem_reads.
    + eapply Forall_impl; [|exact H]. intros c E. split; [|apply Hc, E].
      intro; subst; discriminate.
    + apply Hc, Hx.
    + intro; subst; discriminate.
  - unfold raw_elem. replace (bseq (x :: s) (B "NULL")) with false; [reflexivity|].
    symmetry. apply bseq_neq. intro E. inversion E; subst. discriminate.
Qed.

Lemma format_uint_num n : Forall (fun c => num_char c = true) (format_uint n).
Proof.
  eapply Forall_impl; [|apply format_uint_digits]. intros c H. unfold num_char. rewrite H. reflexivity.
Qed.
Lemma format_int_num z : Forall (fun c => num_char c = true) (format_int z).
Proof.
  destruct z; cbn [format_int]; try apply format_uint_num.
  constructor; [reflexivity|apply format_uint_num].
Qed.
Lemma format_int_nonempty z : format_int z <> [].
Proof. destruct z; cbn [format_int]; try discriminate; apply format_uint_nonempty. Qed.

Definition int64_range (z : Z) : Prop := (- 2 ^ 63 <= z < 2 ^ 63)%Z.

Lemma codec_int br bits z :
  wf_br_raw br -> (0 < bits <= 64)%N ->
  (- 2 ^ (Z.of_N bits - 1) <= z < 2 ^ (Z.of_N bits - 1))%Z ->
  codec_elem br format_int (dec_int_conv (Signed bits)) z.
Proof.
  intros W Hb Hz.
  destruct (num_elem_reads br (format_int z) W (format_int_nonempty z) (format_int_num z)) as [G R].
  split; [exact G|]. exists (Some (format_int z)). split; [exact R|].
  assert (H63 : (2 ^ (Z.of_N bits - 1) <= 2 ^ 63)%Z) by (apply Z.pow_le_mono_r; lia).
  unfold dec_int_conv. rewrite parse_int_format by (try change (Z.of_N 64 - 1)%Z with 63%Z; lia).
  cbn [convert]. rewrite wrap_signed_id; [reflexivity|lia|exact Hz].
Qed.

Lemma int_roundtrip br bits l dst t :
  wf_br_raw br -> (0 < bits <= 64)%N ->
  Forall (fun z => - 2 ^ (Z.of_N bits - 1) <= z < 2 ^ (Z.of_N bits - 1))%Z l ->
  int_value br (Some l) = Some t ->
  scan br (dec_int_conv (Signed bits)) dst (SBytes t) = (Some l, Ok tt)
  /\ scan br (dec_int_conv (Signed bits)) dst (SString t) = (Some l, Ok tt).
Proof.
  intros W Hb H. apply array_roundtrip; [exact (proj1 W)|].
  eapply Forall_impl; [|exact H]. intros z Hz. apply codec_int; assumption.
Qed.

Lemma codec_uint_checked br bits z :
  wf_br_raw br -> (0 <= z < 2 ^ Z.of_N bits)%Z ->
  codec_elem br (fun z => format_uint (Z.to_N z)) (dec_uint_checked bits) z.
Proof.
  intros W Hz.
  destruct (num_elem_reads br (format_uint (Z.to_N z)) W (format_uint_nonempty _) (format_uint_num _)) as [G R].
  split; [exact G|]. exists (Some (format_uint (Z.to_N z))). split; [exact R|].
  unfold dec_uint_checked. rewrite parse_uint_format.
  - rewrite Z2N.id by lia. reflexivity.
  - apply N2Z.inj_lt. rewrite Z2N.id, N2Z.inj_pow by lia. exact (proj2 Hz).
Qed.

Lemma uint_roundtrip_checked br bits l dst t :
  wf_br_raw br ->
  Forall (fun z => 0 <= z < 2 ^ Z.of_N bits)%Z l ->
  uint_value br (Some l) = Some t ->
  scan br (dec_uint_checked bits) dst (SBytes t) = (Some l, Ok tt)
  /\ scan br (dec_uint_checked bits) dst (SString t) = (Some l, Ok tt).
Proof.
  intros W H. apply array_roundtrip; [exact (proj1 W)|].
  eapply Forall_impl; [|exact H]. intros z Hz. apply codec_uint_checked; assumption.
Qed.

(** The signed reader used for pgtype's unsigned arrays: correct below 2^63 only. *)
Lemma codec_uint_conv br bits z :
  wf_br_raw br -> (0 <= z < 2 ^ Z.of_N bits)%Z -> (z < 2 ^ 63)%Z ->
  codec_elem br (fun z => format_uint (Z.to_N z)) (dec_int_conv (Unsigned bits)) z.
Proof.
  intros W Hz H63.
  destruct (num_elem_reads br (format_uint (Z.to_N z)) W (format_uint_nonempty _) (format_uint_num _)) as [G R].
  split; [exact G|]. exists (Some (format_uint (Z.to_N z))). split; [exact R|].
  unfold dec_int_conv.
  replace (format_uint (Z.to_N z)) with (format_int z) by (destruct z; [reflexivity|reflexivity|lia]).
  rewrite parse_int_format by (try change (Z.of_N 64 - 1)%Z with 63%Z; lia).
  cbn [convert]. rewrite wrap_unsigned_id; [reflexivity|exact Hz].
Qed.

Lemma uint_roundtrip_conv br bits l dst t :
  wf_br_raw br ->
  Forall (fun z => 0 <= z < 2 ^ Z.of_N bits /\ z < 2 ^ 63)%Z l ->
  uint_value br (Some l) = Some t ->
  scan br (dec_int_conv (Unsigned bits)) dst (SBytes t) = (Some l, Ok tt)
  /\ scan br (dec_int_conv (Unsigned bits)) dst (SString t) = (Some l, Ok tt).
Proof.
  intros W H. apply array_roundtrip; [exact (proj1 W)|].
  eapply Forall_impl; [|exact H]. intros z [Hz H63]. apply codec_uint_conv; assumption.
Qed.

(** * Scanning never panics *)

(** Dimensions whose bracket is closed have been counted at least once. *)
Definition pinv (st : pstate) : Prop :=
  depth st <= length (dims st) /\
  forall k d, nth_error (dims st) k = Some d -> depth st <= k -> 0 < d.

Definition minv (m : mode) (st : pstate) : Prop :=
  match m with MOpen | MClose => True | _ => pinv st end.

Lemma upd_nth_some f : forall l k, k < length l -> exists l', upd_nth k f l = Some l'.
Proof.
  induction l as [|x l IH]; intros k H; cbn [length] in H; [lia|].
  destruct k as [|k]; cbn [upd_nth]; [eexists; reflexivity|].
  destruct (IH k) as [l' E]; [lia|]. rewrite E. eexists; reflexivity.
Qed.

Lemma upd_nth_length f : forall l k l', upd_nth k f l = Some l' -> length l' = length l.
Proof.
  induction l as [|x l IH]; intros k l' H; cbn [upd_nth] in H; [discriminate|].
  destruct k as [|k]; [inversion H; reflexivity|].
  destruct (upd_nth k f l) eqn:E; [|discriminate]. inversion H; subst. cbn. f_equal. eapply IH, E.
Qed.

Lemma upd_nth_nth f : forall l k l', upd_nth k f l = Some l' ->
  forall j d, nth_error l' j = Some d ->
  exists d0, nth_error l j = Some d0 /\ d = (if Nat.eqb j k then f d0 else d0).
Proof.
  induction l as [|x l IH]; intros k l' H j d Hj; cbn [upd_nth] in H; [discriminate|].
  destruct k as [|k].
  - inversion H; subst. destruct j as [|j]; cbn in Hj |- *.
    + inversion Hj; subst. exists x. split; reflexivity.
    + exists d. split; [exact Hj|reflexivity].
  - destruct (upd_nth k f l) as [l0|] eqn:E; [|discriminate]. inversion H; subst.
    destruct j as [|j]; cbn in Hj |- *.
    + inversion Hj; subst. exists d. split; reflexivity.
    + apply (IH k l0 E j d Hj).
Qed.

Lemma finish_no_panic m st : minv m st -> (m = MOpen -> 0 < depth st) -> finish m st <> Panic.
Proof.
  intros H Hd. unfold finish.
  destruct (Nat.ltb_spec 0 (depth st)) as [L|L]; [destruct m; discriminate|].
  assert (P : m <> MClose -> pinv st).
  { destruct m; intro; try exact H; [specialize (Hd eq_refl); lia | contradiction]. }
  destruct m; try discriminate;
    (destruct (existsb (Nat.eqb 0) (dims st)) eqn:E;
     [ exfalso; apply existsb_exists in E as (d & Hin & Hz); apply Nat.eqb_eq in Hz;
       apply In_nth_error in Hin as (k & Hk);
       destruct P as [_ P]; [discriminate|]; specialize (P k d Hk); lia
     | destruct (forallb _ _); discriminate ]).
Qed.

Lemma go_no_panic br src : forall m st, minv m st -> (m = MOpen -> src = [] -> 0 < depth st) ->
  (m = MOpen -> beq (hd "x"%char src) (opn br) = false -> 0 < depth st) ->
  go br src m st <> Panic.
Proof.
  induction src as [|c r IH]; intros m st Hm Hd Hd2.
  - cbn [go]. apply finish_no_panic; [exact Hm|]. intro. apply Hd; auto.
  - set (delim := fun st : pstate =>
      if beq c comma && Nat.ltb 0 (depth st) then
        match upd_nth (depth st - 1) S (dims st) with
        | None => Panic
        | Some d => go br r MElem {| depth := depth st; dims := d; elems := elems st |}
        end
      else if beq c (cls br) && Nat.ltb 0 (depth st) then
        match upd_nth (depth st - 1) S (dims st) with
        | None => Panic
        | Some d => go br r MDelim {| depth := depth st - 1; dims := d; elems := elems st |}
        end
      else Err).
    assert (HD : forall st, pinv st -> delim st <> Panic).
    { intros s [P1 P2]. unfold delim.
      destruct (beq c comma && Nat.ltb 0 (depth s)) eqn:E1.
      { apply andb_true_iff in E1 as [_ E1]. apply Nat.ltb_lt in E1.
        destruct (upd_nth_some S (dims s) (depth s - 1)) as [l' E]; [lia|]. rewrite E.
        apply IH; try discriminate. cbn [minv]. split; cbn [depth dims].
        - rewrite (upd_nth_length _ _ _ _ E). lia.
        - intros k d Hk Hle.
          destruct (upd_nth_nth _ _ _ _ E k d Hk) as (d0 & H0 & Hv).
          destruct (Nat.eqb_spec k (depth s - 1)); subst; [lia|]. apply (P2 k d0 H0 Hle). }
      destruct (beq c (cls br) && Nat.ltb 0 (depth s)) eqn:E2; [|discriminate].
      apply andb_true_iff in E2 as [_ E2]. apply Nat.ltb_lt in E2.
      destruct (upd_nth_some S (dims s) (depth s - 1)) as [l' E]; [lia|]. rewrite E.
      apply IH; try discriminate. cbn [minv]. split; cbn [depth dims].
      - rewrite (upd_nth_length _ _ _ _ E). lia.
      - intros k d Hk Hle.
        destruct (upd_nth_nth _ _ _ _ E k d Hk) as (d0 & H0 & Hv).
        destruct (Nat.eqb_spec k (depth s - 1)); subst; [lia|]. apply (P2 k d0 H0). lia. }
    set (element := fun st : pstate =>
      if beq c (opn br) then
        if Nat.eqb (depth st) (length (dims st)) then delim st
        else
          match upd_nth (depth st) (fun _ => 0) (dims st) with
          | None => Panic
          | Some d => go br r MElem {| depth := S (depth st); dims := d; elems := elems st |}
          end
      else if beq c dquote then go br r (MQuote [] false) st
      else if beq c comma || beq c (cls br) then Err
      else go br r (MRaw [c]) st).
    assert (HE : forall st, pinv st -> element st <> Panic).
    { intros s Ps. pose proof Ps as [P1 P2]. unfold element.
      destruct (beq c (opn br)).
      - destruct (Nat.eqb_spec (depth s) (length (dims s))) as [Eq|Ne]; [apply HD; exact Ps|].
        destruct (upd_nth_some (fun _ => 0) (dims s) (depth s)) as [l' E]; [lia|]. rewrite E.
        apply IH; try discriminate. cbn [minv]. split; cbn [depth dims].
        + rewrite (upd_nth_length _ _ _ _ E). lia.
        + intros k d Hk Hle.
          destruct (upd_nth_nth _ _ _ _ E k d Hk) as (d0 & H0 & Hv).
          destruct (Nat.eqb_spec k (depth s)); subst; [lia|]. apply (P2 k d0 H0). lia.
      - destruct (beq c dquote); [apply IH; try discriminate; exact Ps|].
        destruct (beq c comma || beq c (cls br)); [discriminate|].
        apply IH; try discriminate; exact Ps. }
    assert (PP : forall v s, pinv s -> pinv (push_elem v s)) by (intros v s P; exact P).
    destruct m as [| | e esc | e | |].
    + (* MOpen *)
      cbn [hd] in Hd2. cbn [go]. fold delim. fold element.
      destruct (beq c (opn br)) eqn:Eo.
      * apply IH; [exact I | cbn; lia | cbn; lia].
      * specialize (Hd2 eq_refl eq_refl).
        destruct (beq c (cls br)) eqn:Ec.
        -- apply Nat.ltb_lt in Hd2 as ->.
           apply IH; [exact I | discriminate | discriminate].
        -- set (st0 := {| depth := depth st; dims := repeat 0 (depth st); elems := elems st |}).
           apply (HE st0).
           split; unfold st0; cbn [depth dims]; rewrite ?repeat_length; [lia|].
           intros k d Hk Hle. exfalso.
           assert (k < length (repeat 0 (depth st))) by (apply nth_error_Some; congruence).
           rewrite repeat_length in *. lia.
    + exact (HE st Hm).
    + destruct esc; cbn [go].
      * apply IH; try discriminate. exact Hm.
      * destruct (beq c backslash); [apply IH; try discriminate; exact Hm|].
        destruct (beq c dquote); apply IH; try discriminate; exact Hm.
    + cbn [go]. fold delim.
      destruct (beq c comma || beq c (cls br)); [apply HD, PP, Hm|].
      apply IH; try discriminate; exact Hm.
    + exact (HD st Hm).
    + cbn [go].
      destruct (beq c (cls br) && Nat.ltb 0 (depth st)); [|discriminate].
      apply IH; [exact I | discriminate | discriminate].
Qed.

Lemma parse_array_no_panic br src : parse_array br src <> Panic.
Proof.
  unfold parse_array. destruct src as [|c r]; [discriminate|].
  destruct (beq c (opn br)) eqn:E; [|discriminate].
  apply go_no_panic; [exact I | discriminate | cbn [hd]; congruence].
Qed.

Lemma scan_linear_no_panic br src : scan_linear br src <> Panic.
Proof.
  unfold scan_linear. pose proof (parse_array_no_panic br src) as H.
  destruct (parse_array br src) as [de| |]; cbn [bind]; [|discriminate|contradiction].
  destruct (Nat.ltb _ _); discriminate.
Qed.

Lemma scan_no_panic {A} br (dec : option bytes -> option A) dst src : snd (scan br dec dst src) <> Panic.
Proof.
  assert (H : forall b, snd (scan_bytes br dec dst b) <> Panic).
  { intro b. unfold scan_bytes. pose proof (scan_linear_no_panic br b) as H.
    destruct (scan_linear br b) as [es| |]; [|discriminate|contradiction].
    destruct dst, es; try discriminate; destruct (all_elems _ _); discriminate. }
  destruct src; cbn [scan]; try apply H; discriminate.
Qed.

Lemma scan_err_keeps {A} br (dec : option bytes -> option A) dst src :
  snd (scan br dec dst src) = Err -> fst (scan br dec dst src) = dst.
Proof.
  assert (H : forall b, snd (scan_bytes br dec dst b) = Err -> fst (scan_bytes br dec dst b) = dst).
  { intro b. unfold scan_bytes.
    destruct (scan_linear br b) as [es| |]; try reflexivity.
    destruct dst, es; try discriminate; destruct (all_elems _ _); try discriminate; reflexivity. }
  destruct src; cbn [scan]; try apply H; try discriminate; reflexivity.
Qed.
