(** Properties C09-C15, C54-C56: JSON-style texts, quoting and column scanners. *)
From Verif Require Import Base ModelStrconv ModelArray ModelUtf8 ModelEncoding ModelPgutil
  SpecText SpecJson SpecPg LemmasBase LemmasArray LemmasArray2 LemmasUtf8 LemmasJson LemmasEncoding
  LemmasPgutil LemmasJson2.

(** ** C09: JSON-style slices are JSON texts denoting the list. *)
Theorem C09_int_slices_json : forall l,
  exists t, int_value js (Some l) = Some t /\
  read_json t = Some (JArr (map (fun z => JNum (format_int z)) l)) /\
  Forall (fun z => denotes_int (format_int z) z) l.
Proof.
  intro l. eexists. split; [reflexivity|]. split; [exact (int_slice_json l _ eq_refl)|].
  apply Forall_forall. intros z _. exact (format_int_denotes z).
Qed.
Print Assumptions C09_int_slices_json.

Theorem C09_uint_slices_json : forall l, Forall (fun z => 0 <= z)%Z l ->
  exists t, uint_value js (Some l) = Some t /\
  exists ts, read_json t = Some (JArr (map JNum ts)) /\ Forall2 denotes_int ts l.
Proof.
  intros l H. eexists. split; [reflexivity|]. exists (map (fun z => format_uint (Z.to_N z)) l).
  split; [rewrite map_map; exact (uint_slice_json l _ eq_refl)|].
  induction H as [|z l Hz Hl IH]; constructor; [|exact IH].
  rewrite <- (Z2N.id z) at 2 by exact Hz. exact (format_uint_denotes _).
Qed.
Print Assumptions C09_uint_slices_json.

(** Missing part: strings with control characters (refuted below). *)
Theorem C09_string_slices_json_partial : forall l, Forall no_control l ->
  exists t, string_value js (Some l) = Some t /\ read_json t = Some (JArr (map JStr l)).
Proof. intros l H. eexists. split; [reflexivity|]. exact (string_slice_json l _ H eq_refl). Qed.
Print Assumptions C09_string_slices_json_partial.

Theorem C09_string_slices_json_refuted : exists l t,
  string_value js (Some l) = Some t /\ read_json t = None.
Proof. exists [[LF]]. eexists. split; [reflexivity|vm_compute; reflexivity]. Qed.
Print Assumptions C09_string_slices_json_refuted.

(** Every non-empty BoolSlice is written as text that is not JSON ([t,f]). *)
Theorem C09_bool_slices_json_refuted : forall l t, l <> [] ->
  bool_value js (Some l) = Some t -> read_json t = None.
Proof. exact bool_slice_not_json. Qed.
Print Assumptions C09_bool_slices_json_refuted.

Example C09_case : Forall no_control [B "a""b\c"; []; [chr 195; chr 169]] /\
  exists t, string_value js (Some [B "a""b\c"; []; [chr 195; chr 169]]) = Some t /\ read_json t <> None.
Proof.
  split; [repeat constructor; vm_compute; discriminate|].
  eexists. split; [reflexivity|]. vm_compute. discriminate.
Qed.

(** ** C10: pgutil.Quote. *)
Theorem C10_quote_faithful : forall s rest,
  match rest with c :: _ => c <> "'"%char | [] => True end ->
  estring (pg_quote s ++ rest) = Some (s, rest).
Proof. exact estring_quote. Qed.
Print Assumptions C10_quote_faithful.

Theorem C10_quote_injective : forall s t, pg_quote s = pg_quote t -> s = t.
Proof. exact pg_quote_inj. Qed.
Print Assumptions C10_quote_injective.

Example C10_case : pg_quote (B "a'; DROP TABLE t; --\" ++ [LF]) = B "E'a''; DROP TABLE t; --\\\n'" /\
  estring (B "E'a''; DROP TABLE t; --\\\n' AND 1") = Some (B "a'; DROP TABLE t; --\" ++ [LF], B " AND 1").
Proof. split; vm_compute; reflexivity. Qed.

(** ** C11: integer column scanners. *)
Theorem C11_text_source_exact : forall bits tgt b tgt', (0 < bits)%N ->
  (int_scanner bits tgt (VBytes b) = (tgt', Ok tt) ->
   exists z, stored tgt' z /\ denotes_int b z /\ fits_signed bits z) /\
  (uint_scanner bits tgt (VBytes b) = (tgt', Ok tt) ->
   exists z, stored tgt' z /\ denotes_int b z /\ fits_unsigned bits z).
Proof.
  intros bits tgt b tgt' Hb. split.
  - exact (int_scanner_text bits tgt b tgt' Hb).
  - exact (uint_scanner_text bits tgt b tgt').
Qed.
Print Assumptions C11_text_source_exact.

(** Missing part: int64 values outside the field's range (refuted below for all of them). *)
Theorem C11_int64_source_exact_partial : forall bits tgt z, (0 < bits)%N ->
  (fits_signed bits z -> exists tgt', int_scanner bits tgt (VInt z) = (tgt', Ok tt) /\ stored tgt' z) /\
  (fits_unsigned bits z -> exists tgt', uint_scanner bits tgt (VInt z) = (tgt', Ok tt) /\ stored tgt' z).
Proof.
  intros bits tgt z Hb. split.
  - exact (int_scanner_int bits tgt z Hb).
  - exact (uint_scanner_int bits tgt z).
Qed.
Print Assumptions C11_int64_source_exact_partial.

Theorem C11_int64_source_refuted : forall bits tgt z, (0 < bits)%N ->
  (~ fits_signed bits z -> exists tgt' z', int_scanner bits tgt (VInt z) = (tgt', Ok tt) /\ stored tgt' z' /\ z' <> z) /\
  (~ fits_unsigned bits z -> exists tgt' z', uint_scanner bits tgt (VInt z) = (tgt', Ok tt) /\ stored tgt' z' /\ z' <> z).
Proof.
  intros bits tgt z Hb. split.
  - exact (int_scanner_changes bits tgt z Hb).
  - exact (uint_scanner_changes bits tgt z).
Qed.
Print Assumptions C11_int64_source_refuted.

Example C11_case : int_scanner 8 (TPtr None) (VBytes (B "-128")) = (TPtr (Some (-128)%Z), Ok tt) /\
  int_scanner 8 (TVal 3%Z) (VBytes (B "128")) = (TVal 3%Z, Err) /\
  int_scanner 8 (TVal 3%Z) (VInt 200) = (TVal (-56)%Z, Ok tt).
Proof. repeat split; vm_compute; reflexivity. Qed.

(** ** C12: byte arrays. *)
(** Missing part: a source shorter than the array when the array already held non-zero bytes. *)
Theorem C12_byte_array_partial : forall v src b,
  src = VString b \/ src = VBytes b ->
  ((length b < length v)%nat -> v = repeat (chr 0) (length v) ->
     byte_array_scan v src = (b ++ repeat (chr 0) (length v - length b), Ok tt)) /\
  (length b = length v -> byte_array_scan v src = (b, Ok tt)) /\
  ((length v < length b)%nat -> byte_array_scan v src = (v, Err)) /\
  byte_array_scan v VNull = (repeat (chr 0) (length v), Ok tt).
Proof.
  intros v src b S. repeat split.
  - intros L Z. rewrite (byte_array_scan_ok v src b S) by lia. rewrite Z at 1. rewrite skipn_repeat. reflexivity.
  - intro L. rewrite (byte_array_scan_ok v src b S) by lia. rewrite L, skipn_all, app_nil_r. reflexivity.
  - exact (byte_array_scan_over v src b S).
Qed.
Print Assumptions C12_byte_array_partial.

Theorem C12_byte_array_refuted : exists v b r,
  byte_array_scan v (VBytes b) = (r, Ok tt) /\ r <> b ++ repeat (chr 0) (length v - length b).
Proof. exists (B "xyz"), (B "a"), (B "ayz"). split; [reflexivity|vm_compute; discriminate]. Qed.
Print Assumptions C12_byte_array_refuted.

Example C12_case : byte_array_scan (repeat (chr 0) 4) (VString (B "ab")) = (B "ab" ++ [chr 0; chr 0], Ok tt).
Proof. vm_compute. reflexivity. Qed.

(** ** C13: rune arrays. *)
(** Missing parts: stale content, NULL, and non-ASCII text delivered as string (all refuted below). *)
Theorem C13_rune_array_partial : forall v us, Forall (fun u => scalar u = true) us ->
  ((length us < length v)%nat -> v = repeat 0%N (length v) ->
     rune_array_scan v (VBytes (utf8 us)) = (us ++ repeat 0%N (length v - length us), Ok tt)) /\
  (length us = length v -> rune_array_scan v (VBytes (utf8 us)) = (us, Ok tt)) /\
  ((length v < length us)%nat -> snd (rune_array_scan v (VBytes (utf8 us))) = Err) /\
  (Forall (fun u => u < 128)%N us -> length us = length v -> rune_array_scan v (VString (utf8 us)) = (us, Ok tt)).
Proof.
  intros v us H. repeat split.
  - intros L Z. rewrite (rune_array_bytes v us H) by lia. rewrite Z at 1. rewrite skipn_repeat. reflexivity.
  - intro L. rewrite (rune_array_bytes v us H) by lia. rewrite L, skipn_all, app_nil_r. reflexivity.
  - exact (rune_array_bytes_over v us H).
  - intros A L. rewrite (rune_array_string_ascii v us A) by lia. rewrite L, skipn_all, app_nil_r. reflexivity.
Qed.
Print Assumptions C13_rune_array_partial.

Theorem C13_rune_array_null_refuted : forall v, rune_array_scan v VNull = (v, Ok tt).
Proof. reflexivity. Qed.
Print Assumptions C13_rune_array_null_refuted.

(** U+00E9 into [2]rune: the []byte source stores [E9;0], the string source stores [C3;0]. *)
Theorem C13_rune_array_string_refuted :
  rune_array_scan [0; 0]%N (VBytes (utf8 [233%N])) = ([233; 0]%N, Ok tt) /\
  rune_array_scan [0; 0]%N (VString (utf8 [233%N])) = ([195; 0]%N, Ok tt).
Proof. split; vm_compute; reflexivity. Qed.
Print Assumptions C13_rune_array_string_refuted.

Example C13_case : Forall (fun u => scalar u = true) [72; 233; 8364; 128512]%N /\
  rune_array_scan (repeat 0%N 4) (VBytes (utf8 [72; 233; 8364; 128512]%N)) = ([72; 233; 8364; 128512]%N, Ok tt).
Proof. split; [repeat constructor|vm_compute; reflexivity]. Qed.

(** ** C14: boolean scanning. The true and false texts of strconv.ParseBool, written out. *)
Definition true_text (s : bytes) : Prop := In s [B "1"; B "t"; B "T"; B "true"; B "TRUE"; B "True"].
Definition false_text (s : bytes) : Prop := In s [B "0"; B "f"; B "F"; B "false"; B "FALSE"; B "False"].

Lemma bmem_In x l : bmem x l = true <-> In x l.
Proof.
  induction l as [|y l IH]; cbn [bmem In]; [split; [discriminate|tauto]|].
  rewrite orb_true_iff, IH, bseq_eq. intuition congruence.
Qed.

Theorem C14_bool_column : forall tgt z s b,
  (bool_scanner false tgt (VInt z) = (store tgt b, Ok tt) <-> b = negb (Z.eqb z 0)) /\
  (bool_scanner false tgt (VBool b) = (store tgt b, Ok tt)) /\
  (true_text s -> bool_scanner false tgt (VBytes s) = (store tgt true, Ok tt)
               /\ bool_scanner false tgt (VString s) = (store tgt true, Ok tt)) /\
  (false_text s -> bool_scanner false tgt (VBytes s) = (store tgt false, Ok tt)
               /\ bool_scanner false tgt (VString s) = (store tgt false, Ok tt)) /\
  (~ true_text s -> ~ false_text s -> bool_scanner false tgt (VBytes s) = (tgt, Err)
               /\ bool_scanner false tgt (VString s) = (tgt, Err)).
Proof.
  intros tgt z s b.
  assert (T : true_text s -> parse_bool s = Some true).
  { intro H. apply bmem_In in H. unfold parse_bool. rewrite H. reflexivity. }
  assert (F : false_text s -> parse_bool s = Some false).
  { intro H. unfold parse_bool.
    replace (bmem s [B "1"; B "t"; B "T"; B "true"; B "TRUE"; B "True"]) with false.
    - apply bmem_In in H. rewrite H. reflexivity.
    - unfold false_text in H. cbn [In] in H.
      repeat (destruct H as [<-|H]; [reflexivity|]). destruct H. }
  assert (N : ~ true_text s -> ~ false_text s -> parse_bool s = None).
  { intros H1 H2. unfold parse_bool.
    destruct (bmem s [B "1"; B "t"; B "T"; B "true"; B "TRUE"; B "True"]) eqn:E1.
    { apply bmem_In in E1. contradiction. }
    destruct (bmem s [B "0"; B "f"; B "F"; B "false"; B "FALSE"; B "False"]) eqn:E2.
    { apply bmem_In in E2. contradiction. }
    reflexivity. }
  split; [|split; [reflexivity|split; [|split]]].
  - cbn [bool_scanner]. split; [|intros ->; reflexivity].
    intro H. destruct tgt; inversion H; reflexivity.
  - intro H. specialize (T H). cbn [bool_scanner]. rewrite T. split; reflexivity.
  - intro H. specialize (F H). cbn [bool_scanner]. rewrite F. split; reflexivity.
  - intros H1 H2. specialize (N H1 H2). cbn [bool_scanner]. rewrite N. split; reflexivity.
Qed.
Print Assumptions C14_bool_column.

(** The generator's own Bool type (used when reading information_schema) inverts integers. *)
Theorem C14_sqltype_bool_refuted : forall b,
  sqltype_bool_scan b (VInt 1) = (false, Ok tt) /\ sqltype_bool_scan b (VInt 0) = (true, Ok tt).
Proof. split; reflexivity. Qed.
Print Assumptions C14_sqltype_bool_refuted.

Example C14_case : bool_scanner false (TPtr None) (VBytes (B "TRUE")) = (TPtr (Some true), Ok tt).
Proof. vm_compute. reflexivity. Qed.

(** ** C15: Marshal*Slice. *)
Theorem C15_marshal_numbers_and_bools : forall (zs : list Z) (bs : list bool),
  (exists ts, read_json (marshal_int_slice zs) = Some (JArr (map JNum ts)) /\ Forall2 denotes_int ts zs) /\
  (Forall (fun z => 0 <= z)%Z zs ->
   exists ts, read_json (marshal_uint_slice zs) = Some (JArr (map JNum ts)) /\ Forall2 denotes_int ts zs) /\
  read_json (marshal_bool_slice bs) = Some (JArr (map JBool bs)).
Proof.
  intros zs bs. split; [|split].
  - exists (map format_int zs). split; [rewrite map_map; exact (marshal_int_json zs)|].
    induction zs; constructor; [exact (format_int_denotes _)|assumption].
  - intro H. exists (map (fun z => format_uint (Z.to_N z)) zs).
    split; [rewrite map_map; exact (marshal_uint_json zs)|].
    induction H as [|z l Hz Hl IH]; constructor; [|exact IH].
    rewrite <- (Z2N.id z) at 2 by exact Hz. exact (format_uint_denotes _).
  - exact (marshal_bool_json bs).
Qed.
Print Assumptions C15_marshal_numbers_and_bools.

(** Missing part: the characters outside [json_safe] (BEL, VT, other controls without a JSON short
    escape, DEL, unprintable characters beyond U+FFFF) and bytes that are not UTF-8. *)
Theorem C15_marshal_strings_partial : forall printable uss,
  Forall (Forall (fun u => scalar u = true /\ json_safe printable u)) uss ->
  read_json (marshal_string_slice printable (map utf8 uss)) = Some (JArr (map (fun us => JStr (utf8 us)) uss)).
Proof. exact marshal_string_json. Qed.
Print Assumptions C15_marshal_strings_partial.

Theorem C15_marshal_strings_refuted : forall printable,
  read_json (marshal_string_slice printable [[chr 7]]) = None /\
  read_json (marshal_string_slice printable [[chr 0]]) = None /\
  read_json (marshal_string_slice printable [[chr 255]]) = None.
Proof. intro p. repeat split; vm_compute; reflexivity. Qed.
Print Assumptions C15_marshal_strings_refuted.

Example C15_case :
  Forall (Forall (fun u => scalar u = true /\ json_safe (fun _ => false) u)) [[72; 34; 10; 233]; []]%N.
Proof.
  repeat constructor; cbn; unfold json_safe; cbn; intuition lia.
Qed.

(** ** C54: scanned byte slices are independent of the driver's buffers. *)
Theorem C54_string_fields_own_their_bytes : forall m m' buf,
  deref m' (string_scan_bytes StringKind m buf) = m buf.
Proof. reflexivity. Qed.
Print Assumptions C54_string_fields_own_their_bytes.

(** []byte fields keep pointing into the driver's buffer: reusing it changes the record. *)
Theorem C54_bytes_fields_refuted : exists m m' buf,
  deref m (string_scan_bytes BytesKind m buf) = m buf /\
  deref m' (string_scan_bytes BytesKind m buf) <> m buf.
Proof.
  exists (fun _ => B "row1"), (fun _ => B "row2"), 0. split; [reflexivity|vm_compute; discriminate].
Qed.
Print Assumptions C54_bytes_fields_refuted.

(** ** C55: JSON-style slices read back what MySQL returns for the JSON column
    (same JSON value, printed with a space after each comma). *)
(** Missing part: lists of two and more elements. *)
Theorem C55_mysql_json_single_partial : forall bits z dst, (0 < bits <= 64)%N -> fits_signed bits z ->
  js_int_scan bits dst (SBytes (mysql_json_array [format_int z])) = (Some [z], Ok tt) /\
  js_int_scan bits dst (SBytes (mysql_json_array [])) = (Some [], Ok tt).
Proof.
  intros bits z dst Hb F. split.
  - apply (int_roundtrip js bits [z] dst (mysql_json_array [format_int z]) wf_raw_js Hb); [|reflexivity].
    constructor; [exact F|constructor].
  - apply (int_roundtrip js bits [] dst (mysql_json_array []) wf_raw_js Hb); [constructor|reflexivity].
Qed.
Print Assumptions C55_mysql_json_single_partial.

(** Every list of two or more integers comes back as an error. *)
Theorem C55_mysql_json_ints_refuted : forall bits dst z1 z2 zs,
  snd (js_int_scan bits dst (SBytes (mysql_json_array (map format_int (z1 :: z2 :: zs))))) = Err.
Proof. exact mysql_ints_rejected. Qed.
Print Assumptions C55_mysql_json_ints_refuted.

(** Strings are silently changed: the second one comes back with its quotes and a leading space.
    Escapes are changed too: the JSON text ["\n"] is read as the letter n. *)
Theorem C55_mysql_json_strings_refuted :
  js_string_scan None (SBytes (B "[""a"", ""b""]")) = (Some [B "a"; B " ""b"""], Ok tt) /\
  read_json (B "[""a"", ""b""]") = Some (JArr [JStr (B "a"); JStr (B "b")]) /\
  js_string_scan None (SBytes (B "[""\n""]")) = (Some [B "n"], Ok tt) /\
  read_json (B "[""\n""]") = Some (JArr [JStr [LF]]).
Proof. repeat split; vm_compute; reflexivity. Qed.
Print Assumptions C55_mysql_json_strings_refuted.

Example C55_case : read_json (mysql_json_array (map format_int [1; -2; 3]%Z))
  = Some (JArr (map (fun z => JNum (format_int z)) [1; -2; 3]%Z)).
Proof. vm_compute. reflexivity. Qed.

(** ** C56: float arrays round-trip, given strconv's contract that the shortest formatting of a
    value parses back to it and uses only number characters. *)
Theorem C56_float_arrays_roundtrip : forall (F : Type) (fmt : F -> bytes) (parse : bytes -> option F) (l : list F) dst,
  Forall (fun f => parse (fmt f) = Some f /\ fmt f <> [] /\ Forall (fun c => In c (B "+-.0123456789INaNnf")) (fmt f)) l ->
  (exists t, float_value F fmt pg (Some l) = Some t /\
   float_scan F parse pg dst (SBytes t) = (Some l, Ok tt) /\ float_scan F parse pg dst (SString t) = (Some l, Ok tt)) /\
  (exists t, float_value F fmt js (Some l) = Some t /\
   float_scan F parse js dst (SBytes t) = (Some l, Ok tt) /\ float_scan F parse js dst (SString t) = (Some l, Ok tt)).
Proof.
  intros F fmt parse l dst H.
  assert (C : forall br, br = pg \/ br = js -> Forall (codec_elem br fmt (dec_float F parse)) l).
  { intros br Hbr. eapply Forall_impl; [|exact H]. intros f (P & NE & Ch).
    assert (R : forall c, In c (B "+-.0123456789INaNnf") ->
       c <> comma /\ c <> opn br /\ c <> cls br /\ c <> dquote /\ c <> "U"%char).
    { intros c Hc. destruct Hbr; subst; cbn in Hc;
        repeat destruct Hc as [<-|Hc]; try (repeat split; discriminate); destruct Hc. }
    unfold codec_elem. destruct (fmt f) as [|x s] eqn:Ef; [contradiction|].
    inversion Ch as [|? ? Hx Hs]; subst. destruct (R x Hx) as (R1 & R2 & R3 & R4 & _).
    split; [split; assumption|]. exists (Some (x :: s)). split; [|exact P].
    assert (RE : raw_elem (x :: s) = Some (x :: s)).
    { unfold raw_elem. destruct (bseq (x :: s) (B "NULL")) eqn:Q; [|reflexivity].
      apply bseq_eq in Q. inversion Q; subst. inversion Hs; subst.
      exfalso. apply (R "U"%char); [assumption|reflexivity]. }
    rewrite <- RE. apply raw_elem_reads; [|exact R2|exact R4].
    eapply Forall_impl; [|exact Ch]. intros c Hc. destruct (R c Hc) as (A & _ & A2 & _). split; assumption. }
  split; (eexists; split; [reflexivity|]); apply array_roundtrip with (enc := fmt); auto using wf_pg, wf_js.
Qed.
Print Assumptions C56_float_arrays_roundtrip.

Example C56_case : let fmt (b : bool) := if b then B "1.5" else B "-Inf" in
  let parse s := if bseq s (B "1.5") then Some true else if bseq s (B "-Inf") then Some false else None in
  Forall (fun f => parse (fmt f) = Some f /\ fmt f <> [] /\ Forall (fun c => In c (B "+-.0123456789INaNnf")) (fmt f)) [true; false].
Proof.
  assert (C : forall s l, forallb (fun c => existsb (Ascii.eqb c) l) s = true -> Forall (fun c => In c l) s).
  { intros s l H. apply Forall_forall. intros c Hc. rewrite forallb_forall in H. specialize (H c Hc).
    apply existsb_exists in H. destruct H as (d & Hd & E). apply Ascii.eqb_eq in E. subst. exact Hd. }
  cbn zeta. constructor; [|constructor; [|constructor]];
    (split; [reflexivity|split; [discriminate|apply C; reflexivity]]).
Qed.

(** ** C57: integer fields of every Go integer type up to 64 bits survive the generated valuer and
    scanner when the database returns the int64 it was given. *)
Lemma wrap_unsigned_signed bits z : (0 < bits <= 64)%N -> fits_unsigned bits z ->
  wrap_unsigned bits (wrap_signed 64 z) = z.
Proof.
  intros Hb F. unfold fits_unsigned in F. unfold wrap_signed, wrap_unsigned.
  assert (D : (2 ^ Z.of_N 64 = 2 ^ (64 - Z.of_N bits) * 2 ^ Z.of_N bits)%Z).
  { rewrite <- Z.pow_add_r by lia. f_equal. lia. }
  assert (M : (z mod 2 ^ Z.of_N 64 = z)%Z).
  { apply Z.mod_small. split; [lia|]. eapply Z.lt_le_trans; [apply F|]. apply Z.pow_le_mono_r; lia. }
  rewrite M. destruct (Z.ltb _ _).
  - apply Z.mod_small. lia.
  - rewrite D. replace (z - 2 ^ (64 - Z.of_N bits) * 2 ^ Z.of_N bits)%Z
      with (z + (- 2 ^ (64 - Z.of_N bits)) * 2 ^ Z.of_N bits)%Z by lia.
    rewrite Z.mod_add by lia. apply Z.mod_small. lia.
Qed.

Theorem C57_integer_fields_roundtrip : forall bits tgt z, (0 < bits <= 64)%N ->
  (fits_signed bits z -> int_scanner bits tgt (int_valuer z) = (store tgt z, Ok tt)) /\
  (fits_unsigned bits z -> uint_scanner bits tgt (int_valuer z) = (store tgt z, Ok tt)).
Proof.
  intros bits tgt z Hb. unfold int_valuer. cbn [int_scanner uint_scanner convert]. split; intro F.
  - assert (F64 : fits_signed 64 z).
    { unfold fits_signed in *. assert (2 ^ (Z.of_N bits - 1) <= 2 ^ (Z.of_N 64 - 1))%Z by (apply Z.pow_le_mono_r; lia). lia. }
    rewrite (wrap_signed_id' 64 z) by (try lia; exact F64).
    rewrite (wrap_signed_id' bits z) by (try lia; exact F). reflexivity.
  - rewrite (wrap_unsigned_signed bits z Hb F). reflexivity.
Qed.
Print Assumptions C57_integer_fields_roundtrip.

Example C57_case : uint_scanner 64 (TVal 0%Z) (int_valuer (2 ^ 64 - 1)) = (TVal (2 ^ 64 - 1)%Z, Ok tt).
Proof. vm_compute. reflexivity. Qed.

(** ** C58.  Missing part: rune arrays (refuted below). *)
Theorem C58_failed_scan_keeps_field_partial : forall bits strict ff ts v,
  (forall t, snd (int_scanner bits t v) <> Ok tt -> fst (int_scanner bits t v) = t) /\
  (forall t, snd (uint_scanner bits t v) <> Ok tt -> fst (uint_scanner bits t v) = t) /\
  (forall t, snd (bool_scanner strict t v) <> Ok tt -> fst (bool_scanner strict t v) = t) /\
  (forall t, snd (string_scanner ff ts strict t v) <> Ok tt -> fst (string_scanner ff ts strict t v) = t) /\
  (forall a, snd (byte_array_scan a v) <> Ok tt -> fst (byte_array_scan a v) = a).
Proof.
  intros bits strict ff ts v. split; [|split; [|split; [|split]]]; intros t H.
  - destruct v; cbn in *; try congruence. destruct (parse_int bits b); cbn in *; congruence.
  - destruct v; cbn in *; try congruence. destruct (parse_uint bits b); cbn in *; congruence.
  - destruct v; cbn in *; try congruence.
    + destruct strict; cbn in *; [reflexivity|]. destruct (parse_bool b); cbn in *; congruence.
    + destruct strict; cbn in *; [reflexivity|]. destruct (parse_bool s); cbn in *; congruence.
  - destruct v; cbn in *; try congruence; destruct strict; cbn in *; congruence.
  - unfold byte_array_scan in *. destruct v; cbn [fst snd] in *; try congruence.
    + revert H. destruct (Nat.ltb (length t) (length b)); cbn [fst snd]; congruence.
    + revert H. destruct (Nat.ltb (length t) (length s)); cbn [fst snd]; congruence.
Qed.
Print Assumptions C58_failed_scan_keeps_field_partial.

(** Too many runes for the array: the first ones are already stored when the error is reported. *)
Theorem C58_rune_array_refuted : forall u us w ws, length us = length ws -> u <> w ->
  scalar u = true -> Forall (fun u => scalar u = true) us ->
  let src := VBytes (utf8 (u :: us ++ [65%N])) in
  snd (rune_array_scan (w :: ws) src) = Err /\ fst (rune_array_scan (w :: ws) src) <> w :: ws.
Proof.
  intros u us w ws L D S F src. unfold src. cbn [rune_array_scan].
  rewrite runes_utf8 by (constructor; [exact S|apply Forall_app; split; [exact F|constructor; [reflexivity|constructor]]]).
  rewrite map_map. rewrite map_id.
  assert (Q : forall us i v, length v = i + length us -> 
    write_runes (us ++ [65%N]) i v = (firstn i v ++ us, Err)).
  { clear. induction us as [|u us IH]; intros i v L; cbn [app write_runes length] in *.
    - rewrite (proj2 (Nat.leb_le _ _)) by lia. rewrite firstn_all2 by lia. rewrite app_nil_r. reflexivity.
    - rewrite (proj2 (Nat.leb_gt _ _)) by lia. rewrite IH.
      + f_equal. rewrite firstn_app, firstn_firstn, firstn_length, Nat.min_r by lia.
        replace (S i - Nat.min i (length v)) with 1 by lia. cbn [firstn]. rewrite <- app_assoc. reflexivity.
      + rewrite app_length, firstn_length. cbn [length]. rewrite skipn_length. lia. }
  change (u :: us ++ [65%N]) with ((u :: us) ++ [65%N]). rewrite Q by (cbn; lia). cbn [fst snd firstn app].
  split; [reflexivity|]. intros E. congruence.
Qed.
Print Assumptions C58_rune_array_refuted.
Example C58_case : bool_scanner false (TPtr (Some true)) (VString (B "maybe")) = (TPtr (Some true), Err)
  /\ fst (rune_array_scan [0; 0]%N (VBytes (B "abc"))) = [97; 98]%N.
Proof. split; reflexivity. Qed.
