(** Properties C01-C08: the array codecs. *)
From Verif Require Import Base ModelStrconv ModelArray SpecText LemmasBase LemmasArray LemmasArray2 LemmasArray3.

(** ** C01: string arrays round-trip (both encodings, both source representations, any old destination);
    nil is written as NULL and NULL is read back as nil. *)
Theorem C01_pg_string_array_roundtrip : forall (l : list bytes) dst,
  exists t, string_value pg (Some l) = Some t /\
  pg_string_scan dst (SBytes t) = (Some l, Ok tt) /\ pg_string_scan dst (SString t) = (Some l, Ok tt).
Proof. intros l dst. eexists. split; [reflexivity|]. exact (string_roundtrip pg l dst _ wf_pg eq_refl). Qed.
Print Assumptions C01_pg_string_array_roundtrip.

Theorem C01_json_string_slice_roundtrip : forall (l : list bytes) dst,
  exists t, string_value js (Some l) = Some t /\
  js_string_scan dst (SBytes t) = (Some l, Ok tt) /\ js_string_scan dst (SString t) = (Some l, Ok tt).
Proof. intros l dst. eexists. split; [reflexivity|]. exact (string_roundtrip js l dst _ wf_js eq_refl). Qed.
Print Assumptions C01_json_string_slice_roundtrip.

Theorem C01_nil_is_null : forall dst,
  string_value pg None = None /\ string_value js None = None /\
  pg_string_scan dst SNull = (None, Ok tt) /\ js_string_scan dst SNull = (None, Ok tt).
Proof. repeat split. Qed.
Print Assumptions C01_nil_is_null.

(** Scan accepts exactly the texts of one-dimensional arrays without NULL elements, and stores their elements. *)
Theorem C01_string_array_source : forall dst src b l, given src b ->
  (pg_string_scan dst src = (Some l, Ok tt) <-> array_text "{"%char "}"%char b (map Some l)) /\
  (js_string_scan dst src = (Some l, Ok tt) <-> array_text "["%char "]"%char b (map Some l)).
Proof.
  assert (Q : forall br, br = pg \/ br = js -> forall dst src b l, given src b ->
    scan br dec_string dst src = (Some l, Ok tt) <-> array_text (opn br) (cls br) b (map Some l)).
  { intros br W dst src b l G. split; intros H.
    - destruct (scan_source br dec_string dst src b l W G H) as (vs & T & F). replace (map Some l) with vs; [exact T|].
      clear - F. induction F as [|v a vs l E F IH]; [reflexivity|]. cbn [map]. f_equal; [exact E|exact IH].
    - apply (scan_accepts br dec_string dst src b l (map Some l) W G H). clear. induction l; constructor; auto; reflexivity. }
  intros dst src b l G. split; [exact (Q pg (or_introl eq_refl) dst src b l G)|exact (Q js (or_intror eq_refl) dst src b l G)].
Qed.
Print Assumptions C01_string_array_source.

Example C01_case : exists t,
  string_value pg (Some [B "NULL"; B "a,b}"; []; [dquote; backslash]]) = Some t /\
  pg_string_scan (Some [B "old"]) (SString t) = (Some [B "NULL"; B "a,b}"; []; [dquote; backslash]], Ok tt).
Proof. eexists. split; vm_compute; reflexivity. Qed.

(** ** C02: byte-slice arrays. *)
Theorem C02_bytea_array_roundtrip : forall (l : list bytes) dst,
  exists t, bytea_value (Some l) = Some t /\
  pg_bytea_scan dst (SBytes t) = (Some l, Ok tt) /\ pg_bytea_scan dst (SString t) = (Some l, Ok tt).
Proof. intros l dst. eexists. split; [reflexivity|]. exact (bytea_roundtrip l dst _ eq_refl). Qed.
Print Assumptions C02_bytea_array_roundtrip.

Theorem C02_nil_is_null : forall dst, bytea_value None = None /\ pg_bytea_scan dst SNull = (None, Ok tt).
Proof. split; reflexivity. Qed.
Print Assumptions C02_nil_is_null.

Example C02_case : exists t, bytea_value (Some [[chr 0; chr 255; dquote]; []]) = Some t /\
  pg_bytea_scan None (SBytes t) = (Some [[chr 0; chr 255; dquote]; []], Ok tt).
Proof. eexists. split; vm_compute; reflexivity. Qed.

(** ** C03: signed integer arrays, every width up to 64. *)
Theorem C03_pg_int_array_roundtrip : forall bits (l : list Z) dst,
  (0 < bits <= 64)%N -> Forall (fits_signed bits) l ->
  exists t, int_value pg (Some l) = Some t /\
  pg_int_scan bits dst (SBytes t) = (Some l, Ok tt) /\ pg_int_scan bits dst (SString t) = (Some l, Ok tt).
Proof.
  intros bits l dst Hb H. eexists. split; [reflexivity|].
  exact (int_roundtrip pg bits l dst _ wf_raw_pg Hb H eq_refl).
Qed.
Print Assumptions C03_pg_int_array_roundtrip.

Theorem C03_json_int_slice_roundtrip : forall bits (l : list Z) dst,
  (0 < bits <= 64)%N -> Forall (fits_signed bits) l ->
  exists t, int_value js (Some l) = Some t /\
  js_int_scan bits dst (SBytes t) = (Some l, Ok tt) /\ js_int_scan bits dst (SString t) = (Some l, Ok tt).
Proof.
  intros bits l dst Hb H. eexists. split; [reflexivity|].
  exact (int_roundtrip js bits l dst _ wf_raw_js Hb H eq_refl).
Qed.
Print Assumptions C03_json_int_slice_roundtrip.

Theorem C03_nil_is_null : forall bits dst,
  int_value pg None = None /\ int_value js None = None /\
  pg_int_scan bits dst SNull = (None, Ok tt) /\ js_int_scan bits dst SNull = (None, Ok tt).
Proof. repeat split. Qed.
Print Assumptions C03_nil_is_null.

Example C03_case : Forall (fits_signed 8) [-128; 0; 127]%Z.
Proof. repeat constructor; vm_compute; congruence. Qed.

(** ** C04: unsigned integer arrays.
    The JSON-style types satisfy it; the PostgreSQL types only below 2^63. *)
Theorem C04_json_uint_slice_roundtrip : forall bits (l : list Z) dst,
  Forall (fits_unsigned bits) l ->
  exists t, uint_value js (Some l) = Some t /\
  js_uint_scan bits dst (SBytes t) = (Some l, Ok tt) /\ js_uint_scan bits dst (SString t) = (Some l, Ok tt).
Proof.
  intros bits l dst H. eexists. split; [reflexivity|].
  exact (uint_roundtrip_checked js bits l dst _ wf_raw_js H eq_refl).
Qed.
Print Assumptions C04_json_uint_slice_roundtrip.

(** Missing part: values of 2^63 and above (see the refutation below). *)
Theorem C04_pg_uint_array_roundtrip_partial : forall bits (l : list Z) dst,
  Forall (fun z => fits_unsigned bits z /\ (z < 2 ^ 63)%Z) l ->
  exists t, uint_value pg (Some l) = Some t /\
  pg_uint_scan bits dst (SBytes t) = (Some l, Ok tt) /\ pg_uint_scan bits dst (SString t) = (Some l, Ok tt).
Proof.
  intros bits l dst H. eexists. split; [reflexivity|].
  exact (uint_roundtrip_conv pg bits l dst _ wf_raw_pg H eq_refl).
Qed.
Print Assumptions C04_pg_uint_array_roundtrip_partial.

Theorem C04_pg_uint64_array_refuted : exists l t,
  Forall (fits_unsigned 64) l /\ uint_value pg (Some l) = Some t /\
  snd (pg_uint_scan 64 None (SBytes t)) = Err.
Proof.
  exists [2 ^ 63]%Z. eexists. split; [|split; [reflexivity|vm_compute; reflexivity]].
  constructor; [|constructor]. unfold fits_unsigned. lia.
Qed.
Print Assumptions C04_pg_uint64_array_refuted.

Theorem C04_nil_is_null : forall bits dst,
  uint_value pg None = None /\ uint_value js None = None /\
  pg_uint_scan bits dst SNull = (None, Ok tt) /\ js_uint_scan bits dst SNull = (None, Ok tt).
Proof. repeat split. Qed.
Print Assumptions C04_nil_is_null.

Example C04_case : Forall (fits_unsigned 64) [0; 2 ^ 63; 2 ^ 64 - 1]%Z.
Proof. repeat constructor; unfold fits_unsigned; lia. Qed.

(** ** C05: boolean arrays round-trip, and nothing but t and f is accepted. *)
Theorem C05_bool_array_roundtrip : forall (l : list bool) dst,
  (exists t, bool_value pg (Some l) = Some t /\
   pg_bool_scan dst (SBytes t) = (Some l, Ok tt) /\ pg_bool_scan dst (SString t) = (Some l, Ok tt)) /\
  (exists t, bool_value js (Some l) = Some t /\
   js_bool_scan dst (SBytes t) = (Some l, Ok tt) /\ js_bool_scan dst (SString t) = (Some l, Ok tt)).
Proof.
  intros l dst. split; (eexists; split; [reflexivity|]).
  - exact (bool_roundtrip pg l dst _ wf_raw_pg eq_refl).
  - exact (bool_roundtrip js l dst _ wf_raw_js eq_refl).
Qed.
Print Assumptions C05_bool_array_roundtrip.

Theorem C05_nil_is_null : forall dst,
  bool_value pg None = None /\ bool_value js None = None /\
  pg_bool_scan dst SNull = (None, Ok tt) /\ js_bool_scan dst SNull = (None, Ok tt).
Proof. repeat split. Qed.
Print Assumptions C05_nil_is_null.

(** Exactly the arrays whose elements are t and f are accepted, and they are the values stored. *)
Theorem C05_bool_array_only_t_f : forall dst src b l, given src b ->
  (pg_bool_scan dst src = (Some l, Ok tt) <->
   array_text "{"%char "}"%char b (map (fun x : bool => Some (if x then B "t" else B "f")) l)) /\
  (js_bool_scan dst src = (Some l, Ok tt) <->
   array_text "["%char "]"%char b (map (fun x : bool => Some (if x then B "t" else B "f")) l)).
Proof.
  assert (Q : forall br, br = pg \/ br = js -> forall dst src b l, given src b ->
    scan br dec_bool dst src = (Some l, Ok tt) <->
    array_text (opn br) (cls br) b (map (fun x : bool => Some (if x then B "t" else B "f")) l)).
  { intros br W dst src b l G. split; intros H.
    - apply scan_linear_only; [destruct W; subst; [exact wf_pg|exact wf_js]|]. exact (bool_scan_only br dst src b l G H).
    - apply (scan_accepts br dec_bool dst src b l _ W G H). clear. induction l as [|[] l IH]; constructor; auto; reflexivity. }
  intros dst src b l G. split; [exact (Q pg (or_introl eq_refl) dst src b l G)|exact (Q js (or_intror eq_refl) dst src b l G)].
Qed.
Print Assumptions C05_bool_array_only_t_f.

Example C05_case : pg_bool_scan None (SBytes (B "{t,f}")) = (Some [true; false], Ok tt)
  /\ snd (pg_bool_scan None (SBytes (B "{t,x}"))) = Err.
Proof. split; vm_compute; reflexivity. Qed.

(** ** C06: a successful scan stores the numbers of the text.
    [ts] are the element texts, [zs] the numbers they denote. *)
Theorem C06_int64_exact : forall dst src ts zs l, Forall2 denotes_int ts zs ->
  (given src (list_text "{"%char "}"%char ts) -> pg_int_scan 64 dst src = (Some l, Ok tt) -> l = zs) /\
  (given src (list_text "["%char "]"%char ts) -> js_int_scan 64 dst src = (Some l, Ok tt) -> l = zs).
Proof.
  intros dst src ts zs l H. split; intro S.
  - exact (int64_scan_exact pg dst src ts zs l (or_introl eq_refl) H S).
  - exact (int64_scan_exact js dst src ts zs l (or_intror eq_refl) H S).
Qed.
Print Assumptions C06_int64_exact.

(** And nothing is stored that the text does not say: the 64-bit signed types accept exactly the
    one-dimensional arrays of decimal numbers in range, and store these numbers. *)
Theorem C06_int64_source : forall dst src b l, given src b ->
  (pg_int_scan 64 dst src = (Some l, Ok tt) <->
   exists ss, array_text "{"%char "}"%char b (map Some ss) /\ Forall2 denotes_int ss l /\ Forall (fits_signed 64) l) /\
  (js_int_scan 64 dst src = (Some l, Ok tt) <->
   exists ss, array_text "["%char "]"%char b (map Some ss) /\ Forall2 denotes_int ss l /\ Forall (fits_signed 64) l).
Proof.
  intros dst src b l G. split; [exact (int64_scan_source pg (or_introl eq_refl) dst src b l G)|
                                exact (int64_scan_source js (or_intror eq_refl) dst src b l G)].
Qed.
Print Assumptions C06_int64_source.

Theorem C06_json_uint_source : forall bits dst src b l, given src b ->
  js_uint_scan bits dst src = (Some l, Ok tt) <->
  exists ss, array_text "["%char "]"%char b (map Some ss) /\ Forall2 (fun s z => decimal_digits s /\ z = digits_to_Z s) ss l
             /\ Forall (fits_unsigned bits) l.
Proof. exact uint_scan_source. Qed.
Print Assumptions C06_json_uint_source.

Theorem C06_json_uint_exact : forall bits dst src ts zs l, Forall2 denotes_int ts zs ->
  given src (list_text "["%char "]"%char ts) ->
  js_uint_scan bits dst src = (Some l, Ok tt) -> l = zs /\ Forall (fits_unsigned bits) zs.
Proof. exact uint_scan_exact. Qed.
Print Assumptions C06_json_uint_exact.

(** Missing part: narrow signed types when a number does not fit (refuted below). *)
Theorem C06_narrow_int_exact_partial : forall bits dst src ts zs l,
  (0 < bits <= 64)%N -> Forall2 denotes_int ts zs -> Forall (fits_signed bits) zs ->
  (given src (list_text "{"%char "}"%char ts) -> pg_int_scan bits dst src = (Some l, Ok tt) -> l = zs) /\
  (given src (list_text "["%char "]"%char ts) -> js_int_scan bits dst src = (Some l, Ok tt) -> l = zs).
Proof.
  intros bits dst src ts zs l Hb H F. split; intro S.
  - exact (int_scan_fits pg bits dst src ts zs l (or_introl eq_refl) Hb H F S).
  - exact (int_scan_fits js bits dst src ts zs l (or_intror eq_refl) Hb H F S).
Qed.
Print Assumptions C06_narrow_int_exact_partial.

(** Int8Array reads 300 as 44, and so does the JSON-style Int8Slice; Uint8Array reads 300 as 44
    and -1 as 255. *)
Theorem C06_narrow_int_refuted :
  pg_int_scan 8 None (SBytes (B "{300}")) = (Some [44]%Z, Ok tt) /\
  js_int_scan 8 None (SBytes (B "[300]")) = (Some [44]%Z, Ok tt) /\
  pg_uint_scan 8 None (SBytes (B "{300,-1}")) = (Some [44; 255]%Z, Ok tt) /\
  denotes_int (B "300") 300.
Proof.
  repeat split; try (vm_compute; reflexivity).
  change 300%Z with (digits_to_Z (B "300")). constructor. split; [discriminate|].
  repeat constructor; vm_compute; discriminate.
Qed.
Print Assumptions C06_narrow_int_refuted.

Example C06_case : exists ts, Forall2 denotes_int ts [-5; 12]%Z /\
  pg_int_scan 64 None (SBytes (list_text "{"%char "}"%char ts)) = (Some [-5; 12]%Z, Ok tt).
Proof.
  exists [B "-5"; B "+12"]. split; [|vm_compute; reflexivity].
  constructor; [|constructor; [|constructor]].
  - change (-5)%Z with (- digits_to_Z (B "5"))%Z. apply DI_minus. split; [discriminate|].
    repeat constructor; vm_compute; discriminate.
  - change 12%Z with (digits_to_Z (B "12")). apply DI_plus. split; [discriminate|].
    repeat constructor; vm_compute; discriminate.
Qed.

(** ** C07: no scan panics, whatever the source and the previous destination. *)
Theorem C07_array_scan_never_panics : forall bits src,
  (forall dst, snd (pg_string_scan dst src) <> Panic) /\ (forall dst, snd (js_string_scan dst src) <> Panic) /\
  (forall dst, snd (pg_bool_scan dst src) <> Panic) /\ (forall dst, snd (js_bool_scan dst src) <> Panic) /\
  (forall dst, snd (pg_bytea_scan dst src) <> Panic) /\
  (forall dst, snd (pg_int_scan bits dst src) <> Panic) /\ (forall dst, snd (js_int_scan bits dst src) <> Panic) /\
  (forall dst, snd (pg_uint_scan bits dst src) <> Panic) /\ (forall dst, snd (js_uint_scan bits dst src) <> Panic).
Proof. intros bits src. repeat split; intro dst; exact (scan_no_panic _ _ dst src). Qed.
Print Assumptions C07_array_scan_never_panics.

(** The modulo in the dimension check is really reachable: a model in which it divided by the
    last dimension of "{{},{1}}" unguarded would panic; the code returns an error. *)
Example C07_case : snd (pg_string_scan None (SBytes (B "{{},{1}}"))) = Err
  /\ snd (pg_string_scan None (SBytes (B "{{1},{2,3}}"))) = Err
  /\ snd (pg_string_scan None (SBytes (B "}"))) = Err
  /\ snd (pg_string_scan None (SBytes [])) = Err.
Proof. repeat split; vm_compute; reflexivity. Qed.

(** ** C08: an error leaves the destination as it was. *)
Theorem C08_failed_scan_keeps_destination : forall bits src,
  (forall dst, snd (pg_string_scan dst src) = Err -> fst (pg_string_scan dst src) = dst) /\
  (forall dst, snd (js_string_scan dst src) = Err -> fst (js_string_scan dst src) = dst) /\
  (forall dst, snd (pg_bool_scan dst src) = Err -> fst (pg_bool_scan dst src) = dst) /\
  (forall dst, snd (js_bool_scan dst src) = Err -> fst (js_bool_scan dst src) = dst) /\
  (forall dst, snd (pg_bytea_scan dst src) = Err -> fst (pg_bytea_scan dst src) = dst) /\
  (forall dst, snd (pg_int_scan bits dst src) = Err -> fst (pg_int_scan bits dst src) = dst) /\
  (forall dst, snd (js_int_scan bits dst src) = Err -> fst (js_int_scan bits dst src) = dst) /\
  (forall dst, snd (pg_uint_scan bits dst src) = Err -> fst (pg_uint_scan bits dst src) = dst) /\
  (forall dst, snd (js_uint_scan bits dst src) = Err -> fst (js_uint_scan bits dst src) = dst).
Proof. intros bits src. repeat split; intro dst; exact (scan_err_keeps _ _ dst src). Qed.
Print Assumptions C08_failed_scan_keeps_destination.

Example C08_case : pg_int_scan 32 (Some [7]%Z) (SBytes (B "{1,x}")) = (Some [7]%Z, Err).
Proof. vm_compute. reflexivity. Qed.
