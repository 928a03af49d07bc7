(** Property C67: reading time columns. *)
From Verif Require Import Base ModelEncoding ModelTime SpecTime LemmasTime.
Open Scope N_scope.

(** ** C67.  A text that denotes a real time, without a zone or in RFC 3339 form, is read as that
    time; every other text is an error that leaves the field as it was.  Missing part: texts with a T
    in the eleventh place that the strict RFC 3339 parser refuses ([lax] stands for what Go's general
    parser says about them), and the driver texts refuted below. *)
Theorem C67_texts_partial : forall (lax : bytes -> option civil) (tgt : target gotime) (src : dval) (s : bytes),
  src = VString s \/ src = VBytes s ->
  (forall c, real_time c -> (c_off c = 0%Z /\ plain_text c s) \/ rfc_text c s ->
     exists after, time_scanner lax tgt src = (after, Ok tt) /\ field_is after (GCivil c)) /\
  (nth_error s 10 <> Some "T"%char \/ lax s = None ->
     (forall c, real_time c -> ~ ((c_off c = 0%Z /\ plain_text c s) \/ rfc_text c s)) ->
     time_scanner lax tgt src = (tgt, Err)).
Proof.
  intros lax tgt src s Hsrc.
  assert (E : time_scanner lax tgt src = match parse_time lax s with
     Some c => (store tgt (GCivil c), Ok tt) | None => (tgt, Err) end) by (destruct Hsrc as [-> | ->]; reflexivity).
  rewrite E. split.
  - intros c Hc Ht. assert (P : parse_time lax s = Some c).
    { destruct Ht as [ [O P] | R ]; [ now apply plain_parses | now apply parse_time_rfc ]. }
    rewrite P. eexists; split; [ reflexivity | ]. destruct tgt; [ left | right ]; reflexivity.
  - intros Hl Hn. destruct (parse_time lax s) as [ c | ] eqn:P; [ | reflexivity ].
    apply parse_time_inv in P as [ [Hc Ht] | [N L] ].
    + exfalso. now apply (Hn c Hc).
    + destruct Hl; congruence.
Qed.
Print Assumptions C67_texts_partial.

(** The texts of a time determine it: no text is read as two times. *)
Theorem C67_one_time_per_text : forall c c' s, real_time c -> real_time c' ->
  (c_off c = 0%Z /\ plain_text c s) \/ rfc_text c s -> (c_off c' = 0%Z /\ plain_text c' s) \/ rfc_text c' s -> c = c'.
Proof.
  assert (P : forall c s, real_time c -> (c_off c = 0%Z /\ plain_text c s) \/ rfc_text c s -> parse_time (fun _ => None) s = Some c).
  { intros c s Hc [ [O P] | R ]; [ now apply plain_parses | now apply parse_time_rfc ]. }
  intros c c' s Hc Hc' T T'. apply P in T; [ | exact Hc ]. apply P in T'; [ | exact Hc' ]. congruence.
Qed.
Print Assumptions C67_one_time_per_text.

(** NULL, driver times, Unix seconds; anything else is an error that leaves the field as it was. *)
Theorem C67_values_partial : forall lax tgt,
  (time_scanner lax tgt VNull = (TVal GZero, Ok tt) /\ (exists t, tgt = TVal t) \/
   time_scanner lax tgt VNull = (TPtr None, Ok tt) /\ (exists t, tgt = TPtr t)) /\
  (forall t, exists after, time_scanner lax tgt (VTime t) = (after, Ok tt) /\ field_is after (GDriver t)) /\
  (forall z, exists after, time_scanner lax tgt (VInt z) = (after, Ok tt) /\ field_is after (GUnix z)) /\
  (forall b, time_scanner lax tgt (VBool b) = (tgt, Err)) /\
  (forall f, time_scanner lax tgt (VFloat f) = (tgt, Err)).
Proof.
  intros lax tgt. split; [ destruct tgt; [ left | right ]; split; eauto | ].
  repeat split; intros; eexists; (split; [ reflexivity | ]); destruct tgt; [ left | right | left | right ]; reflexivity.
Qed.
Print Assumptions C67_values_partial.

Example C67_cases : let lax (_ : bytes) : option civil := None in
  time_scanner lax (TPtr None) (VBytes (B "2024-02-29 23:59:59.123456")) = (TPtr (Some (GCivil (Civil 2024 2 29 23 59 59 123456000 0%Z))), Ok tt) /\
  time_scanner lax (TVal GZero) (VString (B "2023-02-29")) = (TVal GZero, Err) /\
  time_scanner lax (TVal GZero) (VString (B "2023-02-28T10:00:00.5-05:30")) = (TVal (GCivil (Civil 2023 2 28 10 0 0 500000000 (-19800)%Z)), Ok tt) /\
  real_time (Civil 2024 2 29 23 59 59 123456000 0%Z) /\
  plain_text (Civil 2024 2 29 23 59 59 123456000 0%Z) (B "2024-02-29 23:59:59.123456").
Proof.
  cbn zeta. split; [ vm_compute; reflexivity | ]. split; [ vm_compute; reflexivity | ]. split; [ vm_compute; reflexivity | ].
  split.
  - apply real_intro; cbn; try lia.
  - refine (PTFrac (Civil 2024 2 29 23 59 59 123456000 0%Z) (B "123456") _ _ _); [ discriminate | | vm_compute; reflexivity ].
    repeat constructor; vm_compute; discriminate.
Qed.

(** A date and time followed by a zone without the letter T cannot be read.  This is the text that the
    SQLite driver named in examples/go.mod writes for a time.Time into the TEXT column that the sqlite
    dialect declares for it (2006-01-02 15:04:05.999999999-07:00), and the text PostgreSQL prints for a
    timestamptz (2006-01-02 15:04:05.999999+00). *)
Theorem C67_zone_refuted : forall lax tgt c a z frac, real_time c ->
  is_digit a = false -> a <> "."%char ->
  (frac = [] \/ exists ds, ds <> [] /\ digit_text ds /\ frac = B "." ++ ds) ->
  time_scanner lax tgt (VString (date_text c ++ B " " ++ clock_text c ++ frac ++ a :: z)) = (tgt, Err).
Proof.
  intros lax tgt c a z frac Hc Ha Hp Hf. unfold time_scanner.
  set (s := date_text c ++ B " " ++ clock_text c ++ frac ++ a :: z).
  destruct (parse_time lax s) as [ k | ] eqn:P; [ exfalso | reflexivity ].
  assert (N10 : nth_error s 10 = Some " "%char) by reflexivity.
  assert (S1 : match_date s = false) by (unfold match_date, s; rewrite shape_date by exact Hc; reflexivity).
  assert (S2 : match_datetime s = false).
  { unfold match_datetime, s. rewrite shape_datetime by exact Hc. destruct Hf as [-> | (ds & _ & _ & ->)]; reflexivity. }
  assert (S3 : match_datetime_frac s = false).
  { unfold match_datetime_frac, s. rewrite shape_datetime by exact Hc. destruct Hf as [-> | (ds & Hne & Hds & ->)]; cbn [app].
    - destruct z; [ reflexivity | ]. apply andb_false_iff. left. now apply Ascii.eqb_neq.
    - destruct ds as [ | d ds ]; [ contradiction | ]. change (B ".") with ["."%char]. cbn [app].
      apply andb_false_iff. right. destruct (forallb is_digit (d :: ds ++ a :: z)) eqn:F; [ | reflexivity ].
      rewrite forallb_forall in F. rewrite <- Ha. symmetry. apply F. right. apply in_or_app. right. left. reflexivity. }
  unfold parse_time in P. rewrite S1, S2, S3 in P. unfold rfc_parse in P.
  destruct (rfc_quick s) as [ c' | ] eqn:Q.
  - apply rfc_quick_inv in Q as [_ R]. clear -R N10. revert R N10. generalize s. clear s.
    intros s R N10. destruct R; discriminate N10.
  - unfold s in P. rewrite re_seq_app, shape_date in P by exact Hc. discriminate P.
Qed.
Print Assumptions C67_zone_refuted.
Example C67_zone_case : let lax (_ : bytes) : option civil := None in
  time_scanner lax (TVal GZero) (VString (B "2024-02-29 23:59:59.123456+00:00")) = (TVal GZero, Err) /\
  B "2024-02-29 23:59:59.123456+00:00" =
    let c := Civil 2024 2 29 23 59 59 0 0%Z in date_text c ++ B " " ++ clock_text c ++ (B "." ++ B "123456") ++ "+"%char :: B "00:00".
Proof. split; vm_compute; reflexivity. Qed.
