(** Property C101, continued: what can be read back from the text of a list of times. *)
From Coq Require Import ZArith.
From Verif Require Import Base ModelStrconv ModelEncoding ModelTime ModelMarshalTime SpecText SpecJson SpecTime SpecMarshalTime PropTime PropMarshalTime.

Lemma whole_real c : real_time c -> real_time (whole_second c).
Proof. intro R. exact R. Qed.

(** The strings of the array, scanned into fields with the library's own scanner of times, are the times to the second.  Missing: as in C101_seconds_partial. *)
Theorem C101_back_partial : forall l, Forall (fun c => real_time c /\ minute_zone c) l ->
  exists ts, read_json (marshal_times l) = Some (JArr (map JStr ts)) /\
  Forall2 (fun t c => forall lax tgt src, src = VString t \/ src = VBytes t ->
    exists after, time_scanner lax tgt src = (after, Ok tt) /\ field_is after (GCivil (whole_second c))) ts l.
Proof.
  intros l H. destruct (C101_seconds_partial l H) as (ts & R & F). exists ts. split; [ exact R | ]. clear R.
  induction F as [|t c ts l T F IH]; [ constructor | ]. inversion H as [|? ? [Rc _] H']; subst. constructor; [ | now apply IH ].
  intros lax tgt src S. destruct (C67_texts_partial lax tgt src t S) as [X _]. apply (X (whole_second c)); [ exact Rc | right; exact T ].
Qed.
Print Assumptions C101_back_partial.

(** Lists that differ in more than the fractions have texts that differ. *)
Theorem C101_apart_partial : forall l l', Forall (fun c => real_time c /\ minute_zone c) l -> Forall (fun c => real_time c /\ minute_zone c) l' ->
  marshal_times l = marshal_times l' -> map whole_second l = map whole_second l'.
Proof.
  intros l l' H H' E. destruct (C101_seconds_partial l H) as (ts & R & F). destruct (C101_seconds_partial l' H') as (ts' & R' & F').
  rewrite E, R' in R. injection R as R. assert (ET : ts' = ts).
  { clear - R. revert ts R. induction ts' as [|t ts' IH]; intros [|t2 ts] R; try discriminate; [ reflexivity | ]. cbn [map] in R. injection R as -> R. f_equal. now apply IH. }
  subst ts'. clear R R' E. revert l' H' F'. induction F as [|t c ts l T F IH]; intros l' H' F'; inversion F' as [|? c' ? l2 T' F2]; subst; [ reflexivity | ].
  inversion H as [|? ? [Rc _] Hl]; subst. inversion H' as [|? ? [Rc' _] Hl']; subst. cbn [map]. f_equal; [ | now apply IH ].
  exact (C67_one_time_per_text (whole_second c) (whole_second c') t Rc Rc' (or_intror T) (or_intror T')).
Qed.
Print Assumptions C101_apart_partial.

(** One second apart. *)
Example C101_apart_case :
  let c s := {| c_year := 1999; c_month := 12; c_day := 31; c_hour := 23; c_min := 59; c_sec := s; c_nsec := 7; c_off := 19800%Z |} in
  marshal_times [c 58%N] = B "[""1999-12-31T23:59:58+05:30""]" /\ marshal_times [c 59%N] = B "[""1999-12-31T23:59:59+05:30""]".
Proof. split; vm_compute; reflexivity. Qed.
