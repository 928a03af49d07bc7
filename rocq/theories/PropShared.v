(** C99: paging leaves the caller's records as they are. *)
From Verif Require Import Base ModelShared SpecShared.

Section Shared.
Context {V : Type}.
Variable zero : V.
Notation record := (record V).
Notation memory := (memory V).
Variable places : list place.
Notation scan := (scan zero places).

(** Addrs *)
Lemma allocated ps : forall (m : memory) (r : record), valid m r -> separate r ->
  let st := fold_left (allocate zero) ps (m, r) in
  m_next m <= m_next (fst st) /\ (forall a i, a < m_next m -> m_struct (fst st) a i = m_struct m a i) /\ valid (fst st) (snd st) /\ separate (snd st) /\
  (forall e a, r_embed (snd st) e = Some a -> r_embed r e = Some a \/ m_next m <= a /\ exists i, In (Behind e i) ps) /\
  (forall e i, In (Behind e i) ps -> r_embed (snd st) e <> None) /\ (forall e a, r_embed r e = Some a -> r_embed (snd st) e = Some a).
Proof.
  induction ps as [|p ps IH]; intros m r VA SE; cbn [fold_left].
  - cbn [fst snd]. repeat split; auto.
  - assert (STEP : exists m1 r1, allocate zero (m, r) p = (m1, r1) /\ m_next m <= m_next m1 /\ (forall a i, a < m_next m -> m_struct m1 a i = m_struct m a i) /\ valid m1 r1 /\ separate r1 /\
        (forall e a, r_embed r1 e = Some a -> r_embed r e = Some a \/ m_next m <= a /\ exists i, p = Behind e i) /\ (forall e i, p = Behind e i -> r_embed r1 e <> None) /\ (forall e a, r_embed r e = Some a -> r_embed r1 e = Some a)).
    { destruct p as [i|e i]; cbn [allocate]; [exists m, r; repeat split; auto; discriminate|]. destruct (r_embed r e) as [a|] eqn:E.
      - exists m, r. repeat split; auto. intros e' i' Q. injection Q as <- <-. rewrite E. discriminate.
      - do 2 eexists. split; [reflexivity|]. cbn [m_next m_struct r_embed]. split; [lia|]. split.
        { intros a j L. destruct (Nat.eqb_spec a (m_next m)); [lia|reflexivity]. }
        split. { intros e' a. cbn [r_embed m_next]. destruct (Nat.eqb_spec e' e); intros Q; [injection Q as <-; lia|apply VA in Q; lia]. }
        split. { intros e1 e2 a. cbn [r_embed]. destruct (Nat.eqb_spec e1 e) as [->|N1], (Nat.eqb_spec e2 e) as [->|N2]; intros Q1 Q2; [reflexivity|injection Q1 as <-; apply VA in Q2; lia|injection Q2 as <-; apply VA in Q1; lia|eapply SE; eassumption]. }
        split. { intros e' a. destruct (Nat.eqb_spec e' e) as [->|N]; intros Q; [injection Q as <-; right; split; [lia|exists i; reflexivity]|left; exact Q]. }
        split. { intros e' i' Q. injection Q as <- <-. rewrite Nat.eqb_refl. discriminate. }
        intros e' a Q. destruct (Nat.eqb_spec e' e) as [->|N]; [congruence|exact Q]. }
    destruct STEP as (m1 & r1 & -> & S1 & S2 & S3 & S4 & S5 & S6 & S7). destruct (IH m1 r1 S3 S4) as (I1 & I2 & I3 & I4 & I5 & I6 & I7). set (st := fold_left _ ps (m1, r1)) in *.
    split; [lia|]. split; [intros a i L; rewrite I2 by lia; apply S2, L|]. split; [exact I3|]. split; [exact I4|]. split.
    { intros e a Q. apply I5 in Q as [Q|[L (i & IN)]]; [apply S5 in Q as [Q|[L (i & ->)]]; [left; exact Q|right; split; [lia|exists i; left; reflexivity]]|right; split; [lia|exists i; right; exact IN]]. }
    split. { intros e i [->|IN]; [|eapply I6, IN]. destruct (r_embed r1 e) as [a|] eqn:Q; [rewrite (I7 e a Q); discriminate|exfalso; exact (S6 e i eq_refl Q)]. }
    intros e a Q. apply I7, S7, Q.
Qed.
(** Storing values *)
Lemma write_frame (st : memory * record) px : m_next (fst (write st px)) = m_next (fst st) /\ r_embed (snd (write st px)) = r_embed (snd st) /\
  (forall a i, (forall e j, fst px = Behind e j -> r_embed (snd st) e <> Some a) -> m_struct (fst (write st px)) a i = m_struct (fst st) a i).
Proof.
  destruct st as [m r], px as [[i|e i] x]; cbn [write fst snd]; [auto|]. destruct (r_embed r e) as [a|] eqn:E; cbn [fst snd m_next m_struct]; [|auto]. split; [reflexivity|]. split; [reflexivity|].
  intros b j N. destruct (Nat.eqb_spec b a) as [->|]; [|reflexivity]. exfalso. exact (N e i eq_refl E).
Qed.
Lemma write_other (st : memory * record) px p : separate (snd st) -> p <> fst px -> read (fst (write st px)) (snd (write st px)) p = read (fst st) (snd st) p.
Proof.
  destruct st as [m r], px as [q x]. cbn [fst snd]. intros SE N. destruct q as [i|e i]; cbn [write fst snd].
  - destruct p as [j|e' j]; cbn [read r_direct r_embed]; [|reflexivity]. destruct (Nat.eqb_spec j i); [subst; contradiction|reflexivity].
  - destruct (r_embed r e) as [a|] eqn:E; [|reflexivity]. destruct p as [j|e' j]; cbn [fst snd read]; [reflexivity|]. destruct (r_embed r e') as [b|] eqn:E'; [|reflexivity]. cbn [m_struct].
    destruct (Nat.eqb_spec b a) as [->|]; [|reflexivity]. destruct (Nat.eqb_spec j i) as [->|]; [|reflexivity]. exfalso. apply N. f_equal. eapply SE; eassumption.
Qed.
Lemma write_same (st : memory * record) p x : (forall e i, p = Behind e i -> r_embed (snd st) e <> None) -> read (fst (write st (p, x))) (snd (write st (p, x))) p = Some x.
Proof.
  destruct st as [m r], p as [i|e i]; cbn [fst snd write read]; intros H; [cbn [r_direct]; rewrite Nat.eqb_refl; reflexivity|].
  destruct (r_embed r e) as [a|] eqn:E; [|exfalso; exact (H e i eq_refl E)]. cbn [fst snd]. rewrite E. cbn [m_struct]. rewrite !Nat.eqb_refl. reflexivity.
Qed.
Lemma writes_frame pxs : forall st : memory * record, let st' := fold_left write pxs st in
  m_next (fst st') = m_next (fst st) /\ r_embed (snd st') = r_embed (snd st) /\
  (forall a i, (forall e j x, In (Behind e j, x) pxs -> r_embed (snd st) e <> Some a) -> m_struct (fst st') a i = m_struct (fst st) a i).
Proof.
  induction pxs as [|px pxs IH]; intros st; cbn [fold_left]; [auto|]. destruct (IH (write st px)) as (A & Bm & C). destruct (write_frame st px) as (A1 & B1 & C1). cbv zeta. rewrite A, A1, Bm, B1. split; [reflexivity|]. split; [reflexivity|].
  intros a i N. rewrite C, C1; [reflexivity| |]; [intros e j Q; apply (N e j (snd px)); left; rewrite <- Q; destruct px; reflexivity|intros e j x I; rewrite B1; apply (N e j x); right; exact I].
Qed.
Lemma writes_other pxs : forall (st : memory * record) p, separate (snd st) -> ~ In p (map fst pxs) -> read (fst (fold_left write pxs st)) (snd (fold_left write pxs st)) p = read (fst st) (snd st) p.
Proof.
  induction pxs as [|px pxs IH]; intros st p SE N; cbn [fold_left]; [reflexivity|]. cbn [map In] in N. rewrite IH; [apply write_other; [exact SE|intuition congruence]| |intuition].
  destruct (write_frame st px) as (_ & E & _). unfold separate. rewrite E. exact SE.
Qed.
Lemma writes_hold ps : forall row (st : memory * record), NoDup ps -> length row = length ps -> separate (snd st) -> (forall e i, In (Behind e i) ps -> r_embed (snd st) e <> None) ->
  holds ps (fst (fold_left write (combine ps row) st)) (snd (fold_left write (combine ps row) st)) row.
Proof.
  unfold holds. induction ps as [|p ps IH]; intros [|x row] st ND L SE AL; try discriminate L; [reflexivity|]. inversion ND as [|? ? NI ND']; subst. injection L as L. cbn [combine fold_left map].
  destruct (write_frame st (p, x)) as (_ & E & _). assert (SE' : separate (snd (write st (p, x)))) by (unfold separate; rewrite E; exact SE). f_equal.
  - rewrite writes_other; [apply write_same; intros e i ->; apply (AL e i); left; reflexivity|exact SE'|]. intros I. apply NI. clear -I. revert row I. induction ps as [|q ps IH]; intros [|y row]; cbn; try tauto. intros [->|I]; eauto.
  - apply IH; [exact ND'|exact L|exact SE'|]. intros e i I. rewrite E. apply (AL e i). right. exact I.
Qed.
(** A row into a record *)
Lemma scanned (m : memory) (r : record) row m' r' : NoDup places -> valid m r -> separate r -> length row = length places -> scan m r row = (m', r') ->
  m_next m <= m_next m' /\ valid m' r' /\ separate r' /\ holds places m' r' row /\
  (forall a i, a < m_next m -> ~ carries places r a -> m_struct m' a i = m_struct m a i) /\
  (forall e a, r_embed r' e = Some a -> r_embed r e = Some a \/ m_next m <= a) /\
  (forall e a, r_embed r e = Some a -> r_embed r' e = Some a) /\
  (forall a, carries places r' a -> carries places r a \/ m_next m <= a).
Proof.
  intros ND VA SE L E. unfold ModelShared.scan in E. destruct (allocated places m r VA SE) as (A1 & A2 & A3 & A4 & A5 & A6 & A7). set (st := fold_left _ places (m, r)) in *.
  destruct (writes_frame (combine places row) st) as (W1 & W2 & W3). pose proof (writes_hold places row st ND L A4 A6) as H. rewrite E in *. cbn [fst snd] in *.
  split; [lia|]. split; [intros e a Q; rewrite W2 in Q; rewrite W1; eapply A3, Q|]. split; [unfold separate; rewrite W2; exact A4|]. split; [exact H|]. split.
  - intros a i LT NC. rewrite W3; [apply A2, LT|]. intros e j x I Q. apply in_combine_l in I. apply A5 in Q as [Q|[Q _]]; [|lia]. apply NC. exists e, j. auto.
  - split; [intros e a Q; rewrite W2 in Q; apply A5 in Q; tauto|]. split; [intros e a Q; rewrite W2; apply A7, Q|]. intros a (e & i & I & Q). rewrite W2 in Q. apply A5 in Q as [Q|[Q _]]; [left; exists e, i; auto|right; exact Q].
Qed.
Lemma still (m m' : memory) (r : record) : (forall e a i, r_embed r e = Some a -> m_struct m' a i = m_struct m a i) -> unchanged m m' r.
Proof. intros H [i|e i]; cbn [read]; [reflexivity|]. destruct (r_embed r e) as [a|] eqn:E; [|reflexivity]. rewrite (H e a i E). reflexivity. Qed.
Lemma still_holds (m m' : memory) (r : record) row : unchanged m m' r -> holds places m r row -> holds places m' r row.
Proof. unfold holds. intros U <-. apply map_ext, U. Qed.
(** Rows into new records *)
Definition apart (m : memory) (r : record) : Prop := forall e a, r_embed r e = Some a -> m_next m <= a.
Lemma scanned_all rows : NoDup places -> Forall (fun row => length row = length places) rows -> forall (m m' : memory) data, scan_all zero places m rows = (m', data) ->
  m_next m <= m_next m' /\ (forall a i, a < m_next m -> m_struct m' a i = m_struct m a i) /\ Forall2 (holds places m') data rows /\ Forall (valid m') data /\ Forall separate data /\ Forall (apart m) data /\
  ForallOrdPairs (fun r s => ~ shares places s r) data.
Proof.
  intros ND F. induction F as [|row rows L F IH]; intros m m' data E; cbn [scan_all] in E.
  - injection E as <- <-. repeat split; auto; constructor.
  - destruct (scan m (new_record zero) row) as [m1 r] eqn:E1. destruct (scan_all zero places m1 rows) as [m2 data'] eqn:E2. injection E as <- <-.
    assert (V0 : valid m (new_record zero)) by (intros e a Q; discriminate Q). assert (S0 : separate (new_record zero)) by (intros e1 e2 a Q; discriminate Q).
    destruct (scanned m (new_record zero) row m1 r ND V0 S0 L E1) as (A1 & A2 & A3 & A4 & A5 & A6 & _ & _). destruct (IH m1 m2 data' E2) as (B1 & B2 & B3 & B4 & B5 & B6 & B7).
    assert (OLD : forall a i, a < m_next m -> m_struct m1 a i = m_struct m a i). { intros a i LT. apply A5; [exact LT|]. intros (e & j & _ & Q). discriminate Q. }
    assert (U : unchanged m1 m2 r) by (apply still; intros e a i Q; apply B2, (A2 e a Q)).
    split; [lia|]. split; [intros a i LT; rewrite B2 by lia; apply OLD, LT|]. split; [constructor; [exact (still_holds _ _ _ _ U A4)|exact B3]|]. split; [constructor; [intros e a Q; apply A2 in Q; lia|exact B4]|].
    split; [constructor; assumption|]. split.
    { constructor; [intros e a Q; apply A6 in Q as [Q|Q]; [discriminate Q|exact Q]|]. eapply Forall_impl; [|exact B6]. intros s AP e a Q. apply AP in Q. lia. }
    constructor; [|exact B7]. eapply Forall_impl; [|exact B6]. intros s AP (a & e & (e' & i & _ & Q) & Q'). apply AP in Q. apply A2 in Q'. lia.
Qed.
(** The loop *)
Lemma looped turns : NoDup places -> full places turns -> forall (m : memory) v m' pages, valid m v -> separate v -> loop zero places m v turns = (m', pages) ->
  m_next m <= m_next m' /\ (forall r, valid m r -> ~ shares places v r -> unchanged m m' r) /\ Forall2 (Forall2 (holds places m')) pages (handed_out turns).
Proof.
  intros ND F. induction F as [|[found rows] turns [L1 L2] F IH]; intros m v m' pages VA SE E; cbn [loop] in E.
  - injection E as <- <-. split; [lia|]. split; [intros r _ _ p; reflexivity|constructor].
  - cbn [fst snd] in L1, L2. destruct (scan m v found) as [m1 v1] eqn:E1. destruct (scan_all zero places m1 rows) as [m2 data] eqn:E2. destruct (loop zero places m2 (last data v1) turns) as [m3 pages'] eqn:E3. injection E as <- <-.
    destruct (scanned m v found m1 v1 ND VA SE L1 E1) as (A1 & A2 & A3 & A4 & A5 & A6 & A7 & A8). destruct (scanned_all rows ND L2 m1 m2 data E2) as (B1 & B2 & B3 & B4 & B5 & B6 & B7).
    assert (NEXT : data = [] /\ last data v1 = v1 \/ exists init x, data = init ++ [x] /\ last data v1 = x).
    { destruct data as [|r0 data0]; [left; split; reflexivity|right]. destruct (exists_last (l := r0 :: data0)) as (init & x & ->); [discriminate|]. exists init, x. split; [reflexivity|apply last_last]. }
    assert (VN : valid m2 (last data v1) /\ separate (last data v1)).
    { destruct NEXT as [[_ ->]|(init & x & -> & ->)]; [split; [intros e a Q; apply A2 in Q; lia|exact A3]|]. apply Forall_app in B4 as [_ B4]. apply Forall_app in B5 as [_ B5]. inversion B4; inversion B5; auto. }
    destruct (IH m2 (last data v1) m3 pages' (proj1 VN) (proj2 VN) E3) as (C1 & C2 & C3). split; [lia|]. split.
    + intros r VR NS p. transitivity (read m2 r p).
      * apply C2. { intros e a Q. apply VR in Q. lia. } intros (a & e & C & Q). pose proof (VR e a Q) as LT. destruct NEXT as [[_ NE]|(init & x & ED & NE)]; rewrite NE in C.
        -- apply A8 in C as [C|C]; [apply NS; exists a, e; auto|lia].
        -- destruct C as (e' & i & _ & Q'). rewrite ED in B6. apply Forall_app in B6 as [_ B6]. inversion B6 as [|? ? AP _]; subst. apply AP in Q'. lia.
      * apply still. intros e a i Q. pose proof (VR e a Q) as LT. rewrite B2 by lia. apply A5; [exact LT|]. intros C. apply NS. exists a, e. auto.
    + destruct turns as [|t turns].
      * cbn [loop] in E3. injection E3 as <- <-. cbn [handed_out snd]. constructor; [exact B3|constructor].
      * change (handed_out ((found, rows) :: t :: turns)) with (removelast rows :: handed_out (t :: turns)). constructor; [|exact C3].
        destruct NEXT as [[-> _]|(init & x & -> & NE)]; [inversion B3; subst; constructor|]. rewrite removelast_last. destruct (Forall2_app_inv_l _ _ B3) as (rows1 & rows2 & H1 & H2 & ->). inversion H2 as [|? row2 ? ? _ H3]; subst. inversion H3; subst. rewrite removelast_last.
        apply Forall_app in B4 as [B4 _]. rewrite NE in C2. clear - B4 B7 H1 C2. induction H1 as [|r row init rows1 H H1 IH]; [constructor|]. inversion B4 as [|? ? VR B4']; subst. cbn [app] in B7. inversion B7 as [|? ? P B7']; subst.
        constructor; [|apply IH; assumption]. apply (still_holds m2); [|exact H]. apply C2; [exact VR|]. rewrite Forall_forall in P. apply P, in_or_app. right. left. reflexivity.
Qed.

(** Each record that was handed out still holds its row when the iteration is over, wherever its columns are. *)
Theorem C99_pages turns m v m' pages : NoDup places -> full places turns -> valid m v -> separate v -> loop zero places m v turns = (m', pages) ->
  Forall2 (Forall2 (holds places m')) pages (handed_out turns).
Proof. intros ND F VA SE E. exact (proj2 (proj2 (looped turns ND F m v m' pages VA SE E))). Qed.
(** A record of the caller that has no struct with columns in common with the cursor stays as it is.
    Missing: records that have one, the cursor itself among them, refuted below. *)
Theorem C99_records_partial turns m v m' pages r : NoDup places -> full places turns -> valid m v -> separate v -> loop zero places m v turns = (m', pages) -> valid m r -> ~ shares places v r -> unchanged m m' r.
Proof. intros ND F VA SE E. exact (proj1 (proj2 (looped turns ND F m v m' pages VA SE E)) r). Qed.
(** The cursor itself, when its columns are not behind pointers or the pointers are nil *)
Theorem C99_cursor_partial turns m v m' pages : NoDup places -> full places turns -> valid m v -> separate v -> loop zero places m v turns = (m', pages) ->
  (forall e i, In (Behind e i) places -> r_embed v e = None) -> unchanged m m' v.
Proof.
  intros ND F VA SE E NIL. eapply C99_records_partial; [eassumption..|]. intros (a & e & (e' & i & I & Q) & _). rewrite (NIL e' i I) in Q. discriminate Q.
Qed.
(** The cursor has a struct with columns behind a pointer, and so has any record that shares it: afterwards those columns hold what the database had, not what the caller had put there. *)
Theorem C99_cursor_refuted found rows turns m v m' pages r e i a k : NoDup places -> full places ((found, rows) :: turns) -> valid m v -> separate v -> loop zero places m v ((found, rows) :: turns) = (m', pages) ->
  nth_error places k = Some (Behind e i) -> r_embed v e = Some a -> r_embed r e = Some a -> rows <> [] -> read m' r (Behind e i) = nth_error found k.
Proof.
  intros ND F VA SE E K EV ER NR. inversion F as [|? ? [L1 L2] F']; subst. cbn [fst snd] in L1, L2. cbn [loop] in E.
  destruct (scan m v found) as [m1 v1] eqn:E1. destruct (scan_all zero places m1 rows) as [m2 data] eqn:E2. destruct (loop zero places m2 (last data v1) turns) as [m3 pages'] eqn:E3. injection E as <- <-.
  destruct (scanned m v found m1 v1 ND VA SE L1 E1) as (A1 & A2 & A3 & A4 & A5 & A6 & A7 & A8). destruct (scanned_all rows ND L2 m1 m2 data E2) as (B1 & B2 & B3 & B4 & B5 & B6 & B7).
  assert (AP : exists x, last data v1 = x /\ valid m2 x /\ separate x /\ apart m1 x).
  { destruct data as [|r0 data0]; [inversion B3; subst; contradiction|]. destruct (exists_last (l := r0 :: data0)) as (init & x & EQ); [discriminate|]. rewrite EQ in *. exists x. split; [apply last_last|].
    apply Forall_app in B4 as [_ B4]. apply Forall_app in B5 as [_ B5]. apply Forall_app in B6 as [_ B6]. inversion B4; inversion B5; inversion B6; auto. }
  destruct AP as (x & EX & X1 & X2 & X3). rewrite EX in E3. pose proof (VA e a EV) as LT.
  pose proof (C99_records_partial turns m2 x m3 pages' v1 ND F' X1 X2 E3) as U.
  assert (UV : unchanged m2 m3 v1). { apply U; [intros e' b Q; apply A2 in Q; lia|]. intros (b & e' & (e1 & i1 & _ & Q1) & Q2). apply X3 in Q1. apply A2 in Q2. lia. }
  assert (R1 : read m3 r (Behind e i) = read m3 v1 (Behind e i)) by (cbn [read]; rewrite ER, (A7 e a EV); reflexivity). rewrite R1, UV.
  assert (R2 : read m2 v1 (Behind e i) = read m1 v1 (Behind e i)) by (cbn [read]; rewrite (A7 e a EV), B2 by lia; reflexivity). rewrite R2.
  unfold holds in A4. pose proof (map_nth_error (read m1 v1) k places K) as N1. rewrite A4 in N1. destruct (nth_error found k) as [y|] eqn:NF; [rewrite (map_nth_error Some k found NF) in N1; congruence|].
  exfalso. apply nth_error_None in NF. assert (k < length places) by (apply nth_error_Some; congruence). lia.
Qed.
End Shared.

(** A record with the key in itself and one column in a struct behind a pointer; the caller changed that column to 9, the database has 5; two turns *)
Definition sh_places := [Direct 0; Behind 0 0].
Definition sh_memory : memory nat := {| m_next := 1; m_struct := fun _ _ => 9 |}.
Definition sh_cursor (p : option nat) : record nat := {| r_direct := fun _ => 1; r_embed := fun e => match e with O => p | _ => None end |}.
Definition sh_turns := [([1; 5], [[1; 5]; [2; 6]]); ([2; 6], [[2; 6]])].
Definition sh_after (p : option nat) := loop 0 sh_places sh_memory (sh_cursor p) sh_turns.
Example C99_case : let '(m', pages) := sh_after (Some 0) in
  map (read m' (sh_cursor (Some 0))) sh_places = [Some 1; Some 5] /\ map (read sh_memory (sh_cursor (Some 0))) sh_places = [Some 1; Some 9] /\
  map (map (fun r => map (read m' r) sh_places)) pages = [[[Some 1; Some 5]]; [[Some 2; Some 6]]].
Proof. vm_compute. auto. Qed.
Example C99_nil_case : let '(m', pages) := sh_after None in
  map (read m' (sh_cursor None)) sh_places = [Some 1; None] /\ map (map (fun r => map (read m' r) sh_places)) pages = [[[Some 1; Some 5]]; [[Some 2; Some 6]]].
Proof. vm_compute. auto. Qed.
Example C99_hypotheses : NoDup sh_places /\ full sh_places sh_turns /\ valid sh_memory (sh_cursor (Some 0)) /\ separate (sh_cursor (Some 0)) /\ nth_error sh_places 1 = Some (Behind 0 0).
Proof.
  split; [repeat constructor; cbn; intuition discriminate|]. split; [repeat constructor|]. split; [|split; [|reflexivity]].
  - intros [|e] a Q; cbn in *; [injection Q as <-; auto|discriminate Q].
  - intros [|e1] [|e2] a Q1 Q2; cbn in *; congruence.
Qed.
Print Assumptions C99_pages.
Print Assumptions C99_records_partial.
Print Assumptions C99_cursor_partial.
Print Assumptions C99_cursor_refuted.
