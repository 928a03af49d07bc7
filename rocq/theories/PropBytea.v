(** C02: which texts of bytea arrays are read, and as what. *)
From Coq Require Import List Bool Ascii NArith Lia.
From Verif Require Import Base ModelStrconv ModelArray SpecText LemmasBase LemmasArray LemmasArray2 LemmasArray3.
Import ListNotations.

(** ** Specification: the two output formats of bytea (PostgreSQL manual, 8.4) *)
Definition hex_of (c : byte) (n : N) : Prop := nth_error (B "0123456789abcdef") (N.to_nat n) = Some c \/ nth_error (B "0123456789ABCDEF") (N.to_nat n) = Some c.
Definition octal_of (c : byte) (n : N) : Prop := nth_error (B "01234567") (N.to_nat n) = Some c.
(** Two digits for a byte *)
Inductive hexed : bytes -> bytes -> Prop :=
| hx_nil : hexed [] []
| hx_byte a b x y v s r : hex_of a x -> hex_of b y -> N_of_ascii v = (16 * x + y)%N -> hexed s r -> hexed (a :: b :: s) (v :: r).
(** A backslash is doubled; three octal digits behind a backslash for a byte; any other byte for itself *)
Inductive escaped : bytes -> bytes -> Prop :=
| es_nil : escaped [] []
| es_backslash s r : escaped s r -> escaped (backslash :: backslash :: s) (backslash :: r)
| es_octal a b c x y z v s r : octal_of a x -> octal_of b y -> octal_of c z -> N_of_ascii v = (64 * x + 8 * y + z)%N -> escaped s r -> escaped (backslash :: a :: b :: c :: s) (v :: r)
| es_char c s r : c <> backslash -> escaped s r -> escaped (c :: s) (c :: r).
(** An element of an array; NULL is read as no bytes. *)
Inductive bytea_element : option bytes -> bytes -> Prop :=
| be_null : bytea_element None []
| be_hex s v : hexed s v -> bytea_element (Some (B "\x" ++ s)) v
| be_escape s v : escaped s v -> bytea_element (Some s) v.

(** ** Lemmas *)
Lemma hex_val_iff c n : hex_val c = Some n <-> hex_of c n.
Proof.
  split.
  - intros H. unfold hex_of. destruct c as [[] [] [] [] [] [] [] []]; vm_compute in H; try discriminate H; injection H as <-; first [left; reflexivity|right; reflexivity].
  - intros H. assert (L : (N.to_nat n < 16)%nat) by (destruct H as [H|H]; change 16%nat with (length (B "0123456789abcdef")); [|change (length (B "0123456789abcdef")) with (length (B "0123456789ABCDEF"))]; apply nth_error_Some; rewrite H; discriminate).
    rewrite <- (N2Nat.id n) at 1. revert H. unfold hex_of. generalize dependent (N.to_nat n). intros k L. do 16 (destruct k as [|k]; [intros [H|H]; injection H as <-; reflexivity|]). lia.
Qed.
Lemma oct_val_iff c n : oct_val c = Some n <-> octal_of c n.
Proof.
  split.
  - intros H. unfold octal_of. destruct c as [[] [] [] [] [] [] [] []]; vm_compute in H; try discriminate H; injection H as <-; reflexivity.
  - intros H. assert (L : (N.to_nat n < 8)%nat) by (change 8%nat with (length (B "01234567")); apply nth_error_Some; rewrite H; discriminate).
    rewrite <- (N2Nat.id n) at 1. revert H. unfold octal_of. generalize dependent (N.to_nat n). intros k L. do 8 (destruct k as [|k]; [intros H; injection H as <-; reflexivity|]). lia.
Qed.
Lemma hex_small c n : hex_of c n -> (n < 16)%N.
Proof.
  intros H. assert (L : (N.to_nat n < 16)%nat); [|lia]. destruct H as [H|H]; change 16%nat with (length (B "0123456789abcdef")); [|change (length (B "0123456789abcdef")) with (length (B "0123456789ABCDEF"))]; apply nth_error_Some; rewrite H; discriminate.
Qed.
Lemma of_code v n : N_of_ascii v = n -> v = chr n.
Proof. intros <-. symmetry. apply ascii_N_embedding. Qed.
Lemma to_code n : (n < 256)%N -> N_of_ascii (chr n) = n.
Proof. apply N_ascii_embedding. Qed.
Lemma hex_iff s : forall v, hex_decode s = Some v <-> hexed s v.
Proof.
  assert (G : forall n s, (length s <= n)%nat -> forall v, hex_decode s = Some v <-> hexed s v); [|exact (G (length s) s (le_n _))].
  clear s. induction n as [|n IH]; intros s L v.
  - destruct s as [|? ?]; [|cbn in L; lia]. cbn [hex_decode]. split; [intros H; injection H as <-; constructor|intros H; inversion H; reflexivity].
  - destruct s as [|a [|b s]].
    + cbn [hex_decode]. split; [intros H; injection H as <-; constructor|intros H; inversion H; reflexivity].
    + cbn [hex_decode]. split; [discriminate|intros H; inversion H].
    + cbn [length] in L. cbn [hex_decode]. split.
      * intros H. destruct (hex_val a) as [x|] eqn:A; [|discriminate]. destruct (hex_val b) as [y|] eqn:Bv; [|discriminate]. destruct (hex_decode s) as [r|] eqn:R; [|discriminate]. injection H as <-. apply hex_val_iff in A, Bv.
        apply (hx_byte a b x y); [exact A|exact Bv| |apply IH; [lia|exact R]]. pose proof (hex_small _ _ A). pose proof (hex_small _ _ Bv). rewrite to_code by lia. lia.
      * intros H. inversion H as [|a' b' x y v' s' r A Bv C R]; subst. apply hex_val_iff in A, Bv. apply IH in R; [|lia]. rewrite A, Bv, R. rewrite (of_code _ _ C). do 3 f_equal. lia.
Qed.
Lemma octal_iff a b c v : parse_octal3 a b c = Some v <-> exists x y z, octal_of a x /\ octal_of b y /\ octal_of c z /\ N_of_ascii v = (64 * x + 8 * y + z)%N.
Proof.
  unfold parse_octal3. split.
  - destruct (oct_val a) as [x|] eqn:X; [|discriminate]. destruct (oct_val b) as [y|] eqn:Y; [|discriminate]. destruct (oct_val c) as [z|] eqn:Z; [|discriminate]. cbn zeta. destruct (N.ltb _ 256) eqn:L; [|discriminate]. intros H. injection H as <-. apply N.ltb_lt in L.
    exists x, y, z. rewrite <- !oct_val_iff. split; [exact X|]. split; [exact Y|]. split; [exact Z|]. rewrite to_code by exact L. lia.
  - intros (x & y & z & X & Y & Z & E). apply oct_val_iff in X, Y, Z. rewrite X, Y, Z. cbn zeta. replace (x * 64 + y * 8 + z)%N with (N_of_ascii v) by lia. pose proof (N_ascii_bounded v) as BD. apply N.ltb_lt in BD. rewrite BD. f_equal. apply ascii_N_embedding.
Qed.
Lemma octal_backslash n : ~ octal_of backslash n.
Proof. rewrite <- oct_val_iff. discriminate. Qed.
Lemma escape_iff s : forall v, bytea_escape_decode s = Some v <-> escaped s v.
Proof.
  assert (G : forall n s, (length s <= n)%nat -> forall v, bytea_escape_decode s = Some v <-> escaped s v); [|exact (G (length s) s (le_n _))].
  clear s. induction n as [|n IH]; intros s L v.
  - destruct s as [|? ?]; [|cbn in L; lia]. cbn [bytea_escape_decode]. split; [intros H; injection H as <-; constructor|intros H; inversion H; reflexivity].
  - destruct s as [|c s1]; [cbn [bytea_escape_decode]; split; [intros H; injection H as <-; constructor|intros H; inversion H; reflexivity]|]. cbn [length] in L.
    assert (M : forall (w : byte) r, option_map (cons w) r = Some v <-> exists q, r = Some q /\ v = w :: q).
    { intros w [q|]; cbn; split; [intros H; injection H as <-; eauto|intros (q' & E & ->); congruence|discriminate|intros (q' & E & _); discriminate]. }
    cbn [bytea_escape_decode]. destruct (beq c backslash) eqn:C.
    + apply Ascii.eqb_eq in C as ->. destruct s1 as [|d s2]; [split; [discriminate|intros H; inversion H; subst; contradiction]|]. cbn [length] in L. destruct (beq d backslash) eqn:D.
      * apply Ascii.eqb_eq in D as ->. rewrite M. split.
        -- intros (q & R & ->). apply es_backslash. apply IH; [lia|exact R].
        -- intros H. inversion H as [|s' r R|a b e x y z w s' r O|c' s' r N]; subst; [|exfalso; exact (octal_backslash _ O)|contradiction]. exists r. split; [apply IH; [lia|exact R]|reflexivity].
      * destruct s2 as [|e [|f s4]].
        -- split; [discriminate|]. intros H. inversion H; subst; [discriminate|contradiction].
        -- split; [discriminate|]. intros H. inversion H; subst; [discriminate|contradiction].
        -- cbn [length] in L. split.
           ++ destruct (parse_octal3 d e f) as [w|] eqn:O; [|discriminate]. rewrite M. intros (q & R & ->). apply octal_iff in O as (x & y & z & X & Y & Z & E). apply (es_octal d e f x y z); auto. apply IH; [lia|exact R].
           ++ intros H. inversion H as [|s' r R E1|a b e' x y z w s' r X Y Z E R|c' s' r N]; subst; [discriminate| |contradiction].
              assert (O : parse_octal3 d e f = Some w) by (apply octal_iff; eauto 8). rewrite O, M. exists r. split; [apply IH; [lia|exact R]|reflexivity].
    + assert (N : c <> backslash) by (intros ->; discriminate). rewrite M. split.
      * intros (q & R & ->). apply es_char; [exact N|]. apply IH; [lia|exact R].
      * intros H. inversion H as [|s' r R|a b e x y z w s' r O|c' s' r N' R]; subst; try contradiction. exists r. split; [apply IH; [lia|exact R]|reflexivity].
Qed.
Lemma no_hex_escape s v : ~ escaped (B "\x" ++ s) v.
Proof.
  change (B "\x" ++ s) with (backslash :: "x"%char :: s). intros H. inversion H as [|s' r R|a b e x y z w s' r O|c' s' r N']; subst; [|contradiction]. apply oct_val_iff in O. discriminate.
Qed.
Lemma bytea_iff e v : parse_bytea e = Some v <-> bytea_element e v.
Proof.
  destruct e as [s|]; [|split; [intros H; injection H as <-; constructor|intros H; inversion H; reflexivity]].
  assert (CASES : (exists s', s = B "\x" ++ s' /\ parse_bytea (Some s) = hex_decode s') \/ ((forall s', s <> B "\x" ++ s') /\ parse_bytea (Some s) = bytea_escape_decode s)).
  { destruct s as [|a [|b s]]; [right; split; [discriminate|reflexivity]|right; split; [intros s' X; change (B "\x" ++ s') with (backslash :: "x"%char :: s') in X; discriminate|reflexivity]|].
    cbn [parse_bytea]. destruct (beq a backslash && beq b "x") eqn:X.
    - left. apply andb_true_iff in X as [X Y]. apply Ascii.eqb_eq in X as ->. apply Ascii.eqb_eq in Y as ->. exists s. split; reflexivity.
    - right. split; [|reflexivity]. intros s' Y. change (B "\x" ++ s') with (backslash :: "x"%char :: s') in Y. injection Y as -> -> ->. discriminate. }
  destruct CASES as [(s' & -> & ->)|[N ->]].
  - rewrite hex_iff. split; [apply be_hex|]. intros H. inversion H as [|s1 v1 X E|s1 v1 X E]; subst; [assumption|exfalso; exact (no_hex_escape _ _ X)].
  - rewrite escape_iff. split; [apply be_escape|]. intros H. inversion H as [|s1 v1 X E|s1 v1 X E]; subst; [exfalso; exact (N _ eq_refl)|exact X].
Qed.
(** Scan accepts exactly the texts of one-dimensional arrays whose elements are NULL or byte strings in one of the two formats, and stores these. *)
Theorem C02_bytea_array_source : forall dst src b l, given src b ->
  (pg_bytea_scan dst src = (Some l, Ok tt) <-> exists vs, array_text "{"%char "}"%char b vs /\ Forall2 bytea_element vs l).
Proof.
  assert (I : forall vs l, Forall2 (fun v a => parse_bytea v = Some a) vs l <-> Forall2 bytea_element vs l).
  { intros vs l. split; intros F; induction F; constructor; auto; apply bytea_iff; assumption. }
  intros dst src b l G. split.
  - intros H. destruct (scan_source pg parse_bytea dst src b l (or_introl eq_refl) G H) as (vs & T & F). exists vs. split; [exact T|apply I; exact F].
  - intros (vs & T & F). apply (scan_accepts pg parse_bytea dst src b l vs (or_introl eq_refl) G T). apply I. exact F.
Qed.
Print Assumptions C02_bytea_array_source.
Example C02_source_case : pg_bytea_scan None (SString (B "{NULL," ++ [dquote] ++ B "\\x00FF" ++ [dquote] ++ B ",abc," ++ [dquote] ++ B "\\377\\\\" ++ [dquote] ++ B "}")) = (Some [[]; [chr 0; chr 255]; B "abc"; [chr 255; backslash]], Ok tt).
Proof. vm_compute. reflexivity. Qed.
