(** C65, C66: the mapping of Go types to columns. *)
From Coq Require Import List Bool Ascii PeanoNat NArith Lia.
From Verif Require Import Base ModelStrconv LemmasBase ModelResolve.
Import ListNotations.

(** ** Specification *)
(** A type whose definition ends: every part of a type is smaller *)
Definition child (g : graph) (a b : nat) : Prop :=
  match g a with NNamed _ u => b = u | NPtr e => b = e | NSlice e => b = e | NArr _ e => b = e | NAlias r => b = r | _ => False end.
Definition ends (g : graph) (rank : nat -> nat) : Prop := forall a b, child g a b -> rank b < rank a.
(** The text of a type when names (but those of structs) stand for what they name *)
Inductive text (g : graph) : nat -> bytes -> Prop :=
| x_basic t n : g t = NBasic n -> text g t n
| x_struct t n : g t = NStruct n -> text g t n
| x_named t n u s : g t = NNamed n u -> text g u s -> text g t s
| x_ptr t e s : g t = NPtr e -> text g e s -> text g t (B "*" ++ s)
| x_slice t e s : g t = NSlice e -> text g e s -> text g t (B "[]" ++ s)
| x_arr t n e s : g t = NArr n e -> text g e s -> text g t (B "[" ++ format_uint n ++ B "]" ++ s)
| x_alias t r s : g t = NAlias r -> text g r s -> text g t s
| x_other t : g t = NOther -> text g t [].
(** No pointer before the first slice, array, struct or basic type *)
Inductive headed (g : graph) : nat -> Prop :=
| h_basic t n : g t = NBasic n -> headed g t
| h_struct t n : g t = NStruct n -> headed g t
| h_named t n u : g t = NNamed n u -> headed g u -> headed g t
| h_slice t e : g t = NSlice e -> headed g t
| h_arr t n e : g t = NArr n e -> headed g t
| h_alias t r : g t = NAlias r -> headed g r -> headed g t
| h_other t : g t = NOther -> headed g t.
(** The tables: one key is a star, the others end in a letter or digit and do not start with a star *)
Definition key_ok (k : bytes) : Prop := (exists a c, k = a ++ [c] /\ c <> "]"%char /\ c <> "*"%char) /\ forall r, k <> "*"%char :: r.
Definition table_ok (keys : list bytes) : Prop := In (B "*") keys /\ forall k, In k keys -> k = B "*" \/ key_ok k.
(** Writing and reading speak the same language: the same code on both sides, or the plain value and the mapping of its own type *)
Definition agree (w r : option enc) : Prop := exists a b, w = Some a /\ r = Some b /\ (a = b \/ exists k, a = Plain k /\ b = Map k).

(** ** Lemmas *)
Lemma text_fun g t a b : text g t a -> text g t b -> a = b.
Proof.
  intros H. revert b. induction H; intros b Hb; inversion Hb; subst; try congruence; match goal with A : g ?t = _, A' : g ?t = _ |- _ => rewrite A in A'; try discriminate; injection A' as <-; subst end; try reflexivity; f_equal; auto.
  all: try (f_equal; auto). all: try (do 2 f_equal; auto).
Qed.
Definition bracketed (s : bytes) : Prop := exists a c, s = a ++ [c] /\ (c = "]"%char \/ c = "*"%char).
Lemma not_key keys s : table_ok keys -> bracketed s -> s <> B "*" -> ~ In s keys.
Proof.
  intros [_ T] (a & c & -> & C) N I. destruct (T _ I) as [E|[(a' & c' & E & C1 & C2) _]]; [contradiction|]. apply app_inj_tail in E as [_ ->]. destruct C; contradiction.
Qed.
Lemma empty_not_key keys : table_ok keys -> ~ In [] keys.
Proof. intros [_ T] I. destruct (T _ I) as [E|[(a & c & E & _) _]]; [discriminate|destruct a; discriminate]. Qed.
Lemma star_not_key keys r : table_ok keys -> r <> [] -> ~ In ("*"%char :: r) keys.
Proof. intros [_ T] N I. destruct (T _ I) as [E|[_ E]]; [injection E as ->; contradiction|exact (E r eq_refl)]. Qed.
Section Walk.
Variable g : graph.
Variable rank : nat -> nat.
Variable keys : list bytes.
Hypothesis E : ends g rank.
Hypothesis T : table_ok keys.
Lemma down a b : child g a b -> rank b < rank a.
Proof. apply E. Qed.
Lemma walk_long f : forall n t s, rank n < f -> rank n <= rank t -> bracketed s -> s <> B "*" -> exists x, text g n x /\ walk f g keys n t s = Some (Done (s ++ x)).
Proof.
  induction f as [|f IH]; intros n t s F R BR N; [lia|]. cbn [walk]. pose proof (down n) as D. unfold child in D. destruct (g n) as [nm|nm|nm u|e|e|k e|r|] eqn:G.
  - exists nm. split; [constructor; exact G|reflexivity].
  - exists nm. split; [apply x_struct; exact G|reflexivity].
  - specialize (D u eq_refl). rewrite (proj2 (bmem_not_In _ _) (not_key keys s T BR N)). assert (U : Nat.eqb u t = false) by (apply Nat.eqb_neq; intros ->; lia). rewrite U.
    destruct (IH u u s ltac:(lia) ltac:(lia) BR N) as (x & X & W). exists x. split; [eapply x_named; eauto|exact W].
  - specialize (D e eq_refl). destruct (IH e t (s ++ B "*") ltac:(lia) ltac:(lia)) as (x & X & W); [exists s, "*"%char; split; [reflexivity|right; reflexivity]|intros A; apply (f_equal (@length _)) in A; rewrite app_length in A; destruct BR as (a & c & -> & _); rewrite app_length in A; cbn in A; lia|].
    exists (B "*" ++ x). split; [eapply x_ptr; eauto|]. rewrite W, <- app_assoc. reflexivity.
  - specialize (D e eq_refl). destruct (IH e t (s ++ B "[]") ltac:(lia) ltac:(lia)) as (x & X & W); [exists (s ++ B "["), "]"%char; split; [rewrite <- app_assoc; reflexivity|left; reflexivity]|intros A; apply (f_equal (@length _)) in A; rewrite app_length in A; cbn in A; lia|].
    exists (B "[]" ++ x). split; [eapply x_slice; eauto|]. rewrite W, <- app_assoc. reflexivity.
  - specialize (D e eq_refl). destruct (IH e t (s ++ B "[" ++ format_uint k ++ B "]") ltac:(lia) ltac:(lia)) as (x & X & W); [exists (s ++ B "[" ++ format_uint k), "]"%char; split; [rewrite <- !app_assoc; reflexivity|left; reflexivity]|intros A; apply (f_equal (@length _)) in A; rewrite !app_length in A; cbn in A; lia|].
    exists (B "[" ++ format_uint k ++ B "]" ++ x). split; [eapply x_arr; eauto|]. rewrite W, <- !app_assoc. reflexivity.
  - specialize (D r eq_refl). destruct (IH r t s ltac:(lia) ltac:(lia) BR N) as (x & X & W). exists x. split; [eapply x_alias; eauto|exact W].
  - exists []. split; [apply x_other; exact G|rewrite app_nil_r; reflexivity].
Qed.
Lemma walk_head f : forall n t, headed g n -> rank n < f -> rank n <= rank t -> exists x, text g n x /\ walk f g keys n t [] = Some (Done x).
Proof.
  induction f as [|f IH]; intros n t H F R; [lia|]. cbn [walk]. pose proof (down n) as D. unfold child in D. inversion H as [? nm G|? nm G|? nm u G Hu|? e G|? k e G|? r G Hr|? G]; subst; rewrite G in *.
  - exists nm. split; [constructor; exact G|reflexivity].
  - exists nm. split; [apply x_struct; exact G|reflexivity].
  - specialize (D u eq_refl). rewrite (proj2 (bmem_not_In _ _) (empty_not_key keys T)). assert (U : Nat.eqb u t = false) by (apply Nat.eqb_neq; intros ->; lia). rewrite U.
    destruct (IH u u Hu ltac:(lia) ltac:(lia)) as (x & X & W). exists x. split; [eapply x_named; eauto|exact W].
  - specialize (D e eq_refl). destruct (walk_long f e t (B "[]") ltac:(lia) ltac:(lia)) as (x & X & W); [exists (B "["), "]"%char; split; [reflexivity|left; reflexivity]|discriminate|]. exists (B "[]" ++ x). split; [eapply x_slice; eauto|exact W].
  - specialize (D e eq_refl). destruct (walk_long f e t (B "[" ++ format_uint k ++ B "]") ltac:(lia) ltac:(lia)) as (x & X & W); [exists (B "[" ++ format_uint k), "]"%char; split; [rewrite <- !app_assoc; reflexivity|left; reflexivity]|discriminate|].
    exists (B "[" ++ format_uint k ++ B "]" ++ x). split; [eapply x_arr; eauto|]. cbn [app] in *. rewrite W. f_equal. f_equal. rewrite <- !app_assoc. reflexivity.
  - specialize (D r eq_refl). destruct (IH r t Hr ltac:(lia) ltac:(lia)) as (x & X & W). exists x. split; [eapply x_alias; eauto|exact W].
  - exists []. split; [apply x_other; exact G|reflexivity].
Qed.
(** Any type that ends is resolved, within as many rounds as it has levels *)
Lemma walk_stops f : forall n t s, rank n < f -> walk f g keys n t s <> None.
Proof.
  induction f as [|f IH]; intros n t s F; [lia|]. cbn [walk]. pose proof (down n) as D. unfold child in D. destruct (g n) as [nm|nm|nm u|e|e|k e|r|]; try discriminate; try (apply IH; specialize (D _ eq_refl); lia).
  destruct (bmem s keys); [discriminate|]. destruct (Nat.eqb u t); [discriminate|]. apply IH. specialize (D _ eq_refl). lia.
Qed.
End Walk.
(** ** C66 *)
Theorem C66_stops_partial g rank keys t f : ends g rank -> rank t < f -> resolve f g keys t <> None.
Proof. intros E F. unfold resolve. pose proof (walk_stops g rank keys E f t t [] F) as W. destruct (walk f g keys t t []) as [[k|s]|]; [discriminate|discriminate|contradiction]. Qed.
(** type T []T is stopped by the comparison with the last type *)
Definition self_graph : graph := fun n => match n with 0 => NNamed (B "T") 1 | _ => NSlice 0 end.
Theorem C66_self_partial keys f : table_ok keys -> 3 <= f -> resolve f self_graph keys 0 <> None.
Proof. intros T F. destruct f as [|[|[|f]]]; try lia. unfold resolve. cbn. rewrite (proj2 (bmem_not_In _ _) (empty_not_key keys T)). cbn. destruct (bmem _ keys); discriminate. Qed.
(** type A []B; type B []A: the loop never ends and the text grows in every second round *)
Definition pair_graph : graph := fun n => match n with 0 => NNamed (B "A") 1 | 1 => NSlice 2 | 2 => NNamed (B "B") 3 | _ => NSlice 0 end.
Lemma pair_runs keys : table_ok keys -> forall f s, (s = [] \/ bracketed s /\ s <> B "*") -> walk f pair_graph keys 1 1 s = None /\ walk f pair_graph keys 3 3 s = None /\ walk f pair_graph keys 2 1 (s ++ B "[]") = None /\ walk f pair_graph keys 0 3 (s ++ B "[]") = None.
Proof.
  intros T. assert (BS : forall s, bracketed (s ++ B "[]") /\ s ++ B "[]" <> B "*").
  { intros s. split; [exists (s ++ B "["), "]"%char; split; [rewrite <- app_assoc; reflexivity|left; reflexivity]|]. intros A. apply (f_equal (@length _)) in A. rewrite app_length in A. cbn in A. lia. }
  induction f as [|f IH]; intros s H; [repeat split; reflexivity|]. destruct (BS s) as [B1 B2]. pose proof (proj2 (bmem_not_In _ _) (not_key keys _ T B1 B2)) as NK.
  destruct (IH s H) as (_ & _ & I3 & I4). destruct (IH (s ++ B "[]") (or_intror (conj B1 B2))) as (I1 & I2 & _ & _). cbn [walk pair_graph]. rewrite NK. cbn [Nat.eqb]. repeat split; assumption.
Qed.
Theorem C66_pair_refuted keys f : table_ok keys -> resolve f pair_graph keys 0 = None.
Proof.
  intros T. unfold resolve. destruct f as [|f]; [reflexivity|]. cbn [walk pair_graph]. rewrite (proj2 (bmem_not_In _ _) (empty_not_key keys T)). cbn [Nat.eqb]. rewrite (proj1 (pair_runs keys T f [] (or_introl eq_refl))). reflexivity.
Qed.
(** ** C65 *)
Lemma tables : table_ok mysql_keys /\ table_ok pg_keys /\ table_ok sqlite_keys.
Proof.
  assert (A : forall keys, bmem (B "*") keys = true -> forallb (fun k => bseq k (B "*") || (match rev k with c :: _ => negb (beq c "]") && negb (beq c "*") | [] => false end && match k with c :: _ => negb (beq c "*") | [] => false end)) keys = true -> table_ok keys).
  { intros keys H1 H2. split; [apply bmem_In; exact H1|]. intros k I. rewrite forallb_forall in H2. specialize (H2 k I). apply orb_true_iff in H2 as [H2|H2]; [left; apply bseq_eq; exact H2|right]. apply andb_true_iff in H2 as [H2 H3]. split.
    - destruct (rev k) as [|c r] eqn:R; [discriminate|]. exists (rev r), c. split; [rewrite <- (rev_involutive k), R; reflexivity|]. apply andb_true_iff in H2 as [C1 C2]. split; intros ->; discriminate.
    - intros r ->. discriminate. }
  split; [apply A; vm_compute; reflexivity|]. split; apply A; vm_compute; reflexivity.
Qed.
Lemma after_format n r : after_digits (format_uint n ++ "]"%char :: r) = "]"%char :: r.
Proof. pose proof (format_uint_digits n) as D. unfold all_digits in D. induction (format_uint n) as [|c l IH]; [reflexivity|]. inversion D as [|? ? Dc Dl]; subst. cbn [app after_digits]. rewrite Dc. apply IH. exact Dl. Qed.
Lemma fixed_some n e : In e [B "rune"; B "string"; B "byte"] -> fixed_array (B "[" ++ format_uint n ++ B "]" ++ e) = Some e.
Proof.
  intros I. pose proof (after_format n e) as A. pose proof (format_uint_nonempty n) as N. pose proof (format_uint_digits n) as D. unfold all_digits in D. destruct (format_uint n) as [|d l]; [contradiction|]. inversion D as [|? ? Dd Dl]; subst.
  change (B "[") with ["["%char]. change (B "]") with ["]"%char]. cbn [app] in *. cbn [after_digits] in A. rewrite Dd in A. unfold fixed_array. rewrite Dd. change (beq "[" "[") with true. cbn [andb app]. rewrite A. change (beq "]" "]") with true. rewrite (proj2 (bmem_In _ _) I). reflexivity.
Qed.
Lemma after_split s : exists d, s = d ++ after_digits s.
Proof. induction s as [|c s [d IH]]; [exists []; reflexivity|]. cbn [after_digits]. destruct (is_digit c); [exists (c :: d); cbn; congruence|exists []; reflexivity]. Qed.
Lemma fixed_inv s e : fixed_array s = Some e -> exists d, s = B "[" ++ d ++ B "]" ++ e.
Proof.
  unfold fixed_array. destruct s as [|c [|d r]]; try discriminate. destruct (beq c "[" && is_digit d) eqn:C; [|discriminate]. apply andb_true_iff in C as [C _]. apply Ascii.eqb_eq in C as ->. destruct (after_split r) as [m A]. destruct (after_digits r) as [|b w]; [discriminate|].
  destruct (beq b "]" && _) eqn:C2; [|discriminate]. apply andb_true_iff in C2 as [C2 _]. apply Ascii.eqb_eq in C2 as ->. intros X. injection X as <-. exists (d :: m). rewrite A. reflexivity.
Qed.
(** Names of basic types and structs are names *)
Definition names_ok (g : graph) : Prop := forall t n, g t = NBasic n \/ g t = NStruct n -> n <> [] /\ forall r, n <> "*"%char :: r /\ n <> "["%char :: r.
Lemma headed_text g t s : names_ok g -> headed g t -> text g t s -> forall r, s <> "*"%char :: r.
Proof.
  intros NK H. revert s. induction H as [t n G|t n G|t n u G H IH|t e G|t n e G|t r G H IH|t G]; intros s X; inversion X; subst; match goal with A : g ?t = _, A' : g ?t = _ |- _ => rewrite A in A'; try discriminate; injection A' as; subst end; intros r1; try discriminate; try (match goal with Q : g ?y = NBasic ?n |- _ => exact (proj1 (proj2 (NK y n (or_introl Q)) r1)) | Q : g ?y = NStruct ?n |- _ => exact (proj1 (proj2 (NK y n (or_intror Q)) r1)) end); eauto.
Qed.
(** A type that is no pointer: both sides use the mapping that carries the type's own text; fixed arrays of bytes, runes and strings the one for any length; everything else is JSON *)
Theorem C65_value_partial g rank keys x t f s : ends g rank -> table_ok keys -> names_ok g -> headed g t -> rank t < f -> text g t s -> plain g t = None -> has_value x t = false -> has_scan x t = false -> has_mtext x t = false -> has_utext x t = false ->
  exists k, write_enc f g keys [] x t = Some (Map k) /\ read_enc f g keys [] x t = Some (Map k) /\
    (In s keys -> k = s) /\ (forall n e, s = B "[" ++ format_uint n ++ B "]" ++ e -> In e [B "rune"; B "string"; B "byte"] -> In (B "[...]" ++ e) keys -> ~ In s keys -> k = B "[...]" ++ e) /\
    (~ In s keys -> (forall d e, s = B "[" ++ d ++ B "]" ++ e -> ~ In (B "[...]" ++ e) keys) -> k = B "*").
Proof.
  intros E T NK H F X P V1 V2 V3 V4. destruct (walk_head g rank keys E T f t t H F (le_n _)) as (s' & X' & W). rewrite (text_fun g t s' s X' X) in *. clear X' s'.
  assert (EL : elem g t = t) by (unfold elem; inversion H as [? ? G|? ? G|? ? ? G ?|? ? G|? ? ? G|? ? G ?|? G]; rewrite G; reflexivity).
  assert (RS : resolve f g keys t = Some (finish keys s)) by (unfold resolve; rewrite W; reflexivity).
  exists (match finish keys s with Some k => k | None => B "*" end). split; [|split].
  - unfold write_enc. rewrite EL, P. cbn [bmem]. rewrite V1, RS. destruct (finish keys s); [reflexivity|]. rewrite V3. reflexivity.
  - unfold read_enc. rewrite EL, P. cbn [bmem]. rewrite V2, RS. destruct (finish keys s); [reflexivity|]. rewrite V4. reflexivity.
  - assert (ST : (match s with c :: r => if beq c "*" && bmem r keys then Some r else None | [] => None end) = None :> option bytes).
    { destruct s as [|c r] eqn:ES; [reflexivity|]. destruct (beq c "*") eqn:C; [|reflexivity]. apply Ascii.eqb_eq in C as ->. exfalso. exact (headed_text g t _ NK H X r eq_refl). }
    unfold finish. rewrite ST. split; [|split].
    + intros I. rewrite (proj2 (bmem_In _ _) I). reflexivity.
    + intros n e -> I K N. rewrite (proj2 (bmem_not_In _ _) N). rewrite (fixed_some n e I). cbn zeta. rewrite (proj2 (bmem_In _ _) K). reflexivity.
    + intros N K. rewrite (proj2 (bmem_not_In _ _) N). destruct (fixed_array s) as [e|] eqn:FA; [|reflexivity]. cbn zeta. destruct (fixed_inv s e FA) as (d & S'). rewrite (proj2 (bmem_not_In _ _) (K d e S')). reflexivity.
Qed.
(** A pointer to a basic type, a struct or a slice is read as its element was written *)
Theorem C65_pointer_partial g rank keys x t u f : ends g rank -> table_ok keys -> names_ok g -> incl [B "string"; B "bool"; B "int64"; B "float64"; B "time.Time"] keys -> rank t < f -> g t = NPtr u ->
  (exists n, g u = NBasic n) \/ (exists n, g u = NStruct n) \/ (exists e, g u = NSlice e) ->
  has_value x u = has_scan x u -> has_mtext x u = has_utext x u -> (plain g u <> None -> has_scan x u = false) -> agree (write_enc f g keys [] x t) (read_enc f g keys [] x t).
Proof.
  intros E T NK BK F G U HV HT HP. assert (EL : elem g t = u) by (unfold elem; rewrite G; reflexivity). assert (PT : plain g t = None) by (unfold plain; rewrite G; reflexivity).
  assert (RU : rank u < rank t) by (apply E; unfold child; rewrite G; reflexivity).
  (* what both walks end with *)
  assert (W : exists s, s <> [] /\ (forall r, s <> "*"%char :: r) /\ fixed_array s = None /\ resolve f g keys u = Some (finish keys s) /\ resolve f g keys t = Some (finish keys ("*"%char :: s)) /\ (forall n, plain g u = Some n -> s = n /\ In n keys)).
  { destruct f as [|[|f]]; [lia|lia|]. destruct U as [[n Gu]|[[n Gu]|[e Gu]]].
    - destruct (NK u n (or_introl Gu)) as [N1 N2]. exists n. split; [exact N1|]. split; [intros r; apply N2|]. split; [destruct n as [|c [|d r]]; try reflexivity; unfold fixed_array; destruct (beq c "[") eqn:C; [apply Ascii.eqb_eq in C as ->; exfalso; exact (proj2 (N2 _) eq_refl)|reflexivity]|].
      split; [unfold resolve; cbn [walk]; rewrite Gu; reflexivity|]. split; [unfold resolve; cbn [walk]; rewrite G; cbn [walk]; rewrite Gu; reflexivity|]. unfold plain. rewrite Gu. intros n' X. destruct (bmem n _) eqn:BM; [|discriminate]. injection X as <-. split; [reflexivity|]. apply bmem_In in BM. apply BK. cbn [In] in *. tauto.
    - destruct (NK u n (or_intror Gu)) as [N1 N2]. exists n. split; [exact N1|]. split; [intros r; apply N2|]. split; [destruct n as [|c [|d r]]; try reflexivity; unfold fixed_array; destruct (beq c "[") eqn:C; [apply Ascii.eqb_eq in C as ->; exfalso; exact (proj2 (N2 _) eq_refl)|reflexivity]|].
      split; [unfold resolve; cbn [walk]; rewrite Gu; reflexivity|]. split; [unfold resolve; cbn [walk]; rewrite G; cbn [walk]; rewrite Gu; reflexivity|]. unfold plain. rewrite Gu. intros n' X. destruct (bseq n _) eqn:BM; [|discriminate]. injection X as <-. split; [reflexivity|]. apply bseq_eq in BM as ->. apply BK. cbn [In]. tauto.
    - assert (RE : rank e < rank u) by (apply E; unfold child; rewrite Gu; reflexivity).
      destruct (walk_long g rank keys E T (S f) e u (B "[]") ltac:(lia) ltac:(lia)) as (y & X & W1); [exists (B "["), "]"%char; split; [reflexivity|left; reflexivity]|discriminate|].
      destruct (walk_long g rank keys E T f e t (B "*[]") ltac:(lia) ltac:(lia)) as (y' & X' & W2); [exists (B "*["), "]"%char; split; [reflexivity|left; reflexivity]|discriminate|].
      pose proof (text_fun g e y y' X X') as ->. exists (B "[]" ++ y'). split; [discriminate|]. split; [discriminate|]. split; [reflexivity|]. split; [|split].
      + unfold resolve. cbn [walk]. rewrite Gu. cbn [walk] in W1. change ([] ++ B "[]") with (B "[]"). cbn [walk]. rewrite W1. reflexivity.
      + unfold resolve. cbn [walk]. rewrite G. cbn [walk]. rewrite Gu. change (([] ++ B "*") ++ B "[]") with (B "*[]"). rewrite W2. reflexivity.
      + intros n X0. unfold plain in X0. rewrite Gu in X0. discriminate. }
  destruct W as (s & N1 & N2 & N3 & R1 & R2 & PL).
  assert (F1 : finish keys s = if bmem s keys then Some s else None).
  { unfold finish. destruct (bmem s keys); [reflexivity|]. rewrite N3. destruct s as [|c r]; [reflexivity|]. destruct (beq c "*") eqn:C; [|reflexivity]. apply Ascii.eqb_eq in C as ->. exfalso. exact (N2 r eq_refl). }
  assert (F2 : finish keys ("*"%char :: s) = if bmem s keys then Some s else None).
  { unfold finish. rewrite (proj2 (bmem_not_In _ _) (star_not_key keys s T N1)). change (beq "*" "*") with true. cbn [andb]. destruct (bmem s keys); [reflexivity|]. destruct s; reflexivity. }
  unfold agree, write_enc, read_enc. rewrite EL, PT. cbn [bmem]. destruct (plain g u) as [n|] eqn:P.
  - destruct (PL n eq_refl) as [-> I]. rewrite (HP ltac:(discriminate)), R2, F2, (proj2 (bmem_In _ _) I). do 2 eexists. split; [reflexivity|]. split; [reflexivity|]. right. exists n. split; reflexivity.
  - rewrite HV. destruct (has_scan x u); [do 2 eexists; split; [reflexivity|]; split; [reflexivity|left; reflexivity]|]. rewrite R1, R2, F1, F2, HT. destruct (bmem s keys); do 2 eexists; (split; [reflexivity|]); (split; [reflexivity|left; reflexivity]).
Qed.
Definition no_facts : facts := Facts (fun _ => []) (fun _ => false) (fun _ => false) (fun _ => false) (fun _ => false).
(** A pointer to a named type that is no struct is always read as JSON, however it was written *)
Theorem C65_named_refuted :
  (forall g keys x t u n v f, table_ok keys -> g t = NPtr u -> g u = NNamed n v -> has_scan x u = false -> 2 <= f -> read_enc f g keys [] x t = Some (Map (B "*"))) /\
  exists g t, ends g (fun n => 2 - n) /\ forall keys f, In keys [mysql_keys; pg_keys; sqlite_keys] -> 3 <= f -> write_enc f g keys [] no_facts t = Some (Map (B "string")) /\ read_enc f g keys [] no_facts t = Some (Map (B "*")).
Proof.
  split.
  - intros g keys x t u n v f T G Gu HS F. destruct f as [|[|f]]; [lia|lia|]. unfold read_enc, plain, elem. rewrite G. cbn [bmem]. rewrite HS. unfold resolve. cbn [walk]. rewrite G. cbn [walk]. rewrite Gu. change ([] ++ B "*") with (B "*"). rewrite (proj2 (bmem_In _ _) (proj1 T)). reflexivity.
  - exists (fun n => match n with 0 => NPtr 1 | 1 => NNamed (B "Status") 2 | _ => NBasic (B "string") end), 0. split.
    + intros [|[|a]] b C; cbn in C; try contradiction; subst; cbn; lia.
    + intros keys f I F. destruct f as [|[|[|f]]]; try lia. cbn [In] in I. repeat destruct I as [<-|I]; try contradiction; split; vm_compute; reflexivity.
Qed.
(** A pointer to a fixed array is written as bytes and read as JSON *)
Theorem C65_array_refuted : exists g t, ends g (fun n => 2 - n) /\ forall keys f, In keys [mysql_keys; pg_keys; sqlite_keys] -> 3 <= f -> write_enc f g keys [] no_facts t = Some (Map (B "[...]byte")) /\ read_enc f g keys [] no_facts t = Some (Map (B "*")).
Proof.
  exists (fun n => match n with 0 => NPtr 1 | 1 => NArr 16 2 | _ => NBasic (B "byte") end), 0. split.
  - intros [|[|a]] b C; cbn in C; try contradiction; subst; cbn; lia.
  - intros keys f I F. destruct f as [|[|[|f]]]; try lia. cbn [In] in I. repeat destruct I as [<-|I]; try contradiction; split; vm_compute; reflexivity.
Qed.
(** The mapping configured for a type writes columns that point to it, but does not read them *)
Theorem C65_custom_refuted g keys custom x t u f : g t = NPtr u -> plain g u = None -> In (name_of x u) custom -> ~ In (name_of x t) custom -> write_enc f g keys custom x t = Some (Custom (name_of x u)) /\ forall n, read_enc f g keys custom x t <> Some (Custom n).
Proof.
  intros G P I N. unfold write_enc, read_enc. assert (EL : elem g t = u) by (unfold elem; rewrite G; reflexivity). rewrite EL, P, (proj2 (bmem_In _ _) I), (proj2 (bmem_not_In _ _) N). split; [reflexivity|]. intros n. unfold plain. rewrite G. destruct (has_scan x u); [discriminate|]. destruct (resolve f g keys t) as [[k|]|]; [discriminate| |discriminate]. destruct (has_utext x u); discriminate.
Qed.
(** A type with a Value method and no Scan method is written by the method and never read by one *)
Theorem C65_valuer_refuted g keys x t f : elem g t = t -> plain g t = None -> has_value x t = true -> has_scan x t = false -> write_enc f g keys [] x t = Some Own /\ read_enc f g keys [] x t <> Some Own.
Proof.
  intros EL P V S. unfold write_enc, read_enc. rewrite EL, P, V, S. cbn [bmem]. split; [reflexivity|]. destruct (resolve f g keys t) as [[k|]|]; [discriminate| |discriminate]. destruct (has_utext x t); discriminate.
Qed.
(** The entries for sql.RawBytes and json.RawMessage are never used: the names of types that are no structs are not looked up *)
Theorem C65_dead_refuted : exists g t, g t = NNamed (B "encoding/json.RawMessage") 1 /\ ends g (fun n => 2 - n) /\ forall keys f, In keys [mysql_keys; pg_keys; sqlite_keys] -> 3 <= f -> In (B "encoding/json.RawMessage") keys /\ resolve f g keys t = Some (Some (B "[]byte")).
Proof.
  exists (fun n => match n with 0 => NNamed (B "encoding/json.RawMessage") 1 | 1 => NSlice 2 | _ => NBasic (B "byte") end), 0. split; [reflexivity|]. split.
  - intros [|[|a]] b C; cbn in C; try contradiction; subst; cbn; lia.
  - intros keys f I F. destruct f as [|[|[|f]]]; try lia. cbn [In] in I. repeat destruct I as [<-|I]; try contradiction; (split; [apply bmem_In; vm_compute; reflexivity|vm_compute; reflexivity]).
Qed.
(** ** Cases *)
Definition case_graph : graph := fun n => match n with 0 => NPtr 1 | 1 => NSlice 2 | 2 => NNamed (B "Level") 3 | _ => NBasic (B "int16") end.
Example C65_pointer_case : write_enc 4 case_graph mysql_keys [] no_facts 0 = Some (Map (B "[]int16")) /\ read_enc 4 case_graph mysql_keys [] no_facts 0 = Some (Map (B "[]int16")).
Proof. split; vm_compute; reflexivity. Qed.
Example C65_hyps : ends case_graph (fun n => 3 - n) /\ names_ok case_graph /\ headed case_graph 1 /\ text case_graph 1 (B "[]int16") /\ incl [B "string"; B "bool"; B "int64"; B "float64"; B "time.Time"] pg_keys.
Proof.
  split; [intros [|[|[|a]]] b C; cbn in C; try contradiction; subst; cbn; lia|]. split; [intros [|[|[|a]]] n [C|C]; try discriminate; injection C as <-; split; [discriminate|intros r; split; discriminate]|].
  split; [eapply h_slice; reflexivity|]. split; [eapply x_slice; [reflexivity|]; eapply x_named; [reflexivity|]; apply x_basic; reflexivity|]. intros k I. cbn [In] in I. repeat destruct I as [<-|I]; try contradiction; apply bmem_In; vm_compute; reflexivity.
Qed.
Example C66_case : resolve 3 self_graph mysql_keys 0 = Some None /\ resolve 2 self_graph mysql_keys 0 = None /\ resolve 50 pair_graph mysql_keys 0 = None.
Proof. repeat split; vm_compute; reflexivity. Qed.
Print Assumptions C65_value_partial.
Print Assumptions C65_pointer_partial.
Print Assumptions C65_named_refuted.
Print Assumptions C65_array_refuted.
Print Assumptions C65_custom_refuted.
Print Assumptions C65_valuer_refuted.
Print Assumptions C65_dead_refuted.
Print Assumptions C66_stops_partial.
Print Assumptions C66_self_partial.
Print Assumptions C66_pair_refuted.
