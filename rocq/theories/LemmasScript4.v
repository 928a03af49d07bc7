(** Defaults, names and the comparison of columns in migration files. *)
From Coq Require Import List Bool ZArith Lia.
From Verif Require Import SpecSql Base LemmasBase ModelStrconv ModelUtf8 LemmasUtf8 LemmasGen LemmasGen3 ModelGen ModelMigration ModelScript SpecScript SpecScript2 SpecMigration PropMigration LemmasScript LemmasScript2 LemmasScript3.
Import ListNotations.

Section Lex.
Variable my : bool.
Notation go := (fold_left (sstep my)).
Lemma go_word w : forall acc o, Forall (fun c => word_char c = true) w -> go w (MWord acc, o) = (MWord (rev w ++ acc), o).
Proof. induction w as [|c w IH]; intros acc o F; [reflexivity|]. inversion F as [|? ? W F']; subst. cbn [fold_left sstep]. rewrite W, IH by exact F'. cbn [rev]. rewrite <- app_assoc. reflexivity. Qed.
Lemma word_space c : word_char c = true -> space c = false.
Proof.
  intros W. destruct (space c) eqn:E; [|reflexivity]. exfalso. unfold space in E. repeat (apply orb_true_iff in E as [E|E]); apply beq_eq in E as ->; discriminate W.
Qed.
Lemma begin_word c o : word_char c = true -> begin my c o = (MWord [c], o).
Proof. intros W. unfold begin. rewrite (word_space c W), W. reflexivity. Qed.
Lemma piece_word w : w <> [] -> Forall (fun c => word_char c = true) w -> piece my w = Some [Wd w].
Proof.
  intros N F. destruct w as [|c w]; [contradiction|]. inversion F as [|? ? W F']; subst. unfold piece, scan. cbn [fold_left sstep]. rewrite (begin_word c [] W), (go_word w [c] [] F'). cbn [sclose rev app]. rewrite rev_app_distr, rev_involutive. reflexivity.
Qed.
Lemma piece_minus w : w <> [] -> Forall (fun c => word_char c = true) w -> piece my ("-"%char :: w) = Some [Sy "-"; Wd w].
Proof.
  intros N F. destruct w as [|c w]; [contradiction|]. inversion F as [|? ? W F']; subst. unfold piece, scan. cbn [fold_left sstep]. replace (begin my "-" []) with (MDash, @nil stok) by (unfold begin, opens; case my; reflexivity). cbn [sstep].
  assert (D : beq c "-" = false) by (destruct (beq c "-") eqn:E; [apply beq_eq in E as ->; discriminate W|reflexivity]). rewrite D, (begin_word c _ W), (go_word w [c] _ F'). cbn [sclose rev app]. rewrite rev_app_distr, rev_involutive. reflexivity.
Qed.
(** A string literal says exactly the string that holds neither quotes nor, in MySQL, backslashes *)
Notation plain_string := (plain_string my).
Lemma go_string s : forall acc o, plain_string s -> go s (MQuote squote acc, o) = (MQuote squote (rev s ++ acc), o).
Proof.
  induction s as [|c s IH]; intros acc o (NQ & NB); [reflexivity|]. cbn [fold_left sstep].
  assert (C : beq c squote = false) by (destruct (beq c squote) eqn:E; [apply beq_eq in E as ->; exfalso; apply NQ; left; reflexivity|reflexivity]). rewrite C.
  assert (K : my && beq c backslash = false) by (destruct my; [|reflexivity]; destruct (beq c backslash) eqn:E; [apply beq_eq in E as ->; exfalso; apply NB; [reflexivity|left; reflexivity]|reflexivity]). rewrite K. cbn [andb].
  rewrite IH by (split; [intros I; apply NQ; right; exact I|intros M I; apply (NB M); right; exact I]). cbn [rev]. rewrite <- app_assoc. reflexivity.
Qed.
Lemma piece_string s : plain_string s -> piece my (squote :: s ++ [squote]) = Some [St s].
Proof.
  intros H. unfold piece, scan. cbn [fold_left sstep]. replace (begin my squote []) with (MQuote squote [], @nil stok) by (unfold begin, opens; case my; reflexivity). rewrite fold_left_app, (go_string s [] [] H). cbn [fold_left sstep]. rewrite (proj2 (beq_eq _ _) eq_refl), app_nil_r. cbn [sclose rev app]. rewrite rev_involutive. reflexivity.
Qed.
(** How many bytes of content a state holds *)
Definition tok_size (t : stok) : nat := match t with Wd w => length w | Nm n => length n | St s => length s | Sy _ => 0 end.
Definition sizes (o : list stok) : nat := fold_right (fun t n => tok_size t + n) 0 o.
Definition size (s : smode * list stok) : nat := (match fst s with MWord a | MQuote _ a | MEsc _ a | MEnd _ a => length a | _ => 0 end) + sizes (snd s).
Lemma quoted_size q a : tok_size (quoted my q a) = length a.
Proof. unfold quoted. destruct (beq q squote); [reflexivity|]. destruct (beq q backtick); [reflexivity|]. destruct my; reflexivity. Qed.
Lemma begin_size c o : size (begin my c o) <= S (sizes o).
Proof. unfold begin. repeat match goal with |- context [if ?b then _ else _] => destruct b; [unfold size; cbn [fst snd length]; lia|] end. unfold size, sizes. cbn [fst snd fold_right tok_size]. lia. Qed.
Lemma step_size s c : size (sstep my s c) <= S (size s).
Proof.
  destruct s as [m o]. destruct m as [|acc|q0 acc|q0 acc|q0 acc| |]; cbn [sstep].
  - apply begin_size.
  - destruct (word_char c); [unfold size; cbn [fst snd length]; lia|]. etransitivity; [apply begin_size|]. unfold size. cbn [fst snd sizes fold_right tok_size]. rewrite rev_length. unfold sizes. lia.
  - destruct (beq c q0); [unfold size; cbn [fst snd]; lia|]. destruct (my && beq c backslash && negb (beq q0 backtick)); unfold size; cbn [fst snd length]; lia.
  - unfold size. cbn [fst snd length]. lia.
  - destruct (beq c q0); [unfold size; cbn [fst snd length]; lia|]. etransitivity; [apply begin_size|]. unfold size. cbn [fst snd sizes fold_right]. rewrite quoted_size, rev_length. unfold sizes. lia.
  - destruct (beq c "-"); [unfold size; cbn [fst snd]; lia|]. etransitivity; [apply begin_size|]. unfold size. cbn [fst snd sizes fold_right tok_size]. unfold sizes. lia.
  - destruct (beq c LF); unfold size; cbn [fst snd]; lia.
Qed.
Lemma go_size x : forall s, size (go x s) <= length x + size s.
Proof. induction x as [|c x IH]; intros s; [cbn; lia|]. cbn [fold_left length]. etransitivity; [apply IH|]. pose proof (step_size s c). lia. Qed.
Lemma close_size s ts : sclose my s = Some ts -> sizes (rev ts) = size s.
Proof.
  destruct s as [m o]. destruct m as [|acc|q0 acc|q0 acc|q0 acc| |]; cbn [sclose]; intros E; try discriminate; injection E as <-; cbn [rev]; rewrite ?rev_app_distr, ?rev_involutive; cbn [rev app]; unfold size; cbn [fst snd]; try reflexivity; cbn [sizes fold_right tok_size]; rewrite ?quoted_size, ?rev_length; reflexivity.
Qed.
(** The closing quote adds nothing when the literal is closed *)
Lemma last_size s ts : okm my (fst s) -> sclose my (sstep my s squote) = Some ts -> size (sstep my s squote) <= size s.
Proof.
  destruct s as [m o]. assert (BN : forall o', exists k, begin my squote o' = (MQuote squote [], k)) by (intros o'; exists o'; unfold begin, opens; case my; reflexivity).
  destruct m as [|acc|q0 acc|q0 acc|q0 acc| |]; cbn [sstep]; intros K E.
  - destruct (BN o) as (k & Q). rewrite Q in E. discriminate E.
  - change (word_char squote) with false in *. cbv iota in *. destruct (BN (Wd (rev acc) :: o)) as (k & Q). rewrite Q in E. discriminate E.
  - destruct (beq squote q0) eqn:EQ; [unfold size; cbn [fst snd]; lia|]. exfalso. destruct (my && beq squote backslash && negb (beq q0 backtick)); discriminate E.
  - discriminate E.
  - destruct (beq squote q0) eqn:EQ; [discriminate E|]. destruct (BN (quoted my q0 (rev acc) :: o)) as (k & Q). rewrite Q in E. discriminate E.
  - change (beq squote "-") with false in *. cbv iota in *. destruct (BN (Sy "-" :: o)) as (k & Q). rewrite Q in E. discriminate E.
  - change (beq squote LF) with false in *. cbv iota in *. unfold size. cbn [fst snd]. lia.
Qed.
Lemma first_special s : ~ plain_string s -> exists a c b, s = a ++ c :: b /\ plain_string a /\ (c = squote \/ my = true /\ c = backslash).
Proof.
  induction s as [|c s IH]; intros H; [exfalso; apply H; split; [intros []|intros _ []]|].
  destruct (beq c squote) eqn:E; [apply beq_eq in E as ->; exists [], squote, s; split; [reflexivity|]; split; [split; [intros []|intros _ []]|left; reflexivity]|].
  destruct (my && beq c backslash) eqn:E2; [apply andb_prop in E2 as [M E2]; apply beq_eq in E2 as ->; exists [], backslash, s; split; [reflexivity|]; split; [split; [intros []|intros _ []]|right; split; [exact M|reflexivity]]|].
  assert (H' : ~ plain_string s).
  { intros (A & C). apply H. split; [intros [X|X]; [subst c; rewrite (proj2 (beq_eq _ _) eq_refl) in E; discriminate|contradiction]|]. intros M [X|X]; [|exact (C M X)]. subst c. rewrite M, (proj2 (beq_eq _ _) eq_refl) in E2. discriminate. }
  destruct (IH H') as (a & x & b & -> & (PA & PB) & O). exists (c :: a), x, b. split; [reflexivity|]. split; [|exact O]. split; [intros [X|X]; [subst c; rewrite (proj2 (beq_eq _ _) eq_refl) in E; discriminate|contradiction]|]. intros M [X|X]; [|exact (PB M X)]. subst c. rewrite M, (proj2 (beq_eq _ _) eq_refl) in E2. discriminate.
Qed.
Lemma special_step c a : (c = squote \/ my = true /\ c = backslash) -> size (sstep my (MQuote squote a, []) c) = length a.
Proof.
  intros [->|[M ->]]; cbn [sstep].
  - rewrite (proj2 (beq_eq _ _) eq_refl). unfold size. cbn. lia.
  - change (beq backslash squote) with false. rewrite M. unfold size. cbn. lia.
Qed.
Lemma piece_string_only s : ~ plain_string s -> piece my (squote :: s ++ [squote]) <> Some [St s].
Proof.
  intros H P. destruct (first_special s H) as (a & c & b & -> & PA & O). unfold piece, scan in P. cbn [fold_left] in P. replace (sstep my (MIdle, []) squote) with (MQuote squote [], @nil stok) in P by (cbn [sstep]; unfold begin, opens; case my; reflexivity).
  rewrite <- app_assoc in P. cbn [app] in P. rewrite fold_left_app, (go_string a [] [] PA), app_nil_r in P. cbn [fold_left] in P. pose proof (special_step c (rev a) O) as SS. rewrite rev_length in SS.
  set (s1 := sstep my (MQuote squote (rev a), []) c) in *. rewrite fold_left_app in P. cbn [fold_left] in P. pose proof (go_size b s1) as GS. set (s2 := go b s1) in *.
  assert (K1 : okm my (fst s1)) by (apply step_ok; unfold okm, opens; reflexivity). assert (K2 : okm my (fst s2)) by (unfold s2; destruct s1 as [m1 o1]; apply scan_ok; exact K1).
  assert (P' : sclose my (sstep my s2 squote) = Some [St (a ++ c :: b)]) by (destruct (sstep my s2 squote) as [m o]; destruct m; try discriminate P; exact P).
  pose proof (last_size s2 _ K2 P') as LS. pose proof (close_size _ _ P') as CS. cbn [rev app sizes fold_right tok_size] in CS. rewrite app_length in CS. cbn [length] in CS. lia.
Qed.
End Lex.
