(** Lemmas on the text of migration files. *)
From Coq Require Import List Bool ZArith Lia.
From Verif Require Import Base LemmasBase ModelStrconv ModelGen ModelMigration ModelScript SpecScript.
Import ListNotations.

(** ** Lines *)
Lemma lines_ne s : lines s <> [].
Proof. destruct s as [|c r]; [discriminate|]. cbn [lines]. destruct (beq c LF); [discriminate|]. destruct (lines r); discriminate. Qed.
Lemma lines_app a b : lines (a ++ LF :: b) = lines a ++ lines b.
Proof.
  induction a as [|c a IH]; [reflexivity|]. cbn [app lines]. rewrite IH. destruct (beq c LF); [reflexivity|]. pose proof (lines_ne a). destruct (lines a); [contradiction|]. reflexivity.
Qed.
Lemma lines_one x : one_line x -> lines x = [x].
Proof.
  unfold one_line. induction x as [|c x IH]; intros N; [reflexivity|]. cbn [lines]. rewrite IH by (intros I; apply N; right; exact I).
  destruct (beq c LF) eqn:E; [|reflexivity]. apply beq_eq in E as ->. exfalso. apply N. left. reflexivity.
Qed.
Lemma one_line_app a b : one_line a -> one_line b -> one_line (a ++ b).
Proof. unfold one_line. intros A C I. apply in_app_iff in I as [I|I]; auto. Qed.
Lemma one_line_cons c b : c <> LF -> one_line b -> one_line (c :: b).
Proof. unfold one_line. intros A C [I|I]; auto. Qed.
Lemma one_line_b x : forallb (fun c => negb (beq c LF)) x = true -> one_line x.
Proof. intros H I. rewrite forallb_forall in H. specialize (H _ I). rewrite (proj2 (beq_eq LF LF) eq_refl) in H. discriminate. Qed.

(** ** Tokens *)
Section Lex.
Variable my : bool.
Notation step := (sstep my).
Notation go := (fold_left (sstep my)).
Definition sep (c : byte) : bool := negb (word_char c) && negb (opens my c) && negb (beq c "-").
Lemma begin_frame c o out : begin my c (o ++ out) = (fst (begin my c o), snd (begin my c o) ++ out).
Proof. unfold begin. repeat match goal with |- context [if ?b then _ else _] => destruct b; [reflexivity|] end. reflexivity. Qed.
Lemma step_frame m c o out : step (m, o ++ out) c = (fst (step (m, o) c), snd (step (m, o) c) ++ out).
Proof.
  unfold sstep. destruct m; try reflexivity.
  - apply begin_frame.
  - destruct (word_char c); [reflexivity|]. exact (begin_frame c (Wd (rev acc) :: o) out).
  - destruct (beq c q); [reflexivity|]. destruct (my && beq c backslash && negb (beq q backtick)); reflexivity.
  - destruct (beq c q); [reflexivity|]. exact (begin_frame c (quoted my q (rev acc) :: o) out).
  - destruct (beq c "-"); [reflexivity|]. exact (begin_frame c (Sy "-" :: o) out).
  - destruct (beq c LF); reflexivity.
Qed.
Lemma go_frame x : forall m o out, go x (m, o ++ out) = (fst (go x (m, o)), snd (go x (m, o)) ++ out).
Proof. induction x as [|c x IH]; intros m o out; [reflexivity|]. cbn [fold_left]. rewrite step_frame. destruct (step (m, o) c) as [m1 o1]. apply IH. Qed.
Lemma go_out x out : go x (MIdle, out) = (fst (scan my x), snd (scan my x) ++ out).
Proof. exact (go_frame x MIdle [] out). Qed.
(** Text that ends between two tokens *)
Definition eats (x : bytes) (ts : list stok) : Prop := scan my x = (MIdle, rev ts).
Lemma eats_go x ts out : eats x ts -> go x (MIdle, out) = (MIdle, rev ts ++ out).
Proof. intros E. rewrite go_out, E. reflexivity. Qed.
Lemma eats_app x a y b : eats x a -> eats y b -> eats (x ++ y) (a ++ b).
Proof. intros A C. unfold eats, scan. rewrite fold_left_app. rewrite (eats_go x a [] A), app_nil_r, (eats_go y b _ C), rev_app_distr. reflexivity. Qed.
Lemma eats_nil : eats [] []. Proof. reflexivity. Qed.
Lemma eats_piece x a y b : eats x a -> piece my y = Some b -> piece my (x ++ y) = Some (a ++ b).
Proof.
  intros A C. unfold piece in *. assert (E : scan my (x ++ y) = (fst (scan my y), snd (scan my y) ++ rev a)) by (unfold scan; rewrite fold_left_app; rewrite (eats_go x a [] A), app_nil_r; apply go_out).
  rewrite E. destruct (scan my y) as [m o]. cbn [fst snd]. destruct m; try discriminate; cbn [sclose] in *; injection C as <-; cbn [rev]; rewrite rev_app_distr, rev_involutive, ?app_assoc; reflexivity.
Qed.
Definition okm (m : smode) : Prop := match m with MQuote q _ | MEsc q _ | MEnd q _ => opens my q = true | _ => True end.
Lemma begin_ok c o : okm (fst (begin my c o)).
Proof. unfold begin. destruct (space c); [exact I|]. destruct (word_char c); [exact I|]. destruct (opens my c) eqn:E; [exact E|]. destruct (beq c "-"); exact I. Qed.
Lemma step_ok m o c : okm m -> okm (fst (step (m, o) c)).
Proof.
  intros K. destruct m; cbn [sstep okm] in *; try exact K; try apply begin_ok.
  - destruct (word_char c); [exact I|apply begin_ok].
  - destruct (beq c q); [exact K|]. destruct (my && beq c backslash && negb (beq q backtick)); exact K.
  - destruct (beq c q); [exact K|apply begin_ok].
  - destruct (beq c "-"); [exact I|apply begin_ok].
  - destruct (beq c LF); exact I.
Qed.
Lemma scan_ok x : forall m o, okm m -> okm (fst (go x (m, o))).
Proof. induction x as [|c x IH]; intros m o K; [exact K|]. cbn [fold_left]. pose proof (step_ok m o c K) as K1. destruct (step (m, o) c) as [m1 o1]. apply IH, K1. Qed.
Lemma sep_step s c ts : okm (fst s) -> sep c = true -> match s with (MComment, _) => None | _ => sclose my s end = Some ts -> step s c = begin my c (rev ts).
Proof.
  unfold sep. intros K X E. apply andb_prop in X as [X D]. apply andb_prop in X as [W O]. apply negb_true_iff in W, O, D. destruct s as [m o]. cbn [fst] in K. destruct m; try discriminate; cbn [sclose] in E; injection E as <-; cbn [sstep].
  - rewrite rev_involutive. reflexivity.
  - rewrite W. cbn [rev]. rewrite rev_app_distr, rev_involutive. reflexivity.
  - destruct (beq c q) eqn:EQ; [|cbn [rev]; rewrite rev_app_distr, rev_involutive; reflexivity]. apply beq_eq in EQ as ->. cbn [okm] in K. congruence.
  - rewrite D. cbn [rev]. rewrite rev_app_distr, rev_involutive. reflexivity.
Qed.
Definition starts (y : bytes) : Prop := match y with [] => True | c :: _ => sep c = true end.
Lemma piece_nil : piece my [] = Some []. Proof. reflexivity. Qed.
Lemma go_after x a y : piece my x = Some a -> y <> [] -> starts y -> scan my (x ++ y) = (fst (scan my y), snd (scan my y) ++ rev a).
Proof.
  intros A N H. destruct y as [|c y]; [contradiction|]. cbn [starts] in H. unfold scan. rewrite fold_left_app. cbn [fold_left]. unfold piece in A.
  rewrite (sep_step (go x (MIdle, [])) c a (scan_ok x MIdle [] I) H); [|unfold scan in A; destruct (go x (MIdle, [])) as [m o]; destruct m; exact A].
  change (begin my c (rev a)) with (begin my c ([] ++ rev a)). rewrite begin_frame. cbn [sstep]. destruct (begin my c []) as [m1 o1]. cbn [fst snd]. rewrite go_frame. reflexivity.
Qed.
Lemma piece_app x a y b : piece my x = Some a -> piece my y = Some b -> starts y -> piece my (x ++ y) = Some (a ++ b).
Proof.
  intros A C H. destruct y as [|c y]; [rewrite !app_nil_r; cbn in C; injection C as <-; rewrite app_nil_r; exact A|]. unfold piece in C |- *. rewrite (go_after x a (c :: y) A ltac:(discriminate) H).
  destruct (scan my (c :: y)) as [m o]. cbn [fst snd]. destruct m; try discriminate; cbn [sclose] in *; injection C as <-; cbn [rev]; rewrite rev_app_distr, rev_involutive, ?app_assoc; reflexivity.
Qed.
Lemma piece_eats x a y b : piece my x = Some a -> y <> [] -> eats y b -> starts y -> eats (x ++ y) (a ++ b).
Proof. intros A N C H. unfold eats in *. rewrite (go_after x a y A N H), C. cbn [fst snd]. rewrite rev_app_distr. reflexivity. Qed.
(** A quoted name *)
Definition idq : byte := if my then backtick else dquote.
Lemma go_name n : forall acc o, ~ In idq n -> go n (MQuote idq acc, o) = (MQuote idq (rev n ++ acc), o).
Proof.
  induction n as [|c n IH]; intros acc o N; [reflexivity|]. cbn [fold_left sstep].
  assert (C : beq c idq = false). { destruct (beq c idq) eqn:E; [|reflexivity]. apply beq_eq in E as ->. exfalso. apply N. left. reflexivity. }
  rewrite C. replace (my && beq c backslash && negb (beq idq backtick)) with false by (unfold idq; destruct my; [rewrite andb_false_r; reflexivity|reflexivity]).
  rewrite IH by (intros I; apply N; right; exact I). cbn [rev]. rewrite <- app_assoc. reflexivity.
Qed.
Lemma piece_name n : ~ In idq n -> piece my (idq :: n ++ [idq]) = Some [Nm n].
Proof.
  intros N. unfold piece, scan. change (idq :: n ++ [idq]) with ([idq] ++ n ++ [idq]). rewrite !fold_left_app.
  assert (E : go [idq] (MIdle, []) = (MQuote idq [], [])) by (unfold idq; destruct my; reflexivity). rewrite E, go_name by exact N. rewrite app_nil_r.
  cbn [fold_left sstep]. rewrite (proj2 (beq_eq _ _) eq_refl). cbn [sclose rev app]. rewrite rev_involutive. unfold idq, quoted. destruct my; reflexivity.
Qed.
(** The lines of a section *)
Lemma section_tokens ls tss : Forall2 (fun l ts => eats (l ++ [LF]) ts) ls tss -> stokens my (sql_of ls) = Some (concat tss).
Proof.
  intros F. assert (E : eats (sql_of ls) (concat tss)).
  { induction F as [|l ts ls tss H F IH]; [apply eats_nil|]. unfold sql_of in *. cbn [flat_map concat]. apply eats_app; assumption. }
  unfold stokens. rewrite E. cbn [sclose]. rewrite rev_involutive. reflexivity.
Qed.
Lemma piece_line x a : piece my x = Some a -> eats (x ++ [LF]) a.
Proof. intros A. rewrite <- (app_nil_r a). apply piece_eats; [exact A|discriminate|reflexivity|cbn [starts]; unfold sep, opens; case my; reflexivity]. Qed.
Lemma space_piece y b : piece my y = Some b -> piece my (" "%char :: y) = Some b.
Proof. intros H. exact (eats_piece [" "%char] [] y b eq_refl H). Qed.
End Lex.

(** ** Statements *)
Definition quiet (ts : list stok) : Prop := Forall (fun t => sym ";" t = false) ts.
Lemma statements_quiet a : forall cur b, quiet a -> statements cur (a ++ Sy ";" :: b) = option_map (cons (cur ++ a)) (statements [] b).
Proof.
  induction a as [|t a IH]; intros cur b Q; [cbn [app statements sym]; rewrite (proj2 (beq_eq _ _) eq_refl), app_nil_r; reflexivity|]. inversion Q as [|? ? Q1 Q2]; subst. cbn [app statements]. rewrite Q1, (IH _ _ Q2), <- app_assoc. reflexivity.
Qed.
Lemma calm_quiet a : forall d, calm d a = true -> quiet a.
Proof.
  induction a as [|t a IH]; intros d C; [constructor|]. cbn [calm] in C. destruct (sym ";" t) eqn:E; [discriminate|]. constructor; [exact E|].
  destruct (sym "(" t); [eapply IH, C|]. destruct (sym ")" t); [destruct d; [discriminate|eapply IH, C]|]. destruct (sym "," t); [destruct d; [discriminate|eapply IH, C]|eapply IH, C].
Qed.
Lemma calm_app a b : forall d, calm d a = true -> calm 0 b = true -> calm d (a ++ b) = true.
Proof.
  induction a as [|t a IH]; intros d A C; [cbn [calm app] in *; apply Nat.eqb_eq in A as ->; exact C|]. cbn [calm app] in *. destruct (sym ";" t); [discriminate|].
  destruct (sym "(" t); [auto|]. destruct (sym ")" t); [destruct d; [discriminate|auto]|]. destruct (sym "," t); [destruct d; [discriminate|auto]|auto].
Qed.
Lemma items_calm a : forall d cur b, calm d a = true -> items d cur (a ++ b) = items 0 (cur ++ a) b.
Proof.
  induction a as [|t a IH]; intros d cur b C; [cbn [calm app] in *; apply Nat.eqb_eq in C as ->; rewrite app_nil_r; reflexivity|]. cbn [calm app items] in *. destruct (sym ";" t); [discriminate|].
  assert (E : forall e, calm e a = true -> items e (cur ++ [t]) (a ++ b) = items 0 (cur ++ t :: a) b) by (intros e H; rewrite (IH e _ _ H), <- app_assoc; reflexivity).
  destruct (sym "(" t); [auto|]. destruct (sym ")" t); [destruct d; [discriminate|auto]|]. destruct (sym "," t); [destruct d; [discriminate|auto]|auto].
Qed.
(** Token lists with commas between them *)
Fixpoint commas (l : list (list stok)) : list stok :=
  match l with [] => [] | [x] => x | x :: r => x ++ Sy "," :: commas r end.
Lemma items_commas l : l <> [] -> Forall (fun x => calm 0 x = true) l -> items 0 [] (commas l) = l.
Proof.
  induction l as [|x l IH]; intros N F; [contradiction|]. inversion F as [|? ? F1 F2]; subst. destruct l as [|y l].
  - cbn [commas]. rewrite <- (app_nil_r x) at 1. rewrite (items_calm x 0 [] [] F1). reflexivity.
  - change (commas (x :: y :: l)) with (x ++ Sy "," :: commas (y :: l)). rewrite (items_calm x 0 [] _ F1). cbn [app]. change (items 0 x (Sy "," :: commas (y :: l))) with (x :: items 0 [] (commas (y :: l))). rewrite IH by (discriminate || exact F2). reflexivity.
Qed.
Lemma commas_quiet l : Forall quiet l -> quiet (commas l).
Proof.
  induction l as [|x l IH]; intros F; [constructor|]. inversion F as [|? ? F1 F2]; subst. destruct l as [|y l]; [exact F1|]. change (commas (x :: y :: l)) with (x ++ Sy "," :: commas (y :: l)). apply Forall_app. split; [exact F1|]. constructor; [reflexivity|apply IH, F2].
Qed.
(** ** Lines that belong together: a comma after each but the last *)
Fixpoint ended (e : bytes) (l : list bytes) : list bytes :=
  match l with [] => [e] | [x] => [x ++ e] | x :: r => (x ++ B ",") :: ended e r end.
Definition comma_lf : bytes := B "," ++ [LF].
Lemma lines_join l e : Forall one_line l -> one_line e -> l <> [] -> lines (join comma_lf l ++ e) = ended e l.
Proof.
  induction l as [|x l IH]; intros F E N; [contradiction|]. inversion F as [|? ? F1 F2]; subst. destruct l as [|y l].
  - cbn [join ended]. apply lines_one, one_line_app; assumption.
  - change (join comma_lf (x :: y :: l)) with (x ++ comma_lf ++ join comma_lf (y :: l)). replace ((x ++ comma_lf ++ join comma_lf (y :: l)) ++ e) with ((x ++ B ",") ++ LF :: (join comma_lf (y :: l) ++ e)) by (unfold comma_lf; rewrite <- !app_assoc; reflexivity).
    rewrite lines_app, IH by (assumption || discriminate). rewrite lines_one by (apply one_line_app; [exact F1|apply one_line_b; reflexivity]). reflexivity.
Qed.
Lemma flat_join l : l <> [] -> flat_map (fun a => a ++ comma_lf) l = join comma_lf l ++ comma_lf.
Proof.
  induction l as [|x l IH]; intros N; [contradiction|]. destruct l as [|y l]; [cbn [flat_map join]; rewrite app_nil_r; reflexivity|]. change (join comma_lf (x :: y :: l)) with (x ++ comma_lf ++ join comma_lf (y :: l)). cbn [flat_map] in *. rewrite IH by discriminate. rewrite <- !app_assoc. reflexivity.
Qed.
Lemma trim_comma a : trim (a ++ comma_lf) = a.
Proof.
  unfold trim. assert (L : length (a ++ comma_lf) - 2 = length a) by (rewrite app_length; change (length comma_lf) with 2; lia). rewrite L.
  rewrite nth_error_app2, Nat.sub_diag by lia. change (nth_error comma_lf 0) with (Some ","%char). cbv beta iota. rewrite (proj2 (beq_eq _ _) eq_refl), firstn_app, Nat.sub_diag, firstn_all. cbn [firstn]. rewrite app_nil_r. reflexivity.
Qed.
Lemma trim_other a c e : c <> ","%char -> trim (a ++ [c; e]) = a ++ [c; e].
Proof.
  intros N. unfold trim. assert (L : length (a ++ [c; e]) - 2 = length a) by (rewrite app_length; cbn [length]; lia). rewrite L.
  rewrite nth_error_app2, Nat.sub_diag by lia. cbn [nth_error]. destruct (beq c ",") eqn:E; [apply beq_eq in E; contradiction|reflexivity].
Qed.
