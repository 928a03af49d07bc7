(** Lemmas on the Go reader of SpecSource: texts that are put together. *)
From Verif Require Import Base ModelStrconv SpecGo SpecSource LemmasBase.

(** ** Scanning *)
Lemma scan_app s1 : forall st s2, scan st (s1 ++ s2) = match scan st s1 with Some st' => scan st' s2 | None => None end.
Proof. induction s1 as [|c s1 IH]; intros st s2; [ reflexivity | ]. cbn [app scan]. destruct (step st c); [ apply IH | reflexivity ]. Qed.

(** Tokens before the text do not matter, unless a newline comes first. *)
Definition heavy (st : state) : bool := match snd st with _ :: _ => true | [] => match fst st with Between | Comment => false | InSym s => negb (bseq s (B "/")) | _ => true end end.
Definition under (base : list gtok) (o : option state) : option state := match o with Some (m, a) => Some (m, a ++ base) | None => None end.
Lemma newline_under a base : a <> [] -> newline (a ++ base) = newline a ++ base.
Proof. destruct a as [|t a]; [ congruence | ]. cbn [app newline]. intros _. destruct (ends_line t); reflexivity. Qed.
Lemma start_under a base c : (beq c LF = true -> a <> []) -> start (a ++ base) c = under base (start a c).
Proof.
  intros H. unfold start. destruct (beq c LF) eqn:E; [ cbn; now rewrite newline_under by auto | ].
  repeat match goal with |- context [ if ?b then _ else _ ] => destruct b; [ reflexivity | ] end. reflexivity.
Qed.
Lemma step_under m a base c : (beq c LF = true -> heavy (m, a) = true) -> step (m, a ++ base) c = under base (step (m, a) c).
Proof.
  intros H. destruct m; cbn [step fst snd].
  - apply start_under. intros E. specialize (H E). cbn in H. destruct a; [ discriminate | congruence ].
  - destruct (word_char c); [ reflexivity | ]. apply (start_under (GWord (rev r) :: a) base c). discriminate.
  - destruct (is_digit c); [ reflexivity | ]. destruct (word_char c || _); [ reflexivity | ]. apply (start_under (GNum (rev r) :: a) base c). discriminate.
  - destruct (beq c dquote); [ reflexivity | ]. destruct (beq c LF); [ reflexivity | ]. destruct (beq c backslash); reflexivity.
  - destruct (beq c LF); reflexivity.
  - destruct (beq c backtick); reflexivity.
  - destruct (bmem _ _); [ reflexivity | ]. destruct (bseq s (B "/") && beq c "/"); [ reflexivity | ]. destruct (_ || bseq s (B "..")); [ reflexivity | ]. apply (start_under (GSym s :: a) base c). discriminate.
  - destruct (beq c LF) eqn:E; [ | reflexivity ]. specialize (H eq_refl). cbn in H. cbn. rewrite newline_under; [ reflexivity | ]. destruct a; [ discriminate | congruence ].
Qed.
Lemma newline_heavy a : a <> [] -> exists t r, newline a = t :: r.
Proof. destruct a as [|t a]; [ congruence | ]. intros _. cbn. destruct (ends_line t); eauto. Qed.
Lemma start_heavy a c st : a <> [] -> start a c = Some st -> heavy st = true.
Proof.
  intros N. unfold start. destruct (beq c LF).
  - intros [= <-]. destruct (newline_heavy a N) as (t & r & E). unfold heavy. cbn. now rewrite E.
  - destruct a as [|t a]; [ congruence | ]. intros H.
    repeat match type of H with (if ?b then _ else _) = _ => destruct b; [ injection H as <-; reflexivity | ] end. discriminate.
Qed.
Lemma step_heavy st c st' : heavy st = true -> step st c = Some st' -> heavy st' = true.
Proof.
  destruct st as [m a]. intros H E.
  assert (L : forall x y, heavy (x, (y :: a) : list gtok) = true) by reflexivity.
  destruct m; cbn [step fst snd] in E.
  - eapply start_heavy; [ | exact E ]. cbn in H. destruct a; [ discriminate | congruence ].
  - destruct (word_char c); [ injection E as <-; destruct a; reflexivity | ]. eapply start_heavy; [ | exact E ]. discriminate.
  - destruct (is_digit c); [ injection E as <-; destruct a; reflexivity | ]. destruct (word_char c || _); [ discriminate | ]. eapply start_heavy; [ | exact E ]. discriminate.
  - destruct (beq c dquote); [ injection E as <-; reflexivity | ]. destruct (beq c LF); [ discriminate | ]. destruct (beq c backslash); injection E as <-; destruct a; reflexivity.
  - destruct (beq c LF); [ discriminate | ]. injection E as <-; destruct a; reflexivity.
  - destruct (beq c backtick); injection E as <-; [ reflexivity | destruct a; reflexivity ].
  - destruct (bmem _ _) eqn:M.
    + injection E as <-. destruct a; [ | reflexivity ]. unfold heavy. cbn [fst snd]. destruct (bseq (s ++ [c]) (B "/")) eqn:Q; [ | reflexivity ]. apply bseq_eq in Q. rewrite Q in M. discriminate.
    + destruct (bseq s (B "/") && beq c "/") eqn:Q.
      * injection E as <-. destruct a; [ | reflexivity ]. unfold heavy in H. cbn [fst snd] in H. apply andb_prop in Q. destruct Q as [Q _]. rewrite Q in H. discriminate.
      * destruct (_ || bseq s (B "..")); [ discriminate | ]. eapply start_heavy; [ | exact E ]. discriminate.
  - destruct (beq c LF); [ | injection E as <-; exact H ]. injection E as <-. cbn in H. destruct a as [|t a]; [ discriminate | ]. unfold heavy. cbn. destruct (ends_line t); reflexivity.
Qed.
Lemma scan_under s : forall m a base, heavy (m, a) = true -> scan (m, a ++ base) s = under base (scan (m, a) s).
Proof.
  induction s as [|c s IH]; intros m a base H; [ reflexivity | ]. cbn [scan]. rewrite step_under by auto. destruct (step (m, a) c) as [ [m' a'] | ] eqn:E; [ | reflexivity ]. cbn [under].
  apply IH. eapply step_heavy; eassumption.
Qed.
Lemma scan_line s : forall m a base, ~ In LF s -> scan (m, a ++ base) s = under base (scan (m, a) s).
Proof.
  induction s as [|c s IH]; intros m a base H; [ reflexivity | ]. cbn [scan]. rewrite step_under.
  - destruct (step (m, a) c) as [ [m' a'] | ] eqn:E; [ | reflexivity ]. cbn [under]. apply IH. intros I. apply H. now right.
  - intros E. apply beq_eq in E. subst c. exfalso. apply H. now left.
Qed.

(** ** Texts between tokens *)
Definition scans (s : bytes) (ts : list gtok) : Prop := forall acc, scan (Between, acc) s = Some (Between, rev ts ++ acc).
Definition ends (s : bytes) (ts : list gtok) : Prop := forall acc, exists st, scan (Between, acc) s = Some st /\ finished st = Some (rev ts ++ acc).
Lemma scans_ends s ts : scans s ts -> ends s ts.
Proof. intros H acc. eexists. split; [ apply H | reflexivity ]. Qed.
Lemma scans_nil : scans [] [].
Proof. intros acc. reflexivity. Qed.
Lemma scans_app s1 t1 s2 t2 : scans s1 t1 -> scans s2 t2 -> scans (s1 ++ s2) (t1 ++ t2).
Proof. intros H1 H2 acc. rewrite scan_app, H1, H2, rev_app_distr, app_assoc. reflexivity. Qed.
Lemma scans_ends_app s1 t1 s2 t2 : scans s1 t1 -> ends s2 t2 -> ends (s1 ++ s2) (t1 ++ t2).
Proof. intros H1 H2 acc. rewrite scan_app, H1. destruct (H2 (rev t1 ++ acc)) as (st & E & F). exists st. split; [ exact E | ]. now rewrite rev_app_distr, <- app_assoc. Qed.
(** Constant texts, read by computation *)
Definition literal_tokens (s : bytes) : option (list gtok) :=
  match s with
  | c :: r => match step (Between, []) c with
              | Some st => if heavy st then match scan st r with Some (Between, a) => Some (rev a) | _ => None end else None
              | None => None
              end
  | [] => Some []
  end.
Lemma scans_literal s ts : literal_tokens s = Some ts -> scans s ts.
Proof.
  unfold literal_tokens. intros H acc. destruct s as [|c r]; [ injection H as <-; reflexivity | ]. destruct (step (Between, []) c) as [ [m a] | ] eqn:E; [ | discriminate ]. destruct (heavy (m, a)) eqn:HV; [ | discriminate ].
  assert (W : step (Between, acc) c = Some (m, a ++ acc)).
  { change acc with ([] ++ acc) at 1. rewrite step_under; [ now rewrite E | ]. intros L. apply beq_eq in L. subst c. cbn in E. injection E as <- <-. discriminate. }
  cbn [scan]. rewrite W, scan_under by exact HV. destruct (scan (m, a) r) as [ [ [ | | | | | | | ] a'] | ]; try discriminate. injection H as <-. cbn. now rewrite rev_involutive.
Qed.
(** A text that ends with a token, and one that does not continue it *)
Definition stops (c : byte) : bool := in_bytes c (B "()[]{},; ") || beq c LF.
Lemma stops_step st acc c : finished st = Some acc -> stops c = true -> step st c = start acc c.
Proof.
  intros F H. destruct st as [m a].
  assert (NW : word_char c = false /\ is_digit c = false /\ beq c "." = false /\ beq c "/" = false /\ beq c "*" = false).
  { unfold stops in H. apply orb_prop in H. destruct H as [H|H]; [ | apply beq_eq in H; subst c; repeat split; reflexivity ].
    unfold in_bytes in H. apply existsb_exists in H. destruct H as (x & I & E). apply beq_eq in E. subst x. cbn in I. repeat (destruct I as [<-|I]; [ repeat split; reflexivity | ]). destruct I. }
  destruct NW as (N1 & N2 & N3 & N4 & N5).
  assert (NO : forall s, bmem (s ++ [c]) operators = false).
  { intros s. destruct (bmem (s ++ [c]) operators) eqn:M; [ | reflexivity ]. exfalso. apply bmem_In in M.
    assert (L : In c (map (fun o => last o " "%char) operators)) by (apply in_map_iff; exists (s ++ [c]); split; [ apply last_last | exact M ]).
    clear M F. unfold stops in H. apply orb_prop in H. destruct H as [H|H].
    - unfold in_bytes in H. apply existsb_exists in H. destruct H as (x & I & E). apply beq_eq in E. subst x. cbn in I. repeat (destruct I as [<-|I]; [ cbn in L; repeat (destruct L as [L|L]; [ discriminate | ]); exact L | ]). destruct I.
    - apply beq_eq in H. subst c. cbn in L. repeat (destruct L as [L|L]; [ discriminate | ]); exact L. }
  destruct m; cbn [finished fst snd] in F; try discriminate; cbn [step fst snd].
  - injection F as <-. reflexivity.
  - injection F as <-. now rewrite N1.
  - injection F as <-. now rewrite N2, N1, N3.
  - rewrite NO, N4, andb_false_r. destruct (bseq s (B "..")) eqn:D; [ discriminate | ]. injection F as <-. now rewrite N5, N2, !andb_false_r.
Qed.
Lemma ends_scans e x c s y : ends e x -> stops c = true -> scans (c :: s) y -> scans (e ++ c :: s) (x ++ y).
Proof.
  intros E H Y acc. destruct (E acc) as (st & E1 & E2). rewrite scan_app, E1. pose proof (Y (rev x ++ acc)) as Y1. cbn [scan] in Y1 |- *. rewrite (stops_step st (rev x ++ acc) c E2 H). cbn [step fst snd] in Y1.
  rewrite Y1. now rewrite rev_app_distr, <- app_assoc.
Qed.
Lemma ends_ends e x c s y : ends e x -> stops c = true -> ends (c :: s) y -> ends (e ++ c :: s) (x ++ y).
Proof.
  intros E H Y acc. destruct (E acc) as (st & E1 & E2). rewrite scan_app, E1. destruct (Y (rev x ++ acc)) as (st' & Y1 & Y2). exists st'. cbn [scan] in Y1 |- *. rewrite (stops_step st (rev x ++ acc) c E2 H). cbn [step fst snd] in Y1.
  rewrite Y1. split; [ reflexivity | ]. now rewrite Y2, rev_app_distr, <- app_assoc.
Qed.
Lemma ends_blank e x s y : ends e x -> scans s y -> scans (e ++ " "%char :: s) (x ++ y).
Proof. intros E Y. apply ends_scans; [ exact E | reflexivity | ]. intros acc. cbn [scan]. change (step (Between, acc) " ") with (Some (Between, acc)). apply Y. Qed.
Lemma ends_blank_ends e x s y : ends e x -> ends s y -> ends (e ++ " "%char :: s) (x ++ y).
Proof. intros E Y. apply ends_ends; [ exact E | reflexivity | ]. intros acc. cbn [scan]. change (step (Between, acc) " ") with (Some (Between, acc)). apply Y. Qed.
(** The end of a line *)
Definition complete (ts : list gtok) : Prop := exists t r, rev ts = t :: r /\ ends_line t = true.
Lemma complete_app a b : complete b -> complete (a ++ b).
Proof. intros (t & r & E & H). exists t, (r ++ rev a). now rewrite rev_app_distr, E. Qed.
Lemma complete_last a t : ends_line t = true -> complete (a ++ [t]).
Proof. intros H. exists t, (rev a). now rewrite rev_app_distr. Qed.
Definition semicolon : gtok := GSym (B ";").
Lemma newline_complete ts acc : complete ts -> newline (rev ts ++ acc) = semicolon :: rev ts ++ acc.
Proof. intros (t & r & E & H). rewrite E. cbn [app newline]. now rewrite H. Qed.
Lemma ends_newline e x s y : ends e x -> complete x -> scans s y -> scans (e ++ LF :: s) (x ++ semicolon :: y).
Proof.
  intros E C Y acc. destruct (E acc) as (st & E1 & E2). rewrite scan_app, E1. cbn [scan]. rewrite (stops_step st _ LF E2 eq_refl). change (start (rev x ++ acc) LF) with (Some (Between, newline (rev x ++ acc))). cbn iota. rewrite newline_complete by exact C. rewrite Y. rewrite rev_app_distr. cbn [rev]. now rewrite <- !app_assoc.
Qed.
Lemma scan_comment s : ~ In LF s -> forall acc, scan (Comment, acc) s = Some (Comment, acc).
Proof.
  induction s as [|c s IH]; intros H acc; [ reflexivity | ]. cbn [scan step fst snd]. destruct (beq c LF) eqn:E; [ apply beq_eq in E; subst c; exfalso; apply H; now left | ]. apply IH. intros I. apply H. now right.
Qed.
Lemma ends_comment e x k s y : ends e x -> complete x -> ~ In LF k -> scans s y -> scans (e ++ B " // " ++ k ++ LF :: s) (x ++ semicolon :: y).
Proof.
  intros E C K Y acc. destruct (E acc) as (st & E1 & E2). rewrite scan_app, E1. change (B " // " ++ k ++ LF :: s) with (" "%char :: "/"%char :: "/"%char :: " "%char :: k ++ LF :: s). cbn [scan].
  rewrite (stops_step st _ " " E2 eq_refl). change (start (rev x ++ acc) " ") with (Some (Between, rev x ++ acc)). cbn iota.
  change (step (Between, rev x ++ acc) "/") with (Some (InSym (B "/"), rev x ++ acc)). cbn iota. change (step (InSym (B "/"), rev x ++ acc) "/") with (Some (Comment, rev x ++ acc)). cbn iota.
  change (step (Comment, rev x ++ acc) " ") with (Some (Comment, rev x ++ acc)). cbn iota. rewrite scan_app, scan_comment by exact K. cbn [scan step fst snd]. change (beq LF LF) with true. cbn iota. rewrite newline_complete by exact C. rewrite Y. rewrite rev_app_distr. cbn [rev]. now rewrite <- !app_assoc.
Qed.
Lemma scans_comma_comment k s y : ~ In LF k -> scans s y -> scans (B ", // " ++ k ++ LF :: s) (GSym (B ",") :: y).
Proof.
  intros K Y acc. change (B ", // " ++ k ++ LF :: s) with (","%char :: " "%char :: "/"%char :: "/"%char :: " "%char :: k ++ LF :: s). cbn [scan].
  change (step (Between, acc) ",") with (Some (Between, GSym (B ",") :: acc)). cbn iota. set (a := GSym (B ",") :: acc). change (step (Between, a) " ") with (Some (Between, a)). cbn iota.
  change (step (Between, a) "/") with (Some (InSym (B "/"), a)). cbn iota. change (step (InSym (B "/"), a) "/") with (Some (Comment, a)). cbn iota.
  change (step (Comment, a) " ") with (Some (Comment, a)). cbn iota. rewrite scan_app, scan_comment by exact K. cbn [scan step fst snd]. change (beq LF LF) with true. cbn iota. change (newline a) with a. rewrite Y. cbn [rev]. now rewrite <- app_assoc.
Qed.

(** ** Single tokens *)
Lemma scan_word s : Forall (fun c => word_char c = true) s -> forall r acc, scan (InWord r, acc) s = Some (InWord (rev s ++ r), acc).
Proof.
  induction 1 as [|c s H F IH]; intros r acc; [ reflexivity | ]. cbn [scan step fst snd]. rewrite H, IH. cbn [rev]. now rewrite <- app_assoc.
Qed.
Lemma start_word acc c : word_start c = true -> start acc c = Some (InWord [c], acc).
Proof.
  intros H. unfold start.
  assert (E : beq c LF = false /\ beq c " " = false /\ N.eqb (code c) 9 = false /\ N.eqb (code c) 13 = false).
  { assert (G : (65 <= code c)%N).
    { unfold word_start, is_alpha, is_upper, is_lower, in_range in H.
      repeat (apply orb_prop in H; destruct H as [H|H]); try (apply andb_prop in H; destruct H as [H H']); try (apply N.leb_le in H; lia). apply beq_eq in H. subst c. vm_compute. discriminate. }
    clear H. repeat split; try (apply N.eqb_neq; lia); apply beq_neq; intros ->; vm_compute in G; apply G; reflexivity. }
  destruct E as (-> & -> & -> & ->). cbn [orb]. now rewrite H.
Qed.
Definition go_word (s : bytes) : Prop := match s with c :: r => word_start c = true /\ Forall (fun c => word_char c = true) r | [] => False end.
Lemma ends_word s : go_word s -> ends s [GWord s].
Proof.
  destruct s as [|c r]; [ intros [] | ]. intros [H F] acc. cbn [scan step fst snd]. rewrite start_word by exact H. rewrite scan_word by exact F. eexists. split; [ reflexivity | ]. cbn. now rewrite rev_app_distr, rev_involutive.
Qed.
Lemma scan_digits s : Forall (fun c => is_digit c = true) s -> forall r acc, scan (InNum r, acc) s = Some (InNum (rev s ++ r), acc).
Proof.
  induction 1 as [|c s H F IH]; intros r acc; [ reflexivity | ]. cbn [scan step fst snd]. rewrite H, IH. cbn [rev]. now rewrite <- app_assoc.
Qed.
Lemma start_digit acc c : is_digit c = true -> start acc c = Some (InNum [c], acc).
Proof.
  intros H. unfold start.
  assert (G : (48 <= code c <= 57)%N) by (unfold is_digit, in_range in H; apply andb_prop in H; destruct H as [H1 H2]; apply N.leb_le in H1; apply N.leb_le in H2; lia).
  assert (E : beq c LF = false /\ beq c " " = false /\ N.eqb (code c) 9 = false /\ N.eqb (code c) 13 = false /\ word_start c = false).
  { split; [ apply beq_neq; intros ->; vm_compute in G; destruct G as [G _]; now apply G | ]. split; [ apply beq_neq; intros ->; vm_compute in G; destruct G as [G _]; now apply G | ]. split; [ apply N.eqb_neq; lia | ]. split; [ apply N.eqb_neq; lia | ].
    unfold word_start, is_alpha, is_upper, is_lower, in_range. assert (W : beq c "_" = false) by (apply beq_neq; intros ->; vm_compute in G; destruct G as [_ G]; now apply G). rewrite W.
    replace (N.leb 65 (code c)) with false by (symmetry; apply N.leb_gt; lia). replace (N.leb 97 (code c)) with false by (symmetry; apply N.leb_gt; lia). replace (N.leb 128 (code c)) with false by (symmetry; apply N.leb_gt; lia). reflexivity. }
  destruct E as (-> & -> & -> & -> & ->). cbn [orb]. now rewrite H.
Qed.
Lemma ends_digits s : s <> [] -> Forall (fun c => is_digit c = true) s -> ends s [GNum s].
Proof.
  destruct s as [|c r]; [ congruence | ]. intros _ H acc. inversion H as [|x y H1 H2]; subst. cbn [scan step fst snd]. rewrite start_digit by exact H1. rewrite scan_digits by exact H2. eexists. split; [ reflexivity | ]. cbn. now rewrite rev_app_distr, rev_involutive.
Qed.
Lemma ends_number n : ends (itoa n) [GNum (itoa n)].
Proof. apply ends_digits; [ apply format_uint_nonempty | apply format_uint_digits ]. Qed.
Lemma digits_line s : Forall (fun c => is_digit c = true) s -> ~ In LF s.
Proof. intros F I. rewrite Forall_forall in F. specialize (F LF I). discriminate. Qed.
Lemma number_line n : ~ In LF (itoa n).
Proof. apply digits_line, format_uint_digits. Qed.

(** String literals *)
Lemma scan_raw s t : raw_body s = Some t -> forall r acc, scan (InRaw r, acc) s = Some (Between, GStr (rev r ++ s) :: acc).
Proof.
  revert t. induction s as [|c s IH]; intros t H r acc; [ discriminate | ]. cbn [raw_body] in H. cbn [scan step fst snd]. destruct (beq c backtick).
  - destruct s; [ | discriminate ]. reflexivity.
  - destruct (raw_body s) as [t'|]; [ | discriminate ]. rewrite (IH t' eq_refl). cbn [rev]. now rewrite <- app_assoc.
Qed.
Lemma scan_interpreted n : forall s t, length s <= n -> interpreted_body s = Some t -> forall r acc, scan (InStr r, acc) s = Some (Between, GStr (rev r ++ s) :: acc).
Proof.
  induction n as [|n IH]; intros s t L H r acc; (destruct s as [|c s]; [ discriminate | ]); [ cbn in L; lia | ]. cbn [interpreted_body] in H. cbn [scan step fst snd]. destruct (beq c dquote).
  - destruct s; [ | discriminate ]. reflexivity.
  - destruct (beq c LF); [ discriminate | ]. destruct (beq c backslash).
    + destruct s as [|e s]; [ discriminate | ]. destruct (escape e) eqn:X; [ | discriminate ]. destruct (interpreted_body s) as [t'|] eqn:Y; [ | discriminate ].
      cbn [scan step fst snd]. assert (NL : beq e LF = false) by (apply beq_neq; intros ->; discriminate). rewrite NL. rewrite (IH s t'); [ | cbn in L; lia | exact Y ]. cbn [rev]. now rewrite <- !app_assoc.
    + destruct (interpreted_body s) as [t'|] eqn:Y; [ | discriminate ]. rewrite (IH s t'); [ | cbn in L; lia | exact Y ]. cbn [rev]. now rewrite <- app_assoc.
Qed.
Lemma scans_string s t : go_literal s = Some t -> scans s [GStr s].
Proof.
  unfold go_literal. destruct (_ || _); [ discriminate | ]. destruct s as [|c r]; [ discriminate | ]. intros H acc. cbn [scan].
  destruct (beq c backtick) eqn:B1; [ apply beq_eq in B1; subst c | destruct (beq c dquote) eqn:B2; [ apply beq_eq in B2; subst c | discriminate ] ].
  - change (step (Between, acc) backtick) with (Some (InRaw [backtick], acc)). cbn iota. now rewrite (scan_raw r t H).
  - change (step (Between, acc) dquote) with (Some (InStr [dquote], acc)). cbn iota. now rewrite (scan_interpreted (length r) r t (le_n _) H).
Qed.

(** ** Trees *)
Fixpoint flat (t : gtree) : list gtok :=
  match t with
  | GLeaf x => [x]
  | GGroup c l => GSym [c] :: flat_map flat l ++ [GSym [if beq c "(" then ")"%char else if beq c "[" then "]"%char else "}"%char]]
  end.
Definition flatten (l : list gtree) : list gtok := flat_map flat l.
Fixpoint wf (t : gtree) : Prop :=
  match t with
  | GLeaf x => opening x = None /\ closing x = None
  | GGroup c l => in_bytes c (B "([{") = true /\ (fix all (l : list gtree) : Prop := match l with [] => True | t :: r => wf t /\ all r end) l
  end.
Lemma wf_group c l : wf (GGroup c l) <-> in_bytes c (B "([{") = true /\ Forall wf l.
Proof.
  cbn [wf]. assert (A : (fix all (l : list gtree) : Prop := match l with [] => True | t :: r => wf t /\ all r end) l <-> Forall wf l); [ | now rewrite A ].
  induction l as [|t l IH]; [ split; auto | ]. rewrite IH. split; [ intros [H1 H2]; now constructor | intros H; inversion H; auto ].
Qed.
Fixpoint gtree_rec' (P : gtree -> Prop) (HL : forall t, P (GLeaf t)) (HG : forall c l, Forall P l -> P (GGroup c l)) (t : gtree) : P t :=
  match t with
  | GLeaf x => HL x
  | GGroup c l => HG c l ((fix all (l : list gtree) : Forall P l := match l with [] => Forall_nil P | t :: r => Forall_cons t (gtree_rec' P HL HG t) (all r) end) l)
  end.
Lemma plant_flat t : wf t -> forall stack cur ts, plant stack cur (flat t ++ ts) = plant stack (t :: cur) ts.
Proof.
  induction t as [x|c l IH] using gtree_rec'; intros W stack cur ts.
  - destruct W as [W1 W2]. cbn [flat app plant]. now rewrite W1, W2.
  - apply wf_group in W. destruct W as [W1 W2].
    assert (A : forall stack cur ts, plant stack cur (flat_map flat l ++ ts) = plant stack (rev l ++ cur) ts).
    { clear W1. induction IH as [|t l H IH' IH2]; intros st cu tt; [ reflexivity | ]. inversion W2; subst. cbn [flat_map rev]. rewrite <- app_assoc, H by assumption. rewrite IH2 by assumption. now rewrite <- app_assoc. }
    cbn [flat app]. cbn [plant opening]. rewrite W1. rewrite <- app_assoc, A. cbn [app plant]. rewrite app_nil_r.
    assert (C : forall x, opening (GSym [if beq c "(" then ")"%char else if beq c "[" then "]"%char else "}"%char]) = x -> x = None) by (intros x <-; destruct (beq c "("); [ reflexivity | destruct (beq c "["); reflexivity ]).
    rewrite (C _ eq_refl). clear C.
    assert (C : closing (GSym [if beq c "(" then ")"%char else if beq c "[" then "]"%char else "}"%char]) = Some c).
    { change (in_bytes c (B "([{")) with (beq c "(" || (beq c "[" || (beq c "{" || false))) in W1. destruct (beq c "(") eqn:E1; [ apply beq_eq in E1; subst; reflexivity | ]. destruct (beq c "[") eqn:E2; [ apply beq_eq in E2; subst; reflexivity | ]. destruct (beq c "{") eqn:E3; [ apply beq_eq in E3; subst; reflexivity | discriminate ]. }
    rewrite C, beq_refl, rev_involutive. reflexivity.
Qed.
Lemma plant_flatten l : Forall wf l -> forall stack cur ts, plant stack cur (flatten l ++ ts) = plant stack (rev l ++ cur) ts.
Proof.
  induction 1 as [|t l H F IH]; intros stack cur ts; [ reflexivity | ]. unfold flatten. cbn [flat_map rev]. rewrite <- app_assoc, plant_flat by exact H. fold (flatten l). rewrite IH. now rewrite <- app_assoc.
Qed.
Lemma plant_of l : Forall wf l -> plant [] [] (flatten l) = Some l.
Proof. intros H. rewrite <- (app_nil_r (flatten l)), plant_flatten by exact H. cbn [plant]. now rewrite app_nil_r, rev_involutive. Qed.
(** What was planted *)
Fixpoint below (stack : list (byte * list gtree)) : list gtok := match stack with [] => [] | (c, before) :: r => below r ++ flatten (rev before) ++ [GSym [c]] end.
Definition fine_stack (stack : list (byte * list gtree)) : Prop := Forall (fun p => in_bytes (fst p) (B "([{") = true /\ Forall wf (snd p)) stack.
Lemma flatten_app a b : flatten (a ++ b) = flatten a ++ flatten b.
Proof. apply flat_map_app. Qed.
Lemma plant_inv ts : forall stack cur l, fine_stack stack -> Forall wf cur -> plant stack cur ts = Some l -> flatten l = below stack ++ flatten (rev cur) ++ ts /\ Forall wf l.
Proof.
  induction ts as [|t ts IH]; intros stack cur l FS W H; cbn [plant] in H.
  - destruct stack; [ | discriminate ]. injection H as <-. cbn. rewrite app_nil_r. split; [ reflexivity | ]. now apply Forall_rev.
  - destruct (opening t) as [c|] eqn:O.
    + apply IH in H; [ | constructor; [ | exact FS ] | constructor ].
      * destruct H as [E W']. split; [ | exact W' ]. rewrite E. cbn [below rev flatten flat_map app]. rewrite <- !app_assoc. do 2 f_equal. cbn [app]. f_equal. destruct t as [| | |s]; try discriminate. cbn [opening] in O. destruct s as [|x [|]]; try discriminate. destruct (in_bytes x _); [ | discriminate ]. now injection O as <-.
      * cbn [fst snd]. split; [ | exact W ]. destruct t as [| | |s]; try discriminate. cbn [opening] in O. destruct s as [|x [|]]; try discriminate. destruct (in_bytes x _) eqn:I; [ | discriminate ]. now injection O as <-.
    + destruct (closing t) as [c|] eqn:C.
      * destruct stack as [|[o before] stack]; [ discriminate | ]. destruct (beq o c) eqn:E; [ | discriminate ]. apply beq_eq in E. subst c. inversion FS as [|p q [F1 F2] F3]; subst. cbn [fst snd] in F1, F2.
        apply IH in H; [ | exact F3 | constructor; [ apply wf_group; split; [ exact F1 | now apply Forall_rev ] | exact F2 ] ]. destruct H as [E W']. split; [ | exact W' ]. rewrite E. cbn [below rev]. rewrite flatten_app. unfold flatten at 2. cbn [flat_map flat]. rewrite app_nil_r, <- !app_assoc. do 2 f_equal. cbn [app]. f_equal. rewrite <- app_assoc. f_equal. cbn [app]. f_equal.
        destruct t as [| | |s]; try discriminate. cbn [closing] in C. destruct s as [|x [|]]; try discriminate. destruct (beq x ")") eqn:X1; [ injection C as <-; apply beq_eq in X1; now subst | ]. destruct (beq x "]") eqn:X2; [ injection C as <-; apply beq_eq in X2; now subst | ]. destruct (beq x "}") eqn:X3; [ injection C as <-; apply beq_eq in X3; now subst | discriminate ].
      * apply IH in H; [ | exact FS | constructor; [ split; assumption | exact W ] ]. destruct H as [E W']. split; [ | exact W' ]. rewrite E. cbn [rev]. rewrite flatten_app, <- !app_assoc. reflexivity.
Qed.

(** ** Expressions *)
Lemma tokens_scan s ts : tokens s = Some ts -> exists st, scan (Between, []) s = Some st /\ finished st = Some (rev ts).
Proof. unfold tokens. destruct (scan (Between, []) s) as [st|]; [ | discriminate ]. destruct (finished st) as [acc|] eqn:F; [ | discriminate ]. intros [= <-]. exists st. now rewrite rev_involutive. Qed.
Lemma finished_under m a base : finished (m, a ++ base) = match finished (m, a) with Some r => Some (r ++ base) | None => None end.
Proof. destruct m; cbn [finished fst snd]; try reflexivity. destruct (bseq s (B "..")); reflexivity. Qed.
Lemma ends_tokens e ts : tokens e = Some ts -> ~ In LF e -> ends e ts.
Proof.
  intros T N acc. destruct (tokens_scan e ts T) as (st & E & F). destruct st as [m a]. exists (m, a ++ acc). change (Between, acc) with (Between, [] ++ acc). rewrite scan_line by exact N. rewrite E. split; [ reflexivity | ]. now rewrite finished_under, F.
Qed.
Lemma trees_tokens s l : trees s = Some l -> tokens s = Some (flatten l) /\ Forall wf l.
Proof.
  unfold trees. destruct (tokens s) as [ts|]; [ | discriminate ]. intros H. apply plant_inv in H; [ | constructor | constructor ]. cbn in H. destruct H as [-> W]. auto.
Qed.
Lemma expression_ends e x : expression e x -> ends e (flatten x) /\ complete (flatten x) /\ Forall wf x.
Proof.
  intros (T & N & _ & L). destruct (trees_tokens e x T) as [K W]. split; [ now apply ends_tokens | ]. split; [ | exact W ].
  destruct (trees_tokens _ _ L) as [KL _]. destruct (tokens_scan _ _ K) as (st & S1 & S2). destruct (tokens_scan _ _ KL) as (st' & S3 & S4). rewrite scan_app, S1 in S3. cbn [scan] in S3. rewrite (stops_step st (rev (flatten x)) LF S2 eq_refl) in S3.
  change (start (rev (flatten x)) LF) with (Some (Between, newline (rev (flatten x)))) in S3. cbn iota in S3. injection S3 as <-. cbn [finished fst snd] in S4. injection S4 as S4. rewrite flatten_app, rev_app_distr in S4. unfold complete.
  destruct (rev (flatten x)) as [|t r]; [ discriminate | ]. exists t, r. split; [ reflexivity | ]. cbn [newline] in S4. destruct (ends_line t); [ reflexivity | ]. exfalso. apply (f_equal (@length gtok)) in S4. cbn in S4. lia.
Qed.
