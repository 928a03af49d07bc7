(** Lexing lemmas for [SpecSql]: reading a text piece by piece. *)
From Verif Require Import Base ModelStrconv SpecSql LemmasBase.

Section Lex.
Context {V : Type}.
Notation tok := (tok V).
Implicit Types (fl : flavour) (s : bytes) (out ts : list tok) (n : nat).

Lemma run_app fl s1 : forall s2 (st : lstate (V:=V)), run fl st (s1 ++ s2) = run fl (run fl st s1) s2.
Proof. induction s1 as [|c s1 IH]; intros; cbn [run app]; auto. Qed.

(** The tokens already met do not matter. *)
Lemma flush_out fl (m : mode) n out rest :
  flush fl (m, n, out ++ rest) = (let '(m', n', o) := flush fl (m, n, out) in (m', n', o ++ rest)).
Proof. destruct m; try reflexivity. cbn. destruct acc; reflexivity. Qed.
Lemma start_out fl n out rest c :
  start fl n (out ++ rest) c = (let '(m', n', o) := start fl n out c in (m', n', o ++ rest)).
Proof.
  unfold start. destruct (is_space c), (word_start c), (op_char c); try reflexivity.
  destruct (quote_kind fl c); [reflexivity|].
  destruct fl; cbn; destruct (beq c _); reflexivity.
Qed.
Lemma restart_out fl m n out rest c :
  restart fl (m, n, out ++ rest) c = (let '(m', n', o) := restart fl (m, n, out) c in (m', n', o ++ rest)).
Proof.
  unfold restart. rewrite flush_out. destruct (flush fl (m, n, out)) as [[m' n'] o]. apply start_out.
Qed.
Lemma step_out fl m n out rest c :
  step fl (m, n, out ++ rest) c = (let '(m', n', o) := step fl (m, n, out) c in (m', n', o ++ rest)).
Proof.
  destruct m; cbn [step]; try apply start_out;
    match goal with |- context [if ?b then _ else _] => destruct b end; try reflexivity; apply restart_out.
Qed.
Lemma run_out fl s : forall m n out rest,
  run fl (m, n, out ++ rest) s = (let '(m', n', o) := run fl (m, n, out) s in (m', n', o ++ rest)).
Proof.
  induction s as [|c s IH]; intros; cbn [run]; [reflexivity|].
  rewrite step_out. destruct (step fl (m, n, out) c) as [[m' n'] o]. apply IH.
Qed.

(** The number of placeholders met before only shifts their numbers. *)
Definition shift fl n (t : tok) : tok :=
  match fl, t with Postgres, _ => t | _, Param k => Param (n + k) | _, _ => t end.
Definition mode_ok fl (m : mode) : Prop :=
  match m with
  | InDollar _ => fl = Postgres
  | InQuote q _ _ | AfterQuote q _ _ => quote_kind fl q <> None
  | _ => True
  end.

Definition sh fl n (st : lstate (V:=V)) : lstate := let '(m, k, o) := st in (m, n + k, map (shift fl n) o).

Lemma word_tok_shift fl n w : shift fl n (word_tok fl w) = word_tok fl w.
Proof.
  destruct w as [|c w]; destruct fl; try reflexivity; cbn [word_tok];
  repeat match goal with |- context [if ?b then _ else _] => destruct b end; reflexivity.
Qed.
Lemma flush_shift fl n m k out : mode_ok fl m -> flush fl (sh fl n (m, k, out)) = sh fl n (flush fl (m, k, out)).
Proof.
  intros OK. destruct m; cbn [flush sh map]; try reflexivity.
  - rewrite word_tok_shift. reflexivity.
  - cbn in OK. subst fl. destruct acc; cbn [sh map shift]; rewrite ?Nat.add_succ_r; reflexivity.
  - destruct fl; reflexivity.
  - destruct fl; reflexivity.
  - destruct fl, ident; cbn; try destruct (rev acc); reflexivity.
Qed.
Lemma start_shift fl n k out c :
  start fl (n + k) (map (shift fl n) out) c = sh fl n (start fl k out c).
Proof.
  unfold start. destruct (is_space c), (word_start c), (op_char c); try reflexivity.
  destruct (quote_kind fl c); [reflexivity|].
  destruct fl; cbn [sh map shift]; destruct (beq c _); cbn [sh map shift]; rewrite ?Nat.add_succ_r; reflexivity.
Qed.
Lemma start_mode fl k out c : mode_ok fl (fst (fst (start fl k out c))).
Proof.
  unfold start. destruct (is_space c), (word_start c), (op_char c); try exact I.
  destruct (quote_kind fl c) eqn:Q; [cbn; congruence|].
  destruct fl; destruct (beq c _); try exact I; reflexivity.
Qed.
Lemma restart_shift fl n m k out c : mode_ok fl m ->
  restart fl (sh fl n (m, k, out)) c = sh fl n (restart fl (m, k, out) c).
Proof.
  intros OK. unfold restart. rewrite flush_shift by assumption.
  destruct (flush fl (m, k, out)) as [[m' k'] o]. cbn [sh]. apply start_shift.
Qed.
Lemma restart_mode fl m k out c : mode_ok fl (fst (fst (restart fl (m, k, out) c))).
Proof. unfold restart. destruct (flush fl (m, k, out)) as [[? ?] ?]. apply start_mode. Qed.
Lemma step_shift fl n m k out c : mode_ok fl m ->
  step fl (sh fl n (m, k, out)) c = sh fl n (step fl (m, k, out) c) /\ mode_ok fl (fst (fst (step fl (m, k, out) c))).
Proof.
  intros OK. destruct m; cbn [step sh]; try (split; [apply start_shift | apply start_mode]);
    match goal with |- context [if ?b then _ else _] => destruct b end;
    (split; [first [reflexivity | apply (restart_shift fl n _ k out c OK)]
            | first [exact OK | apply restart_mode]]).
Qed.
Lemma run_shift fl n s : forall m k out, mode_ok fl m ->
  run fl (sh fl n (m, k, out)) s = sh fl n (run fl (m, k, out) s) /\ mode_ok fl (fst (fst (run fl (m, k, out) s))).
Proof.
  induction s as [|c s IH]; intros m k out OK; cbn [run]; [split; [reflexivity|exact OK]|].
  destruct (step_shift fl n m k out c OK) as [E M]. rewrite E.
  destruct (step fl (m, k, out) c) as [[m' k'] o]. apply IH. exact M.
Qed.

(** ** Pieces *)
Definition closed (m : mode) : Prop := match m with InQuote _ _ _ => False | _ => True end.
Definition mode_after fl n s : mode := let '(m, _, _) := run fl (V:=V) (Idle, n, []) s in m.

(** [reads fl n s ts n']: with [n] placeholders before it, [s] yields the tokens [ts]. *)
Definition reads fl n s ts n' : Prop :=
  closed (mode_after fl n s) /\
  forall out, flush fl (run fl (Idle, n, out) s) = (Idle, n', rev ts ++ out).

Lemma run_idle_out fl n s out :
  run fl (Idle, n, out) s = (let '(m, n', o) := run fl (Idle, n, []) s in (m, n', o ++ out)).
Proof. exact (run_out fl s Idle n [] out). Qed.

Lemma reads_lex fl n s ts n' : reads fl n s ts n' -> lex_from fl n s = ts.
Proof.
  intros [_ H]. unfold lex_from. rewrite H. rewrite app_nil_r, rev_involutive. reflexivity.
Qed.

Lemma flush_idle fl (st : lstate (V:=V)) : fst (fst (flush fl st)) = Idle.
Proof. destruct st as [[[] ?] ?]; try reflexivity. cbn. destruct acc; reflexivity. Qed.

Lemma lex_reads fl n s :
  ~ In (Bad (V:=V)) (lex_from fl n s) ->
  exists n', reads fl n s (lex_from fl n s) n'.
Proof.
  intros NB. unfold lex_from in *. unfold reads, mode_after.
  destruct (run fl (Idle, n, []) s) as [[m k] o] eqn:E.
  destruct (flush fl (m, k, o)) as [[m' k'] o'] eqn:F.
  exists k'. split.
  - destruct m; try exact I. cbn in F. inversion F; subst. apply NB. cbn. apply in_or_app. right. now left.
  - intros out. rewrite run_idle_out, E.
    rewrite flush_out, F.
    pose proof (flush_idle fl (m, k, o)) as FI. rewrite F in FI. cbn in FI. subst m'.
    rewrite rev_involutive. reflexivity.
Qed.

Definition delim (c : byte) : bool :=
  is_space c || beq c "," || beq c "(" || beq c ")" || beq c ";" || beq c ".".
Definition headed (s : bytes) : bool := match s with [] => true | c :: _ => delim c end.
Fixpoint tailed (s : bytes) : bool := match s with [] => true | [c] => delim c | _ :: s' => tailed s' end.

Lemma delim_class c : delim c = true ->
  word_char c = false /\ is_digit c = false /\ op_char c = false /\ (forall fl, quote_kind fl c = None) /\
  word_start c = false /\ beq c "$" = false /\ beq c "?" = false.
Proof.
  intros D. destruct c as [[] [] [] [] [] [] [] []]; try (cbn in D; discriminate D); repeat split; try reflexivity;
    intros []; reflexivity.
Qed.
Lemma delim_step fl m n out c : closed m -> mode_ok fl m -> delim c = true ->
  step fl (m, n, out) c = restart fl (m, n, out) c.
Proof.
  intros C K D.
  destruct (delim_class c D) as (W & Dg & O & Q & _).
  destruct m; cbn [step]; try contradiction; rewrite ?W, ?Dg, ?O; try reflexivity.
  destruct (beq c q) eqn:E; [|reflexivity]. apply beq_eq in E. subst q. cbn in K. rewrite Q in K. congruence.
Qed.

Lemma run_mode_ok fl n s : mode_ok fl (mode_after fl n s).
Proof.
  unfold mode_after. destruct (run_shift fl 0 s Idle n [] I) as [_ H].
  destruct (run fl (Idle, n, []) s) as [[m ?] ?]. exact H.
Qed.

Lemma step_headed fl n s1 ts1 n1 c r :
  reads fl n s1 ts1 n1 -> delim c = true ->
  forall out, run fl (run fl (Idle, n, out) s1) (c :: r) = run fl (Idle, n1, rev ts1 ++ out) (c :: r).
Proof.
  intros [C H] D out. specialize (H out). pose proof (run_mode_ok fl n s1) as K.
  unfold mode_after in *. rewrite run_idle_out in *.
  destruct (run fl (Idle, n, []) s1) as [[m k] o].
  cbn [run]. rewrite delim_step by assumption. unfold restart. rewrite H. reflexivity.
Qed.

Lemma mode_after_eq fl n s out : fst (fst (run fl (Idle, n, out) s)) = mode_after fl n s.
Proof. unfold mode_after. rewrite run_idle_out. destruct (run fl (Idle, n, []) s) as [[? ?] ?]. reflexivity. Qed.

Lemma reads_app_r fl n s1 ts1 n1 s2 ts2 n2 :
  reads fl n s1 ts1 n1 -> reads fl n1 s2 ts2 n2 -> headed s2 = true -> s2 <> [] ->
  reads fl n (s1 ++ s2) (ts1 ++ ts2) n2.
Proof.
  intros R1 R2 Hd NE. destruct s2 as [|c r]; [congruence|].
  assert (E : forall out, run fl (Idle, n, out) (s1 ++ c :: r) = run fl (Idle, n1, rev ts1 ++ out) (c :: r)).
  { intros out. rewrite run_app. apply step_headed with (1 := R1). exact Hd. }
  destruct R2 as [C2 H2]. split.
  - rewrite <- (mode_after_eq fl n _ []). rewrite E. rewrite mode_after_eq. exact C2.
  - intros out. rewrite E, H2. rewrite rev_app_distr, app_assoc. reflexivity.
Qed.

Lemma tailed_snoc s c : tailed (s ++ [c]) = delim c.
Proof.
  induction s as [|a s IH]; [reflexivity|]. destruct s; [reflexivity|]. exact IH.
Qed.

Lemma tailed_idle fl n s ts n1 : reads fl n s ts n1 -> tailed s = true -> mode_after fl n s = Idle.
Proof.
  intros [C H] T. destruct (rev s) as [|c r] eqn:E.
  - assert (s = []) by (rewrite <- (rev_involutive s), E; reflexivity). subst. reflexivity.
  - assert (S : s = rev r ++ [c]) by (rewrite <- (rev_involutive s), E; reflexivity).
    subst s. rewrite tailed_snoc in T. unfold mode_after in *. rewrite run_app in *.
    pose proof (run_mode_ok fl n (rev r)) as K. unfold mode_after in K.
    destruct (run fl (Idle, n, []) (rev r)) as [[m k] o]. cbn [run] in *.
    destruct m as [| | | |q i acc|]; try (rewrite delim_step in * by (auto; exact I); unfold restart;
      match goal with |- context [flush fl ?x] => destruct (flush fl x) as [[? ?] ?] end;
      unfold start; destruct (delim_class c T) as (W & Dg & O & Q & WS & D1 & D2); rewrite WS, O, Q, D1, D2;
      destruct (is_space c), fl; reflexivity).
    exfalso. cbn [step] in C. destruct (beq c q) eqn:E2; [|exact C].
    apply beq_eq in E2. subst. cbn in K. destruct (delim_class q T) as (_ & _ & _ & Q & _). rewrite Q in K. congruence.
Qed.

Lemma reads_app_l fl n s1 ts1 n1 s2 ts2 n2 :
  reads fl n s1 ts1 n1 -> reads fl n1 s2 ts2 n2 -> tailed s1 = true ->
  reads fl n (s1 ++ s2) (ts1 ++ ts2) n2.
Proof.
  intros R1 R2 T. pose proof (tailed_idle _ _ _ _ _ R1 T) as M. destruct R1 as [C1 H1], R2 as [C2 H2].
  assert (E : forall out, run fl (Idle, n, out) s1 = (Idle, n1, rev ts1 ++ out)).
  { intros out. specialize (H1 out). unfold mode_after in M. rewrite run_idle_out in *.
    destruct (run fl (Idle, n, []) s1) as [[m k] o]. subst m. exact H1. }
  split.
  - rewrite <- (mode_after_eq fl n _ []). rewrite run_app, E, mode_after_eq. exact C2.
  - intros out. rewrite run_app, E, H2. rewrite rev_app_distr, app_assoc. reflexivity.
Qed.

(** Moving a piece to another position. *)
Lemma reads_shift fl n k s ts k' : reads fl k s ts k' -> reads fl (n + k) s (map (shift fl n) ts) (n + k').
Proof.
  intros [C H]. destruct (run_shift fl n s Idle k [] I) as [E K]. cbn [sh map] in E.
  unfold reads, mode_after in *. rewrite E. clear E.
  specialize (H []). rewrite app_nil_r in H.
  destruct (run fl (Idle, k, []) s) as [[m j] o] eqn:R. cbn [sh]. split; [exact C|].
  intros out. rewrite run_idle_out.
  destruct (run_shift fl n s Idle k [] I) as [E2 _]. cbn [sh map] in E2. rewrite E2, R. cbn [sh].
  rewrite flush_out. change (m, n + j, map (shift fl n) o) with (sh fl n (m, j, o)).
  rewrite flush_shift by exact K. rewrite H. cbn [sh]. rewrite map_rev. reflexivity.
Qed.

Lemma shift_id fl n ts : (forall k, ~ In (Param k) ts) -> map (shift fl n) ts = ts.
Proof.
  induction ts as [|t ts IH]; intros H; cbn [map]; [reflexivity|]. rewrite IH by (intros k I; apply (H k); now right).
  f_equal. destruct fl, t; try reflexivity; exfalso; eapply H; left; reflexivity.
Qed.

(** Without placeholders the count does not change. *)
Definition no_param (ts : list tok) : Prop := forall k, ~ In (Param k) ts.

Definition params ts : nat := length (filter (fun t => match t with Param _ => true | _ => false end) ts).
Definition balance (n0 : nat) (st : lstate (V:=V)) : Prop := let '(_, n, out) := st in n = n0 + params out.

Lemma word_tok_param fl w : forall k, word_tok fl w <> Param (V:=V) k.
Proof.
  intros k. destruct w as [|c w]; cbn [word_tok]; [discriminate|].
  repeat match goal with |- context [if ?b then _ else _] => destruct b end; discriminate.
Qed.
Lemma params_cons_other t ts : (forall k, t <> Param k) -> params (t :: ts) = params ts.
Proof. intros H. unfold params. cbn [filter]. destruct t; try reflexivity. exfalso. eapply H. reflexivity. Qed.
Lemma params_cons_param k ts : params (Param k :: ts) = S (params ts).
Proof. reflexivity. Qed.
Lemma flush_balance fl n0 st : balance n0 st -> balance n0 (flush fl st).
Proof.
  destruct st as [[m n] out]. destruct m; cbn [flush balance]; intros H; try assumption.
  - rewrite params_cons_other by apply word_tok_param. exact H.
  - destruct acc; cbn [balance]; [rewrite params_cons_other by discriminate; exact H | rewrite params_cons_param; lia].
  - rewrite params_cons_other by (intros k; destruct ident; cbn; [destruct (rev acc)|]; discriminate). exact H.
Qed.
Lemma start_balance fl n0 n out c : n = n0 + params out -> balance n0 (start fl n out c).
Proof.
  intros H. unfold start. destruct (is_space c), (word_start c), (op_char c); try exact H.
  destruct (quote_kind fl c); [exact H|].
  destruct fl; destruct (beq c _); cbn [balance]; try (exact H); rewrite params_cons_param; lia.
Qed.
Lemma restart_balance fl n0 st c : balance n0 st -> balance n0 (restart fl st c).
Proof.
  intros H. unfold restart. apply (flush_balance fl) in H. destruct (flush fl st) as [[? ?] ?].
  apply start_balance. exact H.
Qed.
Lemma step_balance fl n0 st c : balance n0 st -> balance n0 (step fl st c).
Proof.
  intros H. destruct st as [[m n] out].
  destruct m; cbn [step]; try (apply start_balance; exact H);
    match goal with |- context [if ?b then _ else _] => destruct b end; try exact H; apply restart_balance; exact H.
Qed.
Lemma run_balance fl n0 s : forall st, balance n0 st -> balance n0 (run fl st s).
Proof. induction s as [|c s IH]; intros st H; cbn [run]; [exact H|]. apply IH, step_balance, H. Qed.
Lemma params_rev ts : params (rev ts) = params ts.
Proof.
  unfold params. induction ts as [|t ts IH]; cbn [rev filter]; [reflexivity|].
  rewrite filter_app, app_length, IH. cbn [filter]. destruct t; cbn [length]; lia.
Qed.
Lemma reads_count fl n s ts n' : reads fl n s ts n' -> n' = n + params ts.
Proof.
  intros [_ H]. assert (Bl : balance n (flush fl (run fl (Idle, n, []) s))).
  { apply flush_balance, run_balance. cbn. unfold params. cbn. lia. }
  rewrite H in Bl. cbn [balance] in Bl. rewrite app_nil_r, params_rev in Bl. exact Bl.
Qed.
Lemma params_zero ts : no_param ts -> params ts = 0.
Proof.
  intros H. unfold params. induction ts as [|t ts IH]; cbn [filter]; [reflexivity|].
  destruct t; try (apply IH; intros j I; apply (H j); now right). exfalso. apply (H k). now left.
Qed.

(** A text without placeholder that lexes to [ts] alone does so anywhere. *)
Lemma lex_piece fl n s ts : lex fl s = ts -> ~ In (Bad (V:=V)) ts -> no_param ts -> reads fl n s ts n.
Proof.
  intros L NB NP. subst ts. unfold lex in *. destruct (lex_reads fl 0 s NB) as [n' R].
  pose proof (reads_count _ _ _ _ _ R) as C. rewrite params_zero in C by assumption. cbn in C. subst n'.
  apply (reads_shift fl n) in R. rewrite Nat.add_0_r in R. rewrite shift_id in R by exact NP. exact R.
Qed.

Lemma reads_nil fl n : reads fl n [] [] n.
Proof. split; [exact I|]. reflexivity. Qed.

(** ** Comma separated lists *)
Fixpoint commas (l : list (list tok)) : list tok :=
  match l with [] => [] | [x] => x | x :: l' => x ++ Sym "," :: commas l' end.

Inductive reads_all fl : nat -> list bytes -> list (list tok) -> nat -> Prop :=
| RA_nil n : reads_all fl n [] [] n
| RA_cons n s t n1 ss (ts : list (list tok)) n2 : reads fl n s t n1 -> reads_all fl n1 ss ts n2 -> reads_all fl n (s :: ss) (t :: ts) n2.

Lemma reads_comma fl n : reads fl n (B ",") [Sym ","] n.
Proof. split; [destruct fl; exact I|]. destruct fl; reflexivity. Qed.

Lemma reads_join fl n ss (ts : list (list tok)) n' : reads_all fl n ss ts n' -> reads fl n (join (B ",") ss) (commas ts) n'.
Proof.
  induction 1 as [n|n s t n1 ss ts n2 R RA IH]; [apply reads_nil|].
  inversion RA; subst.
  - cbn [join commas]. exact R.
  - cbn [join commas]. cbn [join commas] in IH.
    change (t ++ Sym "," :: ?x) with (t ++ ([Sym ","] ++ x)).
    eapply reads_app_r; [exact R| |reflexivity|discriminate].
    eapply reads_app_l; [apply reads_comma|exact IH|reflexivity].
Qed.

Lemma reads_all_map fl n {A} (f : A -> bytes) (g : A -> list tok) l :
  (forall x, In x l -> reads fl n (f x) (g x) n) -> reads_all fl n (map f l) (map g l) n.
Proof.
  induction l as [|x l IH]; intros H; cbn [map]; [constructor|].
  econstructor; [apply H; now left|]. apply IH. intros y I. apply H. now right.
Qed.
Lemma reads_all_app fl n ss1 (ts1 : list (list tok)) n1 ss2 (ts2 : list (list tok)) n2 :
  reads_all fl n ss1 ts1 n1 -> reads_all fl n1 ss2 ts2 n2 -> reads_all fl n (ss1 ++ ss2) (ts1 ++ ts2) n2.
Proof. induction 1; intros; cbn [app]; [assumption|]. econstructor; eauto. Qed.
End Lex.

(** Discharges [reads] of a constant text. *)
Ltac reads_const := split; [exact I | intros; reflexivity].
