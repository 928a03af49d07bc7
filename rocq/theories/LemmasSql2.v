(** Parsing lemmas for [SpecSql]. *)
From Verif Require Import Base ModelStrconv SpecSql LemmasBase LemmasSql.

Section Parse.
Context {V : Type}.
Notation tok := (tok V).
Implicit Types (ts r : list tok) (sep stop : tok -> bool).

Definition push_all {A} ts (x : option (list tok * A)) : option (list tok * A) :=
  match x with Some (a, b) => Some (ts ++ a, b) | None => None end.

(** [passes sep ts]: balanced, without a top-level [sep]. *)
Definition passes sep ts : Prop := until sep 0 ts = Some (ts, []).
Definition balanced ts : Prop := passes (fun _ => false) ts.

Lemma until_app sep ts : forall d r,
  until sep d ts = Some (ts, []) -> until sep d (ts ++ r) = push_all ts (until sep 0 r).
Proof.
  induction ts as [|t ts IH]; intros d r H.
  - destruct d; [|discriminate H]. cbn [app]. destruct (until sep 0 r) as [[a b]|]; reflexivity.
  - cbn [until app] in *.
    assert (P : forall x, match x with Some (a, b) => Some (t :: a, b) | None => None end = Some (t :: ts, []) -> x = Some (ts, @nil tok)).
    { intros [[a b]|] E; [inversion E; reflexivity|discriminate]. }
    destruct (is_sym "(" t).
    { apply P in H. rewrite (IH _ _ H). destruct (until sep 0 r) as [[a b]|]; reflexivity. }
    destruct (is_sym ")" t).
    { destruct d; [discriminate|]. apply P in H. rewrite (IH _ _ H). destruct (until sep 0 r) as [[a b]|]; reflexivity. }
    destruct d.
    { destruct (sep t); [discriminate|]. apply P in H. rewrite (IH _ _ H). destruct (until sep 0 r) as [[a b]|]; reflexivity. }
    apply P in H. rewrite (IH _ _ H). destruct (until sep 0 r) as [[a b]|]; reflexivity.
Qed.

Lemma until_weaken sep sep' ts : forall d, (forall t, sep' t = true -> sep t = true) ->
  until sep d ts = Some (ts, []) -> until sep' d ts = Some (ts, []).
Proof.
  induction ts as [|t ts IH]; intros d W H; [destruct d; [reflexivity|discriminate]|].
  cbn [until] in *.
  assert (P : forall x, match x with Some (a, b) => Some (t :: a, b) | None => None end = Some (t :: ts, []) -> x = Some (ts, @nil tok)).
  { intros [[a b]|] E; [inversion E; reflexivity|discriminate]. }
  destruct (is_sym "(" t); [apply P in H; rewrite (IH _ W H); reflexivity|].
  destruct (is_sym ")" t); [destruct d; [discriminate|]; apply P in H; rewrite (IH _ W H); reflexivity|].
  destruct d.
  - destruct (sep t) eqn:E; [discriminate|]. destruct (sep' t) eqn:E'; [rewrite (W _ E') in E; discriminate|].
    apply P in H. rewrite (IH _ W H). reflexivity.
  - apply P in H. rewrite (IH _ W H). reflexivity.
Qed.

Lemma passes_weaken sep sep' ts : (forall t, sep' t = true -> sep t = true) -> passes sep ts -> passes sep' ts.
Proof. intros; eapply until_weaken; eauto. Qed.
Lemma passes_balanced sep ts : passes sep ts -> balanced ts.
Proof. apply passes_weaken. discriminate. Qed.
Lemma passes_nil sep : passes sep [].
Proof. reflexivity. Qed.
Lemma passes_app sep a b : passes sep a -> passes sep b -> passes sep (a ++ b).
Proof. unfold passes. intros A Bb. rewrite (until_app _ _ _ _ A), Bb. reflexivity. Qed.
Definition plain_tok (t : tok) : bool := negb (is_sym "(" t) && negb (is_sym ")" t).
Lemma passes_one sep t : plain_tok t = true -> sep t = false -> passes sep [t].
Proof.
  unfold plain_tok, passes. intros P S. cbn [until]. destruct (is_sym "(" t), (is_sym ")" t); try discriminate.
  rewrite S. reflexivity.
Qed.
Lemma passes_cons sep t ts : plain_tok t = true -> sep t = false -> passes sep ts -> passes sep (t :: ts).
Proof. intros P S H. change (t :: ts) with ([t] ++ ts). apply passes_app; [apply passes_one; assumption|exact H]. Qed.

Lemma until_stop stop ts t r : passes stop ts -> plain_tok t = true -> stop t = true -> until stop 0 (ts ++ t :: r) = Some (ts, t :: r).
Proof.
  intros P Pl S. rewrite (until_app _ _ _ _ P). cbn [until]. unfold plain_tok in Pl.
  destruct (is_sym "(" t), (is_sym ")" t); try discriminate. rewrite S. cbn [push_all]. rewrite app_nil_r. reflexivity.
Qed.
Lemma until_end stop ts : passes stop ts -> until stop 0 ts = Some (ts, []).
Proof. auto. Qed.
Lemma until_stop0 stop t r : plain_tok t = true -> stop t = true -> until stop 0 (t :: r) = Some ([], t :: r).
Proof. intros. apply (until_stop stop [] t r); auto. apply passes_nil. Qed.

(** Inside parentheses. *)
Lemma until_deep sep ts : forall d e r, until (fun _ => false) d ts = Some (ts, []) ->
  until sep (S (d + e)) (ts ++ r) = push_all ts (until sep (S e) r).
Proof.
  induction ts as [|t ts IH]; intros d e r H.
  - destruct d; [|discriminate H]. cbn [app Nat.add]. destruct (until sep (S e) r) as [[a b]|]; reflexivity.
  - cbn [until app] in *.
    assert (P : forall x, match x with Some (a, b) => Some (t :: a, b) | None => None end = Some (t :: ts, []) -> x = Some (ts, @nil tok)).
    { intros [[a b]|] E; [inversion E; reflexivity|discriminate]. }
    destruct (is_sym "(" t).
    { apply P in H. change (S (S (d + e))) with (S (S d + e)). rewrite (IH _ _ _ H). destruct (until sep (S e) r) as [[a b]|]; reflexivity. }
    destruct (is_sym ")" t).
    { destruct d; [discriminate|]. apply P in H. cbn [Nat.add]. rewrite (IH _ _ _ H). destruct (until sep (S e) r) as [[a b]|]; reflexivity. }
    assert (H' : until (fun _ => false) d ts = Some (ts, [])) by (destruct d; apply P in H; exact H).
    rewrite (IH _ _ _ H'). destruct (until sep (S e) r) as [[a b]|]; reflexivity.
Qed.
Lemma passes_paren sep ts : balanced ts -> passes sep (Sym "(" :: ts ++ [Sym ")"]).
Proof.
  intros Bl. unfold passes. cbn [until is_sym beq Ascii.eqb Bool.eqb].
  pose proof (until_deep sep ts 0 0 [Sym ")"] Bl) as E. cbn [Nat.add] in E. rewrite E. cbn. reflexivity.
Qed.

Lemma group_app ts : forall d e r, until (fun _ => false) d ts = Some (ts, []) ->
  group (d + e) (ts ++ r) = push_all ts (group e r).
Proof.
  induction ts as [|t ts IH]; intros d e r H.
  - destruct d; [|discriminate H]. cbn [app Nat.add]. destruct (group e r) as [[a b]|]; reflexivity.
  - cbn [until group app] in *.
    assert (P : forall x, match x with Some (a, b) => Some (t :: a, b) | None => None end = Some (t :: ts, []) -> x = Some (ts, @nil tok)).
    { intros [[a b]|] E; [inversion E; reflexivity|discriminate]. }
    destruct (is_sym "(" t).
    { apply P in H. change (S (d + e)) with (S d + e). rewrite (IH _ _ _ H). destruct (group e r) as [[a b]|]; reflexivity. }
    destruct (is_sym ")" t).
    { destruct d; [discriminate|]. apply P in H. cbn [Nat.add]. rewrite (IH _ _ _ H). destruct (group e r) as [[a b]|]; reflexivity. }
    assert (H' : until (fun _ => false) d ts = Some (ts, [])) by (destruct d; apply P in H; exact H).
    rewrite (IH _ _ _ H'). destruct (group e r) as [[a b]|]; reflexivity.
Qed.
Lemma group_close ts r : balanced ts -> group 0 (ts ++ Sym ")" :: r) = Some (ts, r).
Proof.
  intros Bl. pose proof (group_app ts 0 0 (Sym ")" :: r) Bl) as E. cbn [Nat.add] in E. rewrite E. cbn. rewrite app_nil_r. reflexivity.
Qed.

(** Splitting. *)
Definition glue ts (l : list (list tok)) : list (list tok) :=
  match l with a :: l' => (ts ++ a) :: l' | [] => [ts] end.
Lemma split_app sep ts : forall d r,
  until sep d ts = Some (ts, []) -> split sep d (ts ++ r) = glue ts (split sep 0 r).
Proof.
  induction ts as [|t ts IH]; intros d r H.
  - destruct d; [|discriminate H]. cbn [app]. unfold glue.
    destruct (split sep 0 r) eqn:E; [|reflexivity].
    exfalso. destruct r as [|x r]; cbn [split] in E; [discriminate|].
    destruct (is_sym "(" x); [destruct (split sep 1 r); discriminate|].
    destruct (is_sym ")" x); [destruct (split sep (pred 0) r); discriminate|].
    destruct (sep x); [discriminate|]. destruct (split sep 0 r); discriminate.
  - cbn [until split app] in *.
    assert (P : forall x, match x with Some (a, b) => Some (t :: a, b) | None => None end = Some (t :: ts, []) -> x = Some (ts, @nil tok)).
    { intros [[a b]|] E; [inversion E; reflexivity|discriminate]. }
    destruct (is_sym "(" t).
    { apply P in H. rewrite (IH _ _ H). unfold glue. destruct (split sep 0 r); reflexivity. }
    destruct (is_sym ")" t).
    { destruct d; [discriminate|]. apply P in H. cbn [pred]. rewrite (IH _ _ H). unfold glue. destruct (split sep 0 r); reflexivity. }
    destruct d.
    { destruct (sep t); [discriminate|]. apply P in H. rewrite (IH _ _ H). unfold glue. destruct (split sep 0 r); reflexivity. }
    apply P in H. rewrite (IH _ _ H). unfold glue. destruct (split sep 0 r); reflexivity.
Qed.
Lemma split_one sep ts : passes sep ts -> split sep 0 ts = [ts].
Proof. intros H. pose proof (split_app sep ts 0 [] H) as E. rewrite app_nil_r in E. rewrite E. cbn. rewrite app_nil_r. reflexivity. Qed.
Lemma split_sep sep ts t r : passes sep ts -> plain_tok t = true -> sep t = true ->
  split sep 0 (ts ++ t :: r) = ts :: split sep 0 r.
Proof.
  intros H P S. rewrite (split_app _ _ _ _ H). cbn [split]. unfold plain_tok in P.
  destruct (is_sym "(" t), (is_sym ")" t); try discriminate. rewrite S. cbn. rewrite app_nil_r. reflexivity.
Qed.
Lemma split_commas l : l <> [] -> Forall (passes is_comma) l -> split is_comma 0 (commas l) = l.
Proof.
  induction l as [|x l IH]; intros NE F; [congruence|]. inversion F; subst.
  destruct l as [|y l]; [apply split_one; assumption|].
  cbn [commas]. rewrite split_sep by (auto; reflexivity). f_equal. apply IH; [discriminate|assumption].
Qed.
Lemma passes_commas sep l : (forall t, sep t = true -> is_comma t = false) -> Forall (passes sep) l -> passes sep (commas l).
Proof.
  intros C. assert (sep (Sym ",") = false) by (destruct (sep (Sym ",")) eqn:E; [apply C in E; discriminate|reflexivity]).
  induction l as [|x l IH]; intros F; [apply passes_nil|]. inversion F; subst.
  destruct l as [|y l]; [assumption|]. cbn [commas]. apply passes_app; [assumption|].
  apply passes_cons; [reflexivity|assumption|]. apply IH. assumption.
Qed.
Lemma balanced_commas l : Forall balanced l -> balanced (commas l).
Proof. apply passes_commas. discriminate. Qed.

(** Expressions. *)
Lemma until_parts sep ts : forall d a b, until sep d ts = Some (a, b) -> ts = a ++ b.
Proof.
  induction ts as [|t ts IH]; intros d a b H.
  - destruct d; [|discriminate H]. cbn in H. inversion H. reflexivity.
  - cbn [until] in H.
    assert (P : forall x, (forall a b, x = Some (a, b) -> ts = a ++ b) ->
      match x with Some (a, b) => Some (t :: a, b) | None => None end = Some (a, b) -> t :: ts = a ++ b).
    { intros [[a' b']|] Hx E; [|discriminate]. inversion E; subst. cbn. f_equal. apply Hx. reflexivity. }
    destruct (is_sym "(" t); [eapply P in H; eauto|].
    destruct (is_sym ")" t); [destruct d; [discriminate|]; eapply P in H; eauto|].
    destruct d; [|eapply P in H; eauto].
    destruct (sep t); [inversion H; reflexivity|]. eapply P in H; eauto.
Qed.
Lemma is_expr_passes e : is_expr e = true <-> e <> [] /\ passes separator e /\ calls_value e = false.
Proof.
  unfold is_expr, passes. split.
  - destruct e as [|t e]; [discriminate|]. intros H. split; [discriminate|].
    destruct (until separator 0 (t :: e)) as [[a b]|] eqn:E; [|discriminate]. destruct b; [|discriminate].
    pose proof (until_parts _ _ _ _ _ E). rewrite app_nil_r in *. split; [congruence|]. apply negb_true_iff, H.
  - intros (NE & H & C). destruct e; [congruence|]. rewrite H, C. reflexivity.
Qed.
Lemma sep_comma (t : tok) : is_comma t = true -> separator t = true.
Proof. unfold separator. intros ->. reflexivity. Qed.
Lemma sep_clause (t : tok) : ends_clause t = true -> separator t = true.
Proof. unfold separator. intros ->. rewrite !orb_true_r. reflexivity. Qed.
Lemma expr_passes sep e : (forall t : tok, sep t = true -> separator t = true) -> is_expr e = true -> passes sep e.
Proof. intros W H. apply is_expr_passes in H. destruct H as (_ & H & _). eapply passes_weaken; eauto. Qed.

Lemma exprs_commas (l : list (list tok)) : l <> [] -> forallb is_expr l = true -> exprs (commas l) = Some l.
Proof.
  intros NE F. unfold exprs. rewrite split_commas; [rewrite F; reflexivity|assumption|].
  rewrite forallb_forall in F. apply Forall_forall. intros x I. apply expr_passes; [apply sep_comma|]. apply F, I.
Qed.

Lemma all_some_map {A C} (f : A -> option C) (g : A -> C) l : (forall x, In x l -> f x = Some (g x)) ->
  all_some (map f l) = Some (map g l).
Proof.
  induction l as [|x l IH]; intros H; cbn [map all_some]; [reflexivity|].
  rewrite H by now left. rewrite IH by (intros; apply H; now right). reflexivity.
Qed.

Lemma no_dup_NoDup l : no_dup l = true <-> NoDup l.
Proof.
  induction l as [|x l IH]; cbn [no_dup]; split; intros H; try constructor.
  - apply andb_prop in H. destruct H as [H1 H2]. apply negb_true_iff in H1. apply bmem_not_In. exact H1.
  - apply andb_prop in H. destruct H as [H1 H2]. apply IH. exact H2.
  - inversion H; subst. apply andb_true_intro. split; [apply negb_true_iff, bmem_not_In; assumption|apply IH; assumption].
Qed.
Definition name_toks (l : list bytes) : list (list tok) := map (fun n => [Name n]) l.
Lemma name_toks_passes (sep : tok -> bool) (l : list bytes) : (forall n, sep (Name n) = false) -> Forall (passes sep) (name_toks l).
Proof.
  intros H. apply Forall_forall. intros x I. apply in_map_iff in I. destruct I as (n & <- & _).
  apply passes_one; [reflexivity|apply H].
Qed.
Lemma names_commas (l : list bytes) : l <> [] -> NoDup l -> names (commas (name_toks l)) = Some l.
Proof.
  intros NE ND. unfold names. rewrite split_commas.
  - unfold name_toks. rewrite map_map. cbn [name1]. rewrite all_some_map with (g := fun x => x) by reflexivity.
    rewrite map_id. cbn [obind]. apply no_dup_NoDup in ND. rewrite ND. reflexivity.
  - destruct l; [congruence|discriminate].
  - apply name_toks_passes. reflexivity.
Qed.
Lemma parens_group ts : balanced ts -> parens (Sym "(" :: ts ++ [Sym ")"]) = Some ts.
Proof. intros H. unfold parens. cbn [beq Ascii.eqb Bool.eqb]. rewrite group_close by assumption. reflexivity. Qed.

(** Operands. *)
Lemma parse_operand_one (t : tok) : plain_tok t = true -> separator t = false -> parse_operand [t] = Some (One [t]).
Proof.
  intros P S. assert (E : is_expr [t] = true).
  { apply is_expr_passes. split; [discriminate|]. split; [apply passes_one; assumption|cbn; rewrite andb_false_r; reflexivity]. }
  unfold parse_operand. destruct t; rewrite ?E; try reflexivity.
  unfold plain_tok in P. cbn [is_sym] in P. destruct (beq c "(") eqn:Ec; [|reflexivity].
  apply beq_eq in Ec. subst. discriminate P.
Qed.
Lemma parse_operand_tuple (l : list (list tok)) : l <> [] -> forallb is_expr l = true ->
  parse_operand (Sym "(" :: commas l ++ [Sym ")"]) = Some (Tuple l).
Proof.
  intros NE F. unfold parse_operand. cbn [beq Ascii.eqb Bool.eqb]. rewrite group_close.
  - rewrite exprs_commas by assumption. reflexivity.
  - apply balanced_commas. rewrite forallb_forall in F. apply Forall_forall. intros x I. apply F in I.
    apply is_expr_passes in I. eapply passes_balanced, I.
Qed.

(** A plain comparison as a whole condition. *)
Lemma split_and_one ts : forall d, until (one_of (map B ["AND"; "BETWEEN"]%string)) d ts = Some (ts, []) -> split_and d false ts = [ts].
Proof.
  induction ts as [|t ts IH]; intros d H; [reflexivity|]. cbn [until split_and] in *.
  assert (P : forall x, match x with Some (a, b) => Some (t :: a, b) | None => None end = Some (t :: ts, []) -> x = Some (ts, @nil tok)).
  { intros [[a b]|] E; [inversion E; reflexivity|discriminate]. }
  destruct (is_sym "(" t); [apply P in H; rewrite (IH _ H); reflexivity|].
  destruct (is_sym ")" t); [destruct d; [discriminate|]; apply P in H; cbn [pred]; rewrite (IH _ H); reflexivity|].
  destruct d; [|apply P in H; rewrite (IH _ H); reflexivity].
  destruct (one_of _ t) eqn:O; [discriminate|]. apply P in H.
  assert (is_kw (B "AND") t = false /\ is_kw (B "BETWEEN") t = false) as [-> ->].
  { destruct t; try (split; reflexivity). cbn [one_of is_kw] in *.
    split; apply bseq_neq; intros <-; cbn in O; discriminate. }
  rewrite (IH _ H). reflexivity.
Qed.

Definition simple ts : Prop := passes (one_of connective) ts.
(** not wrapped as a whole in parentheses *)
Definition unwrapped ts : Prop :=
  match ts with Sym c :: r => beq c "(" = true -> forall x, group 0 r <> Some (x, []) | _ => True end.

Lemma one_of_sub (a b : list bytes) : incl a b -> forall t : tok, one_of a t = true -> one_of b t = true.
Proof. intros I t. destruct t; cbn; try discriminate. rewrite !bmem_In. apply I. Qed.

Lemma condition_pred f ts : passes (one_of (map B ["AND"; "OR"; "BETWEEN"]%string)) ts -> unwrapped ts ->
  condition (S f) ts = predicate ts.
Proof.
  intros P U. cbn [condition].
  rewrite split_one.
  2:{ eapply passes_weaken; [|exact P]. intros t. destruct t; cbn [is_kw one_of]; try discriminate.
      intros E. apply bseq_eq in E. subst. reflexivity. }
  cbn [map all_some].
  rewrite split_and_one.
  2:{ eapply until_weaken; [|exact P]. apply one_of_sub. intros x [<-|[<-|[]]]; cbn; auto. }
  cbn [map all_some].
  assert (A : match ts with
      | Sym c :: r => if beq c "(" then match group 0 r with Some (inner, []) => condition f inner | _ => predicate ts end else predicate ts
      | _ => predicate ts end = predicate ts).
  { destruct ts as [|t r]; [reflexivity|]. destruct t; try reflexivity. destruct (beq c "(") eqn:E; [|reflexivity].
    cbn [unwrapped] in U. specialize (U E). destruct (group 0 r) as [[a b]|]; [|reflexivity].
    destruct b; [exfalso; eapply U; reflexivity|reflexivity]. }
  rewrite A. destruct (predicate ts); reflexivity.
Qed.

Lemma predicate_cmp lhs o r l q : passes pred_start lhs -> parse_operand lhs = Some l -> comparison o = true ->
  parse_operand r = Some q -> width l = width q -> predicate (lhs ++ Op o :: r) = Some (Compare l o q).
Proof.
  intros P L C R W. unfold predicate. rewrite until_stop by (auto; reflexivity).
  rewrite L. cbn [obind]. rewrite C, R. cbn [obind]. rewrite W, Nat.eqb_refl. reflexivity.
Qed.
End Parse.
