(** Proofs for C53. *)
From Coq Require Import Permutation Sorted.
From Verif Require Import Base ModelCompiler ModelGen SpecSql SpecGen SpecDb SpecStore LemmasBase LemmasCompiler.

Section Store.
Context {V : Type}.
Variables (D : semantics V) (t : table) (before after : column -> list (tok V)).
Hypothesis WF : wf t.

Lemma assigned_other sets (r : row V) n : ~ In n (map fst sets) -> assigned sets r n = r n.
Proof.
  induction sets as [|[c v] sets IH]; cbn; intros H; [reflexivity|]. destruct (bseq n c) eqn:E; [apply bseq_eq in E; subst; exfalso; apply H; now left|].
  apply IH. tauto.
Qed.
Lemma assigned_in sets (r : row V) n v : NoDup (map fst sets) -> In (n, v) sets -> assigned sets r n = v.
Proof.
  induction sets as [|[c w] sets IH]; cbn; intros ND I; [contradiction|]. inversion ND; subst. destruct I as [E|I].
  - injection E as -> ->. rewrite bseq_refl. reflexivity.
  - destruct (bseq n c) eqn:E; [apply bseq_eq in E; subst; exfalso; apply H1; apply (in_map fst) in I; exact I|]. apply IH; assumption.
Qed.
Lemma combine_map {A B C} (f : A -> B) (g : A -> C) l : combine (map f l) (map g l) = map (fun x => (f x, g x)) l.
Proof. induction l; [reflexivity|]. cbn. rewrite IHl. reflexivity. Qed.

Lemma equal_true a b : equal_rows D a b = Some true <-> Forall2 (fun x y => cmp D x y = Some Eq) a b.
Proof.
  revert b. induction a as [|x a IH]; intros [|y b]; cbn; try (split; [discriminate|intros H; inversion H]).
  - split; auto.
  - split.
    + intros H. destruct (cmp D x y) as [[]|] eqn:E; cbn in H; destruct (equal_rows D a b) as [[]|] eqn:E2; try discriminate. constructor; [exact E|]. apply IH, E2.
    + intros H. inversion H; subst. rewrite H3. apply IH in H5. rewrite H5. reflexivity.
Qed.
Lemma forall2_map {A B C} (P : B -> C -> Prop) (f : A -> B) (g : A -> C) l : Forall2 P (map f l) (map g l) <-> forall k, In k l -> P (f k) (g k).
Proof.
  induction l as [|x l IH]; cbn; [split; [contradiction|constructor]|]. split.
  - intros H. inversion H; subst. intros k [<-|I]; [assumption|]. apply IH; assumption.
  - intros H. constructor; [apply H; now left|]. apply IH. intros k I. apply H. now right.
Qed.
Lemma chosen_key (x : row V) val : key_of t <> [] -> (forall k, In k (key_of t) -> before k = [] /\ after k = []) ->
  chosen_by D (Some (key_equals t before after val)) x = true <-> has_key D t x val.
Proof.
  intros NE BA. unfold has_key. rewrite <- (forall2_map (fun a b => cmp D a b = Some Eq) (fun k => x (c_name k)) val), <- equal_true. unfold chosen_by.
  replace (truth D x (key_equals t before after val)) with (equal_rows D (map (fun k => x (c_name k)) (key_of t)) (map val (key_of t))).
  { destruct (equal_rows D _ _) as [[]|]; split; congruence. }
  unfold key_equals. destruct (key_of t) as [|k [|k2 ks]]; [contradiction|reflexivity|].
  cbn [truth evals]. unfold compare_by. change (bseq (B "=") (B "=")) with true. cbv iota. rewrite !map_map. f_equal. apply map_ext_in. intros c I.
  destruct (BA c I) as [-> ->]. reflexivity.
Qed.
Lemma chosen_not (x : row V) val : key_of t <> [] -> (forall k, In k (key_of t) -> before k = [] /\ after k = []) ->
  ~ has_key D t x val -> chosen_by D (Some (key_equals t before after val)) x = false.
Proof. intros NE BA H. destruct (chosen_by D _ x) eqn:E; [|reflexivity]. apply chosen_key in E; tauto. Qed.

(** The row a statement makes of [x] by writing [cols]. *)
Lemma rewritten_assigned (x r0 : row V) cols val : wrappers_are_functions D t before after -> incl cols (t_columns t) -> NoDup (map c_name cols) ->
  rewritten D before after (fun c => In c cols) val x (assigned (map (fun c => (c_name c, eval D r0 (holding before after val c))) cols) x).
Proof.
  intros WR IN ND. split.
  - intros c I. destruct (WR val c (IN c I)) as [v S].
    rewrite (assigned_in _ x (c_name c) (eval D r0 (holding before after val c))).
    + rewrite (S r0). exact S.
    + rewrite map_map. exact ND.
    + apply (in_map (fun c => (c_name c, eval D r0 (holding before after val c)))). exact I.
  - intros n H. apply assigned_other. rewrite map_map. cbn [fst]. intros I. apply in_map_iff in I. destruct I as (c & E & I). exact (H c I E).
Qed.
Lemma filter_one {A} (f : A -> bool) l1 x l2 : Forall (fun y => f y = false) l1 -> Forall (fun y => f y = false) l2 -> f x = true -> filter f (l1 ++ x :: l2) = [x].
Proof.
  intros F1 F2 E. rewrite filter_app. cbn. rewrite E.
  assert (N : forall l, Forall (fun y => f y = false) l -> filter f l = []). { induction 1 as [|y l Y _ IH]; [reflexivity|]. cbn. rewrite Y. exact IH. }
  rewrite (N l1 F1), (N l2 F2). reflexivity.
Qed.
(** A query by key finds the only row with the key. *)
Lemma found_one rows val l1 x l2 out : key_of t <> [] -> (forall k, In k (key_of t) -> before k = [] /\ after k = []) ->
  rows = l1 ++ x :: l2 -> Forall (fun y => ~ has_key D t y val) l1 -> Forall (fun y => ~ has_key D t y val) l2 -> has_key D t x val ->
  answers D (fun r : row V => r) rows (Some (key_equals t before after val)) [] (Some 1%N) None out <-> out = [x].
Proof.
  intros NE BA -> F1 F2 HX. unfold answers.
  assert (FF : filter (fun r : row V => chosen_by D (Some (key_equals t before after val)) r) (l1 ++ x :: l2) = [x]).
  { apply filter_one.
    - eapply Forall_impl; [|exact F1]. intros y H. apply chosen_not; assumption.
    - eapply Forall_impl; [|exact F2]. intros y H. apply chosen_not; assumption.
    - apply chosen_key; assumption. }
  rewrite FF. split.
  - intros (l & P & _ & ->). symmetry in P. apply Permutation_length_1_inv in P. subst. reflexivity.
  - intros ->. exists [x]. split; [reflexivity|]. split; [repeat constructor|reflexivity].
Qed.
End Store.
