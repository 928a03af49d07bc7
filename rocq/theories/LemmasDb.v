(** A database that sorts: it serves its table. *)
From Coq Require Import Sorted Permutation.
From Verif Require Import Base ModelCompiler ModelGen ModelRuntime ModelStmt ModelPager SpecSql SpecGen SpecRuntime SpecStmt SpecPager SpecDb SpecPaging.

(** ** Comparison functions *)
Record good {A} (f : A -> A -> Datatypes.comparison) : Prop := {
  g_swap : forall a b, f b a = CompOpp (f a b);
  g_eq : forall a b c, f a b = Eq -> f a c = f b c;
  g_lt : forall a b c, f a b = Lt -> f b c = Lt -> f a c = Lt }.
Lemma good_on {A B} (f : A -> A -> Datatypes.comparison) (h : B -> A) : good f -> good (fun a b => f (h a) (h b)).
Proof. intros G. constructor; intros; [apply G|apply G; assumption|eapply G; eassumption]. Qed.
Lemma good_eq_l {A} (f : A -> A -> Datatypes.comparison) : good f -> forall a b c, f a b = Eq -> f c a = f c b.
Proof. intros G a b c E. rewrite (g_swap f G a c), (g_swap f G b c), (g_eq f G a b c E). reflexivity. Qed.
Lemma good_then {A} (f g : A -> A -> Datatypes.comparison) : good f -> good g -> good (fun a b => match f a b with Eq => g a b | c => c end).
Proof.
  intros F G. constructor.
  - intros a b. rewrite (g_swap f F a b). destruct (f a b); cbn; [apply G|reflexivity|reflexivity].
  - intros a b c. destruct (f a b) eqn:E; try discriminate. intros H. rewrite (g_eq f F a b c E). destruct (f b c); [apply G, H|reflexivity|reflexivity].
  - intros a b c. destruct (f a b) eqn:E; try discriminate.
    + intros H. rewrite (g_eq f F a b c E). destruct (f b c); try discriminate; [|reflexivity]. eapply G; eassumption.
    + intros _. destruct (f b c) eqn:E2; try discriminate; intros _.
      * rewrite <- (good_eq_l f F b c a E2), E. reflexivity.
      * rewrite (g_lt f F a b c E E2). reflexivity.
Qed.
Lemma good_turned {A} (f : A -> A -> Datatypes.comparison) d : good f -> good (fun a b => turned d (f a b)).
Proof.
  intros F. destruct d; [exact F|]. cbn. constructor.
  - intros. rewrite (g_swap f F a b). reflexivity.
  - intros a b c E. rewrite (g_eq f F a b c); [reflexivity|]. destruct (f a b); [reflexivity|discriminate|discriminate].
  - intros a b c E1 E2.
    assert (X1 : f b a = Lt) by (rewrite (g_swap f F a b); destruct (f a b); [discriminate|discriminate|reflexivity]).
    assert (X2 : f c b = Lt) by (rewrite (g_swap f F b c); destruct (f b c); [discriminate|discriminate|reflexivity]).
    pose proof (g_lt f F _ _ _ X2 X1) as X. rewrite (g_swap f F c a), X. reflexivity.
Qed.
Lemma good_const {A} : good (fun _ _ : A => Eq).
Proof. constructor; intros; [reflexivity|reflexivity|discriminate]. Qed.

Section Sort.
Context {A : Type}.
Variable f : A -> A -> Datatypes.comparison.
Hypothesis G : good f.
Definition gt (a b : A) : bool := match f a b with Gt => true | _ => false end.
Fixpoint put_in (x : A) (l : list A) : list A := match l with [] => [x] | y :: l' => if gt x y then y :: put_in x l' else x :: l end.
Definition sort (l : list A) : list A := fold_right put_in [] l.
Definition ok (a b : A) : Prop := f a b <> Gt.
Lemma ok_trans a b c : ok a b -> ok b c -> ok a c.
Proof.
  unfold ok. intros H1 H2. destruct (f a b) eqn:E1; [rewrite (g_eq f G a b c E1); exact H2| |contradiction].
  destruct (f b c) eqn:E2; [rewrite <- (good_eq_l f G b c a E2), E1; discriminate|rewrite (g_lt f G a b c E1 E2); discriminate|contradiction].
Qed.
Lemma put_perm x l : Permutation (put_in x l) (x :: l).
Proof. induction l as [|y l IH]; [reflexivity|]. cbn. destruct (gt x y); [rewrite IH; apply perm_swap|reflexivity]. Qed.
Lemma sort_perm l : Permutation (sort l) l.
Proof. induction l as [|x l IH]; [constructor|]. cbn [sort fold_right]. rewrite put_perm. constructor. exact IH. Qed.
Lemma put_sorted x l : StronglySorted ok l -> StronglySorted ok (put_in x l).
Proof.
  induction 1 as [|y l S IH F]; cbn [put_in]; [repeat constructor|]. destruct (gt x y) eqn:E; unfold gt in E.
  - constructor; [exact IH|]. apply Forall_forall. intros z I. apply (Permutation_in _ (put_perm x l)) in I. destruct I as [<-|I].
    + unfold ok. rewrite (g_swap f G x y). destruct (f x y); try discriminate; cbn; discriminate.
    + rewrite Forall_forall in F. apply F, I.
  - assert (O : ok x y) by (unfold ok; destruct (f x y); congruence). constructor; [constructor; assumption|]. constructor; [exact O|].
    eapply Forall_impl; [|exact F]. intros z H. eapply ok_trans; eassumption.
Qed.
Lemma sort_sorted l : StronglySorted ok (sort l).
Proof. induction l as [|x l IH]; [constructor|]. cbn. apply put_sorted, IH. Qed.
End Sort.

Section Db.
Context {V T : Type}.
Variables (D : semantics V) (cells : T -> row V) (d : driver) (q : list bytes) (items : list (expr V)) (table : list T).
Hypothesis SG : good (sort_cmp D).
Lemma rows_good o : good (fun a b : row V => sort_rows D (evals D a o) (evals D b o)).
Proof.
  assert (L : forall es : list (expr V), good (fun a b : row V => sort_rows D (map (eval D a) es) (map (eval D b) es))).
  { induction es as [|e es IH]; [apply good_const|]. cbn [map sort_rows]. apply (good_then (fun a b : row V => sort_cmp D (eval D a e) (eval D b e)) _); [|exact IH].
    apply (good_on (sort_cmp D) (fun r => eval D r e)), SG. }
  destruct o as [e|es]; [exact (L [e])|exact (L es)].
Qed.
Lemma order_good ord : good (order_rows D ord).
Proof.
  induction ord as [|[o dir] ord IH]; [apply good_const|]. cbn [order_rows].
  apply (good_then (fun a b => turned dir (sort_rows D (evals D a o) (evals D b o))) (order_rows D ord)); [|exact IH]. apply good_turned, rows_good.
Qed.
(** The answer of such a database *)
Definition query (text : bytes) (args : list V) : option (list T) :=
  match read (flavour_of d) text args with
  | Some (Select _ _ wh [] ord limit offset _) =>
      Some (cut_to limit offset (sort (fun a b => order_rows D ord (cells a) (cells b)) (filter (fun x => chosen_by D wh (cells x)) table)))
  | _ => None
  end.
Lemma query_serves : serves D cells d q items query table.
Proof.
  intros text args. unfold query. destruct (read (flavour_of d) text args) as [[| its q' wh [|g gs] ord lim off lk| |]|]; auto. intros _ _. eexists. split; [reflexivity|].
  eexists. split; [apply sort_perm|]. split; [|reflexivity]. apply (sort_sorted (fun a b => order_rows D ord (cells a) (cells b))). apply (good_on (order_rows D ord) cells), order_good.
Qed.
End Db.
