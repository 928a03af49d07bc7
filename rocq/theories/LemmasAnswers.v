(** Databases that sort by a rank answer every query. *)
From Coq Require Import List Bool ZArith Lia Sorted Permutation.
From Verif Require Import Base SpecSql SpecDb.
Import ListNotations.

Section Sort.
Context {A : Type}.
Variable le : A -> A -> bool.
Fixpoint insert (x : A) (l : list A) : list A := match l with [] => [x] | y :: l' => if le x y then x :: l else y :: insert x l' end.
Definition isort (l : list A) : list A := fold_right insert [] l.
Hypothesis total : forall x y, le x y = false -> le y x = true.
Hypothesis trans : forall x y z, le x y = true -> le y z = true -> le x z = true.
Lemma insert_perm x l : Permutation (insert x l) (x :: l).
Proof. induction l as [|y l IH]; [reflexivity|]. cbn [insert]. destruct (le x y); [reflexivity|]. etransitivity; [apply perm_skip, IH|apply perm_swap]. Qed.
Lemma insert_sorted x l : StronglySorted (fun a b => le a b = true) l -> StronglySorted (fun a b => le a b = true) (insert x l).
Proof.
  induction 1 as [|y l H IH F]; [repeat constructor|]. cbn [insert]. destruct (le x y) eqn:C.
  - constructor; [constructor; assumption|]. constructor; [exact C|]. eapply Forall_impl; [|exact F]. intros z. apply trans, C.
  - constructor; [exact IH|]. rewrite Forall_forall in *. intros z I. apply (Permutation_in _ (insert_perm x l)) in I as [<-|I]; [apply total, C|apply F, I].
Qed.
Lemma isort_perm l : Permutation (isort l) l.
Proof. induction l as [|x l IH]; [reflexivity|]. cbn [isort fold_right]. etransitivity; [apply insert_perm|apply perm_skip, IH]. Qed.
Lemma isort_sorted l : StronglySorted (fun a b => le a b = true) (isort l).
Proof. induction l as [|x l IH]; [constructor|]. apply insert_sorted, IH. Qed.
End Sort.

Section Ranked.
Context {V : Type}.
Variable D : semantics V.
Variable rank : V -> Z.
Hypothesis ranked : forall x y, sort_cmp D x y = Z.compare (rank x) (rank y).
(** Lexicographic comparison of lists of numbers *)
Fixpoint lexi (a b : list Z) : Datatypes.comparison := match a, b with x :: a', y :: b' => match Z.compare x y with Eq => lexi a' b' | c => c end | _, _ => Eq end.
Lemma lexi_app a b a' b' : length a = length b -> lexi (a ++ a') (b ++ b') = match lexi a b with Eq => lexi a' b' | c => c end.
Proof. revert b. induction a as [|x a IH]; intros [|y b] H; try discriminate H; [reflexivity|]. injection H as H. cbn [app lexi]. destruct (Z.compare x y); [apply IH, H|reflexivity|reflexivity]. Qed.
Lemma lexi_opp a : forall b, lexi (map Z.opp a) (map Z.opp b) = CompOpp (lexi a b).
Proof. induction a as [|x a IH]; intros [|y b]; try reflexivity. cbn [map lexi]. rewrite Z.compare_opp, Z.compare_antisym. destruct (Z.compare x y); [apply IH|reflexivity|reflexivity]. Qed.
Lemma lexi_anti a : forall b, lexi b a = CompOpp (lexi a b).
Proof. induction a as [|x a IH]; intros [|y b]; try reflexivity. cbn [lexi]. rewrite Z.compare_antisym. destruct (Z.compare x y); [apply IH|reflexivity|reflexivity]. Qed.
Lemma lexi_trans a : forall b c, length a = length b -> length b = length c -> lexi a b <> Gt -> lexi b c <> Gt -> lexi a c <> Gt.
Proof.
  induction a as [|x a IH]; intros [|y b] [|z c] H H' N N'; try discriminate. injection H as H. injection H' as H'. cbn [lexi] in *.
  destruct (Z.compare_spec x y), (Z.compare_spec y z), (Z.compare_spec x z); subst; try lia; try contradiction; try discriminate; try (eapply IH; eassumption).
Qed.
(** The numbers an ordering looks at *)
Definition numbers (ord : list (operand V * direction)) (r : row V) : list Z :=
  flat_map (fun p => match snd p with Ascending => map rank (evals D r (fst p)) | Descending => map Z.opp (map rank (evals D r (fst p))) end) ord.
Lemma evals_length (a b : row V) o : length (evals D a o) = length (evals D b o).
Proof. destruct o; [reflexivity|]. cbn. rewrite !map_length. reflexivity. Qed.
Lemma numbers_length ord a b : length (numbers ord a) = length (numbers ord b).
Proof. induction ord as [|[o d] ord IH]; [reflexivity|]. unfold numbers in *. cbn [flat_map fst snd]. rewrite !app_length, IH. f_equal. destruct d; rewrite !map_length; apply evals_length. Qed.
Lemma sort_lexi a : forall b, sort_rows D a b = lexi (map rank a) (map rank b).
Proof. induction a as [|x a IH]; intros [|y b]; try reflexivity. cbn [sort_rows map lexi]. rewrite ranked. destruct (Z.compare (rank x) (rank y)); [apply IH|reflexivity|reflexivity]. Qed.
Lemma order_lexi ord a b : order_rows D ord a b = lexi (numbers ord a) (numbers ord b).
Proof.
  induction ord as [|[o d] ord IH]; [reflexivity|]. unfold numbers in *. cbn [order_rows flat_map fst snd]. rewrite lexi_app by (destruct d; rewrite !map_length; apply evals_length). rewrite <- IH, sort_lexi. destruct d; cbn [turned]; [reflexivity|]. rewrite lexi_opp. reflexivity.
Qed.
(** Every query has an answer *)
Definition le_by {T} (cells : T -> row V) (ord : list (operand V * direction)) (x y : T) : bool := match order_rows D ord (cells x) (cells y) with Gt => false | _ => true end.
Definition answer {T} (cells : T -> row V) (table : list T) (wh : option (cond V)) (ord : list (operand V * direction)) (lim off : option N) : list T :=
  cut_to lim off (isort (le_by cells ord) (filter (fun x => chosen_by D wh (cells x)) table)).
Theorem answered {T} (cells : T -> row V) table wh ord lim off : answers D cells table wh ord lim off (answer cells table wh ord lim off).
Proof.
  exists (isort (le_by cells ord) (filter (fun x => chosen_by D wh (cells x)) table)). split; [apply isort_perm|]. split; [|reflexivity].
  assert (W : forall l, StronglySorted (fun a b => le_by cells ord a b = true) l -> StronglySorted (fun a b => not_after D ord (cells a) (cells b)) l).
  { induction 1 as [|x l H IH F]; constructor; [exact IH|]. eapply Forall_impl; [|exact F]. intros y. unfold le_by, not_after. cbv beta. destruct (order_rows D ord (cells x) (cells y)); discriminate. }
  apply W, isort_sorted.
  - intros x y. unfold le_by. rewrite (order_lexi ord (cells y)), lexi_anti, <- order_lexi. destruct (order_rows D ord (cells x) (cells y)); try discriminate; reflexivity.
  - intros x y z. unfold le_by. rewrite !order_lexi. intros H1 H2.
    assert (K : lexi (numbers ord (cells x)) (numbers ord (cells z)) <> Gt).
    { apply (lexi_trans _ (numbers ord (cells y))); try apply numbers_length; intros X; [rewrite X in H1; discriminate H1|rewrite X in H2; discriminate H2]. }
    destruct (lexi (numbers ord (cells x)) (numbers ord (cells z))); [reflexivity|reflexivity|contradiction].
Qed.
End Ranked.
