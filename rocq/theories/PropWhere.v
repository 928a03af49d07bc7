(** C83: conditions choose the records they describe. *)
From Coq Require Import Sorted Permutation.
From Verif Require Import Base ModelStrconv ModelEncoding ModelPgutil ModelCompiler ModelGen ModelRuntime ModelStmt SpecSql SpecGen SpecRuntime SpecStmt SpecDb SpecWhere
  LemmasBase LemmasStmt LemmasStmt2 PropStmt LemmasAnswers.
Import ListNotations.

Section T.
Context {V : Type}.
Variable D : semantics V.
Hypothesis L : lawful D.
Implicit Types (w : where_clause V).

Lemma and3_true a b : and3 a b = Some true <-> a = Some true /\ b = Some true.
Proof. destruct a as [[]|], b as [[]|]; cbn; intuition congruence. Qed.
Lemma or3_true a b : or3 a b = Some true <-> a = Some true \/ b = Some true.
Proof. destruct a as [[]|], b as [[]|]; cbn; intuition congruence. Qed.
Lemma not3_true a : not3 a = Some true <-> a = Some false.
Proof. destruct a as [[]|]; cbn; intuition congruence. Qed.
Lemma and3_false a b : and3 a b = Some false <-> a = Some false \/ b = Some false.
Proof. destruct a as [[]|], b as [[]|]; cbn; intuition congruence. Qed.
Lemma or3_false a b : or3 a b = Some false <-> a = Some false /\ b = Some false.
Proof. destruct a as [[]|], b as [[]|]; cbn; intuition congruence. Qed.
(** One comparison *)
Lemma eq_true x y : compare_by D (B "=") [x] [y] = Some true <-> cmp D x y = Some Eq.
Proof. cbn. destruct (cmp D x y) as [[]|]; cbn; intuition congruence. Qed.
Lemma eq_false x y : compare_by D (B "=") [x] [y] = Some false <-> cmp D x y = Some Lt \/ cmp D x y = Some Gt.
Proof. cbn. destruct (cmp D x y) as [[]|]; cbn; intuition congruence. Qed.
Lemma ne_true x y : compare_by D (B "<>") [x] [y] = Some true <-> cmp D x y = Some Lt \/ cmp D x y = Some Gt.
Proof. cbn. destruct (cmp D x y) as [[]|]; cbn; intuition congruence. Qed.
Lemma gt_true x y : compare_by D (B ">") [x] [y] = Some true <-> above D x y.
Proof. unfold above. cbn. destruct (cmp D x y) as [[]|]; cbn; intuition congruence. Qed.
Lemma ge_true x y : compare_by D (B ">=") [x] [y] = Some true <-> not_below D x y.
Proof. unfold not_below, above. cbn. destruct (cmp D x y) as [[]|]; cbn; intuition congruence. Qed.
Lemma lt_true x y : compare_by D (B "<") [x] [y] = Some true <-> below D x y.
Proof. unfold below. cbn. destruct (cmp D x y) as [[]|]; cbn; intuition congruence. Qed.
Lemma le_true x y : compare_by D (B "<=") [x] [y] = Some true <-> not_above D x y.
Proof. unfold not_above, below. cbn. destruct (cmp D x y) as [[]|]; cbn; intuition congruence. Qed.
Lemma ge_false x y : compare_by D (B ">=") [x] [y] = Some false <-> below D x y.
Proof. unfold below. cbn. destruct (cmp D x y) as [[]|]; cbn; intuition congruence. Qed.
Lemma le_false x y : compare_by D (B "<=") [x] [y] = Some false <-> above D x y.
Proof. unfold above. cbn. destruct (cmp D x y) as [[]|]; cbn; intuition congruence. Qed.
Lemma null_dec x : null D x \/ ~ null D x.
Proof. unfold null. destruct (cmp D x x); [right; discriminate|left; reflexivity]. Qed.
Lemma differs x y : cmp D x y = Some Lt \/ cmp D x y = Some Gt -> ~ same D x y.
Proof. intros H [[N _]|E]; [|destruct H; congruence]. assert (X : cmp D x y = None) by (apply L; left; exact N). destruct H; congruence. Qed.
Lemma comparable x y : ~ null D x -> ~ null D y -> cmp D x y <> None.
Proof. intros A C E. apply L in E as [E|E]; contradiction. Qed.
Lemma differs_iff x y : ~ null D x -> ~ null D y -> ~ same D x y -> cmp D x y = Some Lt \/ cmp D x y = Some Gt.
Proof. intros A C N. pose proof (comparable x y A C) as K. destruct (cmp D x y) as [[]|] eqn:E; auto; exfalso; [apply N; right; exact E|apply K; reflexivity]. Qed.
Lemma same_iff x y : ~ null D x -> same D x y <-> cmp D x y = Some Eq.
Proof. intros A. split; [intros [[N _]|E]; [contradiction|exact E]|right; assumption]. Qed.

Section Row.
Variable fl : flavour.
Variable r : row V.
Notation cell := (cell fl r).
Notation truth := (truth D r).
Lemma in_true c vs : truth (InList false (One [Name (name_of fl c)]) (map (fun v => [Val (given c v)]) vs)) = Some true <-> exists v, In v vs /\ cmp D (cell c) (given c v) = Some Eq.
Proof.
  cbn [SpecDb.truth signed]. induction vs as [|v vs IH]; cbn [map fold_right]; [split; [discriminate|intros (v & [] & _)]|]. rewrite or3_true, IH. cbn [evals eval]. rewrite eq_true. split.
  - intros [E|(x & I & E)]; [exists v; split; [left; reflexivity|exact E]|exists x; split; [right; exact I|exact E]].
  - intros (x & [->|I] & E); [left; exact E|right; exists x; split; assumption].
Qed.
Lemma not_in_true c vs : truth (InList true (One [Name (name_of fl c)]) (map (fun v => [Val (given c v)]) vs)) = Some true <-> forall v, In v vs -> cmp D (cell c) (given c v) = Some Lt \/ cmp D (cell c) (given c v) = Some Gt.
Proof.
  cbn [SpecDb.truth signed]. rewrite not3_true. induction vs as [|v vs IH]; cbn [map fold_right]; [split; [intros _ v []|reflexivity]|]. rewrite or3_false, IH. cbn [evals eval]. rewrite eq_false. split.
  - intros [E H] x [->|I]; [exact E|apply H, I].
  - intros H. split; [apply H; left; reflexivity|intros x I; apply H; right; exact I].
Qed.
Lemma conj_true l : truth (Conj l) = Some true <-> Forall (fun c => truth c = Some true) l.
Proof. cbn [SpecDb.truth]. induction l as [|c l IH]; [split; [constructor|reflexivity]|]. rewrite and3_true, IH. split; [intros [A C]; constructor; assumption|intros H; inversion H; split; assumption]. Qed.
Lemma disj_true l : truth (Disj l) = Some true <-> Exists (fun c => truth c = Some true) l.
Proof. cbn [SpecDb.truth]. induction l as [|c l IH]; [split; [discriminate|intros H; inversion H]|]. rewrite or3_true, IH. split; [intros [A|A]; [left|right]; assumption|intros H; inversion H; auto]. Qed.
Lemma wanted_and cs : wanted D fl r (WAnd cs) <-> Forall (wanted D fl r) cs.
Proof. cbn [wanted]. induction cs as [|c cs IH]; [split; [constructor|trivial]|]. rewrite IH. split; [intros [A C]; constructor; assumption|intros H; inversion H; split; assumption]. Qed.
Lemma wanted_or cs : wanted D fl r (WOr cs) <-> Exists (wanted D fl r) cs.
Proof. cbn [wanted]. induction cs as [|c cs IH]; [split; [intros []|intros H; inversion H]|]. rewrite IH. split; [intros [A|A]; [left|right]; assumption|intros H; inversion H; auto]. Qed.
Lemma meaning_and cs : truth (meaning fl (WAnd cs)) = Some true <-> Forall (fun w => truth (meaning fl w) = Some true) cs.
Proof.
  destruct cs as [|c [|c' cs]].
  - cbn. split; [constructor|reflexivity].
  - change (meaning fl (WAnd [c])) with (meaning fl c). split; [intros H; constructor; [exact H|constructor]|intros H; inversion H; assumption].
  - change (meaning fl (WAnd (c :: c' :: cs))) with (Conj (map (meaning fl) (c :: c' :: cs))). rewrite conj_true, Forall_map. reflexivity.
Qed.
Lemma meaning_or cs : cs <> [] -> truth (meaning fl (WOr cs)) = Some true <-> Exists (fun w => truth (meaning fl w) = Some true) cs.
Proof.
  intros N. destruct cs as [|c [|c' cs]]; [contradiction| |].
  - change (meaning fl (WOr [c])) with (meaning fl c). split; [intros H; left; exact H|intros H; inversion H as [? ? X|? ? X]; [exact X|inversion X]].
  - change (meaning fl (WOr (c :: c' :: cs))) with (Disj (map (meaning fl) (c :: c' :: cs))). rewrite disj_true, Exists_map. reflexivity.
Qed.
Lemma all_iff (P : where_clause V -> Prop) cs : ((fix all (cs : list (where_clause V)) := match cs with [] => True | c :: cs' => P c /\ all cs' end) cs) <-> Forall P cs.
Proof. induction cs as [|c cs IH]; [split; [constructor|trivial]|]. rewrite IH. split; [intros [A C]; constructor; assumption|intros H; inversion H; split; assumption]. Qed.

Lemma sound w : truth (meaning fl w) = Some true -> wanted D fl r w.
Proof.
  induction w as [cs F|cs F|w O] using where_induction.
  - rewrite meaning_and, wanted_and. intros H. induction H as [|c cs H H' IH]; [constructor|]. inversion F; subst. constructor; auto.
  - destruct cs as [|c cs]; [intros H; discriminate H|]. rewrite meaning_or by discriminate. rewrite wanted_or. intros H. revert F. induction H as [c0 l H|c0 l H IH]; intros F; inversion F; subst; [left; auto|right; auto].
  - destruct w; try destruct O; cbn [meaning wanted].
    + cbn [SpecDb.truth evals eval]. rewrite eq_true. intros H. right. exact H.
    + cbn [SpecDb.truth evals eval]. rewrite ne_true. apply differs.
    + rewrite in_true. intros (v & I & E). exists v. split; [exact I|right; exact E].
    + rewrite not_in_true. intros H v I. apply differs, H, I.
    + cbn [SpecDb.truth evals eval]. apply gt_true.
    + cbn [SpecDb.truth evals eval]. apply ge_true.
    + cbn [SpecDb.truth evals eval]. apply lt_true.
    + cbn [SpecDb.truth evals eval]. apply le_true.
    + cbn [SpecDb.truth evals eval signed]. trivial.
    + cbn [SpecDb.truth evals eval signed]. rewrite not3_true. unfold matches, SpecWhere.cell. congruence.
    + cbn [SpecDb.truth evals eval forallb]. intros H. unfold null, SpecWhere.cell. unfold is_null in H. destruct (cmp D _ _); [discriminate H|reflexivity].
    + cbn [SpecDb.truth evals eval forallb]. intros H. unfold null, SpecWhere.cell. unfold is_null in H. destruct (cmp D _ _); [discriminate|discriminate H].
    + cbn [SpecDb.truth evals eval signed]. rewrite and3_true, ge_true, le_true. trivial.
    + cbn [SpecDb.truth evals eval signed]. rewrite not3_true, and3_false, ge_false, le_false. unfold not_below, not_above, below, above, SpecWhere.cell. intros [H|H] [[A|A] [C|C]]; congruence.
Qed.
Lemma complete w : solid w -> no_null D fl r w -> wanted D fl r w -> truth (meaning fl w) = Some true.
Proof.
  induction w as [cs F|cs F|w O] using where_induction; intros SO N.
  - rewrite meaning_and, wanted_and. destruct SO as [_ SO]. cbn [no_null] in N. apply all_iff in N. apply all_iff in SO. intros H. rewrite Forall_forall in *. intros c I. apply F; auto.
  - destruct SO as [NE SO]. rewrite meaning_or by exact NE. rewrite wanted_or. cbn [no_null] in N. apply all_iff in N. apply all_iff in SO. intros H. apply Exists_exists in H as (c & I & H). apply Exists_exists. exists c. rewrite Forall_forall in *. split; [exact I|]. apply F; auto.
  - destruct w; try destruct O; cbn [meaning wanted no_null] in *.
    + cbn [SpecDb.truth evals eval]. rewrite eq_true. intros H. apply same_iff in H; [exact H|exact (proj1 N)].
    + cbn [SpecDb.truth evals eval]. rewrite ne_true. apply differs_iff; apply N.
    + rewrite in_true. intros (v & I & H). exists v. split; [exact I|]. apply same_iff in H; [exact H|apply N].
    + rewrite not_in_true. intros H v I. destruct N as [N NV]. rewrite Forall_forall in NV. apply differs_iff; auto.
    + cbn [SpecDb.truth evals eval]. apply gt_true.
    + cbn [SpecDb.truth evals eval]. apply ge_true.
    + cbn [SpecDb.truth evals eval]. apply lt_true.
    + cbn [SpecDb.truth evals eval]. apply le_true.
    + cbn [SpecDb.truth evals eval signed]. trivial.
    + cbn [SpecDb.truth evals eval signed]. rewrite not3_true. unfold matches, SpecWhere.cell in *. destruct (like D _ _) as [[]|]; [intros H; exfalso; apply H; reflexivity|reflexivity|contradiction].
    + cbn [SpecDb.truth evals eval forallb]. unfold null, SpecWhere.cell, is_null. intros ->. reflexivity.
    + cbn [SpecDb.truth evals eval forallb]. unfold null, SpecWhere.cell, is_null. destruct (cmp D _ _); [reflexivity|intros H; exfalso; apply H; reflexivity].
    + cbn [SpecDb.truth evals eval signed]. rewrite and3_true, ge_true, le_true. trivial.
    + cbn [SpecDb.truth evals eval signed]. rewrite not3_true, and3_false, ge_false, le_false. destruct N as [[A C] [_ C']]. pose proof (comparable _ _ A C) as K. pose proof (comparable _ _ A C') as K'. unfold not_below, not_above, below, above, SpecWhere.cell in *. intros H.
      destruct (cmp D (r (name_of fl c)) (given c lo)) as [[]|]; try contradiction; auto; destruct (cmp D (r (name_of fl c)) (given c hi)) as [[]|]; try contradiction; auto; exfalso; apply H; auto.
Qed.
End Row.

(** A row that the database chooses for the text the operators write is always one that was asked for *)
Theorem C83_sound_partial : forall d w r, all_columns (names_a_column (flavour_of d)) w -> solid w ->
  exists s c, write_where d w empty_stmt = Ok s /\ read_cond (flavour_of d) (s_text s) (s_args s) = Some c /\
  (chosen_by D (Some c) r = true -> wanted D (flavour_of d) r w).
Proof.
  intros d w r C SO. destruct (C30_conditions_partial d w C SO) as (s & E & R). exists s, (meaning (flavour_of d) w). split; [exact E|]. split; [exact R|]. intros H. apply sound. cbn [chosen_by] in H. destruct (truth D r _) as [[]|]; [reflexivity|discriminate H|discriminate H].
Qed.
(** Exactly the rows that were asked for. Missing: NULL, refuted below. *)
Theorem C83_exact_partial : forall d w r, all_columns (names_a_column (flavour_of d)) w -> solid w -> no_null D (flavour_of d) r w ->
  exists s c, write_where d w empty_stmt = Ok s /\ read_cond (flavour_of d) (s_text s) (s_args s) = Some c /\
  (chosen_by D (Some c) r = true <-> wanted D (flavour_of d) r w).
Proof.
  intros d w r C SO N. destruct (C30_conditions_partial d w C SO) as (s & E & R). exists s, (meaning (flavour_of d) w). split; [exact E|]. split; [exact R|]. cbn [chosen_by]. split.
  - intros H. apply sound. destruct (truth D r _) as [[]|]; [reflexivity|discriminate H|discriminate H].
  - intros H. rewrite (complete _ _ w SO N H). reflexivity.
Qed.
(** Equal and In with nil never choose the rows with NULL *)
Theorem C83_nil_refuted : forall d c v r, names_a_column (V:=V) (flavour_of d) c -> null D (given c v) -> null D (cell (flavour_of d) r c) ->
  forall w, w = WEqual c v \/ w = WIn c [v] -> wanted D (flavour_of d) r w /\
  exists s x, write_where d w empty_stmt = Ok s /\ read_cond (flavour_of d) (s_text s) (s_args s) = Some x /\ chosen_by D (Some x) r = false.
Proof.
  intros d c v r C NV NC w W. assert (E : cmp D (cell (flavour_of d) r c) (given c v) = None) by (apply L; left; exact NC). split.
  - destruct W as [-> | ->]; cbn [wanted]; [left; split; assumption|exists v; split; [left; reflexivity|left; split; assumption]].
  - assert (C' : all_columns (names_a_column (flavour_of d)) w) by (destruct W as [-> | ->]; exact C). assert (SO : solid w) by (destruct W as [-> | ->]; cbn; [exact I|discriminate]).
    destruct (C30_conditions_partial d w C' SO) as (s & H & R). exists s, (meaning (flavour_of d) w). split; [exact H|]. split; [exact R|]. unfold cell in E.
    destruct W as [-> | ->]; cbn; rewrite E; reflexivity.
Qed.
(** NotEqual, NotIn and NotBetween leave the rows with NULL out *)
Theorem C83_negation_refuted : forall d c v v' r, names_a_column (V:=V) (flavour_of d) c -> ~ null D (given c v) -> ~ null D (given c v') -> null D (cell (flavour_of d) r c) ->
  forall w, w = WNotEqual c v \/ w = WNotIn c [v] \/ w = WNotBetween c v v' -> wanted D (flavour_of d) r w /\
  exists s x, write_where d w empty_stmt = Ok s /\ read_cond (flavour_of d) (s_text s) (s_args s) = Some x /\ chosen_by D (Some x) r = false.
Proof.
  intros d c v v' r C NV NV' NC w W. assert (E : forall y, cmp D (cell (flavour_of d) r c) y = None) by (intros y; apply L; left; exact NC).
  assert (NS : ~ same D (cell (flavour_of d) r c) (given c v)) by (intros [[_ X]|X]; [contradiction|rewrite E in X; discriminate X]). split.
  - destruct W as [->|[->| ->]]; cbn [wanted]; [exact NS|intros x [<-|[]]; exact NS|]. unfold not_below, above. rewrite E. intros [[X|X] _]; discriminate X.
  - assert (C' : all_columns (names_a_column (flavour_of d)) w) by (destruct W as [->|[->| ->]]; exact C). assert (SO : solid w) by (destruct W as [->|[->| ->]]; cbn; try exact I; discriminate).
    destruct (C30_conditions_partial d w C' SO) as (s & H & R). exists s, (meaning (flavour_of d) w). split; [exact H|]. split; [exact R|]. unfold cell in E.
    destruct W as [->|[->| ->]]; cbn; rewrite !E; reflexivity.
Qed.
(** One nil among the values of NotIn: no row at all is chosen *)
Theorem C83_not_in_nil_refuted : forall d c vs v, names_a_column (V:=V) (flavour_of d) c -> In v vs -> null D (given c v) ->
  exists s x, write_where d (WNotIn c vs) empty_stmt = Ok s /\ read_cond (flavour_of d) (s_text s) (s_args s) = Some x /\ forall r, chosen_by D (Some x) r = false.
Proof.
  intros d c vs v C I N. assert (SO : solid (WNotIn c vs)) by (cbn; destruct vs; [destruct I|discriminate]). destruct (C30_conditions_partial d (WNotIn c vs) C SO) as (s & H & R). exists s, (meaning (flavour_of d) (WNotIn c vs)). split; [exact H|]. split; [exact R|].
  intros r. cbn [chosen_by]. destruct (truth D r (meaning (flavour_of d) (WNotIn c vs))) as [[]|] eqn:T; try reflexivity. exfalso. cbn [meaning] in T. pose proof (proj1 (not_in_true (flavour_of d) r c vs) T v I) as T'.
  assert (X : cmp D (cell (flavour_of d) r c) (given c v) = None) by (apply L; right; exact N). destruct T'; congruence.
Qed.

(** ** Statements *)
Lemma chosen_sound fl r (w : option (where_clause V)) : chosen_by D (option_map (meaning fl) w) r = true -> wants D fl r w.
Proof. destruct w as [w|]; cbn [option_map chosen_by wants]; [|trivial]. intros H. apply sound. destruct (truth D r _) as [[]|]; [reflexivity|discriminate H|discriminate H]. Qed.
Lemma chosen_complete fl r (w : option (where_clause V)) : condition_solid w -> clear_of_null D fl r w -> wants D fl r w -> chosen_by D (option_map (meaning fl) w) r = true.
Proof. destruct w as [w|]; cbn [option_map chosen_by wants]; [|reflexivity]. intros SO N H. rewrite (complete fl r w SO N H). reflexivity. Qed.
Lemma cut_in {A} lim off (l : list A) x : In x (cut_to lim off l) -> In x l.
Proof.
  unfold cut_to. destruct lim as [n|], off as [k|]; intros H; try exact H.
  - rewrite <- (firstn_skipn (N.to_nat k) l). apply in_or_app. right. rewrite <- (firstn_skipn (N.to_nat n) (skipn (N.to_nat k) l)). apply in_or_app. left. exact H.
  - rewrite <- (firstn_skipn (N.to_nat n) l). apply in_or_app. left. exact H.
  - rewrite <- (firstn_skipn (N.to_nat k) l). apply in_or_app. right. exact H.
Qed.
Lemma firstn_sorted {A} (R : A -> A -> Prop) n l : StronglySorted R l -> StronglySorted R (firstn n l).
Proof.
  revert n. induction l as [|x l IH]; intros [|n] H; cbn [firstn]; try constructor; inversion H as [|? ? H1 H2]; subst; [apply IH, H1|].
  rewrite Forall_forall in *. intros y I. apply H2. rewrite <- (firstn_skipn n l). apply in_or_app. left. exact I.
Qed.
Lemma skipn_sorted {A} (R : A -> A -> Prop) n l : StronglySorted R l -> StronglySorted R (skipn n l).
Proof. revert n. induction l as [|x l IH]; intros [|n] H; cbn [skipn]; try exact H. inversion H; subst. apply IH. assumption. Qed.
Lemma cut_sorted {A} (R : A -> A -> Prop) lim off l : StronglySorted R l -> StronglySorted R (cut_to lim off l).
Proof. intros H. unfold cut_to. destruct lim, off; try apply firstn_sorted; try apply skipn_sorted; exact H. Qed.
Lemma rank_order fl ord a b : Forall (fun o => a_name (V:=V) fl (fst o)) ord -> order_rows D (map (an_order fl) ord) a b = rank D fl ord a b.
Proof.
  induction 1 as [|[t asc] ord [n E] H IH]; [reflexivity|]. cbn [map order_rows rank]. rewrite IH. change (an_order fl (t, asc)) with (One (lex (V:=V) fl t), if asc then Ascending else Descending). unfold order_column. cbn [fst snd] in *. rewrite E. cbn [evals eval sort_rows].
  destruct (sort_cmp D (a n) (b n)), asc; reflexivity.
Qed.
Lemma sorted_weaken {A} (R R' : A -> A -> Prop) l : (forall a b, R a b -> R' a b) -> StronglySorted R l -> StronglySorted R' l.
Proof. intros W. induction 1 as [|x l H IH F]; constructor; [exact IH|]. eapply Forall_impl; [|exact F]. intros y. apply W. Qed.
(** QueryStmt: whatever table, order, limit and offset, only wanted records of the table come back, in the order asked for; all of
    them without limit and offset, and at most as many as the limit *)
Theorem C83_query_partial : forall d g (q : select_stmt V) table, parts_ok (flavour_of d) g q table -> condition_solid (q_where q) -> d = DPostgres \/ q_limit q <> 0%N \/ q_offset q = 0%N -> q_group q = [] ->
  exists text args items wh ord lim off, query_stmt d g q = Ok (text, args) /\ read (flavour_of d) text args = Some (Select items table wh [] ord lim off []) /\
  forall T (cells : T -> row V) (rows out : list T), answers D cells rows wh ord lim off out ->
    (forall x, In x out -> In x rows /\ wants D (flavour_of d) (cells x) (q_where q)) /\
    StronglySorted (fun x y => may_precede D (flavour_of d) (q_order q) (cells x) (cells y)) out /\
    (q_limit q <> 0%N -> (N.of_nat (length out) <= q_limit q)%N) /\
    (q_limit q = 0%N -> q_offset q = 0%N -> forall x, In x rows -> clear_of_null D (flavour_of d) (cells x) (q_where q) -> wants D (flavour_of d) (cells x) (q_where q) -> In x out).
Proof.
  intros d g q table P SO O G. destruct (C32_query_partial d g q table P SO O) as (text & args & E & R). unfold asked in R. rewrite G in R. do 7 eexists. split; [exact E|]. split; [exact R|].
  intros T cells rows out (l & PL & SL & ->). split; [|split; [|split]].
  - intros x I. apply cut_in in I. apply (Permutation_in _ PL) in I. apply filter_In in I as [I C]. split; [exact I|apply chosen_sound, C].
  - apply cut_sorted. eapply sorted_weaken; [|exact SL]. intros x y. unfold not_after, may_precede. cbv beta. rewrite rank_order by apply P. trivial.
  - intros NZ. unfold given_n at 1. destruct (q_limit q) as [|p]; [contradiction|]. unfold cut_to. rewrite firstn_length. lia.
  - intros -> -> x I N W. cbn [given_n cut_to]. apply (Permutation_in _ (Permutation_sym PL)). apply filter_In. split; [exact I|]. apply chosen_complete; assumption.
Qed.
(** QueryOneStmt: nothing, or one wanted record that no wanted record must precede; nothing only if none is wanted (NULL apart) *)
Theorem C83_query_one_partial : forall d g (q : select_stmt V) table, parts_ok (flavour_of d) g q table -> condition_solid (q_where q) -> q_group q = [] ->
  exists text args items wh ord lim off, query_one_stmt d g q = Ok (text, args) /\ read (flavour_of d) text args = Some (Select items table wh [] ord lim off []) /\
  forall T (cells : T -> row V) (rows out : list T), answers D cells rows wh ord lim off out ->
    let clear x := In x rows /\ clear_of_null D (flavour_of d) (cells x) (q_where q) /\ wants D (flavour_of d) (cells x) (q_where q) in
    (out = [] /\ forall x, ~ clear x) \/
    (exists x, out = [x] /\ In x rows /\ wants D (flavour_of d) (cells x) (q_where q) /\ forall y, clear y -> y = x \/ may_precede D (flavour_of d) (q_order q) (cells x) (cells y)).
Proof.
  intros d g q table P SO G. destruct (C32_query_one_partial d g q table P SO) as (text & args & E & R). unfold asked in R. rewrite G in R. do 7 eexists. split; [exact E|]. split; [exact R|].
  intros T cells rows out (l & PL & SL & ->) clear. assert (K : forall x, clear x -> In x l). { intros x (I & N & W). apply (Permutation_in _ (Permutation_sym PL)). apply filter_In. split; [exact I|]. apply chosen_complete; assumption. }
  cbn [cut_to N.to_nat]. change (Pos.to_nat 1) with 1. destruct l as [|x l]; cbn [firstn].
  - left. split; [reflexivity|]. intros x C. exact (K x C).
  - right. exists x. split; [reflexivity|]. assert (I : In x (x :: l)) by (left; reflexivity). apply (Permutation_in _ PL) in I. apply filter_In in I as [I C]. split; [exact I|]. split; [apply chosen_sound, C|].
    intros y Y. apply K in Y as [->|Y]; [left; reflexivity|right]. inversion SL as [|? ? _ F]; subst. rewrite Forall_forall in F. specialize (F y Y). unfold not_after in F. unfold may_precede. rewrite <- rank_order by apply P. exact F.
Qed.
(** DELETE through ExecStmt: no record is lost that was not asked for; all that were asked for are gone unless NULL is involved *)
Theorem C83_delete_partial : forall d g (u : update_stmt V) table, a_table (V:=V) (flavour_of d) (changed_table g (e_table u)) table -> changes_ok (flavour_of d) u -> condition_solid (e_where u) ->
  e_order u = [] -> d = DPostgres \/ e_limit u = 0%N ->
  exists text args st, exec_delete d g u = Ok (text, args) /\ read (flavour_of d) text args = Some st /\
  forall unique defaults rows, exists rows', change D unique defaults rows st = Some rows' /\
    (forall r, In r rows' -> In r rows) /\
    (forall r, In r rows -> ~ wants D (flavour_of d) r (e_where u) -> In r rows') /\
    (forall r, In r rows' -> clear_of_null D (flavour_of d) r (e_where u) -> ~ wants D (flavour_of d) r (e_where u)).
Proof.
  intros d g u table T C SO O LM. destruct (C32_delete_partial d g u table T C SO (or_intror O)) as (text & args & E & R). unfold asked_delete in R. rewrite O in R. cbn [map] in R.
  assert (AL : asked_limit (flavour_of d) (e_limit u) = None) by (destruct LM as [-> | ->]; [reflexivity|destruct d; reflexivity]). rewrite AL in R. do 3 eexists. split; [exact E|]. split; [exact R|].
  intros unique defaults rows. eexists. split; [reflexivity|]. split; [|split].
  - intros r I. apply filter_In in I as [I _]. exact I.
  - intros r I N. apply filter_In. split; [exact I|]. destruct (chosen_by D _ r) eqn:X; [exfalso; apply N, chosen_sound, X|reflexivity].
  - intros r I N W. apply filter_In in I as [_ I]. rewrite (chosen_complete (flavour_of d) r (e_where u) SO N W) in I. discriminate I.
Qed.
(** Without a condition everything is deleted *)
Theorem C83_delete_all : forall d g (u : update_stmt V) table, a_table (V:=V) (flavour_of d) (changed_table g (e_table u)) table -> e_where u = None -> changes_ok (flavour_of d) u -> e_order u = [] -> d = DPostgres \/ e_limit u = 0%N ->
  exists text args st, exec_delete d g u = Ok (text, args) /\ read (flavour_of d) text args = Some st /\ forall unique defaults rows, change D unique defaults rows st = Some [].
Proof.
  intros d g u table T W C O LM. assert (SO : condition_solid (e_where u)) by (rewrite W; exact I). destruct (C32_delete_partial d g u table T C SO (or_intror O)) as (text & args & E & R). unfold asked_delete in R. rewrite O, W in R. cbn [map option_map] in R.
  assert (AL : asked_limit (flavour_of d) (e_limit u) = None) by (destruct LM as [-> | ->]; [reflexivity|destruct d; reflexivity]). rewrite AL in R. do 3 eexists. split; [exact E|]. split; [exact R|]. intros unique defaults rows. cbn. f_equal. induction rows; [reflexivity|assumption].
Qed.
(** UPDATE through ExecStmt: the records that were not asked for stay as they are; the others get exactly the values given *)
Definition set_cells (fl : flavour) (u : update_stmt V) (r r' : row V) : Prop :=
  (forall a, In a (e_set u) -> r' (name_of fl (fst a)) = given (fst a) (snd a)) /\ (forall x, ~ In x (map (fun a => name_of fl (fst a)) (e_set u)) -> r' x = r x).
Lemma assigned_sets fl (l : list (colclause V * V)) r : NoDup (map (fun a => name_of fl (fst a)) l) ->
  let r' := assigned (map (fun s => (fst s, eval D r (snd s))) (map (a_set fl) l)) r in
  (forall a, In a l -> r' (name_of fl (fst a)) = given (fst a) (snd a)) /\ (forall x, ~ In x (map (fun a => name_of fl (fst a)) l) -> r' x = r x).
Proof.
  induction l as [|a l IH]; intros ND; [split; [intros a []|reflexivity]|]. cbn [map] in ND. inversion ND as [|? ? NI ND']; subst. destruct (IH ND') as [A C]. cbn [map assigned a_set fst snd eval]. split.
  - intros b [->|I]; [rewrite bseq_refl; reflexivity|]. destruct (bseq (name_of fl (fst b)) (name_of fl (fst a))) eqn:X; [|apply A, I]. exfalso. apply bseq_eq in X. apply NI. rewrite <- X. apply (in_map (fun a => name_of fl (fst a))). exact I.
  - intros x N. destruct (bseq x (name_of fl (fst a))) eqn:X; [exfalso; apply N; left; symmetry; apply bseq_eq, X|]. apply C. intros I. apply N. right. exact I.
Qed.
Theorem C83_update_partial : forall d g (u : update_stmt V) table, a_table (V:=V) (flavour_of d) (changed_table g (e_table u)) table -> changes_ok (flavour_of d) u -> condition_solid (e_where u) ->
  e_set u <> [] -> NoDup (map (fun a => name_of (flavour_of d) (fst a)) (e_set u)) -> e_order u = [] -> d = DPostgres \/ e_limit u = 0%N ->
  exists text args st, exec_update d g u = Ok (text, args) /\ read (flavour_of d) text args = Some st /\
  forall unique defaults rows rows', change D unique defaults rows st = Some rows' ->
    Forall2 (fun r r' => (r' = r \/ wants D (flavour_of d) r (e_where u) /\ set_cells (flavour_of d) u r r') /\
                         (wants D (flavour_of d) r (e_where u) -> clear_of_null D (flavour_of d) r (e_where u) -> set_cells (flavour_of d) u r r')) rows rows'.
Proof.
  intros d g u table T C SO NE ND O LM. destruct (C32_update_partial d g u table T C SO NE (or_intror O)) as (text & args & E & R). unfold asked_update in R. rewrite O in R. cbn [map] in R.
  assert (AL : asked_limit (flavour_of d) (e_limit u) = None) by (destruct LM as [-> | ->]; [reflexivity|destruct d; reflexivity]). rewrite AL in R. do 3 eexists. split; [exact E|]. split; [exact R|].
  intros unique defaults rows rows' H. cbn [change] in H. match type of H with (if unique ?x then _ else _) = _ => destruct (unique x); [|discriminate H] end. injection H as <-.
  induction rows as [|r rows IH]; [constructor|]. cbn [map]. constructor; [|exact IH]. destruct (chosen_by D (option_map (meaning (flavour_of d)) (e_where u)) r) eqn:X.
  - split; [right; split; [apply chosen_sound, X|]|intros _ _]; apply assigned_sets, ND.
  - split; [left; reflexivity|]. intros W N. rewrite (chosen_complete (flavour_of d) r (e_where u) SO N W) in X. discriminate X.
Qed.
End T.
(** ** Cases: numbers, 0 playing NULL *)
Definition nums : semantics nat := {|
  cmp := fun x y => match x, y with 0, _ | _, 0 => None | _, _ => Some (Nat.compare x y) end; sort_cmp := Nat.compare;
  like := fun x y => match x, y with 0, _ | _, 0 => None | _, _ => Some (Nat.eqb x y) end; other := fun _ _ => 0 |}.
Lemma nums_lawful : lawful nums.
Proof. intros x y. unfold null, nums. cbn [cmp]. destruct x, y; cbn; split; auto; intros; try discriminate. destruct H; discriminate. Qed.
(** Every query of every table has an answer *)
Example C83_answered : forall T (cells : T -> row nat) table wh ord lim off, exists out, answers nums cells table wh ord lim off out.
Proof. intros T cells table wh ord lim off. eexists. apply (answered nums Z.of_nat). intros x y. symmetry. apply Nat2Z.inj_compare. Qed.
Definition ex_row (a b c e : nat) : row nat := fun x => if bseq x (B "a") then a else if bseq x (B "b") then b else if bseq x (B "c") then c else e.
Example C83_case : forall d, no_null nums (flavour_of d) (ex_row 1 3 9 0) ex_where /\ wanted nums (flavour_of d) (ex_row 1 3 9 0) ex_where /\
  no_null nums (flavour_of d) (ex_row 1 7 3 0) ex_where /\ ~ wanted nums (flavour_of d) (ex_row 1 7 3 0) ex_where.
Proof.
  intros d. split; [|split; [|split]].
  - destruct d; cbn; repeat split; try (intros H; discriminate H); repeat constructor; intros H; discriminate H.
  - destruct d; cbn; (split; [right; reflexivity|]); (split; [left; exists 2; split; [right; left; reflexivity|right; reflexivity]|]); (split; [reflexivity|exact I]).
  - destruct d; cbn; repeat split; try (intros H; discriminate H); repeat constructor; intros H; discriminate H.
  - destruct d; cbn; intros (_ & [(v & [<-|[<-|[]]] & [[H _]|H])|[H|[]]] & _); try discriminate H; (apply H; split; [right; reflexivity|left; reflexivity]).
Qed.
Definition ex_plain : select_stmt nat :=
  {| q_select := []; q_from := []; q_where := Some (WGreaterThan (Basic (B "a")) 2); q_order := [(B "a", false)]; q_group := []; q_offset := 0; q_limit := 2 |}.
Example C83_query_case : forall d, parts_ok (flavour_of d) ex_target ex_plain [B "app"; B "users"] /\ condition_solid (q_where ex_plain) /\ q_group ex_plain = [] /\
  answers nums (fun r => r) [ex_row 3 0 0 0; ex_row 1 0 0 0; ex_row 5 0 0 0; ex_row 4 0 0 0] (option_map (meaning (flavour_of d)) (q_where ex_plain)) (map (an_order (flavour_of d)) (q_order ex_plain)) (Some 2%N) None
    [ex_row 5 0 0 0; ex_row 4 0 0 0].
Proof.
  intros d. split; [|split; [exact I|split; [reflexivity|]]].
  - split; [discriminate|]. split; [repeat constructor; destruct d; reflexivity|]. split; [eexists; split; [reflexivity|]; destruct d; reflexivity|]. split; [destruct d; columns|]. split; [constructor|]. repeat constructor; destruct d; eexists; reflexivity.
  - exists [ex_row 5 0 0 0; ex_row 4 0 0 0; ex_row 3 0 0 0]. split; [|split; [|reflexivity]].
    + destruct d; cbn [option_map ex_plain q_where]; match goal with |- Permutation _ ?x => let y := eval cbn in x in change x with y end; (eapply perm_trans; [apply perm_skip, perm_swap|]; eapply perm_trans; [apply perm_swap|]; apply perm_skip; apply Permutation_refl).
    + destruct d; repeat constructor; unfold not_after; vm_compute; discriminate.
Qed.
Definition ex_change : update_stmt nat :=
  {| e_table := B "other"; e_set := [(Basic (B "a"), 5)]; e_where := Some (WEqual (Basic (B "b")) 1); e_order := []; e_limit := 0 |}.
Example C83_change_case : forall d, a_table (V:=nat) (flavour_of d) (changed_table ex_target (e_table ex_change)) [B "app"; B "users"] /\
  changes_ok (flavour_of d) ex_change /\ condition_solid (e_where ex_change) /\ e_set ex_change <> [] /\ NoDup (map (fun a => name_of (flavour_of d) (fst a)) (e_set ex_change)) /\ e_order ex_change = [] /\ e_limit ex_change = 0%N.
Proof.
  intros d. split; [destruct d; reflexivity|]. split; [|split; [exact I|split; [discriminate|split; [repeat constructor; intros []|split; reflexivity]]]].
  split; [repeat constructor; destruct d; eexists; reflexivity|]. split; [destruct d; columns|constructor].
Qed.
Example C83_null_case : forall d, names_a_column (V:=nat) (flavour_of d) (Basic (B "a")) /\ null nums (given (Basic (B "a")) 0) /\ null nums (cell (flavour_of d) (ex_row 0 1 1 1) (Basic (B "a"))) /\ ~ null nums (given (Basic (B "a")) 7).
Proof. intros d. split; [destruct d; columns|]. split; [reflexivity|]. split; [destruct d; reflexivity|discriminate]. Qed.
Print Assumptions C83_sound_partial.
Print Assumptions C83_exact_partial.
Print Assumptions C83_nil_refuted.
Print Assumptions C83_negation_refuted.
Print Assumptions C83_not_in_nil_refuted.
Print Assumptions C83_query_partial.
Print Assumptions C83_delete_partial.
Print Assumptions C83_delete_all.
Print Assumptions C83_update_partial.
Print Assumptions C83_query_one_partial.
