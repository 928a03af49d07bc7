(** Paging through a table. *)
From Coq Require Import Sorted Permutation.
From Verif Require Import Base ModelStrconv ModelCompiler ModelGen ModelRuntime ModelStmt ModelPager SpecSql SpecGen SpecRuntime SpecStmt SpecPager SpecDb SpecPaging
  LemmasBase LemmasPager LemmasPager2 LemmasPager3 LemmasRuntime7 PropRuntime PropPager.

(** ** Sorted lists *)
Section Lists.
Context {A : Type}.
Lemma filter_perm (f : A -> bool) l m : Permutation l m -> Permutation (filter f l) (filter f m).
Proof.
  induction 1; cbn [filter]; [constructor|destruct (f x); auto|destruct (f x), (f y); auto; apply perm_swap|etransitivity; eauto].
Qed.
Lemma sorted_unique (R : A -> A -> Prop) l : forall m, StronglySorted R l -> StronglySorted R m -> Permutation l m ->
  (forall a b, In a l -> In b l -> R a b -> R b a -> a = b) -> l = m.
Proof.
  induction l as [|a l IH]; intros m SL SM P AS.
  - apply Permutation_nil in P. congruence.
  - destruct m as [|b m]; [symmetry in P; apply Permutation_nil in P; discriminate|].
    inversion SL as [|? ? SL' FL]; subst. inversion SM as [|? ? SM' FM]; subst.
    assert (a = b).
    { assert (IA : In a (b :: m)) by (eapply Permutation_in; [exact P|now left]). assert (IB : In b (a :: l)) by (eapply Permutation_in; [symmetry; exact P|now left]).
      destruct IA as [->|IA]; [reflexivity|]. destruct IB as [->|IB]; [reflexivity|].
      rewrite Forall_forall in FL, FM. apply AS; [now left|now right|apply FL, IB|apply FM, IA]. }
    subst b. f_equal. apply IH; auto; [eapply Permutation_cons_inv; exact P|]. intros; apply AS; auto; now right.
Qed.
Lemma sorted_app_inv (R : A -> A -> Prop) l m : StronglySorted R (l ++ m) -> StronglySorted R m /\ forall a b, In a l -> In b m -> R a b.
Proof.
  induction l as [|x l IH]; cbn [app]; intros S; [split; [exact S|contradiction]|]. inversion S as [|? ? S' F]; subst. destruct (IH S') as [H1 H2].
  split; [exact H1|]. intros a b [<-|I] J; [|auto]. rewrite Forall_forall in F. apply F, in_or_app. now right.
Qed.
Lemma filter_none (f : A -> bool) l : (forall x, In x l -> f x = false) -> filter f l = [].
Proof. induction l as [|x l IH]; intros H; [reflexivity|]. cbn. rewrite H by now left. apply IH. intros; apply H; now right. Qed.
Lemma filter_all (f : A -> bool) l : (forall x, In x l -> f x = true) -> filter f l = l.
Proof. induction l as [|x l IH]; intros H; [reflexivity|]. cbn. rewrite H by now left. f_equal. apply IH. intros; apply H; now right. Qed.
Lemma filter_filter (f g : A -> bool) l : filter f (filter g l) = filter (fun x => g x && f x) l.
Proof. induction l as [|x l IH]; [reflexivity|]. cbn. destruct (g x); cbn; [destruct (f x); rewrite IH; reflexivity|exact IH]. Qed.

(** From an element on, a sorted list is what the order says. *)
Lemma suffix (leb : A -> A -> bool) table x0 pre y post l :
  (forall a b c, In a table -> In b table -> In c table -> leb a b = true -> leb b c = true -> leb a c = true) ->
  (forall a b, In a table -> In b table -> leb a b = true -> leb b a = true -> a = b) ->
  (forall a, In a table -> leb a a = true) ->
  NoDup table -> In x0 table ->
  Permutation (pre ++ y :: post) (filter (leb x0) table) -> StronglySorted (fun a b => leb a b = true) (pre ++ y :: post) ->
  Permutation l (filter (leb y) table) -> StronglySorted (fun a b => leb a b = true) l -> l = y :: post.
Proof.
  intros TR AS RF ND I0 P S PL SL.
  assert (IN : forall z, In z (pre ++ y :: post) -> In z table /\ leb x0 z = true).
  { intros z I. apply (Permutation_in _ P) in I. apply filter_In in I. exact I. }
  destruct (sorted_app_inv _ _ _ S) as [S2 S1]. inversion S2 as [|? ? S3 FY]; subst. rewrite Forall_forall in FY.
  assert (IY : In y table) by (apply IN, in_or_app; right; now left).
  assert (NDL : NoDup (pre ++ y :: post)) by (eapply Permutation_NoDup; [symmetry; exact P|apply NoDup_filter, ND]).
  assert (F : filter (leb y) (pre ++ y :: post) = y :: post).
  { rewrite filter_app. rewrite filter_none; cbn [app filter].
    - rewrite RF by exact IY. rewrite filter_all; [reflexivity|]. exact FY.
    - intros z I. destruct (leb y z) eqn:E; [|reflexivity]. exfalso. apply NoDup_remove_2 in NDL. apply NDL, in_or_app. left.
      replace y with z; [exact I|]. apply AS; auto; [apply IN, in_or_app; now left|]. apply S1; [exact I|now left]. }
  assert (Q : Permutation l (y :: post)).
  { rewrite PL, <- F. symmetry. etransitivity; [apply filter_perm, P|]. rewrite filter_filter.
    replace (filter (fun x => leb x0 x && leb y x) table) with (filter (leb y) table); [reflexivity|].
    apply filter_ext_in. intros z I. destruct (leb y z) eqn:E; [|rewrite andb_false_r; reflexivity].
    rewrite (TR x0 y z) by (auto; apply IN, in_or_app; right; now left). reflexivity. }
  eapply sorted_unique; [exact SL|exact S2|exact Q|]. intros a b IA IB. apply AS.
  - apply IN, in_or_app. right. eapply Permutation_in; [exact Q|exact IA].
  - apply IN, in_or_app. right. eapply Permutation_in; [exact Q|exact IB].
Qed.
End Lists.

(** ** Comparing rows *)
Section Compare.
Context {V : Type}.
Variable D : semantics V.
Hypothesis LAW : lawful D.
Lemma rows_swap a : forall b c, compare_rows D a b = Some c -> compare_rows D b a = Some (CompOpp c).
Proof.
  induction a as [|x a IH]; intros [|y b] c; cbn [compare_rows]; try discriminate; [intros [= <-]; reflexivity|].
  destruct (cmp D x y) as [k|] eqn:E; [|discriminate]. rewrite (cmp_swaps D LAW _ _ _ E). destruct k; cbn [CompOpp]; [apply IH| |]; intros [= <-]; reflexivity.
Qed.
Lemma rows_equal a : forall b c, compare_rows D a b = Some Eq -> compare_rows D a c = compare_rows D b c.
Proof.
  induction a as [|x a IH]; intros [|y b] [|z c]; cbn [compare_rows]; try discriminate; try reflexivity.
  destruct (cmp D x y) as [k|] eqn:E; [|discriminate]. destruct k; try discriminate. intros H. rewrite (cmp_equal D LAW _ _ z E), (IH b c H). reflexivity.
Qed.
Lemma rows_trans a : forall b c, compare_rows D a b = Some Lt -> compare_rows D b c = Some Lt -> compare_rows D a c = Some Lt.
Proof.
  induction a as [|x a IH]; intros [|y b] [|z c]; cbn [compare_rows]; try discriminate.
  destruct (cmp D x y) as [k|] eqn:E; [|discriminate]. destruct k; try discriminate.
  - intros H. rewrite (cmp_equal D LAW _ _ z E). destruct (cmp D y z) as [k|]; [|discriminate]. destruct k; try discriminate; [|reflexivity]. intros G. exact (IH _ _ H G).
  - intros _. destruct (cmp D y z) as [k|] eqn:E2; [|discriminate]. destruct k; try discriminate; intros _.
    + assert (X : cmp D x z = Some Lt); [|rewrite X; reflexivity].
      pose proof (cmp_equal D LAW _ _ x E2) as X. rewrite (cmp_swaps D LAW _ _ _ E) in X. symmetry in X. apply (cmp_swaps D LAW) in X. exact X.
    + rewrite (cmp_trans D LAW _ _ _ E E2). reflexivity.
Qed.
Lemma rows_sort a : forall b c, compare_rows D a b = Some c -> sort_rows D a b = c.
Proof.
  induction a as [|x a IH]; intros [|y b] c; cbn [compare_rows sort_rows]; try discriminate; [intros [= <-]; reflexivity|].
  destruct (cmp D x y) as [k|] eqn:E; [|discriminate]. rewrite (cmp_sorts D LAW _ _ _ E). destruct k; [apply IH| |]; intros [= <-]; reflexivity.
Qed.
Lemma rows_eq a : forall b, equal_rows D a b = Some true <-> compare_rows D a b = Some Eq.
Proof.
  induction a as [|x a IH]; intros [|y b]; cbn [compare_rows equal_rows]; try (split; discriminate); [split; reflexivity|].
  destruct (cmp D x y) as [k|]; [|split; [destruct (equal_rows D a b) as [[]|]|]; discriminate]. cbn [option_map]. destruct k; cbn.
  - rewrite <- IH. destruct (equal_rows D a b) as [[]|]; split; congruence.
  - split; discriminate.
  - split; discriminate.
Qed.
End Compare.

(** ** The loop *)
Section Loop.
Context {V T : Type}.
Variables (D : semantics V) (cells : T -> row V) (key : list bytes) (d : driver) (view : T -> model V) (q cols : list bytes) (items : list (expr V)).
Variables (ask : bytes -> list V -> option (list T)) (table : list T) (zero : T) (fwd : bool) (p : pager V).
Notation fl := (flavour_of d).
Notation key_cmp := (key_cmp D cells key).
Notation reached := (reached D cells key fwd).
Hypothesis LAW : lawful D.
Hypothesis MT : models_table cells key d view q cols items.
Hypothesis KT : keyed_table D cells key table.
Hypothesis SV : serves D cells d q items ask table.
Hypothesis SHAPE : d = DPostgres \/ forall x, ~ composite (view x).
Hypothesis PW : match p_where p with Some w => writes_nothing w | None => True end.
Hypothesis PO : p_order p = [].
Hypothesis LIMIT : (0 < p_limit p < 65535)%N.

Lemma eval_columns (r : row V) x : evals D r (key_columns (view x) (keys cells key x)) = map r key.
Proof.
  pose proof (mt_keyed _ _ _ _ _ _ _ MT x) as K. unfold key_columns, keyed_by, keys in *. destruct (m_key (view x)) as [|n i v|n i v|ns is vs].
  - contradiction.
  - destruct K as (k & _ & E). destruct key as [|k' [|? ?]]; try discriminate. reflexivity.
  - destruct K as (k & _ & E). destruct key as [|k' [|? ?]]; try discriminate. reflexivity.
  - cbn [evals]. rewrite !map_map. reflexivity.
Qed.
Lemma eval_values (r : row V) x : evals D r (key_values (view x) (keys cells key x)) = key_row cells key x.
Proof.
  pose proof (mt_keyed _ _ _ _ _ _ _ MT x) as K. unfold key_values, key_row, keyed_by, keys in *. destruct (m_key (view x)) as [|n i v|n i v|ns is vs].
  - contradiction.
  - destruct K as (k & _ & E). destruct key as [|k' [|? ?]]; try discriminate. reflexivity.
  - destruct K as (k & _ & E). destruct key as [|k' [|? ?]]; try discriminate. reflexivity.
  - cbn [evals]. rewrite !map_map. reflexivity.
Qed.
Lemma match_compare x : key_match (view x) (keys cells key x) = Compare (key_columns (view x) (keys cells key x)) (B "=") (key_values (view x) (keys cells key x)).
Proof.
  pose proof (mt_keyed _ _ _ _ _ _ _ MT x) as K. unfold key_match, key_columns, key_values, keyed_by in *. destruct (m_key (view x)) as [|n i v|n i v|ns is vs]; try contradiction; [| |reflexivity];
  destruct K as (k & _ & ->); reflexivity.
Qed.

Lemma swap x y c : key_cmp x y = Some c -> key_cmp y x = Some (CompOpp c).
Proof. apply rows_swap, LAW. Qed.
Lemma same x : In x table -> key_cmp x x = Some Eq.
Proof.
  intros I. destruct (key_cmp x x) as [c|] eqn:E; [|exfalso; exact (proj1 (proj2 KT) x x I I E)].
  pose proof (swap _ _ _ E) as X. rewrite E in X. destruct c; [reflexivity|discriminate|discriminate].
Qed.
Lemma match_chosen v z : chosen_by D (Some (key_match (view v) (keys cells key v))) (cells z) = match key_cmp z v with Some Eq => true | _ => false end.
Proof.
  unfold chosen_by. rewrite match_compare. cbn [truth]. unfold compare_by. change (bseq (B "=") (B "=")) with true. cbv iota. rewrite eval_columns, eval_values.
  change (map (cells z) key) with (key_row cells key z). pose proof (rows_eq D (key_row cells key z) (key_row cells key v)) as R. unfold SpecPaging.key_cmp.
  destruct (equal_rows D _ _) as [[]|]; [rewrite (proj1 R) by reflexivity; reflexivity|..];
    (destruct (compare_rows D _ _) as [[]|]; [discriminate (proj2 R eq_refl)|reflexivity..]).
Qed.
Lemma from_chosen x z : chosen_by D (Some (from_cursor fwd (view x) (keys cells key x))) (cells z) = reached x z.
Proof.
  unfold chosen_by, from_cursor. cbn [truth]. rewrite eval_columns, eval_values. change (map (cells z) key) with (key_row cells key z).
  unfold SpecPaging.reached. unfold compare_by. replace (bseq (if fwd then B ">=" else B "<=") (B "=")) with false by (destruct fwd; reflexivity).
  replace (bseq (if fwd then B ">=" else B "<=") (B "<>")) with false by (destruct fwd; reflexivity). cbv iota.
  destruct (compare_rows D (key_row cells key z) (key_row cells key x)) as [c|] eqn:E.
  - rewrite (swap z x c E). cbn [option_map]. destruct c, fwd; reflexivity.
  - cbn [option_map]. destruct (key_cmp x z) eqn:E2; [|reflexivity]. apply swap in E2. unfold SpecPaging.key_cmp in E2. congruence.
Qed.
Lemma before_reached x a b : In a table -> In b table -> (not_after D [(key_columns (view x) (keys cells key x), heading fwd)] (cells a) (cells b) <-> reached a b = true).
Proof.
  intros IA IB. unfold not_after, SpecPaging.reached. cbn [order_rows]. rewrite !eval_columns.
  destruct (key_cmp a b) as [c|] eqn:E; [|exfalso; exact (proj1 (proj2 KT) a b IA IB E)].
  change (map (cells a) key) with (key_row cells key a). change (map (cells b) key) with (key_row cells key b). rewrite (rows_sort D LAW _ _ _ E).
  unfold turned, heading. destruct fwd, c; cbn; split; congruence || (intros; exfalso; congruence) || discriminate || reflexivity || auto.
Qed.

Lemma reached_trans a b c : reached a b = true -> reached b c = true -> reached a c = true.
Proof.
  unfold SpecPaging.reached. destruct (key_cmp a b) as [k|] eqn:E; [|discriminate]. destruct (key_cmp b c) as [k'|] eqn:E'; [|discriminate].
  assert (EQ : forall x y z, key_cmp x y = Some Eq -> key_cmp x z = key_cmp y z) by (intros; apply rows_equal; assumption).
  assert (TR : forall x y z, key_cmp x y = Some Lt -> key_cmp y z = Some Lt -> key_cmp x z = Some Lt) by (intros; eapply rows_trans; eassumption).
  destruct k; [rewrite (EQ a b c E), E'; auto|..].
  - destruct k'; [|intros; rewrite (TR _ _ _ E E'); assumption|destruct fwd; cbn; congruence].
    intros F _. apply swap in E'. cbn in E'. assert (X : key_cmp c a = Some Gt). { apply swap in E. cbn in E. rewrite (EQ c b a E'). exact E. }
    apply swap in X. cbn in X. rewrite X. exact F.
  - destruct k'; [|destruct fwd; cbn; congruence|].
    + intros F _. apply swap in E'. cbn in E'. assert (X : key_cmp c a = Some Lt). { apply swap in E. cbn in E. rewrite (EQ c b a E'). exact E. }
      apply swap in X. cbn in X. rewrite X. exact F.
    + intros F _. apply swap in E, E'. cbn in E, E'. pose proof (TR _ _ _ E' E) as X. apply swap in X. cbn in X. rewrite X. exact F.
Qed.
Lemma reached_antisym a b : In a table -> In b table -> reached a b = true -> reached b a = true -> a = b.
Proof.
  intros IA IB. unfold SpecPaging.reached. destruct (key_cmp a b) as [k|] eqn:E; [|discriminate]. rewrite (swap _ _ _ E).
  destruct k; [intros _ _; apply (proj2 (proj2 KT)); assumption|..]; destruct fwd; cbn; discriminate.
Qed.
Lemma reached_self a : In a table -> reached a a = true.
Proof. intros I. unfold SpecPaging.reached. rewrite same by exact I. reflexivity. Qed.
Lemma reached_passed a b : In a table -> In b table -> a <> b -> reached a b = true -> passed D cells key fwd a b.
Proof.
  intros IA IB NE. unfold SpecPaging.reached, passed. destruct (key_cmp a b) as [[]|] eqn:E; [|destruct fwd; cbn; congruence..].
  exfalso. apply NE, (proj2 (proj2 KT)); assumption.
Qed.

(** The row of the cursor *)
Lemma refetched v y : In y table -> key_cmp v y = Some Eq -> refetch T view ask d v = Ok y.
Proof.
  intros IY E. unfold refetch. destruct (mt_found _ _ _ _ _ _ _ MT v) as (text & args & F & R). rewrite F. cbn [bind fst snd].
  pose proof (SV text args) as S. rewrite R in S. destruct (S eq_refl eq_refl) as (out & EA & l & P & _ & ->). rewrite EA. clear S.
  assert (C : filter (fun x => chosen_by D (Some (key_match (view v) (keys cells key v))) (cells x)) table = [y]).
  { assert (CH : forall z, In z table -> chosen_by D (Some (key_match (view v) (keys cells key v))) (cells z) = true <-> z = y).
    { intros z IZ. rewrite match_chosen. destruct (key_cmp z v) as [c|] eqn:EZ.
      - pose proof (swap _ _ _ EZ) as X. rewrite (rows_equal D LAW _ _ (key_row cells key z) E : key_cmp v z = key_cmp y z) in X. apply swap in X. rewrite CompOpp_involutive in X.
        destruct c; split; intros H; try discriminate; try (subst; rewrite same in X by exact IY; discriminate); [|reflexivity].
        apply (proj2 (proj2 KT)); assumption.
      - split; [discriminate|]. intros ->. apply swap in E. unfold SpecPaging.key_cmp in *. congruence. }
    pose proof (proj1 KT) as ND. clear - CH ND IY. induction table as [|x l IH]; [contradiction|]. cbn [filter]. inversion ND as [|? ? NI ND']; subst.
    assert (IHH : forall z, In z l -> chosen_by D (Some (key_match (view v) (keys cells key v))) (cells z) = true <-> z = y) by (intros; apply CH; now right).
    destruct IY as [->|IY].
    - rewrite (proj2 (CH y (or_introl eq_refl)) eq_refl). f_equal. apply filter_none. intros z IZ. destruct (chosen_by D _ (cells z)) eqn:E; [|reflexivity].
      apply IHH in E; [|exact IZ]. subst. contradiction.
    - rewrite (IH IY IHH ND'). destruct (chosen_by D _ (cells x)) eqn:E; [|reflexivity]. apply CH in E; [|now left]. subst. contradiction. }
  rewrite C in P. symmetry in P. apply Permutation_length_1_inv in P. subst l. reflexivity.
Qed.

Let n := N.to_nat (p_limit p).
Variables (x0 : T) (whole : list T).
Hypothesis I0 : In x0 table.
Hypothesis PERM : Permutation whole (filter (reached x0) table).
Hypothesis SORTED : StronglySorted (fun a b => reached a b = true) whole.

Lemma page_answer y : In y table -> exists text args out l, page_stmt d fwd p (view y) true = Ok (text, args) /\ ask text args = Some out /\
  Permutation l (filter (reached y) table) /\ StronglySorted (fun a b => reached a b = true) l /\ out = firstn (S n) l.
Proof.
  intros IY. destruct (C37_cursor_partial d fwd p (view y) q cols items (keys cells key y) (mt_described _ _ _ _ _ _ _ MT y) (mt_keyed _ _ _ _ _ _ _ MT y) PW PO) as (text & args & E & R);
    [destruct SHAPE; auto|apply LIMIT|]. pose proof (SV text args) as S. rewrite R in S. destruct (S eq_refl eq_refl) as (out & EA & l & P & SS & EO). clear S.
  exists text, args, out, l. split; [exact E|]. split; [exact EA|].
  assert (P' : Permutation l (filter (reached y) table)).
  { rewrite P. erewrite filter_ext; [reflexivity|]. intros z. apply from_chosen. }
  split; [exact P'|]. split.
  - assert (IN : forall z, In z l -> In z table). { intros z I. apply (Permutation_in _ P') in I. apply filter_In in I. tauto. }
    clear - SS IN KT LAW MT. induction SS as [|a l S IH F]; constructor; [apply IH; intros; apply IN; now right|]. rewrite Forall_forall in *. intros b I.
    eapply before_reached; [apply IN; now left|apply IN; now right|apply F, I].
  - rewrite EO. unfold cut_to. f_equal. unfold n. lia.
Qed.
Lemma turned_page v y pre post : whole = pre ++ y :: post -> key_cmp v y = Some Eq ->
  turn T view zero ask d fwd p v true =
  if Nat.leb (length (y :: post)) n then (Page (y :: post), None) else (Page (firstn n (y :: post)), Some (nth n (y :: post) zero)).
Proof.
  intros EW EV. assert (IY : In y table).
  { assert (In y (filter (reached x0) table)) as I; [|apply filter_In in I; tauto]. eapply Permutation_in; [exact PERM|]. rewrite EW. apply in_or_app. right. now left. }
  unfold turn. rewrite (refetched v y IY EV). destruct (page_answer y IY) as (text & args & out & l & E & EA & P & SS & ->). rewrite E, EA.
  assert (L : l = y :: post).
  { eapply (suffix reached table x0 pre y post l); try eassumption.
    - intros. eapply reached_trans; eassumption.
    - apply reached_antisym.
    - apply reached_self.
    - apply KT.
    - rewrite <- EW. exact PERM.
    - rewrite <- EW. exact SORTED. }
  subst l. assert (PN : (p_limit p = N.of_nat n)%N) by (unfold n; lia).
  assert (N1 : (N.of_nat n < 65535)%N) by (rewrite <- PN; apply LIMIT).
  assert (LEN : length (firstn (S n) (y :: post)) = Nat.min (S n) (length (y :: post))) by apply firstn_length.
  assert (U : uint16 (N.of_nat (length (firstn (S n) (y :: post)))) = N.of_nat (length (firstn (S n) (y :: post)))). { unfold uint16. apply N.mod_small. rewrite LEN. lia. }
  rewrite U, PN. destruct (Nat.leb_spec (length (y :: post)) n) as [LE|GT].
  - rewrite firstn_all2 by lia. destruct (N.leb_spec (N.of_nat (length (y :: post))) (N.of_nat n)); [reflexivity|lia].
  - assert (FL : length (firstn (S n) (y :: post)) = S n) by (rewrite LEN; lia). rewrite FL. destruct (N.leb_spec (N.of_nat (S n)) (N.of_nat n)); [lia|].
    clear - GT. assert (X : forall (l : list T) k, k < length l -> firstn (S k) l = firstn k l ++ [nth k l zero]).
    { induction l as [|a l IH]; intros k H; [inversion H|]. destruct k; [reflexivity|]. cbn [firstn app nth]. f_equal. apply IH. cbn in H. lia. }
    rewrite (X _ n GT), removelast_last, last_last. reflexivity.
Qed.

Lemma paging_from : forall m y pre post, length post <= m -> whole = pre ++ y :: post ->
  exists ps, concat ps = y :: post /\ paged n ps /\
  forall v k, key_cmp v y = Some Eq -> pages T view zero ask d fwd p v true k = (map Page (firstn k ps), Nat.leb (length ps) k).
Proof.
  assert (N0 : 0 < n) by (unfold n; lia).
  induction m as [|m IH]; intros y pre post LM EW.
  - destruct post; [|inversion LM]. exists [[y]]. split; [reflexivity|]. split; [exists [], [y]; repeat split; auto; cbn; lia|].
    intros v k EV. destruct k as [|k]; [reflexivity|]. cbn [pages]. rewrite (turned_page v y pre [] EW EV). destruct (Nat.leb_spec (length [y]) n) as [|X]; [|cbn in X; lia].
    cbn [firstn map length]. rewrite firstn_nil. reflexivity.
  - destruct (Nat.leb_spec (length (y :: post)) n) as [LE|GT].
    + exists [y :: post]. split; [cbn; rewrite app_nil_r; reflexivity|]. split; [exists [], (y :: post); repeat split; auto; cbn; lia|].
      intros v k EV. destruct k as [|k]; [reflexivity|]. cbn [pages]. rewrite (turned_page v y pre post EW EV). destruct (Nat.leb_spec (length (y :: post)) n) as [|X]; [|lia].
      cbn [firstn map length]. rewrite firstn_nil. reflexivity.
    + destruct (skipn n (y :: post)) as [|y' post'] eqn:ES; [apply (f_equal (@length T)) in ES; rewrite skipn_length in ES; cbn [length] in *; lia|].
      assert (SPLIT : y :: post = firstn n (y :: post) ++ y' :: post') by (rewrite <- ES; symmetry; apply firstn_skipn).
      assert (FL : length (firstn n (y :: post)) = n) by (rewrite firstn_length; lia).
      assert (LP : length post' <= m). { apply (f_equal (@length T)) in SPLIT. rewrite app_length, FL in SPLIT. cbn [length] in *. lia. }
      assert (EW' : whole = (pre ++ firstn n (y :: post)) ++ y' :: post'). { rewrite <- app_assoc, <- SPLIT. exact EW. }
      assert (NTH : nth n (y :: post) zero = y'). { rewrite SPLIT. rewrite app_nth2 by lia. rewrite FL, Nat.sub_diag. reflexivity. }
      assert (IY' : In y' table).
      { assert (In y' (filter (reached x0) table)) as I; [|apply filter_In in I; tauto]. eapply Permutation_in; [exact PERM|]. rewrite EW'. apply in_or_app. right. now left. }
      destruct (IH y' _ post' LP EW') as (ps & EC & (init & lst & -> & FI & LL) & PG).
      exists (firstn n (y :: post) :: init ++ [lst]). split; [cbn [concat]; rewrite EC; symmetry; exact SPLIT|].
      split; [exists (firstn n (y :: post) :: init), lst; repeat split; try apply LL; constructor; assumption|].
      intros v k EV. destruct k as [|k]; [reflexivity|]. cbn [pages]. rewrite (turned_page v y pre post EW EV). destruct (Nat.leb_spec (length (y :: post)) n) as [X|_]; [lia|].
      rewrite NTH, (PG y' k (same y' IY')). reflexivity.
Qed.
End Loop.
