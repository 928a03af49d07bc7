(** Paging through a table that changes (C94). *)
From Coq Require Import Sorted Permutation.
From Verif Require Import Base ModelStrconv ModelCompiler ModelGen ModelRuntime ModelStmt ModelPager ModelMoving SpecSql SpecGen SpecRuntime SpecStmt SpecPager SpecDb SpecPaging SpecMoving
  LemmasBase LemmasPager LemmasPager2 LemmasPager3 LemmasRuntime7 PropRuntime PropPager LemmasPaging.

Section Loop.
Context {V T : Type}.
Variables (D : semantics V) (cells : T -> row V) (key : list bytes) (d : driver) (view : T -> model V) (q cols : list bytes) (items : list (expr V)).
Variables (ask : nat -> bytes -> list V -> option (list T)) (tables : nat -> list T) (zero : T) (fwd : bool) (p : pager V).
Notation fl := (flavour_of d).
Notation key_cmp := (key_cmp D cells key).
Notation reached := (reached D cells key fwd).
Notation passed := (passed D cells key fwd).
Notation has := (has D cells key).
Hypothesis LAW : lawful D.
Hypothesis MT : models_table cells key d view q cols items.
Hypothesis KT : keyed_tables D cells key tables.
Hypothesis SV : forall n, serves D cells d q items (ask n) (tables n).
Hypothesis SHAPE : d = DPostgres \/ forall x, ~ composite (view x).
Hypothesis PW : match p_where p with Some w => writes_nothing w | None => True end.
Hypothesis PO : p_order p = [].
Hypothesis LIMIT : (0 < p_limit p < 65535)%N.
Let n := N.to_nat (p_limit p).
Notation turn := (turn_at view zero ask d fwd p).
Notation pages := (pages_at view zero ask d fwd p).

Lemma equal_left a b z : key_cmp a b = Some Eq -> key_cmp a z = key_cmp b z.
Proof. apply rows_equal, LAW. Qed.
Lemma reached_eq a b z : key_cmp a b = Some Eq -> reached a z = reached b z.
Proof. intros E. unfold SpecPaging.reached. rewrite (equal_left a b z E). reflexivity. Qed.
Lemma reached_eq_r a b z : key_cmp a b = Some Eq -> reached z a = true -> reached z b = true.
Proof. intros E R. eapply (reached_trans D cells key fwd LAW); [exact R|]. unfold SpecPaging.reached. rewrite E. reflexivity. Qed.
Lemma passed_reached a b c : passed a b -> reached b c = true -> passed a c.
Proof.
  intros P R. assert (RA : reached a b = true) by (unfold SpecPaging.reached, SpecPaging.passed in *; rewrite P; destruct fwd; reflexivity).
  pose proof (reached_trans D cells key fwd LAW a b c RA R) as RC. unfold SpecPaging.passed, SpecPaging.reached in *. destruct (key_cmp a c) as [[]|] eqn:E; [|destruct fwd; cbn in RC; congruence..].
  exfalso. rewrite (equal_left a c b E) in P. apply (swap D cells key LAW) in P. rewrite P in R. destruct fwd; discriminate R.
Qed.
Lemma passed_is a b : passed a b -> reached a b = true.
Proof. unfold SpecPaging.passed, SpecPaging.reached. intros ->. destruct fwd; reflexivity. Qed.
Lemma passed_not a b : passed a b -> key_cmp a b <> Some Eq.
Proof. unfold SpecPaging.passed. intros ->. destruct fwd; discriminate. Qed.
Lemma has_dec table x : has table x \/ ~ has table x.
Proof.
  unfold SpecMoving.has, same_key. induction table as [|y l IH]; [right; intros (y & [] & _)|]. destruct (key_cmp x y) as [[]|] eqn:E; [left; exists y; split; [left; reflexivity|exact E]|..];
  (destruct IH as [(z & I & H)|IH]; [left; exists z; split; [right; exact I|exact H]|right; intros (z & [<-|I] & H); [congruence|apply IH; eauto]]).
Qed.

Lemma page_answer m y : exists text args out l, page_stmt d fwd p (view y) true = Ok (text, args) /\ ask m text args = Some out /\
  Permutation l (filter (reached y) (tables m)) /\ StronglySorted (fun a b => reached a b = true) l /\ out = firstn (S n) l.
Proof.
  destruct (C37_cursor_partial d fwd p (view y) q cols items (keys cells key y) (mt_described _ _ _ _ _ _ _ MT y) (mt_keyed _ _ _ _ _ _ _ MT y) PW PO) as (text & args & E & R);
    [destruct SHAPE; auto|apply LIMIT|]. pose proof (SV m text args) as Q. rewrite R in Q. destruct (Q eq_refl eq_refl) as (out & EA & l & P & SS & EO). clear Q.
  exists text, args, out, l. split; [exact E|]. split; [exact EA|].
  assert (P' : Permutation l (filter (reached y) (tables m))). { rewrite P. erewrite filter_ext; [reflexivity|]. intros z. apply (from_chosen D cells key d view q cols items (tables m) fwd LAW MT (proj1 KT m)). }
  split; [exact P'|]. split.
  - assert (IN : forall z, In z l -> In z (tables m)). { intros z I. apply (Permutation_in _ P') in I. apply filter_In in I. tauto. }
    pose proof (proj1 KT m) as KM. clear - SS IN KM LAW MT. induction SS as [|a l S' IH F]; constructor; [apply IH; intros; apply IN; now right|]. rewrite Forall_forall in *. intros b I.
    eapply (before_reached D cells key d view q cols items (tables m) fwd LAW MT KM); [apply IN; now left|apply IN; now right|apply F, I].
  - rewrite EO. unfold cut_to. f_equal. unfold n. lia.
Qed.
(** A turn whose cursor has a row *)
Lemma turned_page m v : has (tables m) v -> exists l, Permutation l (filter (reached v) (tables (S m))) /\ StronglySorted passed l /\
  turn v true m = if Nat.leb (length l) n then (Page l, None) else (Page (firstn n l), Some (nth n l zero)).
Proof.
  intros (y & IY & EV). unfold turn_at. rewrite (refetched D cells key d view q cols items (ask m) (tables m) LAW MT (proj1 KT m) (SV m) v y IY EV).
  destruct (page_answer (S m) y) as (text & args & out & l & E & EA & P & SS & ->). rewrite E, EA.
  exists l. assert (P' : Permutation l (filter (reached v) (tables (S m)))) by (rewrite P; erewrite filter_ext; [reflexivity|]; intros z; symmetry; apply reached_eq, EV).
  split; [exact P'|]. split.
  { assert (IN : forall z, In z l -> In z (tables (S m))). { intros z I. apply (Permutation_in _ P) in I. apply filter_In in I. tauto. }
    assert (ND : NoDup l) by (eapply Permutation_NoDup; [symmetry; exact P|apply NoDup_filter, (proj1 KT (S m))]). pose proof (proj1 KT (S m)) as KM. clear - SS IN ND KM LAW.
    induction SS as [|a l S' IH F]; constructor; [apply IH; [intros; apply IN; now right|inversion ND; assumption]|]. rewrite Forall_forall in *. intros b I.
    apply (reached_passed D cells key (tables (S m)) fwd KM); [apply IN; now left|apply IN; now right| |apply F, I]. intros ->. inversion ND; contradiction. }
  assert (PN : (p_limit p = N.of_nat n)%N) by (unfold n; lia).
  assert (N1 : (N.of_nat n < 65535)%N) by (rewrite <- PN; apply LIMIT).
  assert (LEN : length (firstn (S n) l) = Nat.min (S n) (length l)) by apply firstn_length.
  assert (U : uint16 (N.of_nat (length (firstn (S n) l))) = N.of_nat (length (firstn (S n) l))). { unfold uint16. apply N.mod_small. rewrite LEN. lia. }
  rewrite U, PN. destruct (Nat.leb_spec (length l) n) as [LE|GT].
  - rewrite firstn_all2 by lia. destruct (N.leb_spec (N.of_nat (length l)) (N.of_nat n)); [reflexivity|lia].
  - assert (FL : length (firstn (S n) l) = S n) by (rewrite LEN; lia). rewrite FL. destruct (N.leb_spec (N.of_nat (S n)) (N.of_nat n)); [lia|].
    clear - GT. assert (X : forall (l : list T) k, k < length l -> firstn (S k) l = firstn k l ++ [nth k l zero]).
    { intros l0. induction l0 as [|a l0 IH]; intros k H; [inversion H|]. destruct k; [reflexivity|]. cbn [firstn app nth]. f_equal. apply IH. cbn in H. lia. }
    rewrite (X _ n GT), removelast_last, last_last. reflexivity.
Qed.
(** A turn whose cursor has none *)
Lemma turned_lost m v : ~ has (tables m) v -> turn v true m = (Failure, None).
Proof.
  intros NO. unfold turn_at, refetch. destruct (mt_found _ _ _ _ _ _ _ MT v) as (text & args & F & R). rewrite F. cbn [bind fst snd].
  pose proof (SV m text args) as Q. rewrite R in Q. destruct (Q eq_refl eq_refl) as (out & EA & l & P & _ & EO). rewrite EA.
  rewrite filter_none in P.
  - symmetry in P. apply Permutation_nil in P. subst. reflexivity.
  - intros z IZ. rewrite (match_chosen D cells key d view q cols items (tables m) MT (proj1 KT m)). destruct (key_cmp z v) as [[]|] eqn:E; try reflexivity.
    apply (swap D cells key LAW) in E. exfalso. apply NO. exists z. split; assumption.
Qed.

Lemma sorted_app (l1 l2 : list T) : StronglySorted passed l1 -> StronglySorted passed l2 -> (forall a b, In a l1 -> In b l2 -> passed a b) -> StronglySorted passed (l1 ++ l2).
Proof.
  induction 1 as [|a l S' IH F]; intros S2 A; [exact S2|]. cbn [app]. constructor; [apply IH; [exact S2|intros; apply A; [now right|assumption]]|].
  apply Forall_forall. intros b I. apply in_app_iff in I as [I|I]; [rewrite Forall_forall in F; apply F, I|apply A; [now left|exact I]].
Qed.
Lemma firstn_sorted k (l : list T) : StronglySorted passed l -> StronglySorted passed (firstn k l).
Proof.
  intros S'. revert k. induction S' as [|a l S' IH F]; intros [|k]; cbn [firstn]; try constructor; [apply IH|]. rewrite Forall_forall in *. intros b I. apply F. rewrite <- (firstn_skipn k l). apply in_or_app. now left.
Qed.

(** What [k] turns give, from request [m] on *)
Lemma turns k : forall m v, exists ps tail, fst (pages v true m k) = map Page ps ++ tail /\
  StronglySorted passed (concat ps) /\ (forall z, In z (concat ps) -> reached v z = true) /\
  (forall j l y, nth_error ps j = Some l -> In y l -> In y (tables (m + (2 * j + 1)))) /\
  (snd (pages v true m k) = true -> tail = [] -> forall y, reached v y = true -> (forall i, i < 2 * length ps -> has (tables (m + i)) y) -> exists z, In z (concat ps) /\ key_cmp y z = Some Eq) /\
  (tail = [] \/ tail = [Failure] /\ snd (pages v true m k) = true /\
     exists c, ~ has (tables (m + 2 * length ps)) c /\ (ps = [] /\ c = v \/ ps <> [] /\ reached v c = true /\ In c (tables (m + (2 * length ps - 1))))) /\
  (snd (pages v true m k) = false -> length ps = k /\ Forall (fun l => length l = n) ps).
Proof.
  assert (N0 : 0 < n) by (unfold n; lia).
  induction k as [|k IH]; intros m v; cbn [pages_at].
  { exists [], []. cbn [fst snd map app concat]. split; [reflexivity|]. split; [constructor|]. split; [intros z []|]. split; [intros [|j] l y E; discriminate|]. split; [discriminate|]. split; [left; reflexivity|]. intros _. split; [reflexivity|constructor]. }
  destruct (has_dec (tables m) v) as [HV|HV].
  2:{ rewrite (turned_lost m v HV). exists [], [Failure]. cbn [fst snd map app concat]. split; [reflexivity|]. split; [constructor|]. split; [intros z []|]. split; [intros [|j] l y E; discriminate|]. split; [discriminate|].
      split; [|discriminate]. right. split; [reflexivity|]. split; [reflexivity|]. exists v. split; [cbn [length]; rewrite Nat.mul_0_r, Nat.add_0_r; exact HV|auto]. }
  destruct (turned_page m v HV) as (l & P & SS & E). rewrite E. clear E.
  assert (IN : forall z, In z l <-> In z (tables (S m)) /\ reached v z = true). { intros z. rewrite <- filter_In. split; intros I; [eapply Permutation_in; [exact P|exact I]|eapply Permutation_in; [symmetry; exact P|exact I]]. }
  destruct (Nat.leb_spec (length l) n) as [LE|GT].
  { exists [l], []. cbn [fst snd map app concat]. rewrite app_nil_r. split; [reflexivity|]. split; [exact SS|]. split; [intros z I; apply IN, I|].
    split; [intros [|[|j]] l' y E I; try discriminate E; injection E as <-; replace (m + (2 * 0 + 1)) with (S m) by lia; apply IN, I|].
    split. { intros _ _ y RY HY. destruct (HY 1 ltac:(cbn; lia)) as (z & IZ & EZ). replace (m + 1) with (S m) in IZ by lia. exists z. split; [apply IN; split; [exact IZ|eapply reached_eq_r; eassumption]|exact EZ]. }
    split; [left; reflexivity|discriminate]. }
  set (c := nth n l zero). assert (SPLIT : l = firstn n l ++ c :: skipn (S n) l).
  { unfold c. clear -GT. revert GT. generalize n. induction l as [|a l IHl]; intros k0 GT; [inversion GT|]. destruct k0 as [|k0]; [reflexivity|]. cbn [firstn nth skipn app]. f_equal. apply IHl. cbn in GT. lia. }
  assert (IC : In c l) by (rewrite SPLIT; apply in_or_app; right; now left).
  assert (PC : forall z, In z (firstn n l) -> passed z c). { intros z I. rewrite SPLIT in SS. destruct (sorted_app_inv _ _ _ SS) as [_ SA]. apply SA; [exact I|now left]. }
  destruct (IH (S (S m)) c) as (ps & tail & E1 & E2 & E3 & E4 & E5 & E6 & E7). fold c. destruct (pages c true (S (S m)) k) as [evs fin]. cbn [fst snd] in *. subst evs.
  exists (firstn n l :: ps), tail. cbn [map app concat]. split; [reflexivity|].
  split; [apply sorted_app; [apply firstn_sorted, SS|exact E2|]; intros a b I J; eapply passed_reached; [apply PC, I|apply E3, J]|].
  split. { intros z I. apply in_app_iff in I as [I|I]; [apply IN; rewrite <- (firstn_skipn n l); apply in_or_app; now left|]. eapply (reached_trans D cells key fwd LAW); [apply IN, IC|apply E3, I]. }
  split. { intros [|j] l' y EN I; cbn [nth_error] in EN.
    - injection EN as <-. replace (m + (2 * 0 + 1)) with (S m) by lia. apply IN. rewrite <- (firstn_skipn n l). apply in_or_app. now left.
    - specialize (E4 j l' y EN I). replace (m + (2 * S j + 1)) with (S (S m) + (2 * j + 1)) by lia. exact E4. }
  split. { intros FN TN y RY HY. destruct (HY 1 ltac:(cbn; lia)) as (z & IZ & EZ). replace (m + 1) with (S m) in IZ by lia.
    assert (IL : In z l) by (apply IN; split; [exact IZ|eapply reached_eq_r; eassumption]). rewrite SPLIT in IL. apply in_app_iff in IL as [IL|IL]; [exists z; split; [apply in_or_app; left; exact IL|exact EZ]|].
    assert (RC : reached c y = true). { assert (RZ : reached c z = true). { destruct IL as [<-|IL]; [apply (reached_self D cells key (tables (S m)) fwd LAW (proj1 KT (S m))), IN, IC|]. rewrite SPLIT in SS. destruct (sorted_app_inv _ _ _ SS) as [SS2 _]. inversion SS2 as [|? ? _ F]; subst. rewrite Forall_forall in F. apply passed_is, F, IL. }
      eapply reached_eq_r; [|exact RZ]. apply (swap D cells key LAW) in EZ. exact EZ. }
    destruct (E5 FN TN y RC) as (z' & IZ' & EZ').
    - intros i LI. specialize (HY (S (S i)) ltac:(cbn [length]; lia)). replace (m + S (S i)) with (S (S m) + i) in HY by lia. exact HY.
    - exists z'. split; [apply in_or_app; right; exact IZ'|exact EZ']. }
  split.
  - assert (RVC : reached v c = true) by (apply IN, IC). destruct E6 as [E6|(-> & FN & c' & NH & W)]; [left; exact E6|right].
    split; [reflexivity|]. split; [exact FN|]. exists c'. split; [replace (m + 2 * length (firstn n l :: ps)) with (S (S m) + 2 * length ps) by (cbn [length]; lia); exact NH|].
    right. split; [discriminate|]. destruct W as [[-> ->]|(NP & RC & W)].
    + split; [exact RVC|]. replace (m + (2 * length [firstn n l] - 1)) with (S m) by (cbn [length]; lia). apply IN, IC.
    + split; [eapply (reached_trans D cells key fwd LAW); eassumption|]. replace (m + (2 * length (firstn n l :: ps) - 1)) with (S (S m) + (2 * length ps - 1)); [exact W|]. destruct ps; [contradiction|]. cbn [length]. lia.
  - intros FN. destruct (E7 FN) as [L F]. split; [cbn [length]; congruence|]. constructor; [rewrite firstn_length; lia|exact F].
Qed.
End Loop.
