(** Facts about the pools and the memory behind them. *)
From Coq Require Import Permutation.
From Verif Require Import Base ModelCompiler ModelGen ModelRuntime ModelStmt ModelPool SpecPool.

(** ** Lists *)
Lemma set_nth_length {A} (l : list A) : forall i x, length (set_nth l i x) = length l.
Proof. induction l as [|y l IH]; intros [|i] x; cbn; auto. Qed.
Lemma set_nth_same {A} (l : list A) : forall i x, i < length l -> nth_error (set_nth l i x) i = Some x.
Proof. induction l as [|y l IH]; intros [|i] x L; cbn in *; [lia..|reflexivity|]. apply IH. lia. Qed.
Lemma set_nth_other {A} (l : list A) : forall i j x, i <> j -> nth_error (set_nth l i x) j = nth_error l j.
Proof. induction l as [|y l IH]; intros [|i] [|j] x N; cbn; try reflexivity; [contradiction|]. apply IH. congruence. Qed.
Lemma set_nth_out {A} (l : list A) : forall i x, length l <= i -> set_nth l i x = l.
Proof. induction l as [|y l IH]; intros [|i] x L; cbn in *; [reflexivity..|lia|]. rewrite IH by lia. reflexivity. Qed.
Lemma set_nth_map {A C} (f : A -> C) (l : list A) : forall i x, map f (set_nth l i x) = set_nth (map f l) i (f x).
Proof. induction l as [|y l IH]; intros [|i] x; cbn; [reflexivity..|]. rewrite IH. reflexivity. Qed.
Lemma set_nth_id {A} (l : list A) : forall i x, nth_error l i = Some x -> set_nth l i x = l.
Proof. induction l as [|y l IH]; intros [|i] x E; cbn in *; try discriminate; [congruence|]. rewrite IH by exact E. reflexivity. Qed.
Lemma nth_of_error {A} (l : list A) i d x : nth_error l i = Some x -> nth i l d = x.
Proof. apply nth_error_nth. Qed.
Lemma remove_nth_perm {A} (l : list A) : forall i x, nth_error l i = Some x -> Permutation l (x :: remove_nth i l).
Proof.
  unfold remove_nth. induction l as [|y l IH]; intros [|i] x E; cbn in E; try discriminate.
  - injection E as ->. reflexivity.
  - cbn [firstn skipn app]. transitivity (y :: x :: firstn i l ++ skipn (S i) l); [constructor; apply IH, E|apply perm_swap].
Qed.
Lemma remove_nth_incl {A} (l : list A) i x : In x (remove_nth i l) -> In x l.
Proof.
  unfold remove_nth. intros I. apply in_app_or in I as [I|I]; [rewrite <- (firstn_skipn i l)|rewrite <- (firstn_skipn (S i) l)]; apply in_or_app; auto.
Qed.
Lemma remove_nth_sub {A} (l : list A) i r : NoDup (l ++ r) -> NoDup (remove_nth i l ++ r).
Proof.
  destruct (nth_error l i) as [x|] eqn:E.
  - intros N. apply (Permutation_NoDup (l' := x :: remove_nth i l ++ r)) in N; [now inversion N|].
    change (x :: remove_nth i l ++ r) with ((x :: remove_nth i l) ++ r). apply Permutation_app_tail, remove_nth_perm, E.
  - unfold remove_nth. apply nth_error_None in E. rewrite firstn_all2, skipn_all2, app_nil_r by lia. auto.
Qed.

(** ** Memory *)
Section Mem.
Context {A : Type}.
Implicit Types (m : memory A) (s t : slice) (ss : list slice).

(** Every object owns its array, up to its last cell. *)
Definition mem_ok m ss : Prop :=
  (forall i a n, nth_error ss i = Some (Some (a, n)) -> exists cells cap, nth_error m a = Some (cells, cap) /\ length cells = n) /\
  (forall i j a n n', nth_error ss i = Some (Some (a, n)) -> nth_error ss j = Some (Some (a, n')) -> i = j).
Definition valid m s : Prop :=
  match s with None => True | Some (a, n) => exists cells cap, nth_error m a = Some (cells, cap) /\ n <= length cells end.

Lemma mem_ok_valid m ss i s : mem_ok m ss -> nth_error ss i = Some s -> valid m s.
Proof. intros [M _] E. destruct s as [[a n]|]; [|exact I]. destruct (M i a n E) as (cells & cap & E1 & E2). exists cells, cap. split; [exact E1|lia]. Qed.
Lemma contents_of m a n cells cap : nth_error m a = Some (cells, cap) -> contents m (Some (a, n)) = firstn n cells.
Proof. intros E. cbn [contents]. rewrite (nth_of_error _ _ ([], 0) _ E). reflexivity. Qed.
Lemma valid_more m x t : valid m t -> valid (m ++ [x]) t /\ contents (m ++ [x]) t = contents m t.
Proof.
  destruct t as [[a n]|]; [|auto]. intros (cells & cap & E & L).
  assert (E' : nth_error (m ++ [x]) a = Some (cells, cap)) by (rewrite nth_error_app1; [exact E|apply nth_error_Some; congruence]).
  split; [exists cells, cap; auto|]. rewrite (contents_of _ _ _ _ _ E), (contents_of _ _ _ _ _ E'). reflexivity.
Qed.
Lemma mem_ok_more m ss x : mem_ok m ss -> mem_ok (m ++ [x]) ss.
Proof.
  intros [M U]. split; [|exact U]. intros i a n E. destruct (M i a n E) as (cells & cap & E1 & E2). exists cells, cap.
  split; [rewrite nth_error_app1; [exact E1|apply nth_error_Some; congruence]|exact E2].
Qed.

Lemma nth_error_set {B} (l : list B) i x j y : nth_error (set_nth l i x) j = Some y -> (i = j /\ y = x) \/ (i <> j /\ nth_error l j = Some y).
Proof.
  destruct (Nat.eq_dec i j) as [->|N]; [|rewrite set_nth_other by exact N; auto].
  intros E. left. assert (L : j < length l) by (rewrite <- (set_nth_length l j x); apply nth_error_Some; congruence).
  rewrite set_nth_same in E by exact L. split; congruence.
Qed.

(** A slice that gets a new array *)
Lemma mem_ok_new m ss i cells cap : mem_ok m ss -> mem_ok (m ++ [(cells, cap)]) (set_nth ss i (Some (length m, length cells))).
Proof.
  intros [M U]. destruct (mem_ok_more m ss (cells, cap) (conj M U)) as [M' _]. split.
  - intros j a n E. apply nth_error_set in E as [[<- E]|[N E]]; [|exact (M' j a n E)]. injection E as -> ->.
    exists cells, cap. split; [rewrite nth_error_app2, Nat.sub_diag by lia; reflexivity|reflexivity].
  - assert (OLD : forall j n, nth_error ss j = Some (Some (length m, n)) -> False).
    { intros j n E. destruct (M j _ n E) as (? & ? & E1 & _). assert (length m < length m) by (apply nth_error_Some; congruence). lia. }
    intros j k a n n' E E'. apply nth_error_set in E as [[<- E]|[N E]]; apply nth_error_set in E' as [[<- E']|[N' E']].
    + reflexivity.
    + injection E as -> ->. destruct (OLD _ _ E').
    + injection E' as -> ->. destruct (OLD _ _ E).
    + exact (U j k a n n' E E').
Qed.

Lemma grow_ok m ss i s xs extra : mem_ok m ss -> nth_error ss i = Some s ->
  let '(m', s') := grow m s xs extra in
  mem_ok m' (set_nth ss i s') /\ contents m' s' = contents m s ++ xs /\
  (forall t, valid m t -> valid m' t /\ contents m' t = contents m t).
Proof.
  intros M E. unfold grow. destruct xs as [|x xs].
  - rewrite set_nth_id, app_nil_r by exact E. repeat split; try apply M; auto.
  - set (l := x :: xs). destruct s as [[a n]|].
    + destruct (proj1 M i a n E) as (cells & cap & E1 & E2). rewrite (nth_of_error _ _ ([], 0) _ E1). cbn [fst].
      assert (F : firstn n cells = cells) by (rewrite <- E2; apply firstn_all). rewrite F.
      destruct (Nat.leb (n + length l) cap).
      * assert (LA : a < length m) by (apply nth_error_Some; congruence).
        replace (skipn (n + length l) cells) with (@nil A) by (symmetry; apply skipn_all2; rewrite E2; apply Nat.le_add_r). rewrite app_nil_r.
        assert (NE : nth_error (set_nth m a (cells ++ l, cap)) a = Some (cells ++ l, cap)) by (apply set_nth_same, LA).
        split; [|split].
        -- destruct M as [M U]. split.
           ++ intros j b k EJ. apply nth_error_set in EJ as [[<- EJ]|[N EJ]].
              ** injection EJ as -> ->. exists (cells ++ l), cap. split; [exact NE|]. rewrite app_length, E2. reflexivity.
              ** destruct (Nat.eq_dec a b) as [<-|NB]; [destruct (N (U i j a n k E EJ))|].
                 rewrite set_nth_other by exact NB. exact (M j b k EJ).
           ++ assert (AT : forall j b k, nth_error (set_nth ss i (Some (a, n + length l))) j = Some (Some (b, k)) -> exists k', nth_error ss j = Some (Some (b, k'))).
              { intros j b k EJ. apply nth_error_set in EJ as [[<- EJ]|[N EJ]]; [injection EJ as -> ->; eauto|eauto]. }
              intros j j' b k k' EJ EJ'. apply AT in EJ as [? EJ]. apply AT in EJ' as [? EJ']. eapply U; eassumption.
        -- rewrite (contents_of _ _ _ _ _ NE), (contents_of _ _ _ _ _ E1), F, firstn_all2; [reflexivity|]. rewrite app_length, E2. apply le_n.
        -- intros t VT. destruct t as [[b k]|]; [|split; [exact I|reflexivity]]. destruct VT as (cells' & cap' & EB & LB).
           destruct (Nat.eq_dec a b) as [<-|NB].
           ++ assert (cells' = cells) by congruence. subst cells'.
              split; [exists (cells ++ l), cap; split; [exact NE|rewrite app_length; lia]|].
              rewrite (contents_of _ _ _ _ _ NE), (contents_of _ _ _ _ _ EB), firstn_app.
              replace (k - length cells) with 0 by lia. cbn. apply app_nil_r.
           ++ assert (EB' : nth_error (set_nth m a (cells ++ l, cap)) b = Some (cells', cap')) by (rewrite set_nth_other; assumption).
              split; [exists cells', cap'; auto|]. rewrite (contents_of _ _ _ _ _ EB'), (contents_of _ _ _ _ _ EB). reflexivity.
      * split; [|split].
        -- replace (n + length l) with (length (cells ++ l)) by (rewrite app_length, E2; reflexivity). apply mem_ok_new, M.
        -- cbn [contents]. rewrite app_nth2, Nat.sub_diag by lia. cbn [nth fst].
           rewrite (nth_of_error _ _ ([], 0) _ E1). cbn [fst]. rewrite F. apply firstn_all2. rewrite app_length, E2. apply le_n.
        -- intros t VT. apply valid_more, VT.
    + split; [|split].
      * apply mem_ok_new, M.
      * cbn [contents]. rewrite app_nth2, Nat.sub_diag by lia. cbn [nth fst]. apply firstn_all.
      * intros t VT. apply valid_more, VT.
Qed.
(** the same for a slice that no object has *)
Lemma grow_nowhere m ss xs extra : mem_ok m ss -> let '(m', s') := grow m None xs extra in
  mem_ok m' ss /\ forall t, valid m t -> valid m' t /\ contents m' t = contents m t.
Proof.
  intros M. unfold grow. destruct xs; [auto|]. split; [apply mem_ok_more, M|]. intros t. apply valid_more.
Qed.
End Mem.

(** ** Worlds *)
Section World.
Context {V : Type}.
Variable d : driver.
Notation world := (world V).
Notation event := (event V).
Implicit Types (w : world) (log : list (event * answer)).

Definition world_ok w : Prop := mem_ok (w_bytes w) (map b_text (w_objects w)) /\ mem_ok (w_args w) (map b_args (w_objects w)).
(** [w'] keeps everything that was obtained in [w]. *)
Definition keeps w w' : Prop :=
  (forall t, valid (w_bytes w) t -> valid (w_bytes w') t /\ contents (w_bytes w') t = contents (w_bytes w) t) /\
  (forall t, valid (w_args w) t -> valid (w_args w') t /\ contents (w_args w') t = contents (w_args w) t).
Lemma keeps_refl w w' : w_bytes w' = w_bytes w -> w_args w' = w_args w -> keeps w w'.
Proof. intros E E'. split; rewrite ?E, ?E'; auto. Qed.
Lemma keeps_trans w w' w'' : keeps w w' -> keeps w' w'' -> keeps w w''.
Proof.
  intros [A C] [A' C']. split; intros t VT.
  - destruct (A t VT) as [V1 E1]. destruct (A' t V1) as [V2 E2]. split; [exact V2|congruence].
  - destruct (C t VT) as [V1 E1]. destruct (C' t V1) as [V2 E2]. split; [exact V2|congruence].
Qed.

Lemma at_nth w o : o < length (w_objects w) -> nth_error (w_objects w) o = Some (object_at w o).
Proof. intros L. unfold object_at. rewrite (nth_error_nth' _ new_object L). reflexivity. Qed.
Lemma at_out w o : length (w_objects w) <= o -> object_at w o = new_object.
Proof. intros L. unfold object_at. apply nth_overflow, L. Qed.
Lemma set_at (l : list object) o x o' : o < length l -> nth o' (set_nth l o x) new_object = if Nat.eqb o o' then x else nth o' l new_object.
Proof.
  intros L. destruct (Nat.eqb o o') eqn:E.
  - apply Nat.eqb_eq in E. subst o'. apply nth_of_error, set_nth_same, L.
  - apply Nat.eqb_neq in E. destruct (nth_error l o') as [y|] eqn:Y.
    + rewrite (nth_of_error _ _ new_object _ Y). apply nth_of_error. rewrite set_nth_other by exact E. exact Y.
    + apply nth_error_None in Y. rewrite !nth_overflow by (rewrite ?set_nth_length; lia). reflexivity.
Qed.
Lemma view_valid w o : world_ok w -> valid (w_bytes w) (b_text (object_at w o)) /\ valid (w_args w) (b_args (object_at w o)).
Proof.
  intros [M N]. destruct (Nat.lt_ge_cases o (length (w_objects w))) as [L|L]; [|rewrite at_out by exact L; split; exact I].
  pose proof (at_nth w o L) as E. split.
  - apply (mem_ok_valid _ _ o _ M). rewrite nth_error_map, E. reflexivity.
  - apply (mem_ok_valid _ _ o _ N). rewrite nth_error_map, E. reflexivity.
Qed.
Lemma mem_ok_set {A} (m : memory A) ss o : mem_ok m ss -> mem_ok m (set_nth ss o None).
Proof.
  intros [M U]. split.
  - intros i a n E. apply nth_error_set in E as [[_ E]|[_ E]]; [discriminate|eauto].
  - intros i j a n n' E E'. apply nth_error_set in E as [[_ E]|[_ E]]; [discriminate|].
    apply nth_error_set in E' as [[_ E']|[_ E']]; [discriminate|eauto].
Qed.
Lemma mem_ok_add {A} (m : memory A) ss : mem_ok m ss -> mem_ok m (ss ++ [None]).
Proof.
  intros [M U].
  assert (AT : forall i a n, nth_error (ss ++ [None]) i = Some (Some (a, n)) -> nth_error ss i = Some (Some (a, n))).
  { intros i a n E. destruct (Nat.lt_ge_cases i (length ss)) as [L|L]; [now rewrite nth_error_app1 in E|].
    rewrite nth_error_app2 in E by exact L. destruct (i - length ss) as [|[|k]]; cbn in E; discriminate. }
  split; [intros i a n E; apply AT in E; eauto|]. intros i j a n n' E E'. apply AT in E. apply AT in E'. eauto.
Qed.

(** What a call makes of a world *)
Record called w w' (o : nat) (s : sqlstmt V) : Prop := {
  k_ok : world_ok w'; k_keeps : keeps w w'; k_pool : w_pool w' = w_pool w; k_len : length (w_objects w') = length (w_objects w);
  k_other : forall o', o' <> o -> object_at w' o' = object_at w o';
  k_view : o < length (w_objects w) -> view w' o = s }.

Lemma write_called w o x extra : world_ok w -> called w (write_text w o x extra) o (put (view w o) x).
Proof.
  intros [M N]. unfold write_text. destruct (Nat.lt_ge_cases o (length (w_objects w))) as [L|L].
  - pose proof (at_nth w o L) as E. set (b := object_at w o) in *.
    pose proof (grow_ok (w_bytes w) (map b_text (w_objects w)) o (b_text b) x extra M) as G.
    rewrite nth_error_map, E in G. specialize (G eq_refl). destruct (grow (w_bytes w) (b_text b) x extra) as [m s]. destruct G as (G1 & G2 & G3).
    assert (OA : forall o', nth o' (set_nth (w_objects w) o {| b_text := s; b_pos := b_pos b; b_args := b_args b |}) new_object = if Nat.eqb o o' then {| b_text := s; b_pos := b_pos b; b_args := b_args b |} else object_at w o') by (intros; apply set_at, L).
    constructor; cbn [w_pool w_objects].
    + split; cbn [w_bytes w_args w_objects]; rewrite set_nth_map; [exact G1|]. cbn [b_args]. rewrite set_nth_id; [exact N|]. rewrite nth_error_map, E. reflexivity.
    + split; cbn [w_bytes w_args]; auto.
    + reflexivity.
    + apply set_nth_length.
    + intros o' NE. unfold object_at at 1. cbn [w_objects]. rewrite OA. destruct (Nat.eqb o o') eqn:Q; [apply Nat.eqb_eq in Q; congruence|reflexivity].
    + intros _. unfold view. unfold object_at at 1 2 3. cbn [w_objects w_bytes w_args]. rewrite !OA, Nat.eqb_refl. cbn [b_text b_pos b_args].
      unfold put. cbn [s_text s_pos s_args]. fold b. rewrite G2. reflexivity.
  - rewrite (at_out w o L). cbn [b_text new_object]. pose proof (grow_nowhere (w_bytes w) _ x extra M) as G.
    destruct (grow (w_bytes w) None x extra) as [m s]. destruct G as [G1 G2]. rewrite set_nth_out by exact L.
    constructor; cbn [w_pool w_objects]; try reflexivity; [split; assumption|split; cbn [w_bytes w_args]; auto|lia].
Qed.
Lemma args_called w o vs adv extra : world_ok w ->
  called w (add_args w o vs adv extra) o {| s_text := s_text (view w o); s_pos := s_pos (view w o) + adv; s_args := s_args (view w o) ++ vs |}.
Proof.
  intros [M N]. unfold add_args. destruct (Nat.lt_ge_cases o (length (w_objects w))) as [L|L].
  - pose proof (at_nth w o L) as E. set (b := object_at w o) in *.
    pose proof (grow_ok (w_args w) (map b_args (w_objects w)) o (b_args b) vs extra N) as G.
    rewrite nth_error_map, E in G. specialize (G eq_refl). destruct (grow (w_args w) (b_args b) vs extra) as [m s]. destruct G as (G1 & G2 & G3).
    set (b' := {| b_text := b_text b; b_pos := b_pos b + adv; b_args := s |}).
    assert (OA : forall o', nth o' (set_nth (w_objects w) o b') new_object = if Nat.eqb o o' then b' else object_at w o') by (intros; apply set_at, L).
    constructor; cbn [w_pool w_objects].
    + split; cbn [w_bytes w_args w_objects]; rewrite set_nth_map; [|exact G1]. subst b'. cbn [b_text]. rewrite set_nth_id; [exact M|]. rewrite nth_error_map, E. reflexivity.
    + split; cbn [w_bytes w_args]; auto.
    + reflexivity.
    + apply set_nth_length.
    + intros o' NE. unfold object_at at 1. cbn [w_objects]. rewrite OA. destruct (Nat.eqb o o') eqn:Q; [apply Nat.eqb_eq in Q; congruence|reflexivity].
    + intros _. unfold view. unfold object_at at 1 2 3. cbn [w_objects w_bytes w_args]. rewrite !OA, Nat.eqb_refl. subst b'. cbn [b_text b_pos b_args s_text s_pos s_args].
      fold b. rewrite G2. reflexivity.
  - rewrite (at_out w o L). cbn [b_args b_text b_pos new_object]. pose proof (grow_nowhere (w_args w) _ vs extra N) as G.
    destruct (grow (w_args w) None vs extra) as [m s]. destruct G as [G1 G2]. rewrite set_nth_out by exact L.
    constructor; cbn [w_pool w_objects]; try reflexivity; [split; assumption|split; cbn [w_bytes w_args]; auto|lia].
Qed.
Lemma reset_called w o : world_ok w -> called w (reset_object w o) o empty_stmt.
Proof.
  intros [M N]. unfold reset_object, set_object. destruct (Nat.lt_ge_cases o (length (w_objects w))) as [L|L].
  - constructor; cbn [w_pool w_objects]; try reflexivity.
    + split; cbn [w_bytes w_args w_objects]; rewrite set_nth_map; apply mem_ok_set; assumption.
    + apply keeps_refl; reflexivity.
    + apply set_nth_length.
    + intros o' NE. unfold object_at at 1. cbn [w_objects]. rewrite set_at by exact L. destruct (Nat.eqb o o') eqn:Q; [apply Nat.eqb_eq in Q; congruence|reflexivity].
    + intros _. unfold view, object_at. cbn [w_objects w_bytes w_args]. rewrite set_at by exact L. rewrite Nat.eqb_refl. reflexivity.
  - rewrite set_nth_out by exact L. constructor; cbn [w_pool w_objects]; try reflexivity; [split; assumption|apply keeps_refl; reflexivity|lia].
Qed.
Lemma reset_new w o : object_at (reset_object w o) o = new_object.
Proof.
  unfold reset_object, set_object, object_at. cbn [w_objects]. destruct (Nat.lt_ge_cases o (length (w_objects w))) as [L|L].
  - rewrite set_at, Nat.eqb_refl by exact L. reflexivity.
  - apply nth_overflow. rewrite set_nth_length. exact L.
Qed.
Lemma after_vars s (vs : list V) : after_call d s (CVars vs) =
  {| s_text := s_text s; s_pos := s_pos s + match d with DPostgres => length vs | _ => 0 end; s_args := s_args s ++ vs |}.
Proof.
  cbn [after_call]. unfold vars. destruct s as [x p l]. destruct vs as [|v vs], d; cbn [s_text s_pos s_args length repeat_tail bind];
    try (unfold repeat_tail; cbn); rewrite ?app_nil_r, ?Nat.add_0_r; reflexivity.
Qed.
Lemma do_called w o c extra : world_ok w -> called w (do_call d w o c extra) o (after_call d (view w o) c).
Proof.
  intros W. destruct c; cbn [do_call].
  - cbn [after_call fst var]. rewrite <- (Nat.add_1_r (s_pos _)). apply (args_called w o [v] 1 extra W).
  - rewrite after_vars. apply args_called, W.
  - apply write_called, W.
  - apply reset_called, W.
Qed.

Lemma step_ok w e : world_ok w -> world_ok (fst (step d w e)) /\ keeps w (fst (step d w e)).
Proof.
  intros W. destruct e as [u c|i|u o c extra|u o|u o]; cbn [step].
  - unfold get. assert (NEW : world_ok {| w_bytes := w_bytes w; w_args := w_args w; w_objects := w_objects w ++ [new_object]; w_pool := w_pool w |}).
    { destruct W as [M N]. split; cbn [w_bytes w_args w_objects]; rewrite map_app; apply mem_ok_add; assumption. }
    destruct c as [i|]; [destruct (nth_error (w_pool w) i)|]; cbn [fst]; (split; [|apply keeps_refl; reflexivity]); [exact W|exact NEW..].
  - cbn [fst]. split; [exact W|apply keeps_refl; reflexivity].
  - cbn [fst]. destruct (do_called w o c extra W); auto.
  - cbn [fst]. split; [exact W|apply keeps_refl; reflexivity].
  - cbn [fst]. unfold release. destruct (reset_called w o W) as [K1 K2 _ _ _ _]. split; [exact K1|exact K2].
Qed.
Lemma history_ok log w : history d log w -> world_ok w.
Proof.
  induction 1 as [|log w e H IH]; [split; split; intros i; destruct i; discriminate|]. apply step_ok, IH.
Qed.
Lemma history_det log w : history d log w -> forall w', history d log w' -> w = w'.
Proof.
  induction 1 as [|log w e H IH]; intros w' H'; inversion H'; subst; [reflexivity|].
  match goal with H0 : history d log ?x |- _ => rewrite (IH x H0) end. reflexivity.
Qed.
Lemma history_keeps later : forall log w w', history d log w -> history d (later ++ log) w' -> keeps w w'.
Proof.
  induction later as [|x later IH]; intros log w w' H H'.
  - cbn in H'. rewrite (history_det _ _ H _ H'). apply keeps_refl; reflexivity.
  - cbn [app] in H'. inversion H'; subst. apply keeps_trans with w0; [apply (IH log); assumption|]. apply step_ok. eapply history_ok. eassumption.
Qed.
Lemma history_before later : forall x log w, history d (later ++ x :: log) w -> exists w0, history d log w0 /\ snd x = snd (step d w0 (fst x)).
Proof.
  induction later as [|y later IH]; intros x log w H; cbn [app] in H; inversion H; subst; [eauto|]. eapply IH. eassumption.
Qed.

(** Texts and arguments that were obtained never change. *)
Lemma snapshots log w : history d log w -> forall later u o t a earlier w0,
  log = later ++ (Read u o, ARead t a) :: earlier -> history d earlier w0 ->
  contents (w_bytes w) t = s_text (view w0 o) /\ contents (w_args w) a = s_args (view w0 o).
Proof.
  intros H later u o t a earlier w0 -> H0.
  destruct (history_before _ _ _ _ H) as (w1 & H1 & E). rewrite <- (history_det _ _ H0 _ H1) in E. cbn in E. injection E as -> ->.
  assert (K : keeps w0 w).
  { change (later ++ (Read u o, ARead (b_text (object_at w0 o)) (b_args (object_at w0 o))) :: earlier) with
      (later ++ [(Read u o, ARead (b_text (object_at w0 o)) (b_args (object_at w0 o)))] ++ earlier) in H. rewrite app_assoc in H.
    eapply history_keeps; eassumption. }
  destruct (view_valid w0 o (history_ok _ _ H0)) as [V1 V2]. destruct K as [K1 K2]. split; [apply K1, V1|apply K2, V2].
Qed.

(** ** With discipline *)
Record owned w (held : list (nat * nat)) : Prop := {
  ow_nodup : NoDup (w_pool w ++ map snd held);
  ow_range : forall o, In o (w_pool w ++ map snd held) -> o < length (w_objects w);
  ow_empty : forall o, In o (w_pool w) -> object_at w o = new_object }.

Lemma give_back_perm u o l : In (u, o) l -> Permutation l ((u, o) :: give_back u o l).
Proof.
  induction l as [|[u' o'] l IH]; [contradiction|]. intros I. cbn [give_back].
  destruct (Nat.eqb u u' && Nat.eqb o o') eqn:E.
  - apply andb_true_iff in E as [E1 E2]. apply Nat.eqb_eq in E1. apply Nat.eqb_eq in E2. subst. reflexivity.
  - destruct I as [I|I]; [injection I as -> ->; rewrite !Nat.eqb_refl in E; discriminate|].
    transitivity ((u', o') :: (u, o) :: give_back u o l); [constructor; apply IH, I|apply perm_swap].
Qed.
Lemma nodup_app_r {A} (l r : list A) : NoDup (l ++ r) -> NoDup r.
Proof. induction l as [|x l IH]; [auto|]. cbn [app]. intros N. inversion N. auto. Qed.
Lemma NoDup_map_snd (l : list (nat * nat)) u u' o : NoDup (map snd l) -> In (u, o) l -> In (u', o) l -> u = u'.
Proof.
  induction l as [|[v p] l IH]; [contradiction|]. cbn [map snd]. intros N I I'. inversion N as [|? ? N1 N2]; subst.
  destruct I as [I|I], I' as [I'|I'].
  - congruence.
  - injection I as -> ->. exfalso. apply N1. apply (in_map snd) in I'. exact I'.
  - injection I' as -> ->. exfalso. apply N1. apply (in_map snd) in I. exact I.
  - apply IH; assumption.
Qed.

Lemma get_cases w c : let '(w', o) := get w c in
  (In o (w_pool w) /\ Permutation (w_pool w) (o :: w_pool w') /\ w_objects w' = w_objects w \/
   o = length (w_objects w) /\ w_pool w' = w_pool w /\ w_objects w' = w_objects w ++ [new_object]) /\ w_bytes w' = w_bytes w /\ w_args w' = w_args w.
Proof.
  unfold get. destruct c as [i|]; [destruct (nth_error (w_pool w) i) as [o|] eqn:E|]; (split; [|split; reflexivity]); [left|right; auto..].
  split; [apply (nth_error_In _ _ E)|]. split; [apply remove_nth_perm, E|reflexivity].
Qed.
Lemma owned_get w held u c : owned w held -> let '(w', o) := get w c in
  owned w' ((u, o) :: held) /\ object_at w' o = new_object /\ ~ In o (map snd held) /\ forall o', o' <> o -> object_at w' o' = object_at w o'.
Proof.
  intros [N R E]. pose proof (get_cases w c) as G. destruct (get w c) as [w' o]. destruct G as [[(I & P & OB)|(EO & P & OB)] _].
  - assert (PP : Permutation (w_pool w ++ map snd held) (w_pool w' ++ map snd ((u, o) :: held))).
    { cbn [map snd]. transitivity ((o :: w_pool w') ++ map snd held); [apply Permutation_app_tail, P|]. cbn [app]. apply Permutation_middle. }
    assert (OA : forall o', object_at w' o' = object_at w o') by (intros; unfold object_at; rewrite OB; reflexivity).
    split; [constructor|split; [|split]].
    + apply (Permutation_NoDup PP N).
    + intros o' I'. rewrite OB. apply R. apply (Permutation_in _ (Permutation_sym PP) I').
    + intros o' I'. rewrite OA. apply E. apply (Permutation_in _ (Permutation_sym P)). now right.
    + rewrite OA. apply E, I.
    + intros I'. apply in_split in I as (l1 & l2 & EP). rewrite EP, <- app_assoc in N. cbn [app] in N. apply NoDup_remove_2 in N. apply N.
      rewrite app_assoc. apply in_or_app. now right.
    + auto.
  - assert (FR : ~ In o (w_pool w ++ map snd held)) by (intros I; apply R in I; lia).
    assert (OA : forall o', o' <> o -> object_at w' o' = object_at w o').
    { intros o' NE. unfold object_at. rewrite OB. destruct (Nat.lt_ge_cases o' (length (w_objects w))) as [L|L]; [rewrite app_nth1 by exact L; reflexivity|].
      rewrite !nth_overflow; [reflexivity|exact L|]. rewrite app_length. cbn [length]. lia. }
    split; [constructor|split; [|split]].
    + rewrite P. cbn [map snd]. apply (Permutation_NoDup (Permutation_middle _ _ _)). constructor; assumption.
    + rewrite P, OB, app_length. cbn [length]. intros o' I. apply (Permutation_in _ (Permutation_sym (Permutation_middle _ _ _))) in I as [<-|I]; [rewrite EO; apply Nat.lt_add_pos_r; constructor|].
      apply R in I. lia.
    + rewrite P. intros o' I. destruct (Nat.eq_dec o' o) as [->|NE]; [exfalso; apply FR, in_or_app; now left|]. rewrite OA by exact NE. apply E, I.
    + unfold object_at. rewrite OB, EO, app_nth2, Nat.sub_diag by lia. reflexivity.
    + intros I. apply FR, in_or_app. now right.
    + exact OA.
Qed.
Lemma owned_called w w' o s held u : owned w held -> called w w' o s -> In (u, o) held -> owned w' held.
Proof.
  intros [N R E] [_ _ P L O _] I. constructor.
  - rewrite P. exact N.
  - rewrite P, L. exact R.
  - rewrite P. intros o' I'. rewrite O; [apply E, I'|]. intros ->. apply in_split in I' as (l1 & l2 & EP). rewrite EP, <- app_assoc in N. cbn [app] in N.
    apply NoDup_remove_2 in N. apply N. rewrite app_assoc. apply in_or_app. right. apply (in_map snd) in I. exact I.
Qed.
Lemma owned_release w o held u : world_ok w -> owned w held -> In (u, o) held -> owned (release w o) (give_back u o held).
Proof.
  intros W [N R E] I. pose proof (reset_called w o W) as [_ _ P L O _]. unfold release.
  assert (PP : Permutation (w_pool w ++ map snd held) ((o :: w_pool w) ++ map snd (give_back u o held))).
  { transitivity (w_pool w ++ o :: map snd (give_back u o held)); [|symmetry; apply (Permutation_middle (w_pool w))].
    apply Permutation_app_head. apply (Permutation_map snd (give_back_perm u o held I)). }
  constructor; cbn [with_pool w_pool w_objects]; rewrite ?P.
  - apply (Permutation_NoDup PP N).
  - intros o' I'. rewrite L. apply R. apply (Permutation_in _ (Permutation_sym PP) I').
  - intros o' [<-|I']; [apply reset_new|]. destruct (Nat.eq_dec o' o) as [->|NE]; [apply reset_new|].
    change (object_at (reset_object w o) o' = new_object). rewrite O by exact NE. apply E, I'.
Qed.
Lemma owned_drop w i held : owned w held -> owned (with_pool w (remove_nth i (w_pool w))) held.
Proof.
  intros [N R E]. constructor; cbn [with_pool w_pool w_objects].
  - apply remove_nth_sub, N.
  - intros o I. apply R. apply in_app_or in I as [I|I]; apply in_or_app; [left; apply (remove_nth_incl _ _ _ I)|now right].
  - intros o I. apply E, (remove_nth_incl _ _ _ I).
Qed.

Lemma view_new w o : object_at w o = new_object -> view w o = empty_stmt.
Proof. unfold view. intros ->. reflexivity. Qed.
Lemma view_kept w w' o : world_ok w -> keeps w w' -> object_at w' o = object_at w o -> view w' o = view w o.
Proof.
  intros W [K1 K2] E. destruct (view_valid w o W) as [V1 V2]. unfold view. rewrite E.
  rewrite (proj2 (K1 _ V1)), (proj2 (K2 _ V2)). reflexivity.
Qed.

(** The holder of an object sees its own calls, whatever others do. *)
Lemma discipline log w : history d log w -> disciplined log ->
  owned w (holders log) /\ forall o, In o (map snd (holders log)) -> view w o = alone d (calls o log).
Proof.
  induction 1 as [|log w e H IH]; intros D.
  - split; [constructor; cbn; [constructor|contradiction..]|contradiction].
  - cbn [disciplined] in D. destruct D as [D DL]. destruct (IH DL) as [OW VW]. pose proof (history_ok _ _ H) as W.
    pose proof (step_ok w e W) as [W' K]. destruct e as [u c|i|u o c extra|u o|u o].
    + cbn [step] in *. pose proof (owned_get w (holders log) u c OW) as G. destruct (get w c) as [w' o]. cbn [fst snd] in *. cbn [holders]. destruct G as (G1 & G2 & G3 & G4).
      split; [exact G1|]. intros o' I. cbn [calls]. destruct (Nat.eqb o' o) eqn:Q.
      * apply Nat.eqb_eq in Q. subst o'. rewrite view_new by exact G2. reflexivity.
      * apply Nat.eqb_neq in Q. cbn [map snd] in I. destruct I as [I|I]; [congruence|]. rewrite <- (VW o' I). apply view_kept; auto.
    + cbn [step fst snd holders calls] in *. split; [apply owned_drop, OW|]. intros o I. rewrite <- (VW o I). reflexivity.
    + cbn [step fst snd holders calls] in *. pose proof (do_called w o c extra W) as C. split; [apply (owned_called _ _ _ _ _ u OW C D)|].
      intros o' I. destruct (Nat.eqb o' o) eqn:Q.
      * apply Nat.eqb_eq in Q. subst o'. rewrite (k_view _ _ _ _ C) by (apply (ow_range _ _ OW), in_or_app; now right).
        unfold alone. rewrite fold_left_app. cbn [fold_left]. fold (alone d (calls o log)). rewrite <- (VW o I). reflexivity.
      * apply Nat.eqb_neq in Q. rewrite <- (VW o' I). apply view_kept; [exact W|exact K|]. apply (k_other _ _ _ _ C), Q.
    + cbn [step fst snd holders calls] in *. split; assumption.
    + cbn [step fst snd holders calls] in *. split; [apply owned_release; assumption|].
      intros o' I. pose proof (ow_nodup _ _ OW) as N. apply nodup_app_r in N.
      pose proof (Permutation_map snd (give_back_perm u o _ D)) as P. cbn [map snd] in P.
      assert (NE : o' <> o).
      { intros ->. apply (Permutation_NoDup P) in N. inversion N; contradiction. }
      rewrite <- (VW o') by (apply (Permutation_in _ (Permutation_sym P)); now right).
      apply view_kept; [exact W|exact K|]. apply (k_other _ _ _ _ (reset_called w o W)), NE.
Qed.

(** ** The generator's uses *)
Lemma text_in_view w o : text_in w o = s_text (view w o).
Proof. reflexivity. Qed.
Lemma called_text w w' o s : called w w' o s -> o < length (w_objects w) -> text_in w' o = s_text s.
Proof. intros C L. rewrite text_in_view, (k_view _ _ _ _ C L). reflexivity. Qed.
Lemma called_other w w' o s o' : world_ok w -> called w w' o s -> o' <> o -> text_in w' o' = text_in w o'.
Proof. intros W C N. rewrite !text_in_view, (view_kept w w' o' W (k_keeps _ _ _ _ C)); [reflexivity|]. apply (k_other _ _ _ _ C), N. Qed.
Lemma acquire_ok w u held : world_ok w -> owned w held -> let '(w', o) := acquire w in
  world_ok w' /\ owned w' ((u, o) :: held) /\ text_in w' o = [] /\ ~ In o (map snd held) /\ forall o', o' <> o -> text_in w' o' = text_in w o'.
Proof.
  intros W O. unfold acquire. pose proof (owned_get w held u (Some 0) O) as G. pose proof (step_ok w (Get u (Some 0)) W) as S. cbn [step] in S.
  destruct (get w (Some 0)) as [w' o]. cbn [fst] in S. destruct G as (G1 & G2 & G3 & G4), S as [S1 S2].
  split; [exact S1|]. split; [exact G1|]. split; [unfold text_in; rewrite G2; reflexivity|]. split; [exact G3|].
  intros o' N. rewrite !text_in_view, (view_kept w w' o' W S2); [reflexivity|apply G4, N].
Qed.
Definition listed (quote : bytes -> bytes) (first : bool) (cols : list (bool * bytes)) : bytes :=
  concat (map (fun x => fst x ++ quote (snd (snd x))) (combine ((if first then [] else B ",") :: repeat (B ",") (length cols)) cols)).
Lemma listed_S quote first c cols : listed quote first (c :: cols) = (if first then [] else B ",") ++ quote (snd c) ++ listed quote false cols.
Proof. unfold listed. cbn [length repeat combine map concat fst snd]. rewrite <- app_assoc. destruct cols; reflexivity. Qed.
Lemma listed_join quote cols : listed quote true cols = join (B ",") (map (fun c => quote (snd c)) cols).
Proof.
  destruct cols as [|c cols]; [reflexivity|]. rewrite listed_S. cbn [app]. revert c.
  induction cols as [|c' cols IH]; intros c; [cbn; apply app_nil_r|]. rewrite listed_S, IH. reflexivity.
Qed.
Lemma owned_at w held u o : owned w held -> In (u, o) held -> o < length (w_objects w).
Proof. intros O I. apply (ow_range _ _ O), in_or_app. right. apply (in_map snd) in I. exact I. Qed.
Lemma columns_loop quote blr u held cols : forall w first, world_ok w -> owned w ((u, blr) :: held) ->
  let w' := sql_columns_loop quote w blr first cols in
  world_ok w' /\ owned w' ((u, blr) :: held) /\ text_in w' blr = text_in w blr ++ listed quote first cols.
Proof.
  induction cols as [|[scanner x] cols IH]; intros w first W O; cbn [sql_columns_loop].
  - cbn zeta. split; [exact W|]. split; [exact O|]. destruct first; cbn; rewrite app_nil_r; reflexivity.
  - set (w1 := if first then w else write_text w blr (B ",") 0).
    assert (H1 : world_ok w1 /\ owned w1 ((u, blr) :: held) /\ text_in w1 blr = text_in w blr ++ (if first then [] else B ",")).
    { subst w1. destruct first; [split; [exact W|split; [exact O|symmetry; apply app_nil_r]]|].
      pose proof (write_called w blr (B ",") 0 W) as C. split; [apply (k_ok _ _ _ _ C)|]. split; [apply (owned_called _ _ _ _ _ u O C); now left|].
      rewrite (called_text _ _ _ _ C); [reflexivity|]. apply (owned_at _ _ u blr O). now left. }
    clearbody w1. destruct H1 as (W1 & O1 & T1).
    set (w2 := if scanner then _ else _).
    assert (H2 : world_ok w2 /\ owned w2 ((u, blr) :: held) /\ text_in w2 blr = text_in w1 blr ++ quote x).
    { subst w2. destruct scanner.
      - pose proof (acquire_ok w1 u ((u, blr) :: held) W1 O1) as A. destruct (acquire w1) as [w2 buf]. destruct A as (W2 & O2 & T2 & N2 & K2).
        assert (NE : buf <> blr) by (intros ->; apply N2; now left).
        pose proof (write_called w2 buf x 0 W2) as C3. set (w3 := write_text w2 buf x 0) in *.
        assert (W3 : world_ok w3) by apply (k_ok _ _ _ _ C3).
        assert (O3 : owned w3 ((u, buf) :: (u, blr) :: held)) by (apply (owned_called _ _ _ _ _ u O2 C3); now left).
        assert (T3 : text_in w3 buf = x) by (rewrite (called_text _ _ _ _ C3); [cbn; fold (text_in w2 buf); rewrite T2; reflexivity|apply (owned_at _ _ u _ O2); now left]).
        rewrite T3. pose proof (write_called w3 blr (quote x) 0 W3) as C4. set (w4 := write_text w3 blr (quote x) 0) in *.
        assert (W4 : world_ok w4) by apply (k_ok _ _ _ _ C4).
        assert (O4 : owned w4 ((u, buf) :: (u, blr) :: held)) by (apply (owned_called _ _ _ _ _ u O3 C4); right; now left).
        assert (T4 : text_in w4 blr = text_in w1 blr ++ quote x).
        { rewrite (called_text _ _ _ _ C4) by (apply (owned_at _ _ u _ O3); right; now left). cbn [put s_text view]. fold (text_in w3 blr).
          rewrite (called_other _ _ _ _ blr W2 C3), K2 by congruence. reflexivity. }
        pose proof (owned_release w4 buf _ u W4 O4 (or_introl eq_refl)) as O5.
        cbn [give_back] in O5. rewrite !Nat.eqb_refl in O5. cbn [andb] in O5.
        pose proof (reset_called w4 buf W4) as C5.
        split; [apply (k_ok _ _ _ _ C5)|]. split; [exact O5|]. rewrite <- T4. apply (called_other _ _ _ _ blr W4 C5). congruence.
      - pose proof (write_called w1 blr (quote x) 0 W1) as C. split; [apply (k_ok _ _ _ _ C)|]. split; [apply (owned_called _ _ _ _ _ u O1 C); now left|].
        rewrite (called_text _ _ _ _ C); [reflexivity|]. apply (owned_at _ _ u blr O1). now left. }
    clearbody w2. destruct H2 as (W2 & O2 & T2). destruct (IH w2 false W2 O2) as (W3 & O3 & T3). cbn zeta in *.
    split; [exact W3|]. split; [exact O3|]. rewrite T3, T2, T1, listed_S. cbn [snd]. rewrite <- !app_assoc. reflexivity.
Qed.
Lemma sql_columns_ok quote w held cols : world_ok w -> owned w held ->
  let '(w', text) := sql_columns quote w cols in text = join (B ",") (map (fun c => quote (snd c)) cols) /\ world_ok w' /\ owned w' held.
Proof.
  intros W O. unfold sql_columns. pose proof (acquire_ok w 0 held W O) as A. destruct (acquire w) as [w1 blr]. destruct A as (W1 & O1 & T1 & _).
  destruct (columns_loop quote blr 0 held cols w1 true W1 O1) as (W2 & O2 & T2). split; [rewrite T2, T1, listed_join; reflexivity|].
  pose proof (owned_release _ blr _ 0 W2 O2 (or_introl eq_refl)) as O3. cbn [give_back] in O3. rewrite !Nat.eqb_refl in O3. cbn [andb] in O3.
  split; [apply (k_ok _ _ _ _ (reset_called _ blr W2))|exact O3].
Qed.

(** The pool with an object twice *)
Definition twice w (b : nat) : Prop := b < length (w_objects w) /\ exists rest, w_pool w = b :: rest.
Lemma write_twice w b o x : twice w b -> twice (write_text w o x 0) b.
Proof.
  unfold twice, write_text. destruct (grow _ _ _ _). cbn [w_objects w_pool]. rewrite set_nth_length. auto.
Qed.
Lemma doubled_loop quote b cols : forall w first x, twice w b -> text_in (sql_columns_loop quote w b first (cols ++ [(true, x)])) b = [].
Proof.
  assert (LOSE : forall w x, twice w b ->
    let '(w1, buf) := acquire w in
    let w2 := write_text w1 buf x 0 in let w3 := write_text w2 b (quote (text_in w2 buf)) 0 in
    twice (release w3 buf) b /\ text_in (release w3 buf) b = []).
  { intros w x [L (rest & P)]. unfold acquire, get. cbn [nth_error]. rewrite P. cbn [nth_error]. cbn zeta.
    set (w3 := write_text _ b _ 0).
    assert (L3 : length (w_objects w3) = length (w_objects w)).
    { subst w3. unfold write_text. repeat (destruct (grow _ _ _ _)). cbn [w_objects with_pool]. rewrite !set_nth_length. reflexivity. }
    split.
    - split; [unfold release, reset_object, set_object; cbn [w_objects with_pool]; rewrite set_nth_length, L3; exact L|]. unfold release. cbn [w_pool with_pool]. eauto.
    - unfold release. change (text_in (reset_object w3 b) b = []). unfold text_in. rewrite reset_new. reflexivity. }
  induction cols as [|[scanner y] cols IH]; intros w first x T; cbn [app sql_columns_loop].
  - set (w1 := if first then w else _). assert (T1 : twice w1 b) by (subst w1; destruct first; [exact T|apply write_twice, T]).
    pose proof (LOSE w1 x T1) as G. destruct (acquire w1) as [w2 buf]. apply G.
  - set (w1 := if first then w else _). assert (T1 : twice w1 b) by (subst w1; destruct first; [exact T|apply write_twice, T]).
    clearbody w1. apply IH. destruct scanner; [|apply write_twice, T1]. pose proof (LOSE w1 y T1) as G. destruct (acquire w1) as [w2 buf]. apply G.
Qed.
Lemma build_update_doubles w text held : world_ok w -> owned w held ->
  let w' := build_update w text in exists b rest, w_pool w' = b :: b :: rest /\ b < length (w_objects w').
Proof.
  intros W O. unfold build_update. pose proof (acquire_ok w 0 held W O) as A. destruct (acquire w) as [w1 b]. destruct A as (W1 & O1 & _).
  exists b, (w_pool (write_text w1 b text 0)). split; [reflexivity|].
  unfold release, reset_object, set_object. cbn [w_objects with_pool]. rewrite !set_nth_length.
  rewrite (k_len _ _ _ _ (write_called w1 b text 0 W1)). apply (owned_at _ _ 0 b O1). now left.
Qed.
Lemma doubled_columns quote w b rest cols x : w_pool w = b :: b :: rest -> b < length (w_objects w) ->
  snd (sql_columns quote w (cols ++ [(true, x)])) = [].
Proof.
  intros P L. unfold sql_columns, acquire, get. rewrite P. cbn [nth_error snd]. apply doubled_loop.
  split; [exact L|]. cbn [with_pool w_pool remove_nth]. exists rest. reflexivity.
Qed.
End World.
