(** Slices on a heap: what append writes, what it leaves alone, and how the in-place removals read afterwards. *)
From Verif Require Import Base ModelStrconv ModelCompiler ModelGen ModelRuntime ModelSlice SpecSlice.
From Coq Require Import Lia.

Lemma nth_error_put : forall l i xs j, i + length xs <= length l ->
  nth_error (put l i xs) j
  = if Nat.ltb j i then nth_error l j
    else if Nat.ltb j (i + length xs) then nth_error xs (j - i) else nth_error l j.
Proof.
  intros l i xs j L. unfold put.
  assert (F : length (firstn i l) = i) by (rewrite firstn_length; lia).
  destruct (Nat.ltb_spec j i) as [A|A].
  - rewrite nth_error_app1 by (rewrite F; exact A).
    clear -A. revert i j A. induction l as [|x l IH]; intros i j A; [destruct i, j; reflexivity|].
    destruct i as [|i]; [lia|]. destruct j as [|j]; [reflexivity|]. cbn [firstn nth_error]. apply IH. lia.
  - rewrite nth_error_app2 by (rewrite F; exact A). rewrite F.
    destruct (Nat.ltb_spec j (i + length xs)) as [C|C].
    + apply nth_error_app1. lia.
    + rewrite nth_error_app2 by lia.
      replace (nth_error l j) with (nth_error l ((i + length xs) + (j - i - length xs))) by (f_equal; lia).
      clear. generalize (i + length xs) as k. generalize (j - i - length xs) as n. intros n k. revert n l.
      induction k as [|k IH]; intros n l; [reflexivity|].
      destruct l as [|x l]; [destruct n; reflexivity|]. cbn [skipn plus nth_error]. apply IH.
Qed.
Lemma put_length : forall l i xs, i + length xs <= length l -> length (put l i xs) = length l.
Proof. intros l i xs L. unfold put. rewrite !app_length, firstn_length, skipn_length. lia. Qed.

Lemma store_length : forall h a l, a < length h -> length (store h a l) = length h.
Proof. intros h a l L. unfold store. rewrite !app_length, firstn_length, skipn_length. cbn [length]. lia. Qed.
Lemma nth_store_same : forall h a l, a < length h -> nth a (store h a l) [] = l.
Proof.
  intros h a l L. unfold store. rewrite app_nth2 by (rewrite firstn_length; lia).
  rewrite firstn_length, Nat.min_l by lia. rewrite Nat.sub_diag. reflexivity.
Qed.
Lemma nth_store_other : forall h a b l, a < length h -> b <> a -> nth b (store h a l) [] = nth b h [].
Proof.
  intros h. induction h as [|x h IH]; intros a b l L N; [cbn in L; lia|].
  destruct a as [|a]; destruct b as [|b]; try reflexivity; [lia|].
  change (nth b (store h a l) [] = nth b h []). apply IH; [cbn in L; lia|lia].
Qed.

(** a slice reads what its cells hold *)
Lemma nth_error_firstn : forall {A} (l : list A) n k, nth_error (firstn n l) k = if Nat.ltb k n then nth_error l k else None.
Proof.
  intros A l. induction l as [|x l IH]; intros n k.
  - rewrite firstn_nil. destruct k, (Nat.ltb _ n); reflexivity.
  - destruct n as [|n]; [destruct k; reflexivity|]. destruct k as [|k]; [reflexivity|]. cbn [firstn nth_error].
    rewrite IH. reflexivity.
Qed.
Lemma nth_error_skipn : forall {A} n (l : list A) k, nth_error (skipn n l) k = nth_error l (n + k).
Proof.
  intros A n. induction n as [|n IH]; intros l k; [reflexivity|].
  destruct l as [|x l]; [destruct k; reflexivity|]. cbn [skipn plus nth_error]. apply IH.
Qed.
Lemma nth_error_read : forall h s k,
  nth_error (read h s) k = if Nat.ltb k (s_len s) then cell h (s_arr s) (s_off s + k) else None.
Proof. intros h s k. unfold read, cell. rewrite nth_error_firstn, nth_error_skipn. reflexivity. Qed.
Lemma list_ext : forall {A} (l l' : list A), (forall k, nth_error l k = nth_error l' k) -> l = l'.
Proof.
  intros A l. induction l as [|x l IH]; intros [|y l'] E; [reflexivity|specialize (E 0); discriminate|specialize (E 0); discriminate|].
  f_equal; [specialize (E 0); cbn in E; congruence|]. apply IH. intros k. exact (E (S k)).
Qed.
Lemma read_cells : forall h h' s, (forall a i, shows s a i -> cell h' a i = cell h a i) -> read h' s = read h s.
Proof.
  intros h h' s E. apply list_ext. intros k. rewrite !nth_error_read.
  destruct (Nat.ltb_spec k (s_len s)) as [L|L]; [|reflexivity]. apply E. split; [reflexivity|lia].
Qed.
Lemma valid_len : forall h s, valid h s -> length (read h s) = s_len s.
Proof.
  intros h s [L [Z|[_ R]]]; unfold read; rewrite firstn_length, skipn_length; lia.
Qed.
Lemma valid_in : forall h s a i, valid h s -> shows s a i \/ grows s a i -> a < length h.
Proof. intros h s a i [L [Z|[R _]]] [[-> C]|[-> C]]; lia. Qed.
Lemma valid_keep : forall h h' s, valid h s -> length h <= length h'
  -> (forall a, a < length h -> length (nth a h' []) = length (nth a h [])) -> valid h' s.
Proof.
  intros h h' s [L [Z|[R M]]] G E; split; [exact L|left; exact Z|exact L|right].
  split; [lia|]. rewrite E by exact R. exact M.
Qed.

Lemma read_upto : forall h s i, i <= s_len s -> read h (upto s i) = firstn i (read h s).
Proof. intros h s i L. unfold read, upto. cbn. rewrite firstn_firstn, Nat.min_l by exact L. reflexivity. Qed.
Lemma read_from : forall h s i, read h (from s i) = skipn i (read h s).
Proof.
  intros h s i. apply list_ext. intros k. rewrite nth_error_skipn, !nth_error_read.
  cbn [from s_len s_arr s_off].
  destruct (Nat.ltb_spec k (s_len s - i)), (Nat.ltb_spec (i + k) (s_len s)); try lia; [|reflexivity].
  f_equal. lia.
Qed.

Section Append.
Variable room : nat -> nat.

(** append: the new slice reads the old content and then the new strings; only cells into which the slice could grow
    are written, and the new slice can grow only into such cells or is on a new array *)
Record appended (h : heap) (s : slice) (xs : list bytes) (h' : heap) (s' : slice) : Prop := {
  ap_read : read h' s' = read h s ++ xs;
  ap_valid : valid h' s';
  ap_size : length h <= length h';
  ap_arrays : forall a, a < length h -> length (nth a h' []) = length (nth a h []);
  ap_cells : forall a i, a < length h -> ~ grows s a i -> cell h' a i = cell h a i;
  ap_where : (s_arr s' = s_arr s /\ s_off s' = s_off s /\ s_cap s' = s_cap s /\ s_len s <= s_len s')
             \/ (length h <= s_arr s' /\ s_arr s' < length h')
}.

Lemma append_ok : forall h s xs, valid h s ->
  appended h s xs (fst (append room h s xs)) (snd (append room h s xs)).
Proof.
  intros h s xs Vd. unfold append. destruct xs as [|x0 xs0].
  - cbn [fst snd]. constructor; [rewrite app_nil_r; reflexivity|exact Vd|lia|reflexivity|reflexivity|].
    left. repeat split; lia.
  - remember (x0 :: xs0) as xs eqn:EX.
    assert (NX : 0 < length xs) by (rewrite EX; cbn [length]; lia). clear EX x0 xs0.
    pose proof (valid_len h s Vd) as RL. destruct Vd as [L W].
    destruct (Nat.leb_spec (s_len s + length xs) (s_cap s)) as [C|C]; cbn [fst snd].
    + destruct W as [Z|[R M]]; [lia|].
      assert (P : s_off s + s_len s + length xs <= length (nth (s_arr s) h [])) by lia.
      assert (CE : forall a i, cell (store h (s_arr s) (put (nth (s_arr s) h []) (s_off s + s_len s) xs)) a i
                = if Nat.eqb a (s_arr s) then
                    if Nat.ltb i (s_off s + s_len s) then cell h a i
                    else if Nat.ltb i (s_off s + s_len s + length xs) then nth_error xs (i - (s_off s + s_len s))
                         else cell h a i
                  else cell h a i).
      { intros a i. unfold cell. destruct (Nat.eqb_spec a (s_arr s)) as [->|NE].
        - rewrite nth_store_same by exact R. apply nth_error_put. exact P.
        - rewrite nth_store_other by assumption. reflexivity. }
      constructor.
      * apply list_ext. intros k. rewrite nth_error_read. cbn [upto s_len s_arr s_off]. rewrite CE, Nat.eqb_refl.
        destruct (Nat.ltb_spec k (s_len s)) as [K|K].
        -- rewrite nth_error_app1 by lia. rewrite nth_error_read.
           destruct (Nat.ltb_spec k (s_len s + length xs)); [|lia].
           destruct (Nat.ltb_spec k (s_len s)); [|lia].
           destruct (Nat.ltb_spec (s_off s + k) (s_off s + s_len s)); [reflexivity|lia].
        -- rewrite nth_error_app2 by lia. rewrite RL.
           destruct (Nat.ltb_spec k (s_len s + length xs)).
           ++ destruct (Nat.ltb_spec (s_off s + k) (s_off s + s_len s)); [lia|].
              destruct (Nat.ltb_spec (s_off s + k) (s_off s + s_len s + length xs)); [f_equal; lia|lia].
           ++ symmetry. apply nth_error_None. lia.
      * split; [cbn; lia|right]. cbn [upto s_arr s_off s_cap]. rewrite store_length by exact R.
        split; [exact R|]. rewrite nth_store_same by exact R. rewrite put_length by exact P. exact M.
      * rewrite store_length by exact R. lia.
      * intros a A. destruct (Nat.eq_dec a (s_arr s)) as [->|NE].
        -- rewrite nth_store_same by exact R. apply put_length. exact P.
        -- rewrite nth_store_other by assumption. reflexivity.
      * intros a i A G. rewrite CE. destruct (Nat.eqb_spec a (s_arr s)) as [E|NE]; [|reflexivity].
        destruct (Nat.ltb_spec i (s_off s + s_len s)); [reflexivity|].
        destruct (Nat.ltb_spec i (s_off s + s_len s + length xs)); [|reflexivity].
        exfalso. apply G. split; [exact E|lia].
      * left. cbn. repeat split; lia.
    + assert (NT : nth (length h) (h ++ [read h s ++ xs ++ repeat [] (room (s_len s + length xs))]) []
                 = read h s ++ xs ++ repeat [] (room (s_len s + length xs)))
        by (rewrite app_nth2 by lia; rewrite Nat.sub_diag; reflexivity).
      constructor.
      * unfold read at 1. cbn [s_len s_off s_arr skipn]. rewrite NT. rewrite app_assoc.
        rewrite firstn_app. rewrite app_length, RL.
        replace (s_len s + length xs - (s_len s + length xs)) with 0 by lia.
        rewrite firstn_all2 by (rewrite app_length; lia). cbn [firstn]. apply app_nil_r.
      * split; [cbn; lia|right]. cbn [s_arr s_off s_cap]. rewrite app_length. cbn [length]. split; [lia|].
        rewrite NT. rewrite !app_length, repeat_length, RL. lia.
      * rewrite app_length. lia.
      * intros a A. rewrite app_nth1 by exact A. reflexivity.
      * intros a i A _. unfold cell. rewrite app_nth1 by exact A. reflexivity.
      * right. cbn [s_arr]. rewrite app_length. cbn [length]. lia.
Qed.

(** the first cell the slice could grow into holds the first string appended *)
Lemma append_first : forall h s x xs, valid h s -> s_len s + length (x :: xs) <= s_cap s ->
  cell (fst (append room h s (x :: xs))) (s_arr s) (s_off s + s_len s) = Some x.
Proof.
  intros h s x xs [L W] C. unfold append. cbv zeta.
  destruct (Nat.leb_spec (s_len s + length (x :: xs)) (s_cap s)) as [C'|C']; [|lia]. cbn [fst].
  assert (0 < length (x :: xs)) by (cbn [length]; lia).
  destruct W as [Z|[R M]]; [lia|]. unfold cell. rewrite nth_store_same by exact R.
  rewrite nth_error_put by lia. destruct (Nat.ltb_spec (s_off s + s_len s) (s_off s + s_len s)); [lia|].
  destruct (Nat.ltb_spec (s_off s + s_len s) (s_off s + s_len s + length (x :: xs))); [|lia].
  rewrite Nat.sub_diag. reflexivity.
Qed.

(** removal of a cell in place *)
Lemma delete_ok : forall h s i, valid h s -> i < s_len s ->
  exists h' s', delete_at room h s i = Ok (h', s')
    /\ read h' s' = firstn i (read h s) ++ skipn (S i) (read h s)
    /\ valid h' s' /\ length h <= length h'
    /\ (forall a, a < length h -> length (nth a h' []) = length (nth a h []))
    /\ (forall a j, a < length h -> (a = s_arr s -> s_off s <= j < s_off s + s_cap s -> False) -> cell h' a j = cell h a j)
    /\ s_arr s' = s_arr s /\ s_off s' = s_off s /\ s_cap s' = s_cap s /\ length h' = length h.
Proof.
  intros h s i Vd L. unfold delete_at. destruct (Nat.ltb_spec i (s_len s)) as [_|C]; [|lia].
  assert (Vu : valid h (upto s i)) by (destruct Vd as [A [Z|[R M]]]; split; cbn [upto s_len s_cap s_arr s_off]; [lia|left; exact Z|lia|right; split; assumption]).
  pose proof (append_ok h (upto s i) (read h (from s (S i))) Vu) as AP.
  destruct (append room h (upto s i) (read h (from s (S i)))) as [h' s'] eqn:E. cbn [fst snd] in AP.
  exists h', s'. split; [reflexivity|]. destruct AP as [a1 a2 a3 a4 a5 a6].
  rewrite read_upto in a1 by lia. rewrite read_from in a1.
  split; [exact a1|]. split; [exact a2|]. split; [exact a3|]. split; [exact a4|]. split.
  { intros a j A N. apply a5; [exact A|]. intros [G1 G2]. cbn [upto s_arr s_off s_len s_cap] in G1, G2. apply N; [exact G1|lia]. }
  unfold append in E. rewrite read_from in E.
  assert (LE : length (skipn (S i) (read h s)) = s_len s - S i) by (rewrite skipn_length, valid_len by exact Vd; reflexivity).
  destruct (skipn (S i) (read h s)) as [|y ys].
  - injection E as <- <-. cbn. repeat split; reflexivity.
  - cbn [upto s_len s_cap s_arr s_off] in E. rewrite LE in E.
    destruct (Nat.leb_spec (i + (s_len s - S i)) (s_cap s)) as [C|C]; [|destruct Vd; lia].
    injection E as <- <-. cbn [s_arr s_off s_cap upto]. repeat split.
    apply store_length. destruct Vd as [LL [Z|[R _]]]; [lia|exact R].
Qed.
Lemma delete_panic : forall h s i, s_len s <= i -> delete_at room h s i = Panic.
Proof. intros h s i L. unfold delete_at. destruct (Nat.ltb_spec i (s_len s)); [lia|reflexivity]. Qed.
End Append.
