(** Proofs for C38 and C39. *)
From Verif Require Import Base ModelCompiler ModelGen ModelRows SpecRows LemmasBase.

Section Rows.
Context {V : Type}.
Variable conv : column -> V -> option V.
Variable cols : list column.
Hypothesis ND : NoDup (map c_gopath cols).

Lemma assign_holds (cs : list column) : NoDup (map c_gopath cs) -> forall row x x', length row = length cs -> assign conv cs row x = (x', true) -> holds conv cs row x x'.
Proof.
  induction cs as [|c cs IH]; intros N row x x' L E; destruct row as [|v row]; try discriminate; cbn in E.
  - injection E as <-. split; [constructor|reflexivity].
  - inversion N; subst. destruct (conv c v) as [v'|] eqn:C; [|discriminate]. injection L as L.
    destruct (IH H2 row _ x' L E) as [F O]. split.
    + constructor; [|exact F]. rewrite C. f_equal. rewrite (O (c_gopath c) H1), bseq_refl. reflexivity.
    + intros path NI. rewrite O; [|intros I; apply NI; now right]. destruct (bseq path (c_gopath c)) eqn:B; [|reflexivity].
      apply bseq_eq in B. subst. exfalso. apply NI. now left.
Qed.
Lemma assign_readable cs row x : readable_row conv cs row -> exists x', assign conv cs row x = (x', true).
Proof.
  intros H. revert x. induction H as [|c v cs row C _ IH]; intros x; cbn; [eauto|]. destruct (conv c v); [apply IH|contradiction].
Qed.
Lemma scan_holds row x x' : scan conv cols row x = (x', true) -> holds conv cols row x x'.
Proof. unfold scan. destruct (Nat.eqb_spec (length row) (length cols)) as [L|L]; [|discriminate]. apply assign_holds; [exact ND|exact L]. Qed.
Lemma readable_length cs row : readable_row conv cs row -> length row = length cs.
Proof. intros H. induction H; cbn; [reflexivity|]. f_equal. assumption. Qed.
Lemma scan_readable row x : readable_row conv cols row -> exists x', scan conv cols row x = (x', true).
Proof. intros H. unfold scan. rewrite (readable_length cols row H), Nat.eqb_refl. apply assign_readable, H. Qed.
Lemma holds_readable cs row x x' : holds conv cs row x x' -> readable_row conv cs row.
Proof. intros [F _]. induction F as [|c v cs' r C _ IH]; constructor; [congruence|exact IH]. Qed.
Lemma scan_unreadable row x : ~ readable_row conv cols row -> exists x', scan conv cols row x = (x', false).
Proof.
  intros N. destruct (scan conv cols row x) as [x' [|]] eqn:E; [|eauto]. exfalso. apply N. eapply holds_readable, scan_holds, E.
Qed.

(** *** Queries *)
Lemma query_loop zero pending acc acc' : for_rows (query_body conv cols zero) pending acc = (acc', None) ->
  exists l, acc' = acc ++ l /\ Forall2 (fun row x => holds conv cols row zero x) pending l.
Proof.
  revert acc. induction pending as [|row pending IH]; intros acc E; cbn in E.
  - injection E as <-. exists []. rewrite app_nil_r. split; constructor.
  - unfold query_body in E at 1. destruct (scan conv cols row zero) as [x [|]] eqn:SC; [|discriminate].
    destruct (IH _ E) as (l & -> & F). exists (x :: l). rewrite <- app_assoc. split; [reflexivity|]. constructor; [apply scan_holds, SC|exact F].
Qed.
Lemma query_loop_ok zero pending acc : Forall (readable_row conv cols) pending -> exists acc', for_rows (query_body conv cols zero) pending acc = (acc', None).
Proof.
  intros F. revert acc. induction F as [|row pending R _ IH]; intros acc; cbn; [eauto|]. unfold query_body at 1.
  destruct (scan_readable row zero R) as (x & ->). apply IH.
Qed.
Lemma query_loop_bad zero pending acc : ~ Forall (readable_row conv cols) pending -> exists acc' e, for_rows (query_body conv cols zero) pending acc = (acc', Some e).
Proof.
  intros N. destruct (for_rows (query_body conv cols zero) pending acc) as [acc' [e|]] eqn:E; [eauto|exfalso].
  apply N. destruct (query_loop _ _ _ _ E) as (l & _ & F). clear - F. induction F; constructor; [|assumption]. eapply holds_readable; eassumption.
Qed.

(** *** Records filled in *)
Lemma nth_update_same {A} i (x y : A) l : nth_error l i = Some y -> nth_error (update_nth i x l) i = Some x.
Proof. revert l. induction i as [|i IH]; intros [|z l] E; cbn in *; try discriminate; [reflexivity|]. apply IH, E. Qed.
Lemma nth_update_other {A} i j (x : A) l : i <> j -> nth_error (update_nth i x l) j = nth_error l j.
Proof. revert j l. induction i as [|i IH]; intros [|j] [|z l] N; cbn; try reflexivity; try congruence. apply IH. congruence. Qed.
Lemma length_update {A} i (x : A) l : length (update_nth i x l) = length l.
Proof. revert l. induction i as [|i IH]; intros [|z l]; cbn; try reflexivity. rewrite IH. reflexivity. Qed.
Lemma fill_loop pending : forall data i data' i', for_rows (fill_body conv cols) pending (data, i) = (data', i', None) ->
  i' = i + length pending /\ length data' = length data /\
  (forall j row, nth_error pending j = Some row -> exists x x', nth_error data (i + j) = Some x /\ nth_error data' (i + j) = Some x' /\ holds conv cols row x x') /\
  (forall k, k < i \/ i + length pending <= k -> nth_error data' k = nth_error data k).
Proof.
  induction pending as [|row pending IH]; intros data i data' i' E; cbn in E.
  - injection E as <- <-. split; [cbn; lia|]. split; [reflexivity|]. split; [intros [|]; discriminate|reflexivity].
  - destruct (nth_error data i) as [x|] eqn:N; [|discriminate]. destruct (scan conv cols row x) as [x' [|]] eqn:SC; [|discriminate].
    destruct (IH _ _ _ _ E) as (-> & L & F & O). rewrite length_update in L. split; [cbn; lia|]. split; [exact L|]. split.
    + intros [|j] r NE; cbn in NE.
      * injection NE as <-. rewrite Nat.add_0_r. exists x, x'. split; [exact N|]. split; [|apply scan_holds, SC].
        rewrite O by lia. eapply nth_update_same, N.
      * destruct (F j r NE) as (y & y' & E1 & E2 & H). rewrite nth_update_other in E1 by lia. replace (i + S j) with (S i + j) by lia. eauto.
    + intros k K. cbn [length] in K. rewrite O by lia. apply nth_update_other. lia.
Qed.
Lemma fill_loop_ok pending : forall data i, Forall (readable_row conv cols) pending -> i + length pending <= length data ->
  exists data', for_rows (fill_body conv cols) pending (data, i) = (data', i + length pending, None).
Proof.
  induction pending as [|row pending IH]; intros data i F L; cbn.
  - rewrite Nat.add_0_r. eauto.
  - inversion F; subst. cbn [length] in L. destruct (nth_error data i) as [x|] eqn:N; [|apply nth_error_None in N; lia].
    destruct (scan_readable row x) as (x' & SC); [assumption|]. rewrite SC. destruct (IH (update_nth i x' data) (S i)) as (data' & E); [assumption|rewrite length_update; lia|].
    rewrite E. exists data'. rewrite Nat.add_succ_r. reflexivity.
Qed.

(** *** Skipped records *)
Lemma kept_nth {A} kept : forall (stored : list A) b row, nth_error kept b = Some true -> nth_error stored b = Some row -> nth_error (kept_rows kept stored) (kept_before kept b) = Some row.
Proof.
  induction kept as [|k kept IH]; intros stored b row K S0; [destruct b; discriminate|].
  destruct stored as [|x stored]; [destruct b; discriminate|]. destruct b as [|b]; cbn in K, S0.
  - injection K as ->. injection S0 as ->. reflexivity.
  - specialize (IH stored b row K S0). unfold kept_before in *. destruct k; cbn; exact IH.
Qed.
Lemma kept_length {A} kept : forall (stored : list A), length (kept_rows kept stored) <= length stored.
Proof. induction kept as [|[] kept IH]; intros [|x stored]; cbn; try lia; specialize (IH stored); lia. Qed.
Lemma kept_forall {A} (P : A -> Prop) kept : forall (stored : list A), Forall P stored -> Forall P (kept_rows kept stored).
Proof. induction kept as [|[] kept IH]; intros stored F; destruct F; cbn; try constructor; auto. Qed.
Lemma kept_before_le kept b : kept_before kept b <= b.
Proof.
  unfold kept_before. pose proof (firstn_le_length b kept). revert H. generalize (firstn b kept). intros l H.
  assert (length (filter (fun k : bool => k) l) <= length l). { clear. induction l as [|[] l IH]; cbn; lia. } lia.
Qed.
Lemma kept_before_all kept b : b <= length kept -> kept_before kept b = b <-> Forall (fun k => k = true) (firstn b kept).
Proof.
  unfold kept_before. intros L. assert (E : b = length (firstn b kept)) by (rewrite firstn_length; lia).
  rewrite E at 2. clear E L. induction (firstn b kept) as [|[] l IH]; cbn; [split; auto| |].
  - split; [intros H; constructor; [reflexivity|]; apply IH; lia|]. intros H. inversion H; subst. f_equal. apply IH; assumption.
  - split; [|intros H; inversion H; discriminate]. intros H. exfalso.
    assert (X : length (filter (fun k : bool => k) l) <= length l). { clear. induction l as [|[] l IH]; cbn; lia. } lia.
Qed.
End Rows.
