(** C97: calls give back the connections they take, take one at a time, and never wait for each other for ever. *)
From Coq Require Import List PeanoNat Lia.
From Verif Require Import Base ModelGen ModelConn.
Import ListNotations.

(** ** Specification *)
(** Connections are taken one after the other: each is given back before the next is taken, and the last is given back. *)
Inductive one_by_one : list event -> Prop :=
| o_none : one_by_one []
| o_more t : one_by_one t -> one_by_one (Take :: Give :: t).
(** No method Addrs panics while rows are read. *)
Definition calm (a : answer) : Prop := match a with Refuses => True | Answers rows => ~ In Explodes rows end.
(** The database returns at most as many rows as it was given records. *)
Definition within (n : nat) (a : answer) : Prop := match a with Refuses => True | Answers rows => length rows <= n end.

(** ** Lemmas *)
Lemma one_app a b : one_by_one a -> one_by_one b -> one_by_one (a ++ b).
Proof. intros A Bb. induction A; [exact Bb|]. cbn [app]. constructor. assumption. Qed.
Lemma one_pair : one_by_one [Take; Give].
Proof. repeat constructor. Qed.
Lemma loop_calm dfr rows : ~ In Explodes rows -> loop dfr rows = ([Give], Returns).
Proof. induction rows as [|[] rows IH]; intros N; cbn [loop]; [reflexivity|apply IH; intros I; apply N; right; exact I|reflexivity|exfalso; apply N; left; reflexivity]. Qed.
Lemma loop_deferred rows : exists e, loop true rows = ([Give], e).
Proof. induction rows as [|[] rows IH]; cbn [loop]; eauto. Qed.
Lemma by_row_calm a : calm a -> by_row a = ([Take; Give], Returns).
Proof. destruct a as [|[|[] rows]]; intros C; try reflexivity. exfalso. apply C. left. reflexivity. Qed.
Lemma by_rows_calm dfr a : calm a -> by_rows dfr a = ([Take; Give], Returns).
Proof. destruct a as [|rows]; intros C; [reflexivity|]. unfold by_rows. rewrite (loop_calm dfr rows C). reflexivity. Qed.
Lemma by_rows_deferred a : exists e, by_rows true a = ([Take; Give], e).
Proof. destruct a as [|rows]; [exists Returns; reflexivity|]. unfold by_rows. destruct (loop_deferred rows) as [e ->]. exists e. reflexivity. Qed.
Lemma indexed_calm n a : calm a -> within n a -> calm (indexed_answer n a).
Proof. destruct a as [|rows]; intros C W; [exact I|]. cbn in *. unfold indexed. rewrite firstn_all2 by exact W. replace (length rows - n) with 0 by lia. cbn [repeat]. rewrite app_nil_r. exact C. Qed.

(** ** Every function *)
(** Whatever the database answers: a call takes one connection at most and has given it back when it returns.  What is missing: methods that panic, see below. *)
Theorem C97_given_back_partial d n sent a : calm a -> within n a ->
  (forall c, In c [insert_one d a; insert d n a; upsert_one d a; upsert d n a; find_by_pk a; update_by_pk; delete_by_pk; lock_by_pk; query_stmt sent a; query_one_stmt sent a; exec_stmt sent] -> (fst c = [] \/ fst c = [Take; Give]) /\ snd c = Returns).
Proof.
  intros C W c I. pose proof (indexed_calm n a C W) as C'.
  assert (E : c = ([], Returns) \/ c = ([Take; Give], Returns)); [|destruct E as [-> | ->]; split; auto].
  cbn [In] in I. unfold insert_one, insert, upsert_one, upsert, find_by_pk, update_by_pk, delete_by_pk, lock_by_pk, query_stmt, query_one_stmt, exec_stmt, by_exec in I. rewrite !(by_row_calm a C), !(by_rows_calm true a C), !(by_rows_calm true _ C') in I.
  destruct d, n, sent; repeat destruct I as [I|I]; try (symmetry in I; tauto); destruct I.
Qed.
(** The functions that read several rows give the connection back even when a method panics or more rows come than records were given. *)
Theorem C97_deferred n sent a : (fst (insert DPostgres n a) = [] \/ fst (insert DPostgres n a) = [Take; Give]) /\ (fst (upsert DPostgres n a) = [] \/ fst (upsert DPostgres n a) = [Take; Give]) /\ (fst (query_stmt sent a) = [] \/ fst (query_stmt sent a) = [Take; Give]).
Proof.
  destruct (by_rows_deferred (indexed_answer n a)) as [e E]. destruct (by_rows_deferred a) as [e' E']. unfold insert, upsert, query_stmt. rewrite E, E'. destruct n, sent; cbn [fst]; auto.
Qed.
(** Paging, in either direction, with any calls in the caller's loop: still one after the other.  So the caller's body runs while the pager holds no connection. *)
Theorem C97_paging_partial limit has rounds : Forall (fun r => calm (r_cursor r) /\ calm (r_page r) /\ one_by_one (b_calls (r_body r))) rounds -> one_by_one (fst (pager limit has rounds)).
Proof.
  intros F. revert has. induction F as [|r rest (C1 & C2 & O) F IH]; intros has; [constructor|].
  assert (PAGE : forall x, x = (match r_page r with
        | Refuses => ([Take; Give] ++ b_calls (r_body r), match b_wish (r_body r) with Dies => Panics | _ => Returns end)
        | Answers rows => match loop false rows with
            | (es, Panics) => (Take :: es, Panics)
            | (es, Returns) => let before := Take :: es ++ b_calls (r_body r) in
                if bad_rows rows then (before, match b_wish (r_body r) with Dies => Panics | _ => Returns end)
                else if Nat.leb (length rows) limit then (before, match b_wish (r_body r) with Dies => Panics | _ => Returns end)
                else match b_wish (r_body r) with GoesOn => let '(es', e) := pager limit true rest in (before ++ es', e) | Leaves => (before, Returns) | Dies => (before, Panics) end
            end end) -> one_by_one (fst x)).
  { intros x ->. destruct (r_page r) as [|rows]; [cbn [fst app]; constructor; exact O|]. rewrite (loop_calm false rows C2). cbn zeta. cbn [app]. destruct (bad_rows rows); [cbn [fst]; constructor; exact O|]. destruct (Nat.leb (length rows) limit); [cbn [fst]; constructor; exact O|].
    destruct (b_wish (r_body r)); [|cbn [fst]; constructor; exact O|cbn [fst]; constructor; exact O]. specialize (IH true). destruct (pager limit true rest) as [es' e]. cbn [fst app]. constructor. apply one_app; assumption. }
  cbn [pager]. specialize (PAGE _ eq_refl). destruct has; [|exact PAGE]. rewrite (by_row_calm _ C1). destruct (fails_row (r_cursor r)); cbn [fst app]; constructor; [exact O|exact PAGE].
Qed.
(** Where a method Addrs panics: a connection is lost, in the functions that read one row and in the loop over pages. *)
Theorem C97_panic_refuted limit rest rest' b : find_by_pk (Answers (Explodes :: rest)) = ([Take], Panics) /\ query_one_stmt true (Answers (Explodes :: rest)) = ([Take], Panics) /\ insert_one DPostgres (Answers (Explodes :: rest)) = ([Take], Panics) /\
  pager limit false ({| r_cursor := Refuses; r_page := Answers (Explodes :: rest); r_body := b |} :: rest') = ([Take], Panics).
Proof. repeat split. Qed.

(** ** Goroutines *)
(** Goroutines whose calls take connections one by one, on a pool of any size: whatever they have done so far, they can all be finished, with nothing in use.  No goroutine waits for ever for a connection that another keeps. *)
Definition midway (t : list event) : Prop := one_by_one t \/ exists r, t = Give :: r /\ one_by_one r.
Fixpoint holders (ts : list (list event)) : nat := match ts with [] => 0 | (Give :: _) :: r => S (holders r) | _ :: r => holders r end.
Definition sane (st : pool) : Prop := Forall midway (snd st) /\ fst st = holders (snd st).
Lemma put_take ts i r : nth_error ts i = Some (Take :: Give :: r) -> holders (put ts i (Give :: r)) = S (holders ts).
Proof. revert i. induction ts as [|t ts IH]; intros [|i] H; try discriminate; cbn [nth_error] in H; [injection H as ->; reflexivity|]. cbn [put holders]. rewrite (IH i H). destruct t as [|[] t]; reflexivity. Qed.
Lemma put_give ts i r : nth_error ts i = Some (Give :: r) -> one_by_one r -> S (holders (put ts i r)) = holders ts.
Proof. intros H O. revert i H. induction ts as [|t ts IH]; intros [|i] H; try discriminate; cbn [nth_error] in H; [injection H as ->; cbn [put holders]; destruct O; reflexivity|]. cbn [put holders]. specialize (IH i H). destruct t as [|[] t]; cbn [holders]; congruence. Qed.
Lemma put_all {A} (P : A -> Prop) ts : Forall P ts -> forall i x, P x -> Forall P (put ts i x).
Proof. induction 1 as [|t ts H F IH]; intros [|i] x X; cbn [put]; constructor; auto. Qed.
Lemma sane_move size i st st' : sane st -> move size i st = Some st' -> sane st'.
Proof.
  destruct st as [h ts]. intros [F E] M. unfold move in M. cbn [fst snd] in *. destruct (nth_error ts i) as [[|[] r]|] eqn:N; try discriminate.
  - destruct (Nat.ltb h size); [|discriminate]. injection M as <-. rewrite Forall_forall in F. pose proof (F _ (nth_error_In _ _ N)) as Mw. destruct Mw as [O|(r' & X & _)]; [|discriminate]. inversion O as [|t O' X]; subst. split; cbn [fst snd].
    + apply put_all; [apply Forall_forall; exact F|]. right. exists t. split; [reflexivity|exact O'].
    + rewrite (put_take ts i t N). reflexivity.
  - injection M as <-. rewrite Forall_forall in F. pose proof (F _ (nth_error_In _ _ N)) as Mw. destruct Mw as [O|(r' & X & O)]; [inversion O|]. injection X as <-. split; cbn [fst snd].
    + apply put_all; [apply Forall_forall; exact F|]. left. exact O.
    + rewrite E, <- (put_give ts i r N O). reflexivity.
Qed.
Lemma sane_schedule size sched : forall st, sane st -> sane (schedule size st sched).
Proof. unfold schedule. induction sched as [|i sched IH]; intros st G; [exact G|]. cbn [fold_left]. apply IH. destruct (move size i st) as [st'|] eqn:M; [exact (sane_move size i st st' G M)|exact G]. Qed.
Lemma sane_start ts : Forall one_by_one ts -> sane (0, ts).
Proof. intros F. split; cbn [fst snd]; [eapply Forall_impl; [|exact F]; intros t O; left; exact O|]. induction F as [|t ts O F IH]; [reflexivity|]. cbn [holders]. rewrite <- IH. destruct O; reflexivity. Qed.
Lemma holder ts : holders ts <> 0 -> exists i r, nth_error ts i = Some (Give :: r).
Proof.
  induction ts as [|t ts IH]; intros N; [contradiction|]. destruct t as [|[] t].
  - destruct (IH N) as (i & r & H). exists (S i), r. exact H.
  - destruct (IH N) as (i & r & H). exists (S i), r. exact H.
  - exists 0, t. reflexivity.
Qed.
Definition left_over (st : pool) : nat := length (concat (snd st)).
Lemma put_shorter (ts : list (list event)) i e r : nth_error ts i = Some (e :: r) -> S (length (concat (put ts i r))) = length (concat ts).
Proof. revert i. induction ts as [|t ts IH]; intros [|i] H; try discriminate; cbn [nth_error] in H; cbn [put concat]; rewrite !app_length; [injection H as ->; reflexivity|]. rewrite <- (IH i H). lia. Qed.
Lemma busy (ts : list (list event)) : concat ts <> [] -> exists i e r, nth_error ts i = Some (e :: r).
Proof. induction ts as [|[|e t] ts IH]; intros N; [contradiction| |exists 0, e, t; reflexivity]. destruct (IH N) as (i & e & r & H). exists (S i), e, r. exact H. Qed.
Lemma can_move size st : 0 < size -> sane st -> concat (snd st) <> [] -> exists i st', move size i st = Some st' /\ S (left_over st') = left_over st.
Proof.
  destruct st as [h ts]. intros P [F E] N. cbn [fst snd] in *. destruct (Nat.eq_dec (holders ts) 0) as [Z|Z].
  - destruct (busy ts N) as (i & e & r & H). exists i. unfold move. cbn [fst snd]. rewrite H, E, Z. destruct e.
    + apply Nat.ltb_lt in P. rewrite P. eexists. split; [reflexivity|]. exact (put_shorter ts i Take r H).
    + eexists. split; [reflexivity|]. exact (put_shorter ts i Give r H).
  - destruct (holder ts Z) as (i & r & H). exists i. unfold move. cbn [fst snd]. rewrite H. eexists. split; [reflexivity|]. exact (put_shorter ts i Give r H).
Qed.
Theorem C97_no_deadlock size ts sched : 0 < size -> Forall one_by_one ts ->
  let st := schedule size (0, ts) sched in
  fst st <= size /\ (concat (snd st) <> [] -> exists i, move size i st <> None) /\ exists more, let st' := schedule size (0, ts) (sched ++ more) in fst st' = 0 /\ Forall (fun t => t = []) (snd st').
Proof.
  intros P F st. assert (G : sane st) by (apply sane_schedule, sane_start, F). split; [|split].
  - unfold st, schedule. clear st G. assert (B0 : fst (0, ts) <= size) by (cbn; lia). revert B0. generalize (0, ts). induction sched as [|i sched IH]; intros s0 B0; [exact B0|]. cbn [fold_left]. apply IH. unfold move. destruct s0 as [h l]. cbn [fst snd] in *. destruct (nth_error l i) as [[|[] r]|]; [exact B0| |cbn [fst]; lia|exact B0].
    destruct (Nat.ltb h size) eqn:L; [apply Nat.ltb_lt in L; cbn [fst]; lia|exact B0].
  - intros N. destruct (can_move size st P G N) as (i & st' & M & _). exists i. rewrite M. discriminate.
  - assert (DONE : forall n s, left_over s = n -> sane s -> exists more, fst (schedule size s more) = 0 /\ Forall (fun t => t = []) (snd (schedule size s more))).
    { induction n as [|n IH]; intros s L Gs.
      - exists []. assert (E0 : Forall (fun t => t = []) (snd s)). { unfold left_over in L. destruct s as [h l]. cbn [snd] in *. clear - L. induction l as [|t l IHl]; [constructor|]. cbn [concat] in L. rewrite app_length in L. constructor; [destruct t; [reflexivity|cbn in L; lia]|apply IHl; lia]. }
        split; [|exact E0]. unfold schedule. cbn [fold_left]. destruct Gs as [_ Gs]. rewrite Gs. clear - E0. induction E0 as [|t l -> E0 IHl]; [reflexivity|exact IHl].
      - assert (N : concat (snd s) <> []) by (intros X; unfold left_over in L; rewrite X in L; discriminate). destruct (can_move size s P Gs N) as (i & s' & M & L'). destruct (IH s' ltac:(lia) (sane_move size i s s' Gs M)) as (more & D1 & D2).
        exists (i :: more). unfold schedule in *. cbn [fold_left]. rewrite M. split; assumption. }
    destruct (DONE _ st eq_refl G) as (more & D1 & D2). exists more. cbn zeta. unfold st, schedule in *. rewrite fold_left_app. split; assumption.
Qed.
(** Goroutines that call UpdateByPK (or any function that wants a *sql.DB) inside of a transaction: as many as the pool has connections, and all wait for ever. *)
Lemma put_here {A} (a b : list A) x y : put (a ++ x :: b) (length a) y = a ++ y :: b.
Proof. induction a as [|z a IH]; [reflexivity|]. cbn. rewrite IH. reflexivity. Qed.
Theorem C97_transaction_refuted size : 0 < size -> let ts := repeat (transaction (fst update_by_pk)) size in
  exists sched, let st := schedule size (0, ts) sched in fst st = size /\ Forall (fun t => t <> []) (snd st) /\ forall more, schedule size (0, ts) (sched ++ more) = st.
Proof.
  intros P ts. set (t := transaction (fst update_by_pk)) in *. set (t' := tl t).
  assert (GO : forall n m, n + m = size -> schedule size (n, repeat t' n ++ repeat t m) (seq n m) = (size, repeat t' size)).
  { intros n m. revert n. induction m as [|m IH]; intros n E.
    - rewrite Nat.add_0_r in E. subst n. cbn [repeat seq]. rewrite app_nil_r. reflexivity.
    - unfold schedule. cbn [seq fold_left]. change (repeat t (S m)) with (t :: repeat t m).
      assert (M : move size n (n, repeat t' n ++ t :: repeat t m) = Some (S n, repeat t' (S n) ++ repeat t m)).
      { unfold move. cbn [fst snd]. rewrite nth_error_app2 by (rewrite repeat_length; lia). rewrite repeat_length, Nat.sub_diag. cbn [nth_error]. change t with (Take :: t') at 1. assert (L : Nat.ltb n size = true) by (apply Nat.ltb_lt; lia). cbv iota. rewrite L. f_equal. f_equal.
        pose proof (put_here (repeat t' n) (repeat t m) t t') as PH. rewrite repeat_length in PH. rewrite PH. change (repeat t' (S n)) with (t' :: repeat t' n). rewrite (repeat_cons n t'). rewrite <- app_assoc. reflexivity. }
      rewrite M. apply IH. lia. }
  exists (seq 0 size). specialize (GO 0 size eq_refl). cbn [repeat app] in GO. fold ts in GO. cbn zeta. rewrite GO. split; [reflexivity|]. split; [apply Forall_forall; intros x I; apply repeat_spec in I as ->; discriminate|].
  intros more. unfold schedule. rewrite fold_left_app. unfold schedule in GO. rewrite GO. induction more as [|i more IH]; [reflexivity|]. cbn [fold_left].
  replace (move size i (size, repeat t' size)) with (@None pool); [exact IH|]. unfold move. cbn [fst snd]. destruct (nth_error (repeat t' size) i) as [x|] eqn:N; [|reflexivity]. apply nth_error_In, repeat_spec in N as ->. change t' with [Take; Give; Give]. rewrite Nat.ltb_irrefl. reflexivity.
Qed.
(** Goroutines that use the transaction alone (any number of LockByPK, and statements sent with tx.ExecContext): as above, they can all be finished. *)
Theorem C97_transaction_partial size n ts sched : 0 < size -> Forall (fun t => t = transaction (concat (repeat (fst lock_by_pk) n)) \/ one_by_one t) ts ->
  exists more, let st := schedule size (0, ts) (sched ++ more) in fst st = 0 /\ Forall (fun t => t = []) (snd st).
Proof.
  intros P F. apply (C97_no_deadlock size ts sched P). eapply Forall_impl; [|exact F]. intros t [-> |O]; [|exact O].
  replace (concat (repeat (fst lock_by_pk) n)) with (@nil event); [exact one_pair|]. clear. induction n as [|n IH]; [reflexivity|exact IH].
Qed.
Print Assumptions C97_given_back_partial.
Print Assumptions C97_deferred.
Print Assumptions C97_paging_partial.
Print Assumptions C97_panic_refuted.
Print Assumptions C97_no_deadlock.
Print Assumptions C97_transaction_refuted.
Print Assumptions C97_transaction_partial.

(** ** The hypotheses are met *)
(** Two pages, with an update in the caller's loop; then the loop is left *)
Definition two_pages : list round :=
  [{| r_cursor := Refuses; r_page := Answers [Scanned; Scanned; Scanned]; r_body := {| b_calls := fst update_by_pk; b_wish := GoesOn |} |};
   {| r_cursor := Answers [Scanned]; r_page := Answers [Scanned; Unscanned]; r_body := {| b_calls := []; b_wish := Leaves |} |}].
Example C97_paging_case : Forall (fun r => calm (r_cursor r) /\ calm (r_page r) /\ one_by_one (b_calls (r_body r))) two_pages /\ pager 2 false two_pages = ([Take; Give; Take; Give; Take; Give; Take; Give], Returns).
Proof. split; [|reflexivity]. repeat (constructor; [cbn; repeat split; first [exact I|intuition discriminate|exact one_pair|constructor]|]). constructor. Qed.
Example C97_goroutines : Forall one_by_one [fst (pager 2 false two_pages); fst (find_by_pk (Answers [Scanned])); []] /\ move 1 1 (schedule 1 (0, [fst (pager 2 false two_pages); fst (find_by_pk (Answers [Scanned])); []]) [0]) = None.
Proof. split; [|reflexivity]. repeat constructor. Qed.
