(** C75: values are sent as arguments, never written into statements. *)
From Verif Require Import Base ModelStrconv ModelCompiler ModelGen ModelRuntime ModelStmt ModelPager SpecSafe LemmasBase.

Section Safe.
Context {V W : Type}.
Variable R : V -> W -> Prop.
Notation areq := (alike_request R).
Notation ares := (alike_result areq).
Notation aopt := (alike_result (alike_option areq)).

Lemma same_length {A C} {P : A -> C -> Prop} {l l'} : Forall2 P l l' -> length l = length l'.
Proof. induction 1; cbn; congruence. Qed.
Lemma bind_alike {A A' C C'} (P : A -> A' -> Prop) (Q : C -> C' -> Prop) x y f g :
  alike_result P x y -> (forall a b, P a b -> alike_result Q (f a) (g b)) -> alike_result Q (bind x f) (bind y g).
Proof. destruct x, y; cbn; intros H F; try contradiction; auto. Qed.
Lemma eq_alike {A} (x : res A) : alike_result eq x x.
Proof. destruct x; cbn; auto. Qed.
Lemma firstn_alike l l' : Forall2 R l l' -> forall i, Forall2 R (firstn i l) (firstn i l').
Proof. induction 1 as [|v w l l' H F IH]; intros [|i]; cbn [firstn]; try constructor; auto. Qed.
Lemma skipn_alike l l' : Forall2 R l l' -> forall i, Forall2 R (skipn i l) (skipn i l').
Proof. induction 1 as [|v w l l' H F IH]; intros [|i]; cbn [skipn]; try constructor; auto. Qed.
Lemma remove_alike i l l' : Forall2 R l l' -> alike_result (Forall2 R) (remove_at i l) (remove_at i l').
Proof.
  intros F. unfold remove_at. rewrite (same_length F). destruct (Nat.ltb i (length l')); [ | exact I ]. unfold alike_result. apply Forall2_app; [ now apply firstn_alike | now apply skipn_alike ].
Qed.
Lemma without_alike i l l' : Forall2 R l l' -> alike_result (Forall2 R) (without i l) (without i l').
Proof. destruct i; [ apply remove_alike | intros F; exact F ]. Qed.
Lemma remove_all_alike is l l' : Forall2 R l l' -> alike_result (Forall2 R) (remove_all is l) (remove_all is l').
Proof.
  intros F. unfold remove_all. induction is as [|i is IH]; cbn [fold_right]; [ exact F | ]. eapply bind_alike; [ exact IH | ]. intros a b H. now apply remove_alike.
Qed.
Lemma rows_alike {A A'} (Q : A -> A' -> Prop) (f : A -> res (list V)) (g : A' -> res (list W)) l l' : Forall2 Q l l' -> (forall a b, Q a b -> alike_result (Forall2 R) (f a) (g b)) ->
  alike_result (fun x y => Forall2 R (concat x) (concat y)) (map_res f l) (map_res g l').
Proof.
  intros F H. induction F as [|a b l l' Hab F IH]; cbn [map_res]; [ constructor | ]. eapply bind_alike; [ apply H, Hab | ]. intros u v UV. eapply bind_alike; [ exact IH | ]. intros x y XY. cbn. now apply Forall2_app.
Qed.

(** ** Records *)
Lemma db_alike m m' : alike_model R m m' -> db_table m = db_table m' /\ table_columns m = table_columns m' /\ auto_idx m = auto_idx m' /\ key_names m = key_names m'.
Proof.
  intros []. unfold db_table, table_columns, auto_idx, key_names. rewrite am_db, am_table, am_sqlcolumns, am_columns. repeat split; destruct (m_key m), (m_key m'); cbn in am_key; try contradiction; intuition congruence.
Qed.
Lemma own_alike (x : option (bytes * list V)) (y : option (bytes * list W)) f g : alike_option areq x y -> ares f g -> ares (match x with Some r => Ok r | None => f end) (match y with Some r => Ok r | None => g end).
Proof. destruct x, y; cbn; tauto. Qed.

Lemma safe_insert_one d m m' : alike_model R m m' -> ares (insert_one d m) (insert_one d m').
Proof.
  intros A. destruct (db_alike m m' A) as (D & T & _). destruct A. unfold insert_one. apply own_alike; [ assumption | ]. rewrite D, T, am_columns, (same_length am_values).
  destruct d; try (split; [ reflexivity | assumption ]); (eapply bind_alike; [ apply eq_alike | ]; intros a b ->; split; [ reflexivity | assumption ]).
Qed.
Lemma safe_insert d ms ms' : Forall2 (alike_model R) ms ms' -> aopt (insert d ms) (insert d ms').
Proof.
  intros F. pose proof F as F0. destruct F as [|m m' l l' A F]; [ exact I | ]. destruct (db_alike m m' A) as (D & T & X & _). unfold insert. rewrite D, T, X, (am_columns _ _ _ A), (same_length F0).
  eapply bind_alike; [ apply eq_alike | ]. intros cs ? <-.
  assert (RW : alike_result (fun x y => Forall2 R (concat x) (concat y)) (map_res (fun x => without (auto_idx m') (m_values x)) (m :: l)) (map_res (fun x => without (auto_idx m') (m_values x)) (m' :: l'))).
  { eapply rows_alike; [ exact F0 | ]. intros a b H. apply without_alike, H. }
  destruct d.
  1,3: eapply bind_alike; [ apply eq_alike | ]; intros r ? <-; eapply bind_alike; [ exact RW | ]; intros x y H; split; [ reflexivity | exact H ].
  eapply bind_alike; [ exact RW | ]. intros x y H. split; [ | exact H ]. cbn [fst]. do 2 f_equal. f_equal. apply map_ext. intros; apply A.
Qed.
Lemma conflict_alike m m' o cs : alike_model R m m' -> conflict_text m o cs = conflict_text m' o cs.
Proof.
  intros A. destruct (db_alike m m' A) as (_ & T & _ & K). unfold conflict_text, conflict_target. rewrite K, T, (am_dup _ _ _ A), (am_omit _ _ _ A). reflexivity.
Qed.
Lemma safe_upsert_one_postgres m m' o : alike_model R m m' -> ares (upsert_one_pg m o) (upsert_one_pg m' o).
Proof.
  intros A. destruct (db_alike m m' A) as (D & T & X & _). unfold upsert_one_pg. rewrite D, X, (am_columns _ _ _ A), (am_places _ _ _ A). eapply bind_alike; [ apply eq_alike | ]. intros cs ? <-.
  eapply bind_alike; [ apply without_alike, A | ]. intros v v' F. rewrite (conflict_alike m m' o cs A). eapply bind_alike; [ apply eq_alike | ]. intros t ? <-. split; [ reflexivity | exact F ].
Qed.
Lemma safe_upsert_postgres ms ms' o : Forall2 (alike_model R) ms ms' -> aopt (upsert_pg ms o) (upsert_pg ms' o).
Proof.
  intros F. pose proof F as F0. destruct F as [|m m' l l' A F]; [ exact I | ]. destruct (db_alike m m' A) as (D & T & X & _). unfold upsert_pg. rewrite D, X, (am_columns _ _ _ A), (same_length F0).
  eapply bind_alike; [ apply eq_alike | ]. intros cs ? <-. eapply bind_alike; [ eapply rows_alike; [ exact F0 | ]; intros a b H; apply without_alike, H | ]. intros x y H.
  rewrite (conflict_alike m m' o _ A). eapply bind_alike; [ apply eq_alike | ]. intros t ? <-. split; [ | exact H ]. cbn [fst]. do 6 f_equal. f_equal. apply map_ext. intros; apply A.
Qed.
Lemma safe_upsert_one_mysql m m' override omitted : alike_model R m m' -> ares (upsert_one_my m override omitted) (upsert_one_my m' override omitted).
Proof.
  intros A. destruct (db_alike m m' A) as (D & T & X & _). pose proof (am_key _ _ _ A) as K. pose proof (am_values _ _ _ A) as VV. unfold upsert_one_my, insert_head. rewrite D, (am_columns _ _ _ A).
  destruct (m_key m) as [|n i v|n i v|ns is vs], (m_key m') as [|n' i' v'|n' i' v'|ns' is' vs']; cbn in K; try contradiction; [ exact I | | | ]; destruct K as (-> & -> & K).
  1,2: eapply bind_alike; [ apply eq_alike | ]; intros a ? <-; split; [ reflexivity | exact VV ].
  destruct override.
  - eapply bind_alike; [ apply eq_alike | ]. intros a ? <-. eapply bind_alike; [ apply eq_alike | ]. intros r ? <-. eapply bind_alike; [ apply eq_alike | ]. intros cs ? <-. split; [ reflexivity | exact VV ].
  - eapply bind_alike; [ apply eq_alike | ]. intros a ? <-. split; [ reflexivity | exact VV ].
Qed.
Lemma safe_upsert_mysql ms ms' override omitted : Forall2 (alike_model R) ms ms' -> aopt (upsert_my ms override omitted) (upsert_my ms' override omitted).
Proof.
  intros F. pose proof F as F0. destruct F as [|m m' l l' A F]; [ exact I | ]. destruct (db_alike m m' A) as (D & T & X & _). pose proof (am_key _ _ _ A) as K. unfold upsert_my, insert_head. rewrite D, (am_columns _ _ _ A), (same_length F0).
  assert (PL : map (m_places m) (seq 0 (length (m' :: l'))) = map (m_places m') (seq 0 (length (m' :: l')))) by (apply map_ext; intros; apply A). rewrite PL.
  assert (AR : Forall2 R (concat (map m_values (m :: l))) (concat (map m_values (m' :: l')))).
  { clear - F0. induction F0 as [|a b k k' H F IH]; [ constructor | ]. cbn [map concat]. apply Forall2_app; [ apply H | exact IH ]. }
  destruct (m_key m) as [|n i v|n i v|ns is vs], (m_key m') as [|n' i' v'|n' i' v'|ns' is' vs']; cbn in K; try contradiction.
  - split; [ reflexivity | constructor ].
  - destruct K as (-> & -> & K). eapply bind_alike; [ apply eq_alike | ]. intros cs ? <-. eapply bind_alike; [ apply eq_alike | ]. intros r ? <-.
    eapply bind_alike; [ eapply rows_alike; [ exact F0 | ]; intros a b H; apply remove_alike, H | ]. intros x y H. split; [ reflexivity | exact H ].
  - destruct K as (-> & -> & K). split; [ reflexivity | exact AR ].
  - destruct K as (-> & -> & K). eapply bind_alike; [ apply eq_alike | ]. intros cs ? <-. split; [ reflexivity | exact AR ].
Qed.
Lemma keyed_alike d m m' a b : alike_model R m m' -> ares (keyed d m a b) (keyed d m' a b).
Proof.
  intros A. pose proof (am_key _ _ _ A) as K. unfold keyed.
  destruct (m_key m) as [|n i v|n i v|ns is vs], (m_key m') as [|n' i' v'|n' i' v'|ns' is' vs']; cbn in K; try contradiction; [ exact I | | | ]; destruct K as (-> & -> & K).
  1,2: split; [ reflexivity | cbn; auto ].
  eapply bind_alike; [ apply eq_alike | ]. intros r ? <-. split; [ reflexivity | exact K ].
Qed.
Lemma safe_by_key d m m' mode : alike_model R m m' -> ares (find_by_pk d m) (find_by_pk d m') /\ ares (delete_by_pk d m) (delete_by_pk d m') /\ ares (lock_by_pk d m mode) (lock_by_pk d m' mode).
Proof.
  intros A. destruct (db_alike m m' A) as (D & T & _). unfold find_by_pk, delete_by_pk, lock_by_pk, select_head. rewrite D, T.
  split; [ | split ]; [ apply own_alike; [ apply A | ] | apply own_alike; [ apply A | ] | ]; now apply keyed_alike.
Qed.
Lemma safe_update d m m' : alike_model R m m' -> ares (update_by_pk d m) (update_by_pk d m').
Proof.
  intros A. destruct (db_alike m m' A) as (D & T & _). pose proof (am_key _ _ _ A) as K. unfold update_by_pk. apply own_alike; [ apply A | ]. rewrite D, (am_columns _ _ _ A).
  destruct (m_key m) as [|n i v|n i v|ns is vs], (m_key m') as [|n' i' v'|n' i' v'|ns' is' vs']; cbn in K; try contradiction; [ exact I | | | ]; destruct K as (-> & -> & K).
  1,2: eapply bind_alike; [ apply eq_alike | ]; intros cs ? <-; eapply bind_alike; [ apply remove_alike, A | ]; intros x y H; eapply bind_alike; [ apply eq_alike | ]; intros s ? <-; split; [ reflexivity | ]; cbn [snd]; repeat apply Forall2_app; auto.
  eapply bind_alike; [ apply eq_alike | ]. intros cs ? <-. eapply bind_alike; [ apply remove_all_alike, A | ]. intros x y H. eapply bind_alike; [ apply eq_alike | ]. intros s ? <-.
  destruct d; (eapply bind_alike; [ apply eq_alike | ]; intros r ? <-; split; [ reflexivity | ]; cbn [snd]; try exact K; now apply Forall2_app).
Qed.

(** ** Conditions *)
Definition astmt (s : sqlstmt V) (s' : sqlstmt W) : Prop := s_text s = s_text s' /\ s_pos s = s_pos s' /\ Forall2 R (s_args s) (s_args s').
Notation astm := (alike_result astmt).
Lemma put_alike s s' x : astmt s s' -> astmt (put s x) (put s' x).
Proof. intros (A & B' & C). repeat split; cbn; congruence || assumption. Qed.
Lemma var_alike d s s' v v' : astmt s s' -> R v v' -> astmt (fst (var d s v)) (fst (var d s' v')) /\ snd (var d s v) = snd (var d s' v').
Proof. intros (A & B' & C) H. unfold var. cbn [fst snd]. rewrite B'. split; [ | reflexivity ]. repeat split; cbn; try assumption; try congruence. apply Forall2_app; auto. Qed.
Lemma vars_alike d s s' vs vs' : astmt s s' -> Forall2 R vs vs' -> alike_result (fun x y => astmt (fst x) (fst y) /\ snd x = snd y) (vars d s vs) (vars d s' vs').
Proof.
  intros (A & B' & C) H. unfold vars. rewrite (same_length H), B'. destruct d.
  1,3: eapply bind_alike; [ apply eq_alike | ]; intros r ? <-; split; [ | reflexivity ]; repeat split; cbn; try assumption; now apply Forall2_app.
  split; [ | reflexivity ]. repeat split; cbn; try assumption. now apply Forall2_app.
Qed.
Lemma column_alike c c' : alike_column R c c' -> col_name c = col_name c' /\ forall v v', R v v' -> R (to_arg c v) (to_arg c' v').
Proof. destruct c, c'; cbn; try contradiction; intuition congruence. Qed.
Lemma one_alike d op c c' v v' s s' : alike_column R c c' -> R v v' -> astmt s s' -> astm (write_one d op c v s) (write_one d op c' v' s').
Proof.
  intros C H S'. destruct (column_alike c c' C) as [N T]. unfold write_one. rewrite N. pose proof (var_alike d s s' _ _ S' (T _ _ H)) as [A E]. destruct (var d s _) as [a p], (var d s' _) as [b q]. cbn [fst snd] in *. subst q. cbn. now apply put_alike.
Qed.
Lemma many_alike d op c c' vs vs' s s' : alike_column R c c' -> Forall2 R vs vs' -> astmt s s' -> astm (write_many d op c vs s) (write_many d op c' vs' s').
Proof.
  intros C H S'. destruct (column_alike c c' C) as [N T]. unfold write_many. rewrite N. eapply bind_alike.
  - apply vars_alike; [ exact S' | ]. clear - H T. induction H; cbn; constructor; auto.
  - intros [a p] [b q] [A E]. cbn [fst snd] in *. subst q. cbn. now apply put_alike.
Qed.
Lemma two_alike d op c c' a b a' b' s s' : alike_column R c c' -> R a a' -> R b b' -> astmt s s' -> astm (write_two d op c a b s) (write_two d op c' a' b' s').
Proof.
  intros C H1 H2 S'. destruct (column_alike c c' C) as [N T]. unfold write_two. rewrite N. pose proof (var_alike d s s' _ _ S' (T _ _ H1)) as [A E]. destruct (var d s _) as [s1 p], (var d s' _) as [s1' p']. cbn [fst snd] in A, E. subst p'.
  pose proof (var_alike d s1 s1' _ _ A (T _ _ H2)) as [A2 E]. destruct (var d s1 _) as [s2 q], (var d s1' _) as [s2' q']. cbn [fst snd] in A2, E. subst q'. cbn. now apply put_alike.
Qed.
Definition all_alike : list (where_clause V) -> list (where_clause W) -> Prop :=
  fix all (l : list (where_clause V)) (l' : list (where_clause W)) : Prop :=
    match l, l' with [], [] => True | x :: l, y :: l' => alike_where R x y /\ all l l' | _, _ => False end.
Definition writes_alike d (w : where_clause V) : Prop := forall w' s s', alike_where R w w' -> astmt s s' -> astm (write_where d w s) (write_where d w' s').
Lemma rest_alike d sep l : Forall (writes_alike d) l -> forall l' s s', all_alike l l' -> astmt s s' ->
  astm ((fix rest (cs : list (where_clause V)) (s : sqlstmt V) : res (sqlstmt V) := match cs with [] => Ok s | c :: cs' => let* s := write_where d c (put s sep) in rest cs' s end) l s)
       ((fix rest (cs : list (where_clause W)) (s : sqlstmt W) : res (sqlstmt W) := match cs with [] => Ok s | c :: cs' => let* s := write_where d c (put s sep) in rest cs' s end) l' s').
Proof.
  induction 1 as [|x l HX HL IH]; intros [|y l'] s s' H S'; try contradiction; [ exact S' | ]. destruct H as [H1 H2].
  eapply bind_alike; [ apply HX; [ exact H1 | now apply put_alike ] | ]. intros a b A. now apply IH.
Qed.
Fixpoint where_alike d (w : where_clause V) {struct w} : writes_alike d w.
Proof.
  assert (ALL : forall l, (match w with WAnd cs | WOr cs => l = cs | _ => False end) -> Forall (writes_alike d) l).
  { destruct w as [l|l| | | | | | | | | | | | | | ]; intros k H; try contradiction; subst k; induction l as [|x l IH]; constructor; auto. }
  clear where_alike. intros w' s s' H S'.
  destruct w as [l|l|c v|c v|c vs|c vs|c v|c v|c v|c v|c v|c v|c|c|c a b|c a b], w' as [l'|l'|c' v'|c' v'|c' vs'|c' vs'|c' v'|c' v'|c' v'|c' v'|c' v'|c' v'|c'|c'|c' a' b'|c' a' b']; cbn [alike_where] in H; try contradiction;
    try (cbn [write_where]; destruct H; now apply one_alike);
    try (cbn [write_where]; destruct H; now apply many_alike);
    try (cbn [write_where]; destruct H as (? & ? & ?); now apply two_alike);
    try (cbn [write_where]; destruct (column_alike _ _ H) as [-> _]; now apply put_alike);
    specialize (ALL l eq_refl); cbn [write_where]; destruct l as [|x l], l' as [|y l']; try contradiction; try exact S'; destruct H as [H1 H2]; inversion ALL; subst;
    (eapply bind_alike; [ match goal with K : writes_alike d x |- _ => apply K end; [ exact H1 | now apply put_alike ] | ]; intros u z A; eapply bind_alike; [ apply rest_alike; eassumption | ]; intros u2 z2 A2; now apply put_alike).
Qed.
Lemma start_alike x : astmt (put empty_stmt x) (put empty_stmt x).
Proof. repeat split; cbn; constructor. Qed.
Lemma opt_alike d w w' s s' : alike_option (alike_where R) w w' -> astmt s s' -> astm (write_opt d w s) (write_opt d w' s').
Proof. destruct w, w'; cbn; try contradiction; intros H S'; [ apply where_alike; [ exact H | now apply put_alike ] | exact S' ]. Qed.
Lemma request_alike s s' : astmt s s' -> areq (s_text s, s_args s) (s_text s', s_args s').
Proof. intros (A & _ & C). split; assumption. Qed.
Lemma safe_query d g q q' : alike_select R q q' -> ares (query_stmt d g q) (query_stmt d g q') /\ ares (query_one_stmt d g q) (query_one_stmt d g q').
Proof.
  intros (E1 & E2 & E3 & E4 & E5 & E6 & E7). assert (S' : astm (select_text d g q) (select_text d g q')).
  { unfold select_text. rewrite E1, E2, E4, E5. eapply bind_alike; [ apply eq_alike | ]. intros t ? <-. eapply bind_alike; [ apply opt_alike; [ exact E3 | apply start_alike ] | ]. intros a b A. cbn. now apply put_alike. }
  unfold query_stmt, query_one_stmt. rewrite E6, E7. split; (eapply bind_alike; [ exact S' | ]; intros a b A; apply request_alike, put_alike, A).
Qed.
Lemma safe_exec d g u u' : alike_update R u u' -> ares (exec_update d g u) (exec_update d g u') /\ ares (exec_delete d g u) (exec_delete d g u').
Proof.
  intros (E1 & E2 & E3 & E4 & E5).
  assert (T : forall s s', astmt s s' -> ares (exec_tail d u s) (exec_tail d u' s')).
  { intros s s' A. unfold exec_tail. rewrite E4, E5. eapply bind_alike; [ apply opt_alike; eassumption | ]. intros a b A'. apply request_alike, put_alike, A'. }
  assert (SS : forall l l' s s', Forall2 (fun a b => alike_column R (fst a) (fst b) /\ R (snd a) (snd b)) l l' -> astmt s s' -> astm (write_sets d l s) (write_sets d l' s')).
  { intros l l' s s' F. revert s s'. induction F as [|a b l l' [H1 H2] F IH]; intros s s' A; cbn [write_sets]; [ exact A | ]. eapply bind_alike; [ apply one_alike; [ exact H1 | exact H2 | apply put_alike, A ] | ]. intros x y A'. now apply IH. }
  unfold exec_update, exec_delete. rewrite E1. split; [ | apply T, start_alike ].
  eapply bind_alike with (P := astmt); [ | intros a b A; now apply T ]. destruct E2 as [|a b l l' [H1 H2] F]; [ apply start_alike | ]. eapply bind_alike; [ apply one_alike; [ exact H1 | exact H2 | apply put_alike, start_alike ] | ]. intros x y A. now apply SS.
Qed.

(** ** Pages *)
Lemma value_alike m m' n : alike_model R m m' -> alike_result R (ordered_value m n) (ordered_value m' n).
Proof.
  intros A. unfold ordered_value. rewrite (am_columns _ _ _ A). generalize (last_index n (m_columns m') 0 0). pose proof (am_values _ _ _ A) as F. induction F as [|v v' l l' H F IH]; intros [|i]; cbn; auto; apply IH.
Qed.
Lemma prev_alike d m m' l : alike_model R m m' -> forall s s' buf, astmt s s' -> alike_result (fun x y => astmt (fst x) (fst y) /\ snd x = snd y) (prev_order d m l s buf) (prev_order d m' l s' buf).
Proof.
  intros A. induction l as [|[n asc] l IH]; intros s s' buf S'; [ split; auto | ]. cbn [prev_order]. eapply bind_alike; [ apply value_alike, A | ]. intros v v' H.
  pose proof (var_alike d s s' v v' S' H) as [A1 E1]. destruct (var d s v) as [s1 p], (var d s' v') as [s1' p']. cbn [fst snd] in A1, E1. subst p'.
  set (x := n ++ _). pose proof (var_alike d _ _ v v' (put_alike _ _ x A1) H) as [A2 E2]. destruct (var d (put s1 x) v) as [s2 q], (var d (put s1' x) v') as [s2' q']. cbn [fst snd] in A2, E2. subst q'. now apply IH.
Qed.
Lemma next_alike d m m' sep up down l : alike_model R m m' -> forall first s s', astmt s s' -> astm (next_order d m sep up down first l s) (next_order d m' sep up down first l s').
Proof.
  intros A. induction l as [|[n asc] l IH]; intros first s s' S'; [ exact S' | ]. cbn [next_order]. eapply bind_alike; [ apply value_alike, A | ]. intros v v' H.
  assert (S2 : astmt (if first then s else put s sep) (if first then s' else put s' sep)) by (destruct first; [ exact S' | now apply put_alike ]).
  pose proof (var_alike d _ _ v v' S2 H) as [A1 E1]. destruct (var d (if first then s else put s sep) v) as [s1 p], (var d (if first then s' else put s' sep) v') as [s1' p']. cbn [fst snd] in A1, E1. subst p'. apply IH. now apply put_alike.
Qed.
Lemma bound_alike d op m m' s s' : alike_model R m m' -> astmt s s' -> astm (cursor_bound d op m s) (cursor_bound d op m' s').
Proof.
  intros A S'. pose proof (am_key _ _ _ A) as K. unfold cursor_bound.
  destruct (m_key m) as [|n i v|n i v|ns is vs], (m_key m') as [|n' i' v'|n' i' v'|ns' is' vs']; cbn in K; try contradiction; [ exact I | | | ]; destruct K as (-> & -> & K).
  1,2: pose proof (var_alike d s s' v v' S' K) as [A1 E1]; destruct (var d s v) as [s1 p], (var d s' v') as [s1' p']; cbn [fst snd] in A1, E1; subst p'; now apply put_alike.
  eapply bind_alike; [ apply vars_alike; eassumption | ]. intros [a p] [b q] [A1 E]. cbn [fst snd] in *. subst q. now apply put_alike.
Qed.
Lemma safe_page d fwd p p' m m' cursor : alike_pager R p p' -> alike_model R m m' -> ares (page_stmt d fwd p m cursor) (page_stmt d fwd p' m' cursor).
Proof.
  intros (E1 & E2 & E3 & E4 & E5) A. destruct (db_alike m m' A) as (D & T & _). unfold page_stmt. rewrite D, T, E4, E5.
  assert (OK : page_order fwd m (p_order p') = page_order fwd m' (p_order p')).
  { pose proof (am_key _ _ _ A) as K. unfold page_order, key_order. destruct (m_key m) as [|n i v|n i v|ns is vs], (m_key m') as [|n' i' v'|n' i' v'|ns' is' vs']; cbn in K; try contradiction; [ reflexivity | | | ]; destruct K as (-> & _); reflexivity. }
  rewrite OK. eapply bind_alike with (P := astmt).
  { destruct (p_where p) as [w|], (p_where p') as [w'|]; cbn in E3; try contradiction; [ apply where_alike; [ exact E3 | apply start_alike ] | apply start_alike ]. }
  intros a b S1. eapply bind_alike with (P := astmt).
  { destruct fwd.
    - unfold next_conditions. destruct (p_order p') as [|o l] eqn:EO; [ exact S1 | ]. eapply bind_alike; [ apply next_alike; eassumption | ]. intros a2 b2 S2. eapply bind_alike; [ apply next_alike; [ exact A | apply put_alike, S2 ] | ]. intros a3 b3 S3. now apply put_alike.
    - unfold prev_conditions. destruct (p_order p') as [|o l] eqn:EO; [ exact S1 | ]. eapply bind_alike; [ apply prev_alike; eassumption | ]. intros [a2 x] [b2 y] [S2 E]. cbn [fst snd] in *. subst y. now apply put_alike. }
  intros a2 b2 S2. eapply bind_alike with (P := astmt).
  { destruct cursor; [ now apply bound_alike | exact S2 ]. }
  intros a3 b3 S3. eapply bind_alike; [ apply eq_alike | ]. intros o ? <-. apply request_alike, put_alike, S3.
Qed.
End Safe.

(** ** C75 *)
Lemma once_alike {V W} (R : V -> W -> Prop) x y : alike_result (alike_request R) x y -> alike_result (alike_option (alike_request R)) (once x) (once y).
Proof. destruct x, y; auto. Qed.
(** For every relation on values: the same call on related values ends the same way, sends the same text, and its
    arguments are related one by one. *)
Theorem C75_values_are_arguments : forall V W (R : V -> W -> Prop) d (c : call V) (c' : call W), alike_call R c c' ->
  alike_result (alike_option (alike_request R)) (sent d c) (sent d c').
Proof.
  intros V W R d c c' A. destruct c, c'; cbn [alike_call] in A; try contradiction; cbn [sent]; try apply once_alike.
  - now apply safe_insert_one.
  - now apply safe_insert.
  - destruct A as [A ->]. now apply safe_upsert_one_postgres.
  - destruct A as [A ->]. now apply safe_upsert_postgres.
  - destruct A as (A & -> & ->). now apply safe_upsert_one_mysql.
  - destruct A as (A & -> & ->). now apply safe_upsert_mysql.
  - now apply (safe_by_key R d m m0 []).
  - now apply safe_update.
  - now apply (safe_by_key R d m m0 []).
  - destruct A as [A ->]. now apply safe_by_key.
  - destruct A as [-> A]. now apply safe_query.
  - destruct A as [-> A]. now apply safe_query.
  - destruct A as [-> A]. now apply safe_exec.
  - destruct A as [-> A]. now apply safe_exec.
  - destruct A as (-> & P & A & ->). now apply safe_page.
Qed.

(** The text depends on no value: calls that differ only in their values send the same text. *)
Theorem C75_same_text : forall V W d (c : call V) (c' : call W) text args, alike_call (fun _ _ => True) c c' -> sent d c = Ok (Some (text, args)) ->
  exists args', sent d c' = Ok (Some (text, args')) /\ length args' = length args.
Proof.
  intros V W d c c' text args A E. pose proof (C75_values_are_arguments _ _ _ d c c' A) as H. rewrite E in H. destruct (sent d c') as [[[t a]|]| |]; cbn in H; try contradiction. destruct H as [H1 H]. cbn in H1, H. subst t. exists a. split; [ reflexivity | ]. symmetry. exact (same_length H).
Qed.

(** Every argument is one of the given values, in a place that does not depend on them: replacing each value by
    its image replaces each argument by its image and changes nothing else. *)
Theorem C75_arguments_verbatim : forall V W (h : V -> W) d (c : call V) (c' : call W) text args, alike_call (fun v w => w = h v) c c' -> sent d c = Ok (Some (text, args)) ->
  sent d c' = Ok (Some (text, map h args)).
Proof.
  intros V W h d c c' text args A E. pose proof (C75_values_are_arguments _ _ _ d c c' A) as H. rewrite E in H. destruct (sent d c') as [[[t a]|]| |]; cbn in H; try contradiction. destruct H as [H1 H]. cbn in H1, H. subst t. do 3 f_equal.
  clear - H. induction H; cbn; congruence.
Qed.

(** Records of a generated type are alike whatever their fields hold. *)
Theorem C75_generated : forall V W (R : V -> W -> Prop) printable d on t db tn sqlc dup omit ins find upd (val : column -> V) (val' : column -> W), (forall c, R (val c) (val' c)) ->
  alike_model R (gen_model printable d on t db tn sqlc dup omit (on_fields val ins) (on_fields val find) (on_fields val upd) val)
    (gen_model printable d on t db tn sqlc dup omit (on_fields val' ins) (on_fields val' find) (on_fields val' upd) val').
Proof.
  intros. assert (M : forall l, Forall2 R (map val l) (map val' l)) by (induction l; cbn; constructor; auto).
  assert (O : forall s, alike_option (alike_request R) (on_fields val s) (on_fields val' s)) by (intros [[x l]|]; cbn; auto; split; cbn; auto).
  constructor; cbn [gen_model m_db m_table m_columns m_sqlcolumns m_values m_places m_key m_dup m_omit m_insert m_find m_update m_delete]; try reflexivity; auto.
  unfold gen_mkey. destruct (t_auto t) as [a|]; [ cbn; auto | ]. destruct (t_keys t) as [|k [|k2 ks]]; cbn -[map]; auto.
Qed.

(** ** A case: a text that would end the statement, given to a condition and to a record *)
Definition hostile := B "x'; DROP TABLE users; --".
Definition ex_where (v : bytes) : where_clause bytes := WAnd [WEqual (Basic (B "name")) v; WOr [WIn (Convert (B "tag") (fun x => x ++ x)) [v; B "b"]; WBetween (Basic (B "age")) v (B "9")]].
Definition ex_call (v : bytes) : call bytes :=
  CQuery {| g_columns := Some [B "id"; B "name"]; g_table := Some (B "users"); g_db := None |}
    {| q_select := []; q_from := []; q_where := Some (ex_where v); q_order := []; q_group := []; q_offset := 0; q_limit := 5 |}.
Definition ex_page (v : bytes) : call bytes :=
  CPage true {| p_select := []; p_from := []; p_where := None; p_order := [(B "name", true)]; p_limit := 10 |}
    {| m_db := None; m_table := B "users"; m_columns := [B "id"; B "name"]; m_sqlcolumns := None; m_values := [B "1"; v]; m_places := fun _ => B "(?,?)"; m_key := AutoKey (B "id") 0 (B "1");
       m_dup := None; m_omit := None; m_insert := None; m_find := None; m_update := None; m_delete := None |} true.
Example C75_case :
  alike_call (fun _ _ => True) (ex_call (B "a")) (ex_call hostile) /\ alike_call (fun _ _ => True) (ex_page (B "a")) (ex_page hostile)
  /\ sent DMySQL (ex_call hostile) = Ok (Some (B "SELECT id,name FROM users WHERE (name = ? AND (tag IN (?,?) OR age BETWEEN ? AND ?)) LIMIT 5;", [hostile; hostile ++ hostile; B "bb"; hostile; B "9"]))
  /\ sent DPostgres (ex_call hostile) = Ok (Some (B "SELECT id,name FROM users WHERE (name = $1 AND (tag IN ($2,$3) OR age BETWEEN $4 AND $5)) LIMIT 5;", [hostile; hostile ++ hostile; B "bb"; hostile; B "9"]))
  /\ exists text, sent DMySQL (ex_page hostile) = Ok (Some (text, [hostile; hostile; B "1"])) /\ sent DMySQL (ex_page (B "a")) = Ok (Some (text, [B "a"; B "a"; B "1"])).
Proof.
  split; [ | split; [ | split; [ vm_compute; reflexivity | split; [ vm_compute; reflexivity | ] ] ] ].
  - cbn. repeat split; repeat constructor.
  - cbn. repeat split; cbn; repeat constructor.
  - eexists. split; vm_compute; reflexivity.
Qed.

Print Assumptions C75_values_are_arguments.
Print Assumptions C75_same_text.
Print Assumptions C75_arguments_verbatim.
Print Assumptions C75_generated.
