(** C91: calls made at the same time send what each of them would send alone.

    For any number of calls of UpsertOne on generated models (PostgreSQL) and any schedule of their steps: when no call
    has room after its slice of omitted fields that another call sees or shares, every call that ends has sent the request
    of the list model, and every call that is given six steps ends.  With one option slice that has room to grow the
    calls write the names of their keys into the same cell (refuted): a call then updates its own key. *)
From Verif Require Import Base ModelStrconv ModelCompiler ModelGen ModelRuntime ModelSlice ModelRace SpecSlice SpecRace LemmasSlice LemmasRace.
From Coq Require Import Lia.

Section Theorems.
Context {V : Type}.
Variable room : nat -> nat.

(** ** The steps of one call are the call *)
Theorem C91_alone : forall (m : model V) (o : opts) (h : heap),
  exists h' p, play room h (started [(m, o)]) (repeat 0 6) = (h', [((m, o), Ended p)])
    /\ match upsert_one_pg_h room (generated_columns (m_columns m)) h m o with
       | Ok (h2, r) => p = Ok r /\ h' = h2
       | Err => False
       | Panic => p = Panic
       end.
Proof.
  intros m o h. cbn [repeat play started map move fst snd]. unfold upsert_one_pg_h. cbv zeta.
  set (c0 := generated_columns (m_columns m) h).
  change (step room m o h Begins) with (fst c0, @HasColumns V (snd c0)). cbn [fst snd].
  destruct (key_names m) as [keys| |] eqn:K; cbn [bind].
  2: { destruct (key_names_err _ K). }
  2: { do 2 eexists. cbn [step]. rewrite K. cbn [fst snd step]. split; reflexivity. }
  cbn [step]. rewrite K. cbv zeta. cbn [fst snd].
  set (om1 := append room (fst c0) (so_omit o) keys).
  destruct (delete_opt room (fst om1) (snd c0) (auto_idx m)) as [[h3 c3]| |] eqn:D; cbn [bind fst snd].
  2: { unfold delete_opt, delete_at in D. destruct (auto_idx m); [destruct (Nat.ltb _ _)|]; discriminate D. }
  2: { do 2 eexists. cbn [step]. rewrite D. cbn [fst snd step]. split; reflexivity. }
  destruct (without (auto_idx m) (m_values m)) as [vs| |] eqn:W; cbn [bind].
  2: { destruct (without_not_err _ _ W). }
  2: { do 2 eexists. cbn [step]. rewrite D, W. cbn [fst snd step]. split; reflexivity. }
  cbn [step]. rewrite D, W. cbn [fst snd].
  set (hd := B "INSERT INTO " ++ db_table m ++ B " (" ++ join (B ",") (read h3 c3) ++ B ") VALUES " ++ m_places m 0).
  destruct (target_h room h3 m (snd om1) (so_dup o)) as [[[h4 om4] t]| |] eqn:T; cbn [bind fst snd].
  2: { unfold target_h in T. rewrite K in T. destruct (s_len (so_dup o)); [destruct (m_dup m)|]; discriminate T. }
  2: { do 2 eexists. cbn [step]. rewrite T. cbn [fst snd step]. split; reflexivity. }
  cbn [step]. rewrite T. cbn [fst snd].
  destruct (so_nothing o) eqn:N; cbn [step]; rewrite N; cbv zeta; cbn [fst snd step]; rewrite ?N;
    do 2 eexists; (split; [reflexivity|]); split; reflexivity.
Qed.

(** ** Any number of calls, any schedule *)
Theorem C91_upserts_partial : forall (h : heap) (l : list (model V * opts)) (sched : list nat) (h' : heap) (ts : calls),
  apart h l -> play room h (started l) sched = (h', ts) ->
  map fst ts = l
  /\ (forall i m o r, nth_error ts i = Some ((m, o), Ended r) -> r = upsert_one_pg m (given h o))
  /\ (forall i m o p, nth_error ts i = Some ((m, o), p) -> 6 <= count_occ Nat.eq_dec sched i -> exists r, p = Ended r)
  /\ unchanged (rooms l) h h'.
Proof.
  intros h l sched h' ts A E.
  pose proof (fine_play room h l sched h (started l) (fine_start h l A)) as F. rewrite E in F. cbn [fst snd] in F.
  split; [exact (fi_list _ _ _ _ F)|]. split; [|split].
  - intros i m o r N. exact (proj2 (fi_good _ _ _ _ F i m o _ N)).
  - intros i m o p N C.
    assert (NS : nth_error (started l) i = Some ((m, o), Begins)).
    { unfold started. rewrite nth_error_map.
      assert (X : nth_error (map fst ts) i = Some (m, o)) by (rewrite nth_error_map, N; reflexivity).
      rewrite (fi_list _ _ _ _ F) in X. rewrite X. reflexivity. }
    pose proof (play_left room sched h (started l) i (m, o) Begins p NS) as LO. rewrite E in LO. specialize (LO N).
    cbn [left_over] in LO. destruct p; cbn [left_over] in LO; try lia. eexists. reflexivity.
  - destruct (fi_within _ _ _ _ F) as [a b c]. split; [exact a|exact c].
Qed.

(** option slices built for the call have no room: the calls may even share them, and nothing of the program is written *)
Theorem C91_full_partial : forall (h : heap) (l : list (model V * opts)) (sched : list nat) (h' : heap) (ts : calls),
  (forall m o, In (m, o) l -> full h (so_omit o) /\ full h (so_dup o)) ->
  play room h (started l) sched = (h', ts) ->
  (forall i m o r, nth_error ts i = Some ((m, o), Ended r) -> r = upsert_one_pg m (given h o))
  /\ (forall i m o p, nth_error ts i = Some ((m, o), p) -> 6 <= count_occ Nat.eq_dec sched i -> exists r, p = Ended r)
  /\ unchanged (fun _ _ => False) h h'.
Proof.
  intros h l sched h' ts Fu E.
  assert (NG : forall m o a i, In (m, o) l -> ~ grows (so_omit o) a i).
  { intros m o a i I [_ G]. destruct (Fu m o I) as [[_ Q] _]. rewrite Q in G. lia. }
  assert (A : apart h l).
  { split.
    - intros m o I. destruct (Fu m o I) as [[v _] [w _]]. split; assumption.
    - intros m o m' o' I _ a i G. destruct (NG m o a i I G).
    - intros i j m o m' o' _ I _ a k G. destruct (NG m o a k (nth_error_In _ _ I) G). }
  destruct (C91_upserts_partial h l sched h' ts A E) as [_ [R1 [R2 [R3 R4]]]].
  split; [exact R1|]. split; [exact R2|]. split; [exact R3|]. intros a i L _. apply R4; [exact L|].
  intros [m [o [I G]]]. exact (NG m o a i I G).
Qed.
End Theorems.

(** ** A shared slice with room *)
(** two tables, keyed by a user and by a number *)
Definition users_x : model nat :=
  {| m_db := None; m_table := B "users"; m_columns := [B "id"; B "email"]; m_sqlcolumns := None;
     m_values := [1; 2]; m_places := fun _ => B "($1,$2)"; m_key := SingleKey (B "id") 0 1; m_dup := None; m_omit := None;
     m_insert := None; m_find := None; m_update := None; m_delete := None |}.
Definition orders_x : model nat :=
  {| m_db := None; m_table := B "orders"; m_columns := [B "no"; B "total"]; m_sqlcolumns := None;
     m_values := [7; 8]; m_places := fun _ => B "($1,$2)"; m_key := SingleKey (B "no") 0 7; m_dup := None; m_omit := None;
     m_insert := None; m_find := None; m_update := None; m_delete := None |}.
(** skip := append([]string{}, "created") with room for one more *)
Definition heap_r : heap := [[B "created"; []]].
Definition skip_r : slice := {| s_arr := 0; s_off := 0; s_len := 1; s_cap := 2 |}.
Definition none_r : slice := {| s_arr := 0; s_off := 0; s_len := 0; s_cap := 0 |}.
Definition opts_r (omit : slice) : opts := {| so_nothing := false; so_omit := omit; so_dup := none_r |}.

Theorem C91_shared_room_refuted :
  exists (h : heap) (o : opts) (m m' : model nat) (sched : list nat) (h' : heap) (r r' : request nat),
  valid h (so_omit o) /\ valid h (so_dup o)
  /\ play (fun n => n) h (started [(m, o); (m', o)]) sched = (h', [((m, o), Ended (Ok r)); ((m', o), Ended (Ok r'))])
  /\ upsert_one_pg m (given h o) <> Ok r
  /\ fst r = B "INSERT INTO users (id,email) VALUES ($1,$2) ON CONFLICT(id) DO UPDATE SET id = EXCLUDED.id,email = EXCLUDED.email RETURNING id,email;"
  (* while the same calls one after the other are right *)
  /\ exists h2 r2, play (fun n => n) h (started [(m, o); (m', o)]) (repeat 0 6 ++ repeat 1 6)
                   = (h2, [((m, o), Ended (Ok r2)); ((m', o), Ended (Ok r'))])
       /\ upsert_one_pg m (given h o) = Ok r2 /\ upsert_one_pg m' (given h o) = Ok r'.
Proof.
  exists heap_r, (opts_r skip_r), users_x, orders_x, [0; 0; 1; 1; 0; 0; 0; 0; 1; 1; 1; 1]. do 3 eexists.
  split; [split; [cbn; lia|right; cbn; lia]|]. split; [split; [cbn; lia|left; reflexivity]|].
  split; [vm_compute; reflexivity|]. split; [vm_compute; discriminate|]. split; [vm_compute; reflexivity|].
  do 2 eexists. split; [vm_compute; reflexivity|]. split; vm_compute; reflexivity.
Qed.

(** ** Cases *)
Example C91_case :
  exists h' r r', (forall m o, In (m, o) [(users_x, opts_r (upto skip_r 0)); (orders_x, opts_r none_r)] -> valid heap_r (so_omit o))
  /\ apart heap_r [(users_x, opts_r (upto skip_r 0)); (orders_x, opts_r none_r)]
  /\ play (fun n => n) heap_r (started [(users_x, opts_r (upto skip_r 0)); (orders_x, opts_r none_r)])
       [0; 0; 1; 1; 0; 0; 0; 0; 1; 1; 1; 1]
     = (h', [((users_x, opts_r (upto skip_r 0)), Ended (Ok r)); ((orders_x, opts_r none_r), Ended (Ok r'))])
  /\ fst r = B "INSERT INTO users (id,email) VALUES ($1,$2) ON CONFLICT(id) DO UPDATE SET email = EXCLUDED.email RETURNING id,email;"
  /\ fst r' = B "INSERT INTO orders (no,total) VALUES ($1,$2) ON CONFLICT(no) DO UPDATE SET total = EXCLUDED.total RETURNING no,total;".
Proof.
  assert (V1 : valid heap_r (upto skip_r 0)) by (split; [cbn; lia|right; cbn; lia]).
  assert (V2 : valid heap_r none_r) by (split; [cbn; lia|left; reflexivity]).
  do 3 eexists. split; [|split; [|split; [vm_compute; reflexivity|split; vm_compute; reflexivity]]].
  - intros m o [E|[E|[]]]; injection E as <- <-; assumption.
  - split.
    + intros m o [E|[E|[]]]; injection E as <- <-; split; assumption.
    + intros m o m' o' [E|[E|[]]] [E'|[E'|[]]]; injection E as <- <-; injection E' as <- <-;
        intros a i [_ G]; split; intros [_ G']; cbn in G, G'; lia.
    + intros i j m o m' o' N E E' a k G G'. destruct i as [|[|i]]; [| |destruct i; discriminate E];
        (destruct j as [|[|j]]; [| |destruct j; discriminate E']); try congruence;
        cbn [nth_error] in E, E'; injection E as <- <-; injection E' as <- <-; destruct G as [_ G], G' as [_ G']; cbn in G, G'; lia.
Qed.
Print Assumptions C91_alone.
Print Assumptions C91_upserts_partial.
Print Assumptions C91_full_partial.
Print Assumptions C91_shared_room_refuted.
