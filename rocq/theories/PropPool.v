(** Theorems on the pools: C34. *)
From Verif Require Import Base ModelCompiler ModelGen ModelRuntime ModelStmt ModelPool SpecPool LemmasPool.

Section T.
Context {V : Type}.
Variable d : driver.
Implicit Types (log : list (event V * answer)) (w : world V).

(** After any interleaving of users that touch only what they hold, an acquired object is empty and held by nobody. *)
Theorem C34_acquired : forall log w u choice o,
  history d log w -> disciplined log -> snd (step d w (Get u choice)) = AObject o ->
  view (fst (step d w (Get u choice))) o = empty_stmt /\ forall u', ~ In (u', o) (holders log).
Proof.
  intros log w u c o H D E. destruct (discipline d log w H D) as [O _]. cbn [step] in *. pose proof (owned_get w (holders log) u c O) as G.
  destruct (get w c) as [w' o']. cbn [fst snd] in *. injection E as ->. destruct G as (_ & G2 & G3 & _).
  split; [apply view_new, G2|]. intros u' I. apply G3. apply (in_map snd) in I. exact I.
Qed.
(** At any time an object has at most one holder, and the holder sees exactly the effect of the calls made on it
    since it was acquired, as if nobody else existed. *)
Theorem C34_exclusive : forall log w u o,
  history d log w -> disciplined log -> In (u, o) (holders log) ->
  view w o = alone d (calls o log) /\ forall u', In (u', o) (holders log) -> u' = u.
Proof.
  intros log w u o H D I. destruct (discipline d log w H D) as [O VW]. split.
  - apply VW. apply (in_map snd) in I. exact I.
  - intros u' I'. pose proof (ow_nodup _ _ O) as N. apply nodup_app_r in N. apply (NoDup_map_snd _ u' u o N I' I).
Qed.
(** Text and arguments obtained from an object stay what they were, whatever happens later. *)
Theorem C34_obtained : forall later u o t a earlier w w0,
  history d (later ++ (Read u o, ARead t a) :: earlier) w -> history d earlier w0 ->
  contents (w_bytes w) t = s_text (view w0 o) /\ contents (w_args w) a = s_args (view w0 o).
Proof. intros later u o t a earlier w w0 H H0. exact (snapshots d _ w H later u o t a earlier w0 eq_refl H0). Qed.

(** Releasing twice gives the object to two users. *)
Theorem C34_double_release_refuted : forall log w u o u1 u2,
  history d log w -> disciplined log -> In (u, o) (holders log) ->
  exists log' w', history d (log' ++ (Release u o, ANone) :: (Release u o, ANone) :: log) w' /\
  In (u1, o) (holders (log' ++ (Release u o, ANone) :: (Release u o, ANone) :: log)) /\
  In (u2, o) (holders (log' ++ (Release u o, ANone) :: (Release u o, ANone) :: log)).
Proof.
  intros log w u o u1 u2 H D I. pose proof (went_on d _ _ (Release u o) H) as H1. pose proof (went_on d _ _ (Release u o) H1) as H2.
  pose proof (went_on d _ _ (Get u1 (Some 0)) H2) as H3. pose proof (went_on d _ _ (Get u2 (Some 0)) H3) as H4.
  cbn [step fst snd get release with_pool w_pool nth_error] in *.
  exists [(Get u2 (Some 0), AObject o); (Get u1 (Some 0), AObject o)]. eexists. split; [exact H4|]. cbn [app holders]. split; [right|]; now left.
Qed.

(** The generator: the list of SQL columns written for a table is the list of its columns whenever the pool was used
    with discipline... *)
Theorem C34_sql_columns : forall quote log w cols,
  history d log w -> disciplined log ->
  snd (sql_columns quote w cols) = join (B ",") (map (fun c => quote (snd c)) cols).
Proof.
  intros quote log w cols H D. destruct (discipline d log w H D) as [O _].
  pose proof (sql_columns_ok d quote w (holders log) cols (history_ok d _ _ H) O) as G. destruct (sql_columns quote w cols). apply G.
Qed.
(** ...but after the update statement of another table was generated, it is empty when the last column has a scanner. *)
Theorem C34_sql_columns_refuted : forall quote log w text cols x,
  history d log w -> disciplined log ->
  snd (sql_columns quote (build_update w text) (cols ++ [(true, x)])) = [].
Proof.
  intros quote log w text cols x H D. destruct (discipline d log w H D) as [O _].
  destruct (build_update_doubles d w text (holders log) (history_ok d _ _ H) O) as (b & rest & P & L).
  apply (doubled_columns quote _ b rest cols x P L).
Qed.
End T.

(** ** Cases *)
Fixpoint ex_run (d : driver) (evs : list (event nat)) (w : world nat) (log : list (event nat * answer)) : list (event nat * answer) * world nat :=
  match evs with [] => (log, w) | e :: r => ex_run d r (fst (step d w e)) ((e, snd (step d w e)) :: log) end.
Definition ex_events : list (event nat) :=
  [Get 1 None; Get 2 None; Do 1 0 (CWrite (B "a = ")) 8; Do 2 1 (CVar 7) 0; Do 1 0 (CVar 5) 3; Read 1 0; Do 1 0 (CWrite (B "!")) 0;
   Release 1 0; Get 3 (Some 0); Do 3 0 (CWrite (B "zzzz")) 8; Do 3 0 (CVar 6) 3].
Example C34_case : let '(log, w) := ex_run DPostgres ex_events empty_world [] in
  history DPostgres log w /\ disciplined log /\ holders log = [(3, 0); (2, 1)] /\
  view w 0 = {| s_text := B "zzzz"; s_pos := 1; s_args := [6] |} /\
  In (Read 1 0, ARead (Some (0, 4)) (Some (1, 1))) log /\
  contents (w_bytes w) (Some (0, 4)) = B "a = " /\ contents (w_args w) (Some (1, 1)) = [5].
Proof.
  assert (R : forall evs w log, history DPostgres log w -> history DPostgres (fst (ex_run DPostgres evs w log)) (snd (ex_run DPostgres evs w log))).
  { induction evs as [|e evs IH]; intros w log H; [exact H|]. apply IH. constructor. exact H. }
  specialize (R ex_events empty_world [] (started _)). destruct (ex_run DPostgres ex_events empty_world []) as [log w] eqn:E.
  vm_compute in E. injection E as <- <-. split; [exact R|]. vm_compute. intuition.
Qed.
Example C34_refuted_case :
  let cols := [(false, B "id"); (true, B "ST_AsText(pos)")] in
  snd (sql_columns (fun x => B "'" ++ x ++ B "'") (empty_world (V:=nat)) cols) = B "'id','ST_AsText(pos)'" /\
  snd (sql_columns (fun x => B "'" ++ x ++ B "'") (build_update (empty_world (V:=nat)) (B "x")) cols) = [].
Proof. vm_compute. auto. Qed.
Print Assumptions C34_acquired.
Print Assumptions C34_exclusive.
Print Assumptions C34_obtained.
Print Assumptions C34_double_release_refuted.
Print Assumptions C34_sql_columns.
Print Assumptions C34_sql_columns_refuted.
