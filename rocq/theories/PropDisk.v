(** C95: runs of the generator on a disk whose operations may fail. *)
From Verif Require Import Base ModelPaths ModelRun ModelDisk LemmasBase PropPaths SpecRun SpecDisk LemmasRun LemmasDisk PropRun.

(** ** C95.  Whatever fails and wherever the run stops, every file has its old content except the generated file of a package
    that a source asks for and that has another Go file, the database code and the operators.  Missing part: the file named like the operators in the
    directory of the database code (C72_operator_file_refuted). *)
Theorem C95_users_files_partial : forall (Sc M : Type) st dbd opd plan parse render db_code op_code tidy disk readable,
  settled st dbd opd -> relative (s_db_dir st) -> relative (s_op_dir st) -> independent (S := Sc) (M := M) st dbd opd plan parse ->
  forall f srcs t r n p, run st plan parse render db_code op_code tidy disk readable srcs f = (t, r) ->
  lookup (apply_all f (firstn n (effects t))) p <> lookup f p ->
  (exists d, asked plan f srcs d /\ d <> dbd /\ d <> opd /\ has_go st f d /\ p = (d, s_exec st)) \/ p = (dbd, s_db_file st) \/ p = (opd, s_op_file st) \/ p = (dbd, s_op_file st).
Proof.
  intros Sc M st dbd opd plan parse render db_code op_code tidy disk readable SET RDB ROP IND f srcs t r n p E NE.
  destruct (Exists_dec (fun o => target o = p) (firstn n (effects t))) as [ X | NX ]; [ intros o; apply path_dec | | exfalso; apply NE, lookup_frame; now apply Forall_Exists_neg ].
  apply Exists_exists in X as (o & I & <-). assert (I' : In o (effects t)) by (rewrite <- (firstn_skipn n (effects t)); apply in_or_app; now left).
  apply effects_about in I' as (x & Ix & Ab). exact (run_keeps st dbd opd plan parse render db_code op_code tidy disk readable SET RDB ROP IND srcs f t r E x Ix _ Ab).
Qed.
Print Assumptions C95_users_files_partial.

(** A run that reports success could make every directory it needed and open, write and close every file.  Missing part: removals and directories that cannot
    be listed, refuted below. *)
Theorem C95_reported_partial : forall (Sc M : Type) st (plan : files -> bytes -> res (option (list (list bytes) * M))) (parse : files -> M -> list bytes -> parsed Sc) render db_code op_code tidy disk readable f srcs t,
  run st plan parse render db_code op_code tidy disk readable srcs f = (t, Ok tt) -> forall a, failed t a -> exists p, a = Removes p.
Proof.
  intros Sc M st plan parse render db_code op_code tidy disk readable f srcs t E a (k & I). exact (run_honest st plan parse render db_code op_code tidy disk readable srcs f t E a k I).
Qed.
Print Assumptions C95_reported_partial.

(** After success the generated files are the code of what the parser found, as if nothing had failed.  Missing part: a package that has no models any more and
    whose old generated file could not be removed; a directory that cannot be listed. *)
Theorem C95_success_partial : forall (Sc M : Type) st dbd opd plan parse render db_code op_code tidy disk readable,
  settled st dbd opd -> relative (s_db_dir st) -> relative (s_op_dir st) -> independent (S := Sc) (M := M) st dbd opd plan parse ->
  forall f srcs t, run st plan parse render db_code op_code tidy disk readable srcs f = (t, Ok tt) ->
  (forall before s after a d b m, srcs = before ++ s :: after -> plan f s = Ok (Some (a ++ d :: b, m)) -> ~ In d b -> ~ asked plan f after d ->
     d <> dbd -> d <> opd -> readable d = true -> has_go st f d ->
     (parse f m d = PSkip /\ (lookup (apply_all f (effects t)) (d, s_exec st) = None \/ failed t (Removes (d, s_exec st)))) \/
     exists x code, parse f m d = PSchema x /\ render x = RCode code /\ lookup (apply_all f (effects t)) (d, s_exec st) = Some code) /\
  (s_db_file st <> s_op_file st -> lookup (apply_all f (effects t)) (dbd, s_db_file st) = db_code /\ db_code <> None) /\
  lookup (apply_all f (effects t)) (opd, s_op_file st) = op_code /\ op_code <> None /\ tidy = Ok tt.
Proof.
  intros Sc M st dbd opd plan parse render db_code op_code tidy disk readable SET RDB ROP IND f srcs t E.
  exact (run_ok st dbd opd plan parse render db_code op_code tidy disk readable SET RDB ROP IND srcs f t E).
Qed.
Print Assumptions C95_success_partial.

(** A run on which anything failed, stopped anywhere, can be repaired by a run on which nothing fails: it ends like a run on the first files, with the same
    files.  When directories could not be listed this is shown for repairs that succeed. *)
Theorem C95_repair : forall (Sc M : Type) st dbd opd plan parse render db_code op_code tidy disk readable disk' readable',
  settled st dbd opd -> relative (s_db_dir st) -> relative (s_op_dir st) -> independent (S := Sc) (M := M) st dbd opd plan parse -> healthy disk' readable' ->
  forall f srcs t r n t0 r0, run st plan parse render db_code op_code tidy disk readable srcs f = (t, r) ->
  run st plan parse render db_code op_code tidy disk' readable' srcs f = (t0, r0) -> (forall d, readable d = true) \/ r0 = Ok tt ->
  let g := apply_all f (firstn n (effects t)) in
  exists t', run st plan parse render db_code op_code tidy disk' readable' srcs g = (t', r0) /\
  forall p, lookup (apply_all g (effects t')) p = lookup (apply_all f (effects t0)) p.
Proof.
  intros Sc M st dbd opd plan parse render db_code op_code tidy disk readable disk' readable' SET RDB ROP IND [HD HR] f srcs t r n t0 r0 E E0 H g.
  assert (A : agree st dbd opd g f).
  { apply agree_ops; [ | apply agree_refl ]. rewrite Forall_forall. intros o I. assert (I' : In o (effects t)) by (rewrite <- (firstn_skipn n (effects t)); apply in_or_app; now left).
    apply effects_about in I' as (x & Ix & Ab). apply (touched_not_users st dbd opd plan srcs f). exact (run_keeps st dbd opd plan parse render db_code op_code tidy disk readable SET RDB ROP IND srcs f t r E x Ix _ Ab). }
  pose proof (run_mirrors st plan parse render db_code op_code tidy disk' readable' HD HR srcs f) as Mf. pose proof (run_mirrors st plan parse render db_code op_code tidy disk' readable' HD HR srcs g) as Mg.
  rewrite (run_same st dbd opd plan parse render db_code op_code tidy SET RDB ROP IND g f srcs A), Mf in Mg. rewrite E0 in Mf, Mg. cbn [fst snd] in Mf, Mg.
  destruct (run st plan parse render db_code op_code tidy disk' readable' srcs g) as [t' r'] eqn:Eg. cbn [fst snd] in Mg. injection Mg as Ee <-. exists t'. split; [ reflexivity | ].
  intros p. rewrite <- Ee. destruct (last_op (effects t0) p) as [ F | D ]; [ | apply D ]. rewrite (lookup_frame _ g p F), (lookup_frame _ f p F). unfold g. apply lookup_frame.
  rewrite Forall_forall in *. intros o I Eq. assert (I' : In o (effects t)) by (rewrite <- (firstn_skipn n (effects t)); apply in_or_app; now left).
  apply effects_about in I' as (x & Ix & Ab). pose proof (run_within st dbd opd plan parse render db_code op_code tidy disk readable SET RDB ROP IND srcs f t r _ _ E Mf H x _ Ix Ab) as T.
  rewrite Eq in T. apply in_map_iff in T as (o' & E' & I'). exact (F o' I' E').
Qed.
Print Assumptions C95_repair.

(** When nothing fails the run is the one of C72: the same operations on the files in the same order, and the same end. *)
Theorem C95_healthy : forall (Sc M : Type) st (plan : files -> bytes -> res (option (list (list bytes) * M))) (parse : files -> M -> list bytes -> parsed Sc) render db_code op_code tidy disk readable f srcs t r,
  healthy disk readable -> run st plan parse render db_code op_code tidy disk readable srcs f = (t, r) ->
  generate st plan parse render db_code op_code tidy f srcs = (effects t, r) /\ forall a, ~ failed t a.
Proof.
  intros Sc M st plan parse render db_code op_code tidy disk readable f srcs t r [HD HR] E. split; [ rewrite (run_mirrors st plan parse render db_code op_code tidy disk readable HD HR srcs f), E; reflexivity | ].
  assert (C : forall (p : part), (forall n f t r, p n f = (t, r) -> forall a k, ~ In (a, Failed k) t) -> forall n f t r, p n f = (t, r) -> forall a, ~ failed t a) by (intros p H n g u q Eu a (k & I); exact (H n g u q Eu a k I)).
  unfold run in E. revert E. set (whole := after _ _). intros E. refine (C whole _ 0 f t r E). clear E C. unfold whole. clear whole.
  assert (AF : forall a b : part, (forall n f t r, a n f = (t, r) -> forall x k, ~ In (x, Failed k) t) -> (forall n f t r, b n f = (t, r) -> forall x k, ~ In (x, Failed k) t) -> forall n f t r, after a b n f = (t, r) -> forall x k, ~ In (x, Failed k) t).
  { intros a b HA HB n g u q Eu x k I. apply after_cases in Eu as [ [Eu _] | (t1 & t2 & E1 & E2 & ->) ]; [ exact (HA _ _ _ _ Eu x k I) | ]. apply in_app_or in I as [ I | I ]; [ exact (HA _ _ _ _ E1 x k I) | exact (HB _ _ _ _ E2 x k I) ]. }
  assert (EF : forall q n f t r, ends q n f = (t, r) -> forall x k, ~ In (x, Failed k) t) by (intros q n g u w [= <- _] x k []).
  assert (TF : forall a q n f t r, try disk a q n f = (t, r) -> forall x k, ~ In (x, Failed k) t) by (intros a q n g u w; unfold try; rewrite HD; intros [= <- _] x k [ I | [] ]; discriminate I).
  assert (TP : forall gone out code n f t r, template_part disk gone out code n f = (t, r) -> forall x k, ~ In (x, Failed k) t).
  { intros gone out code. unfold template_part. apply AF; [ apply TF | ]. destruct code; [ | apply EF ]. apply AF; [ apply TF | ]. apply AF; [ apply TF | ]. apply AF; apply TF. }
  apply AF; [ | apply AF; [ apply TP | apply AF; [ apply TP | apply EF ] ] ].
  assert (PF : forall m d n f t r, package st parse render disk m d n f = (t, r) -> forall x k, ~ In (x, Failed k) t).
  { intros m d. unfold package. apply AF; [ apply TF | ]. intros n g. destruct (parse g m d) as [ | | | s ]; try apply EF. destruct (render s); [ apply EF | | ].
    - apply (AF (try disk (Makes d) Err)); [ apply TF | ]. apply AF; [ apply TF | apply EF ].
    - apply (AF (try disk (Makes d) Err)); [ apply TF | ]. apply AF; [ apply TF | ]. apply AF; apply TF. }
  assert (DF : forall m dirs n f t r, directories st parse render disk readable m dirs n f = (t, r) -> forall x k, ~ In (x, Failed k) t).
  { intros m. induction dirs as [|d dirs IH]; cbn [directories]; [ apply EF | ]. apply AF; [ | exact IH ]. intros n g u w. unfold directory. destruct (existsb _ _); [ apply EF | ]. destruct (_ || _)%bool; [ apply EF | apply PF ]. }
  clear t r. induction srcs as [|s srcs IH]; cbn [all_sources]; [ apply EF | ]. apply AF; [ | exact IH ]. intros n g u w. unfold source. destruct (plan g s) as [ [ [ds m] | ] | | ]; try apply EF. apply DF.
Qed.
Print Assumptions C95_healthy.

(** ** Refutations *)
Section Refuted.
Context {Sc M : Type}.
Variable st : settings.
Variables dbd opd : list bytes.
Variable plan : files -> bytes -> res (option (list (list bytes) * M)).
Variable parse : files -> M -> list bytes -> parsed Sc.
Variable render : Sc -> rendered.
Variables dc oc : bytes.
Variable disk : nat -> outcome.
Variable readable : list bytes -> bool.
Variables (f : files) (s : bytes) (d : list bytes) (m : M).
Notation out := (d, s_exec st).
Notation drun := (run st plan parse render (Some dc) (Some oc) (Ok tt) disk readable [s] f).
Lemma templates_done dbp gone opp n g : (forall k, n <= k -> disk k = Done) ->
  exists t, after (template_part disk dbp dbp (Some dc)) (after (template_part disk gone opp (Some oc)) (ends (Ok tt))) n g = (t, Ok tt) /\
            forall x p, In x t -> about (fst x) p -> p = dbp \/ p = gone \/ p = opp.
Proof.
  intros D. destruct (after _ _ n g) as [t r] eqn:E. assert (R : r = Ok tt).
  { revert E. unfold template_part, after, try, ends. repeat (rewrite D by (cbn [length]; lia)). cbn [app length]. repeat (rewrite D by (cbn [length]; lia)). now intros [= _ <-]. }
  subst r. exists t. split; [ reflexivity | ]. intros x p I Ab. apply after_ok in E as (t1 & t2 & E1 & E2 & ->). apply after_ok in E2 as (t3 & t4 & E3 & E4 & ->). injection E4 as <-.
  apply template_ok in E1 as (_ & _ & _ & T1). apply template_ok in E3 as (_ & _ & _ & T3). rewrite app_nil_r in I. apply in_app_or in I as [ I | I ]; [ destruct (T1 x I p Ab) as [ -> | -> ]; auto | destruct (T3 x I p Ab) as [ -> | -> ]; auto ].
Qed.
Hypothesis SET : settled st dbd opd.
Hypothesis RDB : relative (s_db_dir st).
Hypothesis ROP : relative (s_op_dir st).
Hypothesis Pl : plan f s = Ok (Some ([d], m)).
Hypothesis N1 : d <> dbd.
Hypothesis N2 : d <> opd.

(** A package that has no models any more keeps its old generated file when that cannot be removed, and the run reports success. *)
Theorem C95_stale_refuted : forall k, has_go st f d -> readable d = true -> parse f m d = PSkip -> disk 0 = Failed k -> (forall n, 1 <= n -> disk n = Done) ->
  exists t, drun = (t, Ok tt) /\ lookup (apply_all f (effects t)) out = lookup f out.
Proof.
  intros k HG RD P D0 D1. unfold run. rewrite (dir_of_names st _ dbd (proj1 SET)), (dir_of_names st _ opd (proj2 SET)).
  assert (E1 : all_sources st plan parse render disk readable [s] 0 f = ([(Removes out, Failed k)], Ok tt)).
  { cbn [all_sources]. unfold after at 1. unfold source. rewrite Pl. cbn [directories]. unfold after at 1. unfold directory. rewrite (proj2 (skip_false st dbd opd SET RDB ROP d) (conj N1 N2)), RD. cbn [negb orb].
    rewrite (proj2 (dir_empty_spec st f d) HG). unfold package, after, try. rewrite D0. cbn [effects flat_map effect app apply_all fold_left]. rewrite P. reflexivity. }
  destruct (templates_done (dbd, s_db_file st) (dbd, s_op_file st) (opd, s_op_file st) (0 + 1) (apply_all f []) D1) as (t & E & T).
  unfold after at 1. rewrite E1. cbn [length effects flat_map effect app]. rewrite E. eexists. split; [ reflexivity | ]. change ((Removes out, Failed k) :: t) with ([(Removes out, Failed k)] ++ t). rewrite effects_app. cbn [effects flat_map effect app]. apply effects_frame.
  intros x I Ab. destruct (T x _ I Ab) as [ Q | [ Q | Q ] ]; injection Q as Q _; contradiction.
Qed.
(** A package whose directory cannot be listed is passed over, and the run reports success. *)
Theorem C95_unreadable_refuted : readable d = false -> (forall n, disk n = Done) ->
  exists t, drun = (t, Ok tt) /\ lookup (apply_all f (effects t)) out = lookup f out.
Proof.
  intros RD D1. unfold run. rewrite (dir_of_names st _ dbd (proj1 SET)), (dir_of_names st _ opd (proj2 SET)).
  assert (E1 : all_sources st plan parse render disk readable [s] 0 f = ([], Ok tt)).
  { cbn [all_sources]. unfold after at 1. unfold source. rewrite Pl. cbn [directories]. unfold after at 1. unfold directory. rewrite (proj2 (skip_false st dbd opd SET RDB ROP d) (conj N1 N2)), RD. reflexivity. }
  destruct (templates_done (dbd, s_db_file st) (dbd, s_op_file st) (opd, s_op_file st) (0 + 0) (apply_all f []) (fun n _ => D1 n)) as (t & E & T).
  unfold after at 1. rewrite E1. cbn [length effects flat_map effect app]. rewrite E. eexists. split; [ reflexivity | ]. apply effects_frame.
  intros x I Ab. destruct (T x _ I Ab) as [ Q | [ Q | Q ] ]; injection Q as Q _; contradiction.
Qed.
(** When the code cannot be written completely (the disk is full), the run panics and leaves the beginning of the code in the place of the old file. *)
Theorem C95_cut_refuted : forall x c k, has_go st f d -> readable d = true -> independent st dbd opd plan parse -> parse f m d = PSchema x -> render x = RCode c ->
  (forall n, n < 3 -> disk n = Done) -> disk 3 = Failed k ->
  exists t, drun = (t, Panic) /\ lookup (apply_all f (effects t)) out = Some (firstn k c).
Proof.
  intros x c k HG RD IND P R D0 D3. unfold run. rewrite (dir_of_names st _ dbd (proj1 SET)), (dir_of_names st _ opd (proj2 SET)).
  assert (P1 : parse (unlink f out) m d = PSchema x) by (rewrite <- P; apply IND, agree_unlink, agree_refl).
  assert (E1 : all_sources st plan parse render disk readable [s] 0 f = ([(Removes out, Done); (Makes d, Done); (Opens out, Done); (Writes out c, Failed k)], Panic)).
  { cbn [all_sources]. unfold after at 1. unfold source. rewrite Pl. cbn [directories]. unfold after at 1. unfold directory. rewrite (proj2 (skip_false st dbd opd SET RDB ROP d) (conj N1 N2)), RD. cbn [negb orb].
    rewrite (proj2 (dir_empty_spec st f d) HG). unfold package, after, try, ends. rewrite (D0 0) by lia. cbn [effects flat_map effect app apply_all fold_left apply length Nat.add]. rewrite P1, R. rewrite (D0 1) by lia. cbn [length Nat.add app]. rewrite (D0 2) by lia. cbn [length Nat.add app]. rewrite D3. reflexivity. }
  unfold after at 1. rewrite E1. eexists. split; [ reflexivity | ]. cbn [effects flat_map effect app apply_all fold_left apply]. rewrite lookup_put. destruct (path_dec out out); congruence.
Qed.
End Refuted.
Print Assumptions C95_stale_refuted.
Print Assumptions C95_unreadable_refuted.
Print Assumptions C95_cut_refuted.

(** ** The disk of C72_case, when the generated file cannot be removed at first and writing the code fails after four bytes; a healthy run repairs it. *)
Definition di_disk (n : nat) : outcome := match n with 0 => Failed 0 | 3 => Failed 4 | _ => Done end.
Definition di_good (n : nat) : outcome := Done.
Definition di_all (d : list bytes) : bool := true.
Definition di_run (disk : nat -> outcome) := run ex_st ex_plan ex_parse ex_render (Some (B "package db")) (Some (B "package op")) (Ok tt) disk di_all [B "m"; B "x"].
Example C95_case : healthy di_good di_all /\
  let g := apply_all ex_files (effects (fst (di_run di_disk ex_files))) in
  snd (di_run di_disk ex_files) = Panic /\ lookup g ([B "w"; B "m"], B "generated.go") = Some (B "code") /\ lookup g ([B "w"; B "m"], B "user.go") = Some (B "type User") /\
  snd (di_run di_good g) = Ok tt /\ lookup (apply_all g (effects (fst (di_run di_good g)))) ([B "w"; B "m"], B "generated.go") = Some (B "code of type User").
Proof. split; [ split; reflexivity | ]. vm_compute. repeat split. Qed.
(** The hypotheses on the settings, the sources and the parser are met: C72_case. *)
(** A package without models, whose old file cannot be removed; and a package that cannot be listed. *)
Definition di_files : files := [(([B "w"; B "m"], B "other.go"), B "package m"); (([B "w"; B "m"], B "generated.go"), B "old")].
Definition di_stale (n : nat) : outcome := match n with 0 => Failed 0 | _ => Done end.
Definition di_blind (d : list bytes) : bool := false.
Example C95_stale_case : has_go ex_st di_files [B "w"; B "m"] /\ ex_parse di_files tt [B "w"; B "m"] = PSkip /\
  let r := di_run di_stale di_files in snd r = Ok tt /\ lookup (apply_all di_files (effects (fst r))) ([B "w"; B "m"], B "generated.go") = Some (B "old") /\
  let r := run ex_st ex_plan ex_parse ex_render (Some (B "package db")) (Some (B "package op")) (Ok tt) di_good di_blind [B "m"] ex_files in
  snd r = Ok tt /\ lookup (apply_all ex_files (effects (fst r))) ([B "w"; B "m"], B "generated.go") = Some (B "old").
Proof. split; [ exists (B "other.go"), (B "other"), (B "package m"); split; [ reflexivity | split; [ discriminate | reflexivity ] ] | ]. vm_compute. repeat split. Qed.
