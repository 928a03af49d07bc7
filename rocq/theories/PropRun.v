(** C72: what a run of the generator does to the files, at every point where it may stop. *)
From Verif Require Import Base ModelPaths ModelRun LemmasBase PropPaths SpecRun LemmasRun.

(** ** C72.  Whenever the run stops, and whether or not it succeeds, every file has its old content except the generated file of a package
    that a source asks for and that has another Go file, the database code and the operators.  Missing part: the file named like the operators in the directory of the
    database code, refuted below. *)
Theorem C72_users_files_partial : forall (S M : Type) st dbd opd plan parse render db_code op_code tidy,
  settled st dbd opd -> relative (s_db_dir st) -> relative (s_op_dir st) -> independent (S := S) (M := M) st dbd opd plan parse ->
  forall f srcs os r n p, generate st plan parse render db_code op_code tidy f srcs = (os, r) ->
  lookup (apply_all f (firstn n os)) p <> lookup f p ->
  (exists d, asked plan f srcs d /\ d <> dbd /\ d <> opd /\ has_go st f d /\ p = (d, s_exec st)) \/ p = (dbd, s_db_file st) \/ p = (opd, s_op_file st) \/ p = (dbd, s_op_file st).
Proof.
  intros S M st dbd opd plan parse render db_code op_code tidy SET RDB ROP IND f srcs os r n p E NE.
  destruct (last_op (firstn n os) p) as [ F | D ]; [ exfalso; apply NE; now apply lookup_frame | ].
  pose proof (run_targets st dbd opd plan parse render db_code op_code tidy SET RDB ROP IND f srcs os r E) as T.
  destruct (Exists_dec (fun o => target o = p) (firstn n os)) as [ X | NX ]; [ intros o; apply path_dec | | ].
  - apply Exists_exists in X as (o & I & <-). rewrite Forall_forall in T. apply (T o). rewrite <- (firstn_skipn n os). apply in_or_app. now left.
  - exfalso. apply NE. apply lookup_frame. now apply Forall_Exists_neg.
Qed.
Print Assumptions C72_users_files_partial.

(** A run that was interrupted anywhere can be repeated: it ends like the run that was not, with the same files. *)
Theorem C72_recovery : forall (S M : Type) st dbd opd plan parse render db_code op_code tidy,
  settled st dbd opd -> relative (s_db_dir st) -> relative (s_op_dir st) -> independent (S := S) (M := M) st dbd opd plan parse ->
  forall f srcs os r n, generate st plan parse render db_code op_code tidy f srcs = (os, r) ->
  let g := apply_all f (firstn n os) in
  exists os', generate st plan parse render db_code op_code tidy g srcs = (os', r) /\ forall p, lookup (apply_all g os') p = lookup (apply_all f os) p.
Proof.
  intros S M st dbd opd plan parse render db_code op_code tidy SET RDB ROP IND f srcs os r n E g. exists os. split.
  - rewrite <- E. apply (run_same st dbd opd plan parse render db_code op_code tidy SET RDB ROP IND). unfold g. apply agree_ops; [ | apply agree_refl ].
    pose proof (run_targets st dbd opd plan parse render db_code op_code tidy SET RDB ROP IND f srcs os r E) as T.
    rewrite Forall_forall in *. intros o I. assert (I' : In o os) by (rewrite <- (firstn_skipn n os); apply in_or_app; now left). specialize (T o I'). intros [NG ND].
    destruct T as [(d & _ & _ & _ & _ & Ed) | [Ed | [Ed | Ed]]]; [ apply NG; left; rewrite Ed; reflexivity | apply NG; now right; left | apply NG; now right; right | contradiction ].
  - intros p. apply replay.
Qed.
Print Assumptions C72_recovery.

(** After a run that succeeded, the last source that asks for a package decides its generated file: the code of what the parser found,
    and no file when it found nothing; the database code and the operators are those of the templates,
    and tidying the module succeeded. *)
Theorem C72_outputs_partial : forall (S M : Type) st dbd opd plan parse render db_code op_code tidy,
  settled st dbd opd -> relative (s_db_dir st) -> relative (s_op_dir st) -> independent (S := S) (M := M) st dbd opd plan parse ->
  forall f srcs os, generate st plan parse render db_code op_code tidy f srcs = (os, Ok tt) ->
  (forall before s after a d b m, srcs = before ++ s :: after -> plan f s = Ok (Some (a ++ d :: b, m)) -> ~ In d b -> ~ asked plan f after d ->
     d <> dbd -> d <> opd -> has_go st f d ->
     parse f m d = PSkip /\ lookup (apply_all f os) (d, s_exec st) = None \/
     exists x code, parse f m d = PSchema x /\ render x = RCode code /\ lookup (apply_all f os) (d, s_exec st) = Some code) /\
  (s_db_file st <> s_op_file st -> lookup (apply_all f os) (dbd, s_db_file st) = db_code) /\
  lookup (apply_all f os) (opd, s_op_file st) = op_code /\ tidy = Ok tt.
Proof.
  intros S M st dbd opd plan parse render db_code op_code tidy SET RDB ROP IND f srcs os E. unfold generate in E.
  rewrite (dir_of_names st _ dbd (proj1 SET)), (dir_of_names st _ opd (proj2 SET)) in E.
  destruct (sources st plan parse render f srcs) as [os1 r1] eqn:E1. destruct r1 as [ [] | | ]; try discriminate E. destruct db_code as [dc | ]; [ | discriminate E ]. destruct op_code as [oc | ]; [ | discriminate E ].
  cbn [template and_then] in E. destruct tidy as [ [] | | ]; try discriminate E. injection E as <-. rewrite !apply_all_app. set (g := apply_all f os1).
  set (L := [Unlink (dbd, s_db_file st); Truncate (dbd, s_db_file st); Write (dbd, s_db_file st) dc; Unlink (dbd, s_op_file st); Truncate (opd, s_op_file st); Write (opd, s_op_file st) oc]) in *.
  assert (H1 : forall p, p <> (dbd, s_db_file st) -> p <> (opd, s_op_file st) -> p <> (dbd, s_op_file st) -> lookup (apply_all g L) p = lookup g p).
  { intros p N1 N2 N3. apply lookup_frame. unfold L. repeat (apply Forall_cons; [ cbn; congruence | ]). apply Forall_nil. }
  assert (HL : apply_all g L = apply_all (put (unlink g (dbd, s_db_file st)) (dbd, s_db_file st) dc) [Unlink (dbd, s_op_file st); Truncate (opd, s_op_file st); Write (opd, s_op_file st) oc])
    by (rewrite <- write_put, <- apply_all_app; reflexivity).
  split; [ | split; [ | split; [ | reflexivity ] ] ].
  - intros before s after a d b m -> Pl NI NA N1 N2 HG. rewrite H1; try congruence. exact (sources_last st dbd opd plan parse render SET RDB ROP IND s m d a b after before f os1 N1 N2 HG Pl NI NA E1).
  - intros NF. rewrite HL. cbn [apply_all fold_left apply]. rewrite !lookup_put, lookup_unlink, lookup_put. destruct (path_dec _ (opd, s_op_file st)) as [ Q | _ ]; [ congruence | ].
    destruct (path_dec _ (dbd, s_op_file st)) as [ Q | _ ]; [ congruence | ]. destruct (path_dec _ _); congruence.
  - rewrite HL. cbn [apply_all fold_left apply]. rewrite lookup_put. destruct (path_dec _ _); congruence.
Qed.
Print Assumptions C72_outputs_partial.

(** ** Refutations *)
Section Refuted.
Context {S M : Type}.
Variable st : settings.
Variables dbd opd : list bytes.
Variable plan : files -> bytes -> res (option (list (list bytes) * M)).
Variable parse : files -> M -> list bytes -> parsed S.
Variable render : S -> rendered.
Variable db_code op_code : option bytes.
Variable tidy : res unit.
Notation run := (generate st plan parse render db_code op_code tidy).

(** A run that cannot read a package, or whose strict mode stops it, has already removed the generated file of that package; when the
    generated code is refused by the formatter, an empty file is left in its place. *)
Theorem C72_failure_refuted : settled st dbd opd -> relative (s_db_dir st) -> relative (s_op_dir st) ->
  forall f s ds m d srcs, plan f s = Ok (Some (d :: ds, m)) -> d <> dbd -> d <> opd -> has_go st f d ->
  let out := (d, s_exec st) in let seen := unlink f out in
  (parse seen m d = PErr \/ parse seen m d = PPanic \/ (exists x, parse seen m d = PSchema x /\ render x = RPanic) ->
     snd (run f (s :: srcs)) <> Ok tt /\ lookup (apply_all f (fst (run f (s :: srcs)))) out = None) /\
  ((exists x, parse seen m d = PSchema x /\ render x = RBad) ->
     snd (run f (s :: srcs)) = Err /\ lookup (apply_all f (fst (run f (s :: srcs)))) out = Some []).
Proof.
  intros SET RDB ROP f s ds m d srcs Pl N1 N2 HG out seen.
  assert (U : lookup (unlink f out) out = None) by (rewrite lookup_unlink; destruct (path_dec out out); congruence).
  assert (Sk : existsb (segs_eq d) [joined st (s_db_dir st); joined st (s_op_dir st)] = false) by (apply (skip_false st dbd opd SET RDB ROP); auto).
  apply dir_empty_spec in HG.
  split.
  - intros H. assert (R : exists e, e <> Ok tt /\ run f (s :: srcs) = ([Unlink out], e)).
    { unfold generate. cbn [sources]. rewrite Pl. cbn [process]. rewrite Sk, HG. fold out seen. destruct H as [ -> | [ -> | (x & -> & ->) ] ]; eexists; (split; [ | reflexivity ]); discriminate. }
    destruct R as (e & Ne & ->). split; [ exact Ne | exact U ].
  - intros (x & Px & Rx). assert (R : run f (s :: srcs) = ([Unlink out; Truncate out], Err)).
    { unfold generate. cbn [sources]. rewrite Pl. cbn [process]. rewrite Sk, HG. fold out seen. rewrite Px, Rx. reflexivity. }
    rewrite R. split; [ reflexivity | ]. cbn [fst apply_all fold_left apply]. rewrite lookup_put. destruct (path_dec out out); congruence.
Qed.

(** Two sources that name different files of one package: the models of the first are lost. *)
Theorem C72_two_sources_refuted : settled st dbd opd -> relative (s_db_dir st) -> relative (s_op_dir st) -> independent st dbd opd plan parse ->
  forall f s1 s2 m1 m2 d os x1 x2 c1 c2, plan f s1 = Ok (Some ([d], m1)) -> plan f s2 = Ok (Some ([d], m2)) -> d <> dbd -> d <> opd -> has_go st f d ->
  parse f m1 d = PSchema x1 -> parse f m2 d = PSchema x2 -> render x1 = RCode c1 -> render x2 = RCode c2 ->
  run f [s1; s2] = (os, Ok tt) -> lookup (apply_all f os) (d, s_exec st) = Some c2.
Proof.
  intros SET RDB ROP IND f s1 s2 m1 m2 d os x1 x2 c1 c2 P1 P2 N1 N2 HG Q1 Q2 R1 R2 E.
  destruct (C72_outputs_partial S M st dbd opd plan parse render db_code op_code tidy SET RDB ROP IND f [s1; s2] os E) as [O _].
  destruct (O [s1] s2 [] [] d [] m2 eq_refl P2) as [ [Q _] | (x & c & Q & R & L) ]; auto.
  - intros (s' & ds & m & [] & _).
  - congruence.
  - rewrite Q2 in Q. injection Q as <-. congruence.
Qed.

(** With the operators in a directory of their own, the run removes the file of that name next to the database code: a file of the user,
    or the database code that was just written. *)
Theorem C72_operator_file_refuted : settled st dbd opd -> dbd <> opd -> relative (s_db_dir st) -> relative (s_op_dir st) -> independent st dbd opd plan parse ->
  forall f srcs os, run f srcs = (os, Ok tt) -> lookup (apply_all f os) (dbd, s_op_file st) = None.
Proof.
  intros SET ND RDB ROP IND f srcs os E. unfold generate in E. rewrite (dir_of_names st _ dbd (proj1 SET)), (dir_of_names st _ opd (proj2 SET)) in E.
  destruct (sources st plan parse render f srcs) as [os1 r1] eqn:E1. destruct r1 as [ [] | | ]; try discriminate E. destruct db_code as [dc | ]; [ | discriminate E ]. destruct op_code as [oc | ]; [ | discriminate E ].
  cbn [template and_then] in E. destruct tidy as [ [] | | ]; try discriminate E. injection E as <-. rewrite !apply_all_app. cbn [app]. cbn [apply_all fold_left apply]. rewrite !lookup_put, lookup_unlink.
  destruct (path_dec _ (opd, s_op_file st)) as [ Q | _ ]; [ congruence | ]. destruct (path_dec _ (dbd, s_op_file st)); congruence.
Qed.
End Refuted.
Print Assumptions C72_failure_refuted.
Print Assumptions C72_two_sources_refuted.
Print Assumptions C72_operator_file_refuted.

(** The setting skip_empty changes nothing. *)
Theorem C72_skip_empty_refuted : forall (S M : Type) st st' (plan : files -> bytes -> res (option (list (list bytes) * M))) (parse : files -> M -> list bytes -> parsed S) render db_code op_code tidy f srcs,
  s_exec st = s_exec st' -> s_pwd st = s_pwd st' -> s_db_dir st = s_db_dir st' -> s_db_file st = s_db_file st' -> s_op_dir st = s_op_dir st' -> s_op_file st = s_op_file st' ->
  generate st plan parse render db_code op_code tidy f srcs = generate st' plan parse render db_code op_code tidy f srcs.
Proof.
  intros S M [e k p dd df od of] [e' k' p' dd' df' od' of'] plan parse render db_code op_code tidy f srcs. cbn. intros <- <- <- <- <- <-.
  set (st := Build_settings e k p dd df od of). set (st' := Build_settings e k' p dd df od of).
  assert (P : forall m dirs f, process st parse render f m dirs = process st' parse render f m dirs).
  { intros m. induction dirs as [|d dirs IH]; intros g; [ reflexivity | ]. cbn [process]. change (joined st' (s_db_dir st')) with (joined st (s_db_dir st)). change (joined st' (s_op_dir st')) with (joined st (s_op_dir st)). change (s_exec st') with (s_exec st).
    rewrite !IH. destruct (existsb _ _); [ reflexivity | ]. destruct (dir_empty _ _ _); [ reflexivity | ]. destruct (parse _ _ _); try reflexivity. destruct (render s); try reflexivity.
    rewrite !IH. destruct (process st' parse render _ m dirs). destruct (s_skip_empty st), (s_skip_empty st'); reflexivity. }
  assert (Q : forall srcs f, sources st plan parse render f srcs = sources st' plan parse render f srcs).
  { clear - P. induction srcs as [|s srcs IH]; intros f; [ reflexivity | ]. cbn [sources]. destruct (plan f s) as [ [ [ds m] | ] | | ]; try reflexivity; [ | apply IH ]. rewrite P. destruct (process st' parse render f m ds) as [os [ [] | | ]]; try reflexivity. now rewrite IH. }
  unfold generate. now rewrite Q.
Qed.
Print Assumptions C72_skip_empty_refuted.

(** A database directory given from the root is not recognised among the sources: its package is taken for a package of models. *)
Theorem C72_absolute_refuted : forall (S M : Type) st (plan : files -> bytes -> res (option (list (list bytes) * M))) (parse : files -> M -> list bytes -> parsed S) render db_code op_code tidy d f s m ds srcs,
  s_pwd st <> [] -> Forall segment (s_pwd st) -> d <> [] -> Forall segment d -> s_db_dir st = slashed d -> s_op_dir st = slashed d ->
  names (s_pwd st) (s_db_dir st) d /\
  (plan f s = Ok (Some (d :: ds, m)) -> has_go st f d -> exists os, fst (generate st plan parse render db_code op_code tidy f (s :: srcs)) = Unlink (d, s_exec st) :: os).
Proof.
  intros S M st plan parse render db_code op_code tidy d f s m ds srcs NP SP ND SD Edb Eop.
  assert (J : joined st (slashed d) = s_pwd st ++ d).
  { unfold joined. apply clean_spells. change (B "/" ++ slashed d) with ("/"%char :: slashed d). destruct d as [|x d]; [ contradiction | ].
    change ("/"%char :: slashed (x :: d)) with (slashed ([] :: x :: d)). rewrite <- slashed_app. exists (s_pwd st ++ [] :: x :: d). 
    assert (N : forall l, Forall segment l -> Forall (fun p => ~ In "/"%char p) l) by (intros l Fl; eapply Forall_impl; [ | exact Fl ]; intros y (_ & N & _); exact N).
    split; [ destruct (s_pwd st); discriminate | split; [ reflexivity | split ] ].
    - apply Forall_app. split; [ now apply N | ]. constructor; [ intros [] | now apply N ].
    - clear - SP SD. assert (W : forall l cur, Forall segment l -> walk (cur ++ l) ([] :: x :: d) (cur ++ l ++ x :: d) -> walk cur (l ++ [] :: x :: d) (cur ++ l ++ x :: d)).
      { induction l as [|y l IH]; intros cur F H; [ now rewrite app_nil_r in H | ]. inversion F; subst. cbn [app]. apply w_down; [ assumption | ]. specialize (IH (cur ++ [y]) H3). rewrite <- !app_assoc in IH. cbn [app] in IH. apply IH. rewrite <- app_comm_cons in H. exact H. }
      apply (W (s_pwd st) []); [ exact SP | ]. cbn [app]. apply w_empty. rewrite <- (app_nil_r (s_pwd st)) at 1. rewrite app_nil_r. apply walk_down. exact SD. }
  assert (NE : d <> s_pwd st ++ d). { intros E. apply (f_equal (@length _)) in E. rewrite app_length in E. destruct (s_pwd st); [ contradiction | cbn in E ]. clear - E. induction (length d); cbn in *; lia. }
  split.
  - left. rewrite Edb. split; [ destruct d as [|x d]; [ contradiction | ]; exists (x ++ slashed d); reflexivity | ]. now apply spells_slashed.
  - intros Pl HG. apply dir_empty_spec in HG. unfold generate. cbn [sources]. rewrite Pl. cbn [process]. rewrite Edb, Eop, J. cbn [existsb].
    assert (SE : segs_eq d (s_pwd st ++ d) = false) by (destruct (segs_eq d (s_pwd st ++ d)) eqn:Q; [ apply segs_eq_spec in Q; contradiction | reflexivity ]). rewrite SE. cbn [orb]. rewrite HG.
    set (out := (d, s_exec st)). set (f1 := unlink f out).
    assert (H : forall x, exists os, fst (and_then x ([], Ok tt)) = fst x ++ os) by (intros [os [ [] | | ]]; cbn; exists []; now rewrite ?app_nil_r).
    assert (G : forall o l r b, exists os, fst (and_then (o :: l, r) b) = o :: os) by (intros o l [ [] | | ] [l' r']; eexists; reflexivity).
    destruct (parse f1 m d) as [ | | | x ].
    + destruct (process st parse render f1 m ds) as [os1 [ [] | | ]]; [ | apply G.. ]. destruct (sources st plan parse render _ srcs). apply G.
    + apply G.
    + apply G.
    + destruct (render x) as [ | | c ]; [ apply G.. | ]. destruct (process st parse render _ m ds) as [os1 [ [] | | ]]; destruct (s_skip_empty st); try apply G; destruct (sources st plan parse render _ srcs); apply G.
Qed.
Print Assumptions C72_absolute_refuted.

(** ** A run on a small disk: a package with a model file, an old generated file, and a file of the user named operator.go in db. *)
Definition ex_st := {| s_exec := B "generated.go"; s_skip_empty := true; s_pwd := [B "w"]; s_db_dir := B "db"; s_db_file := B "db.go"; s_op_dir := B "op"; s_op_file := B "operator.go" |}.
Definition ex_files : files := [(([B "w"; B "m"], B "user.go"), B "type User"); (([B "w"; B "m"], B "generated.go"), B "old"); (([B "w"; B "db"], B "operator.go"), B "mine")].
Definition ex_plan (f : files) (s : bytes) : res (option (list (list bytes) * unit)) := if bseq s (B "m") then Ok (Some ([[B "w"; B "m"]; [B "w"; B "db"]], tt)) else Ok None.
Definition ex_parse (f : files) (m : unit) (d : list bytes) : parsed bytes := match lookup f (d, B "user.go") with Some c => PSchema c | None => PSkip end.
Definition ex_render (x : bytes) : rendered := RCode (B "code of " ++ x).
Example C72_case : settled ex_st [B "w"; B "db"] [B "w"; B "op"] /\ relative (s_db_dir ex_st) /\ relative (s_op_dir ex_st) /\
  independent ex_st [B "w"; B "db"] [B "w"; B "op"] ex_plan ex_parse /\ has_go ex_st ex_files [B "w"; B "m"] /\
  let (os, r) := generate ex_st ex_plan ex_parse ex_render (Some (B "package db")) (Some (B "package op")) (Ok tt) ex_files [B "m"; B "x"] in
  r = Ok tt /\ length os = 9 /\ lookup (apply_all ex_files os) ([B "w"; B "m"], B "generated.go") = Some (B "code of type User") /\
  lookup (apply_all ex_files (firstn 1 os)) ([B "w"; B "m"], B "generated.go") = None /\ lookup (apply_all ex_files os) ([B "w"; B "db"], B "operator.go") = None.
Proof.
  assert (SG : forall a b, a <> [] -> Forall segment [a; b] -> spells (slashed [a] ++ "/"%char :: b) [a; b]).
  { intros a b _ F. replace (slashed [a] ++ "/"%char :: b) with (slashed [a; b]) by (unfold slashed; cbn [map concat app]; now rewrite !app_nil_r). apply spells_slashed; [ discriminate | exact F ]. }
  assert (SEG : Forall segment [B "w"; B "db"; B "op"]) by (repeat constructor; try discriminate; cbn; intuition discriminate).
  inversion SEG as [ | ? ? G1 SEG' ]; subst. inversion SEG' as [ | ? ? G2 SEG'' ]; subst. inversion SEG'' as [ | ? ? G3 _ ]; subst.
  assert (R : forall c t, c <> "/"%char -> relative (c :: t)) by (intros c t N; split; [ discriminate | intros r [= E _]; contradiction ]).
  assert (R1 : relative (s_db_dir ex_st)) by (apply R; discriminate). assert (R2 : relative (s_op_dir ex_st)) by (apply R; discriminate).
  split; [ split; right; (split; [ assumption | ]); (apply SG; [ discriminate | apply Forall_cons; [ exact G1 | apply Forall_cons; [ assumption | apply Forall_nil ] ] ]) | ].
  split; [ exact R1 | split; [ exact R2 | ] ]. split; [ | split ].
  - intros f g A. split; [ reflexivity | ]. intros m d. unfold ex_parse. rewrite A; [ reflexivity | ]. split; [ intros [ Q | [ Q | Q ] ]; discriminate | discriminate ].
  - exists (B "user.go"), (B "user"), (B "type User"). split; [ reflexivity | split; [ discriminate | reflexivity ] ].
  - vm_compute. repeat split.
Qed.
