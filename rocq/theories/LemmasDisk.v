(** Lemmas about runs of the generator on a disk whose operations may fail. *)
From Verif Require Import Base ModelPaths ModelRun ModelDisk LemmasBase PropPaths SpecRun SpecDisk LemmasRun.

(** What an attempt changes *)
Lemma effect_about x o : In o (effect x) -> about (fst x) (target o).
Proof. destruct x as [[p | d | p | p c | p] [ | k ]]; cbn; intros H; try contradiction; destruct H as [ <- | [] ]; unfold about; cbn; eauto. Qed.
Lemma effects_about t o : In o (effects t) -> exists x, In x t /\ about (fst x) (target o).
Proof. unfold effects. rewrite in_flat_map. intros (x & I & H). exists x. split; [ exact I | now apply effect_about ]. Qed.
Lemma effects_app a b : effects (a ++ b) = effects a ++ effects b.
Proof. unfold effects. apply flat_map_app. Qed.
Lemma about_fun a p q : about a p -> about a q -> p = q.
Proof. unfold about. intros [ -> | [ -> | [ [c ->] | -> ] ] ] [ H | [ H | [ [c' H] | H ] ] ]; congruence. Qed.
Lemma effects_frame t f p : (forall x, In x t -> about (fst x) p -> False) -> lookup (apply_all f (effects t)) p = lookup f p.
Proof. intros H. apply lookup_frame. rewrite Forall_forall. intros o I E. apply effects_about in I as (x & I & A). rewrite E in A. exact (H x I A). Qed.

Section Proofs.
Context {Sc M : Type}.
Variable st : settings.
Variables dbd opd : list bytes.
Variable plan : files -> bytes -> res (option (list (list bytes) * M)).
Variable parse : files -> M -> list bytes -> parsed Sc.
Variable render : Sc -> rendered.
Variable db_code op_code : option bytes.
Variable tidy : res unit.
Variable disk : nat -> outcome.
Variable readable : list bytes -> bool.
Notation drun := (run st plan parse render db_code op_code tidy disk readable).
Notation AG := (agree st dbd opd).
Notation prun := (generate st plan parse render db_code op_code tidy).

Lemma after_ok a b n f t : after a b n f = (t, Ok tt) ->
  exists t1 t2, a n f = (t1, Ok tt) /\ b (n + length t1) (apply_all f (effects t1)) = (t2, Ok tt) /\ t = t1 ++ t2.
Proof.
  unfold after. destruct (a n f) as [t1 [ [] | | ]]; [ | discriminate.. ]. destruct (b _ _) as [t2 r2] eqn:E. intros [= <- ->]. exists t1, t2. auto.
Qed.
Lemma after_cases a b n f t r : after a b n f = (t, r) ->
  (a n f = (t, r) /\ r <> Ok tt) \/ exists t1 t2, a n f = (t1, Ok tt) /\ b (n + length t1) (apply_all f (effects t1)) = (t2, r) /\ t = t1 ++ t2.
Proof.
  unfold after. destruct (a n f) as [t1 [ [] | | ]].
  - destruct (b _ _) as [t2 r2] eqn:E. intros [= <- <-]. right. exists t1, t2. auto.
  - intros [= <- <-]. left. split; [ reflexivity | discriminate ].
  - intros [= <- <-]. left. split; [ reflexivity | discriminate ].
Qed.

(** ** What the parts of a run are about *)
Definition keeps (Q : attempt -> Prop) (a : part) (g : files) : Prop := forall n f t r, AG f g -> a n f = (t, r) -> forall x, In x t -> Q (fst x).
Definition spares (Q : attempt -> Prop) : Prop := forall a p, Q a -> about a p -> ~ users st dbd opd p.
Lemma agree_effects (Q : attempt -> Prop) t f g : spares Q -> (forall x, In x t -> Q (fst x)) -> AG f g -> AG (apply_all f (effects t)) g.
Proof.
  intros SP H. apply agree_ops. rewrite Forall_forall. intros o I. apply effects_about in I as (x & I & A). exact (SP _ _ (H x I) A).
Qed.
Lemma keeps_after Q a b g : spares Q -> keeps Q a g -> keeps Q b g -> keeps Q (after a b) g.
Proof.
  intros SP KA KB n f t r A E x I. apply after_cases in E as [ [E _] | (t1 & t2 & E1 & E2 & ->) ]; [ exact (KA n f t r A E x I) | ].
  apply in_app_or in I as [ I | I ]; [ exact (KA n f t1 _ A E1 x I) | ]. refine (KB _ _ t2 r _ E2 x I). apply (agree_effects Q); [ exact SP | | exact A ]. exact (KA n f t1 _ A E1).
Qed.
Lemma keeps_ends Q r g : keeps Q (ends r) g.
Proof. intros n f t r' _ [= <- _] x []. Qed.
Lemma keeps_try (Q : attempt -> Prop) a r g : Q a -> keeps Q (try disk a r) g.
Proof. intros H n f t r' _. unfold try. destruct (disk n); intros [= <- _] x [ <- | [] ]; exact H. Qed.
Lemma keeps_weaken (Q Q' : attempt -> Prop) a g : (forall x, Q x -> Q' x) -> keeps Q a g -> keeps Q' a g.
Proof. intros W K n f t r A E x I. apply W. exact (K n f t r A E x I). Qed.
Definition only (p : path) (a : attempt) : Prop := forall q, about a q -> q = p.
Lemma spares_only d : spares (only (d, s_exec st)).
Proof. intros a p O H. rewrite (O p H). apply exec_not_users. Qed.
Lemma only_of p a : about a p -> only p a.
Proof. intros A q A'. exact (about_fun a q p A' A). Qed.
Lemma only_makes p d : only p (Makes d).
Proof. intros q [ H | [ H | [ [c H] | H ] ] ]; discriminate. Qed.
Lemma package_keeps m d g : keeps (only (d, s_exec st)) (package st parse render disk m d) g.
Proof.
  pose proof (spares_only d) as SP. assert (A : forall a, about a (d, s_exec st) -> keeps (only (d, s_exec st)) (try disk a Err) g /\ keeps (only (d, s_exec st)) (try disk a Panic) g /\ keeps (only (d, s_exec st)) (try disk a (Ok tt)) g)
    by (intros a Ha; repeat split; apply keeps_try; now apply only_of).
  unfold package. apply keeps_after; [ exact SP | apply A; now left | ].
  intros n f t r G E. destruct (parse f m d) as [ | | | s ]; try (injection E as <- _; intros x []).
  destruct (render s) as [ | | c ]; [ injection E as <- _; intros x [] | | ]; revert n f t r G E;
    repeat (apply keeps_after; [ exact SP | first [ apply keeps_try, only_makes | apply A; unfold about; eauto ] | ]); first [ apply keeps_ends | apply A; unfold about; eauto ].
Qed.
Hypothesis SET : settled st dbd opd.
Hypothesis RDB : relative (s_db_dir st).
Hypothesis ROP : relative (s_op_dir st).
Definition package_file (dirs : list (list bytes)) (g : files) (a : attempt) : Prop := forall p, about a p -> exists d, In d dirs /\ d <> dbd /\ d <> opd /\ has_go st g d /\ p = (d, s_exec st).
Lemma spares_package dirs g : spares (package_file dirs g).
Proof. intros a p H A. destruct (H p A) as (d & _ & _ & _ & _ & ->). apply exec_not_users. Qed.
Lemma directory_keeps m d dirs g : In d dirs -> keeps (package_file dirs g) (directory st parse render disk readable m d) g.
Proof.
  intros I n f t r A. unfold directory. destruct (existsb _ _) eqn:Sk; [ apply (keeps_ends _ (Ok tt) g n f t r A) | ]. apply (skip_false st dbd opd SET RDB ROP) in Sk as [N1 N2].
  destruct (negb (readable d)); cbn [orb]; [ apply (keeps_ends _ (Ok tt) g n f t r A) | ]. destruct (dir_empty f d (s_exec st)) eqn:DE; [ apply (keeps_ends _ (Ok tt) g n f t r A) | ].
  apply dir_empty_spec in DE. apply (agree_has_go st dbd opd f g d A N1 N2) in DE. revert n f t r A. apply (keeps_weaken (only (d, s_exec st))); [ | apply package_keeps ].
  intros x O p H. exists d. rewrite (O p H). auto.
Qed.
Lemma directories_keeps m all g : forall dirs, (forall d, In d dirs -> In d all) -> keeps (package_file all g) (directories st parse render disk readable m dirs) g.
Proof.
  induction dirs as [|d dirs IH]; intros I; cbn [directories]; [ apply keeps_ends | ].
  apply keeps_after; [ apply spares_package | apply directory_keeps, I; now left | apply IH; intros x H; apply I; now right ].
Qed.
Hypothesis IND : independent st dbd opd plan parse.
Definition touches (srcs : list bytes) (g : files) (a : attempt) : Prop := forall p, about a p -> touched st dbd opd plan g srcs p.
Lemma touched_not_users srcs g p : touched st dbd opd plan g srcs p -> ~ users st dbd opd p.
Proof.
  intros [ (d & _ & _ & _ & _ & ->) | T ]; [ apply exec_not_users | ]. intros [NG ND]. destruct T as [ T | [ T | T ] ]; [ apply NG; now right; left | apply NG; now right; right | contradiction ].
Qed.
Lemma spares_touches srcs g : spares (touches srcs g).
Proof. intros a p H A. apply (touched_not_users srcs g). exact (H p A). Qed.
Lemma source_keeps s srcs g : In s srcs -> keeps (touches srcs g) (source st plan parse render disk readable s) g.
Proof.
  intros I n f t r A. unfold source. destruct (plan f s) as [ [ [ds m] | ] | | ] eqn:Pl; try (intros [= <- _] x []).
  revert n t r. assert (K : keeps (touches srcs g) (directories st parse render disk readable m ds) g); [ | intros n t r; exact (K n f t r A) ].
  apply (keeps_weaken (package_file ds g)); [ | now apply directories_keeps ]. intros x H p Ab. destruct (H p Ab) as (d & Id & N1 & N2 & HG & ->). left. exists d. repeat split; auto.
  exists s, ds, m. split; [ exact I | split; [ | exact Id ] ]. now rewrite <- (proj1 (IND _ _ A) s).
Qed.
Lemma sources_keeps all g : forall srcs, (forall s, In s srcs -> In s all) -> keeps (touches all g) (all_sources st plan parse render disk readable srcs) g.
Proof.
  induction srcs as [|s srcs IH]; intros I; cbn [all_sources]; [ apply keeps_ends | ].
  apply keeps_after; [ apply spares_touches | apply source_keeps, I; now left | apply IH; intros x H; apply I; now right ].
Qed.
Lemma template_keeps (Q : attempt -> Prop) gone out code g : spares Q -> (forall a, about a gone \/ about a out \/ a = Makes (fst out) -> Q a) -> keeps Q (template_part disk gone out code) g.
Proof.
  intros SP H. assert (A : forall a r, about a gone \/ about a out \/ a = Makes (fst out) -> keeps Q (try disk a r) g) by (intros a r Ha; apply keeps_try; now apply H).
  unfold template_part. apply keeps_after; [ exact SP | apply A; left; now left | ]. destruct code as [c | ]; [ | apply keeps_ends ].
  repeat (apply keeps_after; [ exact SP | apply A; unfold about; eauto 8 | ]). apply A; unfold about; eauto 8.
Qed.
Lemma run_keeps srcs f t r : drun srcs f = (t, r) -> forall x, In x t -> touches srcs f (fst x).
Proof.
  unfold run. rewrite (dir_of_names st _ dbd (proj1 SET)), (dir_of_names st _ opd (proj2 SET)).
  assert (K : keeps (touches srcs f) (after (all_sources st plan parse render disk readable srcs)
    (after (template_part disk (dbd, s_db_file st) (dbd, s_db_file st) db_code) (after (template_part disk (dbd, s_op_file st) (opd, s_op_file st) op_code) (ends tidy)))) f).
  { pose proof (spares_touches srcs f) as SP. apply keeps_after; [ exact SP | now apply sources_keeps | ]. apply keeps_after; [ exact SP | | apply keeps_after; [ exact SP | | apply keeps_ends ] ]; apply template_keeps; try exact SP; intros a H p Ab;
      (destruct H as [ H | [ H | -> ] ]; [ rewrite (about_fun a p _ Ab H) | rewrite (about_fun a p _ Ab H) | exfalso; revert Ab; intros [ Q | [ Q | [ [c Q] | Q ] ] ]; discriminate ]); right; auto. }
  intros E. exact (K 0 f t r (agree_refl st dbd opd f) E).
Qed.

(** ** Errors are reported, but for those of removals *)
Definition honest (a : part) : Prop := forall n f t, a n f = (t, Ok tt) -> forall x k, In (x, Failed k) t -> exists p, x = Removes p.
Lemma honest_after a b : honest a -> honest b -> honest (after a b).
Proof. intros HA HB n f t E x k I. apply after_ok in E as (t1 & t2 & E1 & E2 & ->). apply in_app_or in I as [ I | I ]; [ exact (HA _ _ _ E1 x k I) | exact (HB _ _ _ E2 x k I) ]. Qed.
Lemma honest_ends r : honest (ends r).
Proof. intros n f t [= <- _] x k []. Qed.
Lemma honest_try a r : r <> Ok tt -> honest (try disk a r).
Proof. intros N n f t. unfold try. destruct (disk n); [ intros [= <-] x k' [ I | [] ]; discriminate I | intros [= <- E]; contradiction ]. Qed.
Lemma honest_removes p : honest (try disk (Removes p) (Ok tt)).
Proof. intros n f t. unfold try. destruct (disk n); intros [= <-] x k' [ I | [] ]; [ discriminate I | injection I as <- _; eauto ]. Qed.
Lemma honest_package m d : honest (package st parse render disk m d).
Proof.
  unfold package. apply honest_after; [ apply honest_removes | ]. intros n f. destruct (parse f m d) as [ | | | s ]; try (apply honest_ends; fail).
  destruct (render s) as [ | | c ]; [ apply honest_ends | | ]; revert n f; repeat (apply honest_after; [ apply honest_try; discriminate | ]); first [ apply honest_ends | apply honest_try; discriminate ].
Qed.
Lemma honest_directories m : forall dirs, honest (directories st parse render disk readable m dirs).
Proof.
  induction dirs as [|d dirs IH]; cbn [directories]; [ apply honest_ends | ]. apply honest_after; [ | exact IH ]. intros n f. unfold directory.
  destruct (existsb _ _); [ apply honest_ends | ]. destruct (_ || _); [ apply honest_ends | apply honest_package ].
Qed.
Lemma honest_sources : forall srcs, honest (all_sources st plan parse render disk readable srcs).
Proof.
  induction srcs as [|s srcs IH]; cbn [all_sources]; [ apply honest_ends | ]. apply honest_after; [ | exact IH ]. intros n f. unfold source.
  destruct (plan f s) as [ [ [ds m] | ] | | ]; try apply honest_ends. apply honest_directories.
Qed.
Lemma honest_template gone out code : honest (template_part disk gone out code).
Proof.
  unfold template_part. apply honest_after; [ apply honest_removes | ]. destruct code; [ | apply honest_ends ]. repeat (apply honest_after; [ apply honest_try; discriminate | ]). apply honest_try; discriminate.
Qed.
Lemma run_honest srcs f t : drun srcs f = (t, Ok tt) -> forall x k, In (x, Failed k) t -> exists p, x = Removes p.
Proof.
  unfold run. intros E. refine (_ 0 f t E). apply honest_after; [ apply honest_sources | ]. apply honest_after; [ apply honest_template | ]. apply honest_after; [ apply honest_template | apply honest_ends ].
Qed.

(** ** After success *)
Lemma package_ok m d n f t : package st parse render disk m d n f = (t, Ok tt) ->
  let out := (d, s_exec st) in
  (parse f m d = PSkip /\ (lookup (apply_all f (effects t)) out = None \/ exists k, In (Removes out, Failed k) t)) \/
  exists x c, parse f m d = PSchema x /\ render x = RCode c /\ lookup (apply_all f (effects t)) out = Some c.
Proof.
  intros E out. unfold package in E. fold out in E. apply after_ok in E as (t1 & t2 & E1 & E2 & ->).
  assert (P : parse (apply_all f (effects t1)) m d = parse f m d).
  { apply IND. apply (agree_effects (only out)); [ apply spares_only | | apply agree_refl ]. exact (keeps_try (only out) (Removes out) (Ok tt) f (only_of out _ (or_introl eq_refl)) n f t1 _ (agree_refl st dbd opd f) E1). }
  rewrite P in E2. destruct (parse f m d) as [ | | | s ]; try discriminate E2.
  - left. split; [ reflexivity | ]. injection E2 as <-. rewrite app_nil_r. unfold try in E1. destruct (disk n); injection E1 as <-; [ left | right; eexists; now left ].
    cbn [effects flat_map effect app apply_all fold_left apply]. rewrite lookup_unlink. destruct (path_dec out out); congruence.
  - right. destruct (render s) as [ | | c ] eqn:R; [ discriminate E2 | | ].
    + exfalso. apply after_ok in E2 as (? & ? & _ & E2 & _). apply after_ok in E2 as (? & ? & _ & E2 & _). discriminate E2.
    + exists s, c. split; [ reflexivity | split; [ exact R | ] ]. apply after_ok in E2 as (t3 & t4 & E3 & E4 & ->). apply after_ok in E4 as (t5 & t6 & E5 & E6 & ->). apply after_ok in E6 as (t7 & t8 & E7 & E8 & ->).
      rewrite !effects_app, !apply_all_app. unfold try in E7, E8. destruct (disk _) eqn:D7 in E7; [ | discriminate E7 ]. injection E7 as <-. destruct (disk _) eqn:D8 in E8; [ | discriminate E8 ]. injection E8 as <-.
      cbn [effects flat_map effect app apply_all fold_left apply]. rewrite lookup_put. destruct (path_dec out out); congruence.
Qed.
Lemma after_same a a' b b' n f : (forall n f, a n f = a' n f) -> (forall n f, b n f = b' n f) -> after a b n f = after a' b' n f.
Proof. intros HA HB. unfold after. rewrite HA. destruct (a' n f) as [t [ [] | | ]]; [ now rewrite HB | reflexivity.. ]. Qed.
Lemma after_assoc a b c n f : after (after a b) c n f = after a (after b c) n f.
Proof.
  unfold after. destruct (a n f) as [t1 [ [] | | ]]; try reflexivity. destruct (b _ _) as [t2 [ [] | | ]]; try reflexivity.
  rewrite effects_app, apply_all_app, app_length, Nat.add_assoc. destruct (c _ _). now rewrite app_assoc.
Qed.
Lemma after_nil b n f : after (ends (Ok tt)) b n f = b n f.
Proof. unfold after, ends. cbn [length effects flat_map apply_all fold_left]. rewrite Nat.add_0_r. destruct (b n f); reflexivity. Qed.
Lemma directories_app m a b : forall n f, directories st parse render disk readable m (a ++ b) n f = after (directories st parse render disk readable m a) (directories st parse render disk readable m b) n f.
Proof.
  induction a as [|d a IH]; intros n f; cbn [app directories]; [ now rewrite after_nil | ]. rewrite after_assoc. now apply after_same.
Qed.
Lemma sources_app a b : forall n f, all_sources st plan parse render disk readable (a ++ b) n f = after (all_sources st plan parse render disk readable a) (all_sources st plan parse render disk readable b) n f.
Proof.
  induction a as [|d a IH]; intros n f; cbn [app all_sources]; [ now rewrite after_nil | ]. rewrite after_assoc. now apply after_same.
Qed.
Definition good (f : files) (m : M) (d : list bytes) (t : list (attempt * outcome)) (l : option bytes) : Prop :=
  (parse f m d = PSkip /\ (l = None \/ exists k, In (Removes (d, s_exec st), Failed k) t)) \/ exists x c, parse f m d = PSchema x /\ render x = RCode c /\ l = Some c.
Lemma good_more f m d t1 t2 t3 l : good f m d t2 l -> good f m d (t1 ++ t2 ++ t3) l.
Proof.
  intros [ [P [ H | (k & H) ]] | H ]; [ left; split; [ exact P | now left ] | | now right ]. left. split; [ exact P | right ]. exists k. apply in_or_app. right. apply in_or_app. now left.
Qed.
Lemma directories_last m d a b n f t : d <> dbd -> d <> opd -> readable d = true -> has_go st f d -> ~ In d b ->
  directories st parse render disk readable m (a ++ d :: b) n f = (t, Ok tt) -> good f m d t (lookup (apply_all f (effects t)) (d, s_exec st)).
Proof.
  intros N1 N2 RD HG NI E. rewrite directories_app in E. apply after_ok in E as (t1 & t2 & E1 & E2 & ->). cbn [directories] in E2. apply after_ok in E2 as (t3 & t4 & E3 & E4 & ->).
  assert (A1 : AG (apply_all f (effects t1)) f) by (apply (agree_effects (package_file a f)); [ apply spares_package | | apply agree_refl ]; exact (directories_keeps m a f a (fun x H => H) n f t1 _ (agree_refl st dbd opd f) E1)).
  set (f1 := apply_all f (effects t1)) in *. assert (A3 : AG (apply_all f1 (effects t3)) f) by (apply (agree_effects (package_file [d] f)); [ apply spares_package | | exact A1 ]; exact (directory_keeps m d [d] f (or_introl eq_refl) _ _ _ _ A1 E3)).
  unfold directory in E3. rewrite (proj2 (skip_false st dbd opd SET RDB ROP d) (conj N1 N2)), RD in E3. cbn [negb orb] in E3.
  rewrite (proj2 (dir_empty_spec st f1 d)) in E3 by (apply (agree_has_go st dbd opd f f1 d (agree_sym st dbd opd _ _ A1) N1 N2 HG)).
  apply good_more. rewrite !effects_app, !apply_all_app. fold f1. rewrite (effects_frame t4).
  - apply package_ok in E3. cbv zeta in E3. rewrite (proj2 (IND _ _ A1) m d) in E3. exact E3.
  - intros x I Ab. destruct (directories_keeps m b f b (fun x H => H) _ _ _ _ A3 E4 x I _ Ab) as (d' & Id & _ & _ & _ & Eq). injection Eq as ->. contradiction.
Qed.
Lemma sources_last before s after' a d b m n f t : plan f s = Ok (Some (a ++ d :: b, m)) -> d <> dbd -> d <> opd -> readable d = true -> has_go st f d -> ~ In d b -> ~ asked plan f after' d ->
  all_sources st plan parse render disk readable (before ++ s :: after') n f = (t, Ok tt) -> good f m d t (lookup (apply_all f (effects t)) (d, s_exec st)).
Proof.
  intros Pl N1 N2 RD HG NI NA E. rewrite sources_app in E. apply after_ok in E as (t1 & t2 & E1 & E2 & ->). cbn [all_sources] in E2. apply after_ok in E2 as (t3 & t4 & E3 & E4 & ->).
  assert (A1 : AG (apply_all f (effects t1)) f) by (apply (agree_effects (touches before f)); [ apply spares_touches | | apply agree_refl ]; exact (sources_keeps before f before (fun x H => H) n f t1 _ (agree_refl st dbd opd f) E1)).
  set (f1 := apply_all f (effects t1)) in *. assert (A3 : AG (apply_all f1 (effects t3)) f) by (apply (agree_effects (touches [s] f)); [ apply spares_touches | | exact A1 ]; exact (source_keeps s [s] f (or_introl eq_refl) _ _ _ _ A1 E3)).
  unfold source in E3. rewrite (proj1 (IND _ _ A1) s), Pl in E3.
  apply good_more. rewrite !effects_app, !apply_all_app. fold f1. rewrite (effects_frame t4).
  - apply directories_last in E3; auto; [ | apply (agree_has_go st dbd opd f f1 d (agree_sym st dbd opd _ _ A1) N1 N2 HG) ]. unfold good in *. rewrite (proj2 (IND _ _ A1) m d) in E3. exact E3.
  - intros x I Ab. destruct (sources_keeps after' f after' (fun x H => H) _ _ _ _ A3 E4 x I _ Ab) as [ (d' & As & _ & _ & _ & Eq) | [ Q | [ Q | Q ] ] ]; [ injection Eq as ->; contradiction | injection Q as Q _; contradiction.. ].
Qed.
Lemma template_ok gone out code n f t : template_part disk gone out code n f = (t, Ok tt) -> exists c, code = Some c /\ lookup (apply_all f (effects t)) out = Some c /\ forall x, In x t -> forall p, about (fst x) p -> p = gone \/ p = out.
Proof.
  unfold template_part. intros E. apply after_ok in E as (t1 & t2 & E1 & E2 & ->). destruct code as [c | ]; [ | discriminate E2 ]. exists c. split; [ reflexivity | ].
  apply after_ok in E2 as (t3 & t4 & E3 & E4 & ->). apply after_ok in E4 as (t5 & t6 & E5 & E6 & ->). apply after_ok in E6 as (t7 & t8 & E7 & E8 & ->).
  rewrite !effects_app, !apply_all_app.
  assert (T : forall a r n f t, try disk a r n f = (t, Ok tt) -> forall x, In x t -> fst x = a) by (intros a r n0 f0 t0; unfold try; destruct (disk n0); intros [= <-] x [ <- | [] ]; reflexivity).
  split.
  - pose proof E7 as E7'. unfold try in E7, E8. destruct (disk _) eqn:D7 in E7; [ | discriminate E7 ]. injection E7 as <-. destruct (disk _) eqn:D8 in E8; [ | discriminate E8 ]. injection E8 as <-.
    cbn [effects flat_map effect app apply_all fold_left apply]. rewrite lookup_put. destruct (path_dec out out); congruence.
  - intros x I p. repeat (apply in_app_or in I as [ I | I ]).
    + rewrite (T _ _ _ _ _ E1 x I). intros Ab. left. symmetry. exact (about_fun _ _ _ (or_introl eq_refl) Ab).
    + rewrite (T _ _ _ _ _ E3 x I). intros [ H | [ H | [ [c' H] | H ] ] ]; discriminate.
    + rewrite (T _ _ _ _ _ E5 x I). intros Ab. right. apply (about_fun _ _ _ Ab). right. now left.
    + rewrite (T _ _ _ _ _ E7 x I). intros Ab. right. apply (about_fun _ _ _ Ab). right. right. left. eauto.
    + rewrite (T _ _ _ _ _ E8 x I). intros Ab. right. apply (about_fun _ _ _ Ab). right. right. now right.
Qed.
Lemma run_ok srcs f t : drun srcs f = (t, Ok tt) ->
  (forall before s after' a d b m, srcs = before ++ s :: after' -> plan f s = Ok (Some (a ++ d :: b, m)) -> ~ In d b -> ~ asked plan f after' d ->
     d <> dbd -> d <> opd -> readable d = true -> has_go st f d -> good f m d t (lookup (apply_all f (effects t)) (d, s_exec st))) /\
  (s_db_file st <> s_op_file st -> lookup (apply_all f (effects t)) (dbd, s_db_file st) = db_code /\ db_code <> None) /\
  lookup (apply_all f (effects t)) (opd, s_op_file st) = op_code /\ op_code <> None /\ tidy = Ok tt.
Proof.
  unfold run. rewrite (dir_of_names st _ dbd (proj1 SET)), (dir_of_names st _ opd (proj2 SET)). intros E.
  apply after_ok in E as (t1 & t2 & E1 & E2 & ->). apply after_ok in E2 as (t3 & t4 & E3 & E4 & ->). apply after_ok in E4 as (t5 & t6 & E5 & E6 & ->). injection E6 as <- TD.
  apply template_ok in E3 as (c3 & -> & L3 & T3). apply template_ok in E5 as (c5 & -> & L5 & T5). rewrite app_nil_r, !effects_app, !apply_all_app.
  split; [ | split; [ | split; [ exact L5 | split; [ discriminate | exact TD ] ] ] ].
  - intros before s after' a d b m -> Pl NI NA N1 N2 RD HG. apply (good_more f m d []). rewrite (effects_frame t5), (effects_frame t3).
    + exact (sources_last before s after' a d b m 0 f t1 Pl N1 N2 RD HG NI NA E1).
    + intros x I Ab. destruct (T3 x I _ Ab) as [ Q | Q ]; injection Q as Q _; contradiction.
    + intros x I Ab. destruct (T5 x I _ Ab) as [ Q | Q ]; injection Q as Q _; contradiction.
  - intros NF. split; [ | discriminate ]. rewrite (effects_frame t5); [ exact L3 | ]. intros x I Ab. destruct (T5 x I _ Ab) as [ Q | Q ]; injection Q; congruence.
Qed.

(** ** A run beside the run of ModelRun from the same files of the user *)
Definition every : Prop := forall d, readable d = true.
Definition within (a : part) (b : files -> list op * res unit) (g : files) : Prop :=
  forall n f t r os r', AG f g -> a n f = (t, r) -> b g = (os, r') -> every \/ r' = Ok tt ->
  (forall x p, In x t -> about (fst x) p -> In p (map target os)) /\ (every -> r = Ok tt -> r' = Ok tt).
Definition join2 (b c : files -> list op * res unit) : files -> list op * res unit := fun g => match b g with (os, Ok _) => let (os', r) := c g in (os ++ os', r) | (os, e) => (os, e) end.
Lemma within_after Q a a' b b' g : spares Q -> keeps Q a g -> within a b g -> within a' b' g -> within (after a a') (join2 b b') g.
Proof.
  intros SP K WA WB n f t r os r' A E J H. unfold join2 in J. destruct (b g) as [o1 r1] eqn:B1. apply after_cases in E as [ [E NE] | (t1 & t2 & E1 & E2 & ->) ].
  - assert (H1 : every \/ r1 = Ok tt) by (destruct H as [ H | -> ]; [ now left | right; destruct r1 as [ [] | | ]; [ reflexivity | congruence.. ] ]).
    destruct (WA n f t r o1 r1 A E B1 H1) as [T _]. split; [ | intros _ ->; contradiction ].
    intros x p I Ab. specialize (T x p I Ab). destruct r1 as [ [] | | ]; [ destruct (b' g) as [o2 r2]; injection J as <- _; rewrite map_app; apply in_or_app; now left | injection J as <- _; exact T.. ].
  - assert (H1 : every \/ r1 = Ok tt) by (destruct H as [ H | -> ]; [ now left | right; destruct r1 as [ [] | | ]; [ reflexivity | congruence.. ] ]).
    destruct (WA n f t1 (Ok tt) o1 r1 A E1 B1 H1) as [T O].
    assert (R1 : r1 = Ok tt) by (destruct H1 as [ H1 | H1 ]; [ now apply O | exact H1 ]). subst r1. destruct (b' g) as [o2 r2] eqn:B2. injection J as <- <-.
    assert (A2 : AG (apply_all f (effects t1)) g) by (apply (agree_effects Q); [ exact SP | exact (K n f t1 _ A E1) | exact A ]).
    destruct (WB _ _ t2 r o2 r2 A2 E2 B2 H) as [T2 O2]. split; [ | exact O2 ]. intros x p I Ab. rewrite map_app. apply in_or_app. apply in_app_or in I as [ I | I ]; [ left; exact (T x p I Ab) | right; exact (T2 x p I Ab) ].
Qed.
Lemma within_ends r g : within (ends r) (fun _ => ([], r)) g.
Proof. intros n f t r0 os r' _ [= <- <-] [= <- <-] _. split; [ intros x p [] | auto ]. Qed.
Lemma within_ext a b b' g : b g = b' g -> within a b g -> within a b' g.
Proof. intros E W n f t r os r' A Ea Eb. apply (W n f t r os r' A Ea). now rewrite E. Qed.
Lemma within_directory m d g : within (directory st parse render disk readable m d) (fun g => process st parse render g m [d]) g.
Proof.
  intros n f t r os r' A E P H. unfold directory in E. cbn [process] in P. destruct (existsb _ _) eqn:Sk.
  { injection E as <- <-. injection P as <- <-. split; [ intros x p [] | auto ]. }
  apply (skip_false st dbd opd SET RDB ROP) in Sk as [N1 N2]. rewrite (agree_empty st dbd opd f g d A N1 N2) in E.
  destruct (dir_empty g d (s_exec st)) eqn:DE. { rewrite orb_true_r in E. injection E as <- <-. injection P as <- <-. split; [ intros x p [] | auto ]. }
  rewrite orb_false_r in E. destruct (readable d) eqn:RD; cbn [negb] in E.
  2: { injection E as <- <-. split; [ intros x p [] | intros V; rewrite V in RD; discriminate ]. }
  assert (T0 : In (d, s_exec st) (map target os)).
  { destruct (parse _ m d) as [ | | | s ]; [ injection P as <- _; now left .. | ]. destruct (render s); [ injection P as <- _; now left.. | ]. destruct (s_skip_empty st); injection P as <- _; now left. }
  split.
  - intros x p I Ab. rewrite (package_keeps m d g n f t r A E x I p Ab). exact T0.
  - intros _ ->. destruct (package_ok m d n f t E) as [ [Px _] | (x & c & Px & Rx & _) ].
    + assert (Q : parse (unlink g (d, s_exec st)) m d = PSkip) by (rewrite <- Px; apply IND, agree_unlink, agree_sym, A). rewrite Q in P. injection P as _ <-. reflexivity.
    + assert (Q : parse (unlink g (d, s_exec st)) m d = PSchema x) by (rewrite <- Px; apply IND, agree_unlink, agree_sym, A). rewrite Q, Rx in P. destruct (s_skip_empty st); injection P as _ <-; reflexivity.
Qed.
Lemma within_directories m g : forall dirs, within (directories st parse render disk readable m dirs) (fun g => process st parse render g m dirs) g.
Proof.
  induction dirs as [|d dirs IH]; cbn [directories]; [ exact (within_ends (Ok tt) g) | ].
  apply (within_ext _ (join2 (fun g => process st parse render g m [d]) (fun g => process st parse render g m dirs))).
  - unfold join2. change (d :: dirs) with ([d] ++ dirs). rewrite process_app. destruct (process st parse render g m [d]) as [os [ [] | | ]] eqn:P; try reflexivity.
    rewrite (process_same st dbd opd plan parse render SET RDB ROP IND m dirs (apply_all g os) g); [ reflexivity | ]. apply (process_agree st dbd opd parse render SET RDB ROP m [d] g os (Ok tt) g P), agree_refl.
  - apply (within_after (package_file [d] g)); [ apply spares_package | now apply directory_keeps; left | apply within_directory | exact IH ].
Qed.
Lemma within_source s g : within (source st plan parse render disk readable s) (fun g => sources st plan parse render g [s]) g.
Proof.
  intros n f t r os r' A E P H. unfold source in E. cbn [sources] in P. rewrite (proj1 (IND _ _ A) s) in E. destruct (plan g s) as [ [ [ds m] | ] | | ].
  - destruct (process st parse render g m ds) as [o1 r1] eqn:P1. assert (Q : (o1, r1) = (os, r')) by (destruct r1 as [ [] | | ]; [ rewrite app_nil_r in P; exact P | exact P.. ]). injection Q as -> ->.
    exact (within_directories m g ds n f t r os r' A E P1 H).
  - injection E as <- <-. injection P as <- <-. split; [ intros x p [] | auto ].
  - injection E as <- <-. injection P as <- <-. split; [ intros x p [] | auto ].
  - injection E as <- <-. injection P as <- <-. split; [ intros x p [] | auto ].
Qed.
Lemma within_sources g : forall srcs, within (all_sources st plan parse render disk readable srcs) (fun g => sources st plan parse render g srcs) g.
Proof.
  induction srcs as [|s srcs IH]; cbn [all_sources]; [ exact (within_ends (Ok tt) g) | ].
  apply (within_ext _ (join2 (fun g => sources st plan parse render g [s]) (fun g => sources st plan parse render g srcs))).
  - unfold join2. change (s :: srcs) with ([s] ++ srcs). rewrite LemmasRun.sources_app. destruct (sources st plan parse render g [s]) as [os [ [] | | ]] eqn:P; try reflexivity.
    rewrite (sources_same st dbd opd plan parse render SET RDB ROP IND srcs (apply_all g os) g); [ reflexivity | ]. apply agree_ops; [ | apply agree_refl ].
    eapply Forall_impl; [ | exact (sources_targets st dbd opd plan parse render SET RDB ROP IND [s] g os (Ok tt) P) ]. cbn. intros o (d & _ & _ & _ & ->). apply exec_not_users.
  - apply (within_after (touches [s] g)); [ apply spares_touches | now apply source_keeps; left | apply within_source | exact IH ].
Qed.
Lemma within_template gone out code g : within (template_part disk gone out code) (fun _ => template gone out code) g.
Proof.
  intros n f t r os r' A E P _. split.
  - intros x p I Ab. unfold template in P. assert (T : In gone (map target os) /\ (code <> None -> In out (map target os))) by (destruct code; injection P as <- _; split; cbn; auto; congruence).
    unfold template_part in E. apply after_cases in E as [ [E _] | (t1 & t2 & E1 & E2 & ->) ].
    + unfold try in E. destruct (disk n); injection E as <- _; destruct I as [ <- | [] ]; rewrite (about_fun _ p gone Ab (or_introl eq_refl)); apply T.
    + apply in_app_or in I as [ I | I ].
      * unfold try in E1. destruct (disk n); injection E1 as <-; destruct I as [ <- | [] ]; rewrite (about_fun _ p gone Ab (or_introl eq_refl)); apply T.
      * destruct code as [c | ]; [ | injection E2 as <- _; destruct I ]. assert (TO : forall a r n f t r', try disk a r n f = (t, r') -> forall x, In x t -> fst x = a) by (intros a r0 n0 f0 t0 r1; unfold try; destruct (disk n0); intros [= <- _] y [ <- | [] ]; reflexivity).
        assert (M1 : about (fst x) out \/ fst x = Makes (fst out)).
        { apply after_cases in E2 as [ [E2 _] | (? & ? & E2 & E3 & ->) ]; [ right; exact (TO _ _ _ _ _ _ E2 x I) | ]. apply in_app_or in I as [ I | I ]; [ right; exact (TO _ _ _ _ _ _ E2 x I) | ].
          left. apply after_cases in E3 as [ [E3 _] | (? & ? & E3 & E4 & ->) ]; [ rewrite (TO _ _ _ _ _ _ E3 x I); right; now left | ]. apply in_app_or in I as [ I | I ]; [ rewrite (TO _ _ _ _ _ _ E3 x I); right; now left | ].
          apply after_cases in E4 as [ [E4 _] | (? & ? & E4 & E5 & ->) ]; [ rewrite (TO _ _ _ _ _ _ E4 x I); right; right; left; eauto | ]. apply in_app_or in I as [ I | I ]; [ rewrite (TO _ _ _ _ _ _ E4 x I); right; right; left; eauto | ].
          rewrite (TO _ _ _ _ _ _ E5 x I). right. right. now right. }
        destruct M1 as [ M1 | M1 ]; [ rewrite (about_fun _ _ _ Ab M1); apply T; discriminate | ]. rewrite M1 in Ab. destruct Ab as [ Q | [ Q | [ [c' Q] | Q ] ] ]; discriminate Q.
  - intros _ ->. apply template_ok in E as (c & -> & _). injection P as _ <-. reflexivity.
Qed.
Lemma run_within srcs f t r os r' : drun srcs f = (t, r) -> prun f srcs = (os, r') -> every \/ r' = Ok tt -> forall x p, In x t -> about (fst x) p -> In p (map target os).
Proof.
  unfold run, generate. rewrite (dir_of_names st _ dbd (proj1 SET)), (dir_of_names st _ opd (proj2 SET)). intros E P H.
  set (T1 := template_part disk (dbd, s_db_file st) (dbd, s_db_file st) db_code) in *. set (T2 := template_part disk (dbd, s_op_file st) (opd, s_op_file st) op_code) in *.
  assert (SP : spares (touches srcs f)) by apply spares_touches.
  assert (K : forall gone out code, (gone = (dbd, s_db_file st) \/ gone = (dbd, s_op_file st)) -> (out = (dbd, s_db_file st) \/ out = (opd, s_op_file st)) -> keeps (touches srcs f) (template_part disk gone out code) f).
  { intros gone out code G O. apply template_keeps; [ exact SP | ]. intros a Ha p Ab. right. destruct Ha as [ Ha | [ Ha | -> ] ]; [ rewrite (about_fun a p _ Ab Ha) | rewrite (about_fun a p _ Ab Ha) | exfalso; destruct Ab as [ Q | [ Q | [ [c Q] | Q ] ] ]; discriminate ]; intuition. }
  assert (W : within (after (all_sources st plan parse render disk readable srcs) (after T1 (after T2 (ends tidy))))
    (join2 (fun g => sources st plan parse render g srcs) (join2 (fun _ => template (dbd, s_db_file st) (dbd, s_db_file st) db_code) (join2 (fun _ => template (dbd, s_op_file st) (opd, s_op_file st) op_code) (fun _ => ([], tidy))))) f).
  { apply (within_after (touches srcs f)); [ exact SP | now apply sources_keeps | apply within_sources | ]. apply (within_after (touches srcs f)); [ exact SP | apply K; auto | apply within_template | ].
    apply (within_after (touches srcs f)); [ exact SP | apply K; auto | apply within_template | apply within_ends ]. }
  exact (proj1 (W 0 f t r os r' (agree_refl st dbd opd f) E P H)).
Qed.

(** ** A disk without errors *)
Hypothesis HD : forall n, disk n = Done.
Hypothesis HR : every.
Definition mirrors (a : part) (b : files -> list op * res unit) : Prop := forall n f, b f = (effects (fst (a n f)), snd (a n f)).
Definition seq2 (b c : files -> list op * res unit) : files -> list op * res unit := fun f => match b f with (os, Ok _) => let (os', r) := c (apply_all f os) in (os ++ os', r) | (os, e) => (os, e) end.
Lemma mirrors_after a a' b b' : mirrors a b -> mirrors a' b' -> mirrors (after a a') (seq2 b b').
Proof.
  intros MA MB n f. unfold seq2, after. rewrite (MA n f). destruct (a n f) as [t1 [ [] | | ]]; cbn [fst snd]; try reflexivity. rewrite (MB (n + length t1)). destruct (a' _ _) as [t2 r2]. cbn [fst snd]. now rewrite effects_app.
Qed.
Lemma mirrors_ext a b b' : (forall f, b f = b' f) -> mirrors a b -> mirrors a b'.
Proof. intros E MA n f. rewrite <- E. apply MA. Qed.
Lemma mirrors_ends r : mirrors (ends r) (fun _ => ([], r)).
Proof. intros n f. reflexivity. Qed.
Lemma mirrors_directory m d : mirrors (directory st parse render disk readable m d) (fun f => process st parse render f m [d]).
Proof.
  intros n f. unfold directory. cbn [process]. destruct (existsb _ _); [ reflexivity | ]. rewrite HR. cbn [negb orb]. destruct (dir_empty _ _ _); [ reflexivity | ].
  unfold package, after, try, ends. rewrite HD. cbn [length effects flat_map effect app apply_all fold_left apply]. destruct (parse _ m d) as [ | | | s ]; try reflexivity. destruct (render s) as [ | | c ]; try reflexivity.
  - rewrite !HD. reflexivity.
  - rewrite !HD. destruct (s_skip_empty st); reflexivity.
Qed.
Lemma mirrors_directories m : forall dirs, mirrors (directories st parse render disk readable m dirs) (fun f => process st parse render f m dirs).
Proof.
  induction dirs as [|d dirs IH]; cbn [directories]; [ exact (mirrors_ends (Ok tt)) | ].
  apply (mirrors_ext _ (seq2 (fun f => process st parse render f m [d]) (fun f => process st parse render f m dirs))); [ | apply mirrors_after; [ apply mirrors_directory | exact IH ] ].
  intros f. unfold seq2. change (d :: dirs) with ([d] ++ dirs). now rewrite process_app.
Qed.
Lemma mirrors_sources : forall srcs, mirrors (all_sources st plan parse render disk readable srcs) (fun f => sources st plan parse render f srcs).
Proof.
  induction srcs as [|s srcs IH]; cbn [all_sources]; [ exact (mirrors_ends (Ok tt)) | ].
  apply (mirrors_ext _ (seq2 (fun f => sources st plan parse render f [s]) (fun f => sources st plan parse render f srcs))).
  - intros f. unfold seq2. change (s :: srcs) with ([s] ++ srcs). now rewrite LemmasRun.sources_app.
  - apply mirrors_after; [ | exact IH ]. intros n f. unfold source. cbn [sources]. destruct (plan f s) as [ [ [ds m] | ] | | ]; try reflexivity.
    rewrite (mirrors_directories m ds n f). destruct (directories st parse render disk readable m ds n f) as [t [ [] | | ]]; cbn [fst snd]; now rewrite ?app_nil_r.
Qed.
Lemma mirrors_template gone out code : mirrors (template_part disk gone out code) (fun _ => template gone out code).
Proof. intros n f. unfold template_part, after, try, ends. rewrite HD. destruct code; [ rewrite !HD | ]; reflexivity. Qed.
Lemma run_mirrors srcs f : prun f srcs = (effects (fst (drun srcs f)), snd (drun srcs f)).
Proof.
  unfold run, generate. set (p1 := (dir_of st (s_db_dir st), s_db_file st)). set (p2 := (dir_of st (s_db_dir st), s_op_file st)). set (p3 := (dir_of st (s_op_dir st), s_op_file st)).
  pose proof (mirrors_after _ _ _ _ (mirrors_sources srcs) (mirrors_after _ _ _ _ (mirrors_template p1 p1 db_code) (mirrors_after _ _ _ _ (mirrors_template p2 p3 op_code) (mirrors_ends tidy))) 0 f) as H.
  rewrite <- H. reflexivity.
Qed.
End Proofs.
