(** Files, and how the steps of a run change them. *)
From Verif Require Import Base ModelPaths ModelRun LemmasBase PropPaths SpecRun.

(** ** Files *)
Lemma segs_eq_spec a b : segs_eq a b = true <-> a = b.
Proof. unfold segs_eq. destruct (list_eq_dec _ a b); split; congruence. Qed.
Lemma path_eq_spec a b : path_eq a b = true <-> a = b.
Proof. unfold path_eq. rewrite andb_true_iff, segs_eq_spec, bseq_eq. destruct a, b; cbn. split; [ intros [-> ->]; reflexivity | intros [= -> ->]; auto ]. Qed.
Lemma path_eq_refl a : path_eq a a = true. Proof. now apply path_eq_spec. Qed.
Lemma path_eq_neq a b : a <> b -> path_eq a b = false.
Proof. intros N. destruct (path_eq a b) eqn:E; [ apply path_eq_spec in E; contradiction | reflexivity ]. Qed.
Definition path_dec (a b : path) : {a = b} + {a <> b}.
Proof. destruct (path_eq a b) eqn:E; [ left; now apply path_eq_spec | right; intros ->; rewrite path_eq_refl in E; discriminate ]. Defined.
Definition target (o : op) : path := match o with Unlink p | Truncate p => p | Write p _ => p end.

Lemma lookup_unlink f p q : lookup (unlink f p) q = if path_dec q p then None else lookup f q.
Proof.
  unfold unlink. induction f as [|[r c] f IH]; cbn [filter lookup fst]; [ destruct (path_dec q p); reflexivity | ].
  destruct (path_eq p r) eqn:E; cbn [negb lookup].
  - apply path_eq_spec in E. subst r. rewrite IH. destruct (path_dec q p) as [ Q | Q ]; [ reflexivity | ]. now rewrite path_eq_neq.
  - destruct (path_eq q r) eqn:E2; [ | exact IH ]. apply path_eq_spec in E2. subst r. destruct (path_dec q p) as [ -> | Q ]; [ rewrite path_eq_refl in E; discriminate | reflexivity ].
Qed.
Lemma lookup_put f p c q : lookup (put f p c) q = if path_dec q p then Some c else lookup f q.
Proof.
  unfold put. cbn [lookup]. destruct (path_eq q p) eqn:E.
  - apply path_eq_spec in E. destruct (path_dec q p); [ reflexivity | contradiction ].
  - destruct (path_dec q p) as [ -> | Q ]; [ rewrite path_eq_refl in E; discriminate | ]. rewrite lookup_unlink. destruct (path_dec q p); [ contradiction | reflexivity ].
Qed.
Lemma lookup_other f o p : target o <> p -> lookup (apply f o) p = lookup f p.
Proof. destruct o; cbn [apply target]; intros N; rewrite ?lookup_unlink, ?lookup_put; destruct (path_dec p p0); congruence. Qed.
Lemma lookup_frame os : forall f p, Forall (fun o => target o <> p) os -> lookup (apply_all f os) p = lookup f p.
Proof.
  induction os as [|o os IH]; intros f p F; [ reflexivity | ]. inversion F; subst. cbn [apply_all fold_left]. fold (apply_all (apply f o) os). rewrite IH by assumption. now apply lookup_other.
Qed.
Lemma last_op os p : Forall (fun o => target o <> p) os \/ (forall f g, lookup (apply_all f os) p = lookup (apply_all g os) p).
Proof.
  induction os as [|o os IH]; [ left; constructor | ]. destruct IH as [ F | D ].
  - destruct (path_dec (target o) p) as [ E | N ]; [ right | left; now constructor ]. intros f g. cbn [apply_all fold_left]. fold (apply_all (apply f o) os). fold (apply_all (apply g o) os).
    rewrite !lookup_frame by exact F. destruct o; cbn [target apply] in *; subst; rewrite ?lookup_unlink, ?lookup_put; destruct (path_dec p p); congruence.
  - right. intros f g. cbn [apply_all fold_left]. apply D.
Qed.
Lemma apply_all_app f a b : apply_all f (a ++ b) = apply_all (apply_all f a) b.
Proof. apply fold_left_app. Qed.
Lemma unlink_twice f p : unlink (unlink f p) p = unlink f p.
Proof. unfold unlink. induction f as [|x f IH]; [ reflexivity | ]. cbn [filter]. destruct (path_eq p (fst x)) eqn:E; cbn [negb]; [ exact IH | ]. cbn [filter]. rewrite E. cbn [negb]. now rewrite IH. Qed.
Lemma write_put f p c : apply_all f [Unlink p; Truncate p; Write p c] = put (unlink f p) p c.
Proof.
  cbn [apply_all fold_left apply]. unfold put. rewrite unlink_twice. unfold unlink at 1. cbn [filter fst]. rewrite path_eq_refl. cbn [negb]. fold (unlink (unlink f p) p). now rewrite unlink_twice.
Qed.
Lemma replay f os n p : lookup (apply_all (apply_all f (firstn n os)) os) p = lookup (apply_all f os) p.
Proof.
  destruct (last_op os p) as [ F | D ]; [ | apply D ]. rewrite !lookup_frame; try exact F; [ reflexivity | ].
  rewrite Forall_forall in *. intros o H. apply F. rewrite <- (firstn_skipn n os). apply in_or_app. now left.
Qed.

Lemma suffix_spec s suf : has_suffix s suf = true <-> exists stem, s = stem ++ suf.
Proof.
  split.
  - induction s as [|c s IH]; cbn [has_suffix]; intros H; apply orb_true_iff in H as [ H | H ].
    + apply bseq_eq in H. exists []. exact H.
    + discriminate.
    + apply bseq_eq in H. exists []. exact H.
    + destruct (IH H) as [stem ->]. exists (c :: stem). reflexivity.
  - intros [stem ->]. induction stem as [|c stem IH]; cbn [app].
    + destruct suf; cbn [has_suffix]; now rewrite bseq_refl.
    + cbn [has_suffix]. rewrite IH. apply orb_true_r.
Qed.
Lemma lookup_in f p c : lookup f p = Some c -> In (p, c) f.
Proof. induction f as [|[q x] f IH]; [ discriminate | ]. cbn [lookup]. destruct (path_eq p q) eqn:E; [ apply path_eq_spec in E; intros [= ->]; subst; now left | intros H; right; now apply IH ]. Qed.
Lemma in_lookup f p c : In (p, c) f -> exists x, lookup f p = Some x.
Proof. induction f as [|[q x] f IH]; [ contradiction | ]. intros [ [= -> ->] | H ]; cbn [lookup]; [ rewrite path_eq_refl; eauto | ]. destruct (path_eq p q); eauto. Qed.
Lemma dir_empty_spec st f d : dir_empty f d (s_exec st) = false <-> has_go st f d.
Proof.
  unfold dir_empty, has_go. rewrite negb_false_iff, existsb_exists. split.
  - intros ([[d' name] c] & Hin & H). cbn [fst snd] in H. rewrite !andb_true_iff, segs_eq_spec, negb_true_iff, bseq_neq in H. destruct H as [[<- N] G]. apply suffix_spec in G as [stem E].
    destruct (in_lookup _ _ _ Hin) as [x Hx]. exists name, stem, x. auto.
  - intros (name & stem & c & L & N & E). exists ((d, name), c). split; [ now apply lookup_in | ]. cbn [fst snd]. rewrite !andb_true_iff, segs_eq_spec, negb_true_iff, bseq_neq.
    split; [ split; [ reflexivity | exact N ] | ]. apply suffix_spec. now exists stem.
Qed.

(** ** Directories *)
Lemma dir_of_names st text segs : names (s_pwd st) text segs -> dir_of st text = segs.
Proof.
  intros [[[r E] Sp] | [[NE NS] Sp]]; unfold dir_of.
  - subst text. change (beq "/" "/") with true. cbv iota. now apply clean_spells.
  - destruct text as [|c r]; [ contradiction | ]. destruct (beq c "/") eqn:E; [ apply Ascii.eqb_eq in E; subst; exfalso; now apply (NS r) | ]. now apply clean_spells.
Qed.
Lemma joined_relative st text segs : relative text -> names (s_pwd st) text segs -> joined st text = segs.
Proof.
  intros [NE NS] [[[r E] Sp] | [_ Sp]]; [ exfalso; now apply (NS r) | ]. unfold joined. now apply clean_spells.
Qed.

Section Proofs.
Context {S M : Type}.
Variable st : settings.
Variables dbd opd : list bytes.
Variable plan : files -> bytes -> res (option (list (list bytes) * M)).
Variable parse : files -> M -> list bytes -> parsed S.
Variable render : S -> rendered.
Variable db_code op_code : option bytes.
Variable tidy : res unit.
Notation run := (generate st plan parse render db_code op_code tidy).
Notation proc := (process st parse render).
Notation srcsf := (sources st plan parse render).
Hypothesis SET : settled st dbd opd.
Hypothesis RDB : relative (s_db_dir st).
Hypothesis ROP : relative (s_op_dir st).

Lemma skip_spec d : existsb (segs_eq d) [joined st (s_db_dir st); joined st (s_op_dir st)] = true <-> d = dbd \/ d = opd.
Proof.
  rewrite (joined_relative st _ dbd RDB (proj1 SET)), (joined_relative st _ opd ROP (proj2 SET)). cbn [existsb]. rewrite !orb_true_iff, !segs_eq_spec. intuition discriminate.
Qed.
Lemma skip_false d : existsb (segs_eq d) [joined st (s_db_dir st); joined st (s_op_dir st)] = false <-> d <> dbd /\ d <> opd.
Proof. rewrite <- not_true_iff_false, skip_spec. tauto. Qed.

(** Which files the steps change *)
Lemma process_targets m : forall dirs f os r, proc f m dirs = (os, r) -> Forall (fun o => exists d, In d dirs /\ d <> dbd /\ d <> opd /\ target o = (d, s_exec st)) os.
Proof.
  induction dirs as [|d dirs IH]; intros f os r E; cbn [process] in E; [ injection E as <- _; constructor | ].
  assert (W : forall os', Forall (fun o => exists d, In d dirs /\ d <> dbd /\ d <> opd /\ target o = (d, s_exec st)) os' ->
     Forall (fun o => exists d0, In d0 (d :: dirs) /\ d0 <> dbd /\ d0 <> opd /\ target o = (d0, s_exec st)) os').
  { intros os' F. eapply Forall_impl; [ | exact F ]. cbn. intros o (x & I & R). exists x. split; [ now right | exact R ]. }
  destruct (existsb _ _) eqn:Sk; [ apply W; eapply IH; exact E | ]. apply skip_false in Sk. destruct Sk as [N1 N2].
  destruct (dir_empty _ _ _); [ apply W; eapply IH; exact E | ].
  assert (O : exists d0, In d0 (d :: dirs) /\ d0 <> dbd /\ d0 <> opd /\ (d, s_exec st) = (d0, s_exec st)) by (exists d; split; [ now left | auto ]).
  destruct (parse _ m d) as [ | | | s ].
  - destruct (proc (unlink f (d, s_exec st)) m dirs) as [os1 r1] eqn:P. injection E as <- _. constructor; [ exact O | apply W; eapply IH; exact P ].
  - injection E as <- _. repeat constructor; exact O.
  - injection E as <- _. repeat constructor; exact O.
  - destruct (render s) as [ | | c ]; [ injection E as <- _; repeat constructor; exact O | injection E as <- _; repeat constructor; exact O | ].
    destruct (proc (put (unlink f (d, s_exec st)) (d, s_exec st) c) m dirs) as [os1 r1] eqn:P.
    destruct (s_skip_empty st); injection E as <- _; (constructor; [ exact O | constructor; [ exact O | constructor; [ exact O | apply W; eapply IH; exact P ] ] ]).
Qed.
Lemma agree_refl f : agree st dbd opd f f. Proof. intros p _. reflexivity. Qed.
Lemma agree_sym f g : agree st dbd opd f g -> agree st dbd opd g f. Proof. intros H p U. symmetry. now apply H. Qed.
Lemma agree_ops os f g : Forall (fun o => ~ users st dbd opd (target o)) os -> agree st dbd opd f g -> agree st dbd opd (apply_all f os) g.
Proof.
  intros F A p U. rewrite lookup_frame; [ now apply A | ]. eapply Forall_impl; [ | exact F ]. cbn. intros o N E. apply N. now rewrite E.
Qed.
Lemma exec_not_users d : ~ users st dbd opd (d, s_exec st). Proof. intros [N _]. apply N. left. reflexivity. Qed.
Lemma process_agree m dirs f os r g : proc f m dirs = (os, r) -> agree st dbd opd f g -> agree st dbd opd (apply_all f os) g.
Proof.
  intros E. apply agree_ops. eapply Forall_impl; [ | exact (process_targets m dirs f os r E) ]. cbn. intros o (d & _ & _ & _ & ->). apply exec_not_users.
Qed.
Lemma agree_has_go f g d : agree st dbd opd f g -> d <> dbd -> d <> opd -> has_go st f d -> has_go st g d.
Proof.
  intros A N1 N2 (name & stem & c & L & N & E). exists name, stem, c. split; [ | auto ]. rewrite <- A; [ exact L | ].
  split; [ intros [ Q | [ Q | Q ] ]; [ cbn in Q; contradiction | injection Q as Q _; contradiction | injection Q as Q _; contradiction ] | intros Q; injection Q as Q _; contradiction ].
Qed.
Lemma agree_empty f g d : agree st dbd opd f g -> d <> dbd -> d <> opd -> dir_empty f d (s_exec st) = dir_empty g d (s_exec st).
Proof.
  intros A N1 N2. destruct (dir_empty f d (s_exec st)) eqn:E1, (dir_empty g d (s_exec st)) eqn:E2; try reflexivity.
  - apply dir_empty_spec in E2. apply (agree_has_go _ _ d (agree_sym _ _ A) N1 N2), dir_empty_spec in E2. congruence.
  - apply dir_empty_spec in E1. apply (agree_has_go _ _ d A N1 N2), dir_empty_spec in E1. congruence.
Qed.
Hypothesis IND : independent st dbd opd plan parse.
Lemma agree_unlink f g d : agree st dbd opd f g -> agree st dbd opd (unlink f (d, s_exec st)) g.
Proof. apply (agree_ops [Unlink (d, s_exec st)]). repeat constructor. apply exec_not_users. Qed.
Lemma agree_put f g d c : agree st dbd opd f g -> agree st dbd opd (put f (d, s_exec st) c) g.
Proof. apply (agree_ops [Write (d, s_exec st) c]). repeat constructor. apply exec_not_users. Qed.

Lemma process_same m : forall dirs f g, agree st dbd opd f g -> proc f m dirs = proc g m dirs.
Proof.
  induction dirs as [|d dirs IH]; intros f g A; [ reflexivity | ]. cbn [process]. destruct (existsb _ _) eqn:Sk; [ now apply IH | ]. apply skip_false in Sk as [N1 N2].
  rewrite (agree_empty f g d A N1 N2). destruct (dir_empty g d (s_exec st)); [ now apply IH | ].
  assert (A1 : agree st dbd opd (unlink f (d, s_exec st)) (unlink g (d, s_exec st))) by (apply agree_unlink, agree_sym, agree_unlink, agree_sym, A).
  rewrite (proj2 (IND _ _ A1) m d). rewrite (IH _ _ A1). destruct (parse _ m d) as [ | | | s ]; try reflexivity. destruct (render s); try reflexivity.
  rewrite (IH (put (unlink f (d, s_exec st)) (d, s_exec st) c) (put (unlink g (d, s_exec st)) (d, s_exec st) c)); [ reflexivity | ].
  apply agree_put, agree_sym, agree_put, agree_sym, A1.
Qed.
Lemma sources_same : forall srcs f g, agree st dbd opd f g -> srcsf f srcs = srcsf g srcs.
Proof.
  induction srcs as [|s srcs IH]; intros f g A; [ reflexivity | ]. cbn [sources]. rewrite (proj1 (IND _ _ A) s). destruct (plan g s) as [ [ [ds m] | ] | | ]; try reflexivity; [ | now apply IH ].
  rewrite (process_same m ds f g A). destruct (proc g m ds) as [os [ [] | | ]] eqn:P; try reflexivity.
  rewrite (IH (apply_all f os) (apply_all g os)); [ reflexivity | ]. rewrite <- (process_same m ds f g A) in P.
  apply (process_agree m ds f os (Ok tt)); [ exact P | ]. apply agree_sym. rewrite (process_same m ds f g A) in P. apply (process_agree m ds g os (Ok tt)); [ exact P | now apply agree_sym ].
Qed.
Lemma run_same f g srcs : agree st dbd opd f g -> run f srcs = run g srcs.
Proof. intros A. unfold generate. now rewrite (sources_same srcs f g A). Qed.

Lemma sources_targets : forall srcs f os r, srcsf f srcs = (os, r) -> Forall (fun o => exists d, asked plan f srcs d /\ d <> dbd /\ d <> opd /\ target o = (d, s_exec st)) os.
Proof.
  induction srcs as [|s srcs IH]; intros f os r E; cbn [sources] in E; [ injection E as <- _; constructor | ].
  assert (W : forall g os', agree st dbd opd g f -> Forall (fun o => exists d, asked plan g srcs d /\ d <> dbd /\ d <> opd /\ target o = (d, s_exec st)) os' ->
     Forall (fun o => exists d, asked plan f (s :: srcs) d /\ d <> dbd /\ d <> opd /\ target o = (d, s_exec st)) os').
  { intros g os' A F. eapply Forall_impl; [ | exact F ]. cbn. intros o (d & (s' & ds & m & I1 & P & I2) & R). exists d. split; [ | exact R ]. exists s', ds, m.
    split; [ now right | split; [ | exact I2 ] ]. now rewrite <- (proj1 (IND _ _ A) s'). }
  destruct (plan f s) as [ [ [ds m] | ] | | ] eqn:Pl.
  - destruct (proc f m ds) as [os1 r1] eqn:P. pose proof (process_targets m ds f os1 r1 P) as T.
    assert (T' : Forall (fun o => exists d, asked plan f (s :: srcs) d /\ d <> dbd /\ d <> opd /\ target o = (d, s_exec st)) os1).
    { eapply Forall_impl; [ | exact T ]. cbn. intros o (d & I & R). exists d. split; [ | exact R ]. exists s, ds, m. split; [ now left | split; [ exact Pl | exact I ] ]. }
    destruct r1 as [ [] | | ]; [ | injection E as <- _; exact T' | injection E as <- _; exact T' ].
    destruct (srcsf (apply_all f os1) srcs) as [os2 r2] eqn:P2. injection E as <- _. apply Forall_app. split; [ exact T' | ].
    apply (W (apply_all f os1)); [ | eapply IH; exact P2 ]. apply (process_agree m ds f os1 (Ok tt) f P), agree_refl.
  - apply (W f); [ apply agree_refl | eapply IH; exact E ].
  - injection E as <- _. constructor.
  - injection E as <- _. constructor.
Qed.
Lemma process_go m g : forall dirs f os r, agree st dbd opd f g -> proc f m dirs = (os, r) -> Forall (fun o => exists d, d <> dbd /\ d <> opd /\ has_go st g d /\ target o = (d, s_exec st)) os.
Proof.
  induction dirs as [|d dirs IH]; intros f os r A E; cbn [process] in E; [ injection E as <- _; constructor | ].
  destruct (existsb _ _) eqn:Sk; [ eapply IH; eassumption | ]. apply skip_false in Sk. destruct Sk as [N1 N2].
  destruct (dir_empty _ _ _) eqn:DE; [ eapply IH; eassumption | ]. apply dir_empty_spec in DE.
  assert (O : exists d0, d0 <> dbd /\ d0 <> opd /\ has_go st g d0 /\ (d, s_exec st) = (d0, s_exec st)) by (exists d; repeat split; auto; now apply (agree_has_go f)).
  assert (A1 : agree st dbd opd (unlink f (d, s_exec st)) g) by now apply agree_unlink.
  destruct (parse _ m d) as [ | | | s ].
  - destruct (proc (unlink f (d, s_exec st)) m dirs) as [os1 r1] eqn:P. injection E as <- _. constructor; [ exact O | eapply IH; eassumption ].
  - injection E as <- _. repeat constructor; exact O.
  - injection E as <- _. repeat constructor; exact O.
  - destruct (render s) as [ | | c ]; [ injection E as <- _; repeat constructor; exact O | injection E as <- _; repeat constructor; exact O | ].
    destruct (proc (put (unlink f (d, s_exec st)) (d, s_exec st) c) m dirs) as [os1 r1] eqn:P.
    assert (F : Forall (fun o => exists d, d <> dbd /\ d <> opd /\ has_go st g d /\ target o = (d, s_exec st)) os1) by (eapply IH; [ | exact P ]; now apply agree_put).
    destruct (s_skip_empty st); injection E as <- _; (constructor; [ exact O | constructor; [ exact O | constructor; [ exact O | exact F ] ] ]).
Qed.
Lemma sources_go g : forall srcs f os r, agree st dbd opd f g -> srcsf f srcs = (os, r) -> Forall (fun o => exists d, d <> dbd /\ d <> opd /\ has_go st g d /\ target o = (d, s_exec st)) os.
Proof.
  induction srcs as [|s srcs IH]; intros f os r A E; cbn [sources] in E; [ injection E as <- _; constructor | ].
  destruct (plan f s) as [ [ [ds m] | ] | | ] eqn:Pl; [ | eapply IH; eassumption | injection E as <- _; constructor | injection E as <- _; constructor ].
  destruct (proc f m ds) as [os1 r1] eqn:P. pose proof (process_go m g ds f os1 r1 A P) as T.
  destruct r1 as [ [] | | ]; [ | injection E as <- _; exact T | injection E as <- _; exact T ].
  destruct (srcsf (apply_all f os1) srcs) as [os2 r2] eqn:P2. injection E as <- _. apply Forall_app. split; [ exact T | ].
  eapply IH; [ | exact P2 ]. exact (process_agree m ds f os1 (Ok tt) g P A).
Qed.
Definition touched f srcs (p : path) : Prop :=
  (exists d, asked plan f srcs d /\ d <> dbd /\ d <> opd /\ has_go st f d /\ p = (d, s_exec st)) \/ p = (dbd, s_db_file st) \/ p = (opd, s_op_file st) \/ p = (dbd, s_op_file st).
Lemma template_targets gone out code os r : template gone out code = (os, r) -> Forall (fun o => target o = gone \/ target o = out) os.
Proof. destruct code; intros [= <- _]; repeat (apply Forall_cons; [ cbn; auto | ]); apply Forall_nil. Qed.
Lemma run_targets f srcs os r : run f srcs = (os, r) -> Forall (fun o => touched f srcs (target o)) os.
Proof.
  unfold generate. rewrite (dir_of_names st _ dbd (proj1 SET)), (dir_of_names st _ opd (proj2 SET)).
  destruct (srcsf f srcs) as [os1 r1] eqn:E1. pose proof (sources_targets srcs f os1 r1 E1) as T1.
  assert (U1 : Forall (fun o => touched f srcs (target o)) os1) by (pose proof (sources_go f srcs f os1 r1 (agree_refl f) E1) as G1; rewrite Forall_forall in *; intros o I; destruct (T1 o I) as (d & H1 & H2 & H3 & H4); destruct (G1 o I) as (d' & _ & _ & H5 & H6); left; exists d; rewrite H4 in H6; injection H6 as <-; auto).
  destruct (template (dbd, s_db_file st) (dbd, s_db_file st) db_code) as [os2 r2] eqn:E2. pose proof (template_targets _ _ _ _ _ E2) as T2.
  assert (U2 : Forall (fun o => touched f srcs (target o)) os2) by (eapply Forall_impl; [ | exact T2 ]; cbn; intros o [-> | ->]; right; left; reflexivity).
  destruct (template (dbd, s_op_file st) (opd, s_op_file st) op_code) as [os3 r3] eqn:E3. pose proof (template_targets _ _ _ _ _ E3) as T3.
  assert (U3 : Forall (fun o => touched f srcs (target o)) os3) by (eapply Forall_impl; [ | exact T3 ]; cbn; intros o [-> | ->]; right; right; [ right | left ]; reflexivity).
  unfold and_then. destruct r1 as [ [] | | ]; [ | intros [= <- _]; exact U1 | intros [= <- _]; exact U1 ].
  destruct r2 as [ [] | | ]; [ | intros [= <- _]; apply Forall_app; auto | intros [= <- _]; apply Forall_app; auto ].
  destruct r3 as [ [] | | ]; intros [= <- _]; rewrite ?app_nil_r; apply Forall_app; (split; [ exact U1 | apply Forall_app; auto ]).
Qed.

Lemma process_app m a : forall f b, proc f m (a ++ b) = match proc f m a with (os, Ok _) => let (os', r) := proc (apply_all f os) m b in (os ++ os', r) | (os, e) => (os, e) end.
Proof.
  induction a as [|d a IH]; intros f b; [ cbn [app process apply_all fold_left]; destruct (proc f m b); reflexivity | ]. cbn [app process]. destruct (existsb _ _); [ apply IH | ]. destruct (dir_empty _ _ _); [ apply IH | ].
  destruct (parse _ m d) as [ | | | s ]; try reflexivity.
  - rewrite IH. destruct (proc (unlink f (d, s_exec st)) m a) as [os [ [] | | ]]; try reflexivity. cbn [apply_all fold_left apply]. fold (apply_all (unlink f (d, s_exec st)) os).
    destruct (proc (apply_all (unlink f (d, s_exec st)) os) m b). reflexivity.
  - destruct (render s) as [ | | c ]; try reflexivity. rewrite IH. destruct (proc (put (unlink f (d, s_exec st)) (d, s_exec st) c) m a) as [os [ [] | | ]]; [ | destruct (s_skip_empty st); reflexivity.. ].
    assert (E : apply_all f (Unlink (d, s_exec st) :: Truncate (d, s_exec st) :: Write (d, s_exec st) c :: os) = apply_all (put (unlink f (d, s_exec st)) (d, s_exec st) c) os).
    { rewrite <- write_put, <- apply_all_app. reflexivity. }
    destruct (s_skip_empty st); rewrite E; destruct (proc (apply_all (put (unlink f (d, s_exec st)) (d, s_exec st) c) os) m b); reflexivity.
Qed.
Lemma sources_app a : forall f b, srcsf f (a ++ b) = match srcsf f a with (os, Ok _) => let (os', r) := srcsf (apply_all f os) b in (os ++ os', r) | (os, e) => (os, e) end.
Proof.
  induction a as [|s a IH]; intros f b; [ cbn [app sources apply_all fold_left]; destruct (srcsf f b); reflexivity | ]. cbn [app sources]. destruct (plan f s) as [ [ [ds m] | ] | | ]; try reflexivity; [ | apply IH ].
  destruct (proc f m ds) as [os1 [ [] | | ]]; try reflexivity. rewrite IH. destruct (srcsf (apply_all f os1) a) as [os2 [ [] | | ]]; try reflexivity.
  rewrite apply_all_app. destruct (srcsf (apply_all (apply_all f os1) os2) b). now rewrite app_assoc.
Qed.
Definition result (f : files) (m : M) (d : list bytes) (c : option bytes) : Prop :=
  parse f m d = PSkip /\ c = None \/ exists s code, parse f m d = PSchema s /\ render s = RCode code /\ c = Some code.
Lemma process_head m d dirs f os : d <> dbd -> d <> opd -> has_go st f d -> ~ In d dirs -> proc f m (d :: dirs) = (os, Ok tt) -> result f m d (lookup (apply_all f os) (d, s_exec st)).
Proof.
  intros N1 N2 HG NI E. cbn [process] in E. destruct (existsb _ _) eqn:Sk; [ apply skip_spec in Sk; intuition | ]. rewrite (proj2 (dir_empty_spec st f d) HG) in E.
  assert (PE : parse (unlink f (d, s_exec st)) m d = parse f m d) by (apply IND, agree_unlink, agree_refl). rewrite PE in E.
  assert (Fr : forall g os1 r1, proc g m dirs = (os1, r1) -> Forall (fun o => target o <> (d, s_exec st)) os1).
  { intros g os1 r1 P. eapply Forall_impl; [ | exact (process_targets m dirs g os1 r1 P) ]. cbn. intros o (x & I & _ & _ & ->) [= ->]. contradiction. }
  destruct (parse f m d) as [ | | | s ] eqn:P; try discriminate E.
  - left. split; [ exact P | ]. destruct (proc (unlink f (d, s_exec st)) m dirs) as [os1 r1] eqn:P1. injection E as <- _. cbn [apply_all fold_left apply]. fold (apply_all (unlink f (d, s_exec st)) os1).
    rewrite lookup_frame by (eapply Fr; exact P1). rewrite lookup_unlink. destruct (path_dec _ _); congruence.
  - right. destruct (render s) as [ | | c ] eqn:R; try discriminate E. exists s, c. split; [ exact P | split; [ exact R | ] ].
    destruct (proc (put (unlink f (d, s_exec st)) (d, s_exec st) c) m dirs) as [os1 r1] eqn:P1.
    assert (E' : os = [Unlink (d, s_exec st); Truncate (d, s_exec st); Write (d, s_exec st) c] ++ os1) by (destruct (s_skip_empty st); injection E as <- _; reflexivity).
    rewrite E', apply_all_app, write_put, lookup_frame by (eapply Fr; exact P1). rewrite lookup_put. destruct (path_dec _ _); congruence.
Qed.
Lemma process_last m d a b f os : d <> dbd -> d <> opd -> has_go st f d -> ~ In d b -> proc f m (a ++ d :: b) = (os, Ok tt) -> result f m d (lookup (apply_all f os) (d, s_exec st)).
Proof.
  intros N1 N2 HG NI E. rewrite process_app in E. destruct (proc f m a) as [os1 [ [] | | ]] eqn:P1; try discriminate E. destruct (proc (apply_all f os1) m (d :: b)) as [os2 r2] eqn:P2. injection E as <- ->.
  rewrite apply_all_app. assert (A : agree st dbd opd (apply_all f os1) f) by (apply (process_agree m a f os1 (Ok tt) f P1), agree_refl).
  assert (HG' : has_go st (apply_all f os1) d) by (apply (agree_has_go f); auto; now apply agree_sym).
  pose proof (process_head m d b (apply_all f os1) os2 N1 N2 HG' NI P2) as Q. unfold result in *. now rewrite (proj2 (IND _ _ A) m d) in Q.
Qed.
Lemma sources_last s m d a b after : forall before f os, d <> dbd -> d <> opd -> has_go st f d -> plan f s = Ok (Some (a ++ d :: b, m)) -> ~ In d b -> ~ asked plan f after d ->
  srcsf f (before ++ s :: after) = (os, Ok tt) -> result f m d (lookup (apply_all f os) (d, s_exec st)).
Proof.
  intros before f os N1 N2 HG Pl NI NA E. rewrite sources_app in E. destruct (srcsf f before) as [os1 [ [] | | ]] eqn:P1; try discriminate E. destruct (srcsf (apply_all f os1) (s :: after)) as [os2 r2] eqn:P2. injection E as <- ->.
  assert (A : agree st dbd opd (apply_all f os1) f).
  { apply agree_ops; [ | apply agree_refl ]. eapply Forall_impl; [ | exact (sources_targets before f os1 _ P1) ]. cbn. intros o (x & _ & _ & _ & ->). apply exec_not_users. }
  rewrite apply_all_app. set (g := apply_all f os1) in *. cbn [sources] in P2. rewrite (proj1 (IND _ _ A) s), Pl in P2.
  destruct (proc g m (a ++ d :: b)) as [os3 [ [] | | ]] eqn:P3; try discriminate P2. destruct (srcsf (apply_all g os3) after) as [os4 r4] eqn:P4. injection P2 as <- ->.
  rewrite apply_all_app. rewrite lookup_frame.
  - assert (HG' : has_go st g d) by (apply (agree_has_go f); auto; now apply agree_sym). pose proof (process_last m d a b g os3 N1 N2 HG' NI P3) as Q. unfold result in *. now rewrite (proj2 (IND _ _ A) m d) in Q.
  - eapply Forall_impl; [ | exact (sources_targets after _ os4 _ P4) ]. cbn. intros o (x & As & _ & _ & ->) [= ->]. apply NA. destruct As as (s' & ds & m' & I1 & Pl' & I2). exists s', ds, m'. split; [ exact I1 | split; [ | exact I2 ] ].
    rewrite <- Pl'. symmetry. apply IND. apply (process_agree m (a ++ d :: b) g os3 (Ok tt) f P3 A).
Qed.
End Proofs.
