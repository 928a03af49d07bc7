(** Proofs about parsing structs: the fields found, and their order. *)
From Coq Require Import Permutation Sorted.
From Verif Require Import Base ModelCompiler ModelParser SpecParser LemmasBase.

Lemma shallow_embeds n nm ex ty tag inner : shallow n (Embeds nm ex ty tag inner) = (ungrouped inner /\ match n with O => inner = [] | S n' => fold_right (fun d P => shallow n' d /\ P) True inner end).
Proof. destruct n; reflexivity. Qed.

(** ** Induction over declarations *)
Section DeclInd.
Variable P : decl -> Prop.
Hypothesis HN : forall ns ty tag, P (Names ns ty tag).
Hypothesis HE : forall n ex ty tag inner, Forall P inner -> P (Embeds n ex ty tag inner).
Hypothesis HO : P Opaque.
Fixpoint decl_induction (d : decl) : P d :=
  match d with
  | Names ns ty tag => HN ns ty tag
  | Embeds n ex ty tag inner => HE n ex ty tag inner ((fix go l : Forall P l := match l with [] => Forall_nil P | x :: l' => Forall_cons x (decl_induction x) (go l') end) inner)
  | Opaque => HO
  end.
End DeclInd.

Lemma make_field_at prev n ty ex em tag : make_field prev n ty ex em tag = field_at prev n ty ex em tag.
Proof. reflexivity. Qed.

(** ** The fields found are those declared, whatever their indexes *)
Definition queue_fields (q : queued) : list sfield := flat_map (decl_fields (q_prev q)) (q_decls q).
Definition queue_structs (q : queued) : nat := S (structs (q_decls q)).
Lemma visit_names_fields prev ty tag idx ns : forall k h, map snd (snd (visit_names prev ty tag idx k ns h)) = map (fun n => field_at prev (fst n) ty (snd n) false tag) ns.
Proof.
  induction ns as [|[n ex] ns IH]; intros k h; [reflexivity|]. cbn [visit_names]. destruct (append h idx k) as [h1 s]. specialize (IH (S k) h1).
  destruct (visit_names prev ty tag idx (S k) ns h1) as [h2 out]. cbn [snd map] in *. rewrite IH. reflexivity.
Qed.
Lemma visit_fields prev idx ds : forall i h h' out new, visit prev idx i ds h = (h', out, new) ->
  Permutation (map snd out ++ flat_map queue_fields new) (flat_map (decl_fields prev) ds) /\ list_sum (map queue_structs new) = structs ds.
Proof.
  induction ds as [|d ds IH]; intros i h h' out new E; cbn [visit] in E.
  - injection E as <- <- <-. split; reflexivity.
  - destruct d as [ns ty tag|n ex ty tag inner|].
    + pose proof (visit_names_fields prev ty tag idx ns i h) as VN. destruct (visit_names prev ty tag idx i ns h) as [h1 fs]. cbn [snd] in VN.
      destruct (visit prev idx (S i) ds h1) as [[h2 out2] q2] eqn:V. injection E as <- <- <-. destruct (IH _ _ _ _ _ V) as [P S0]. split; [|exact S0].
      cbn [flat_map decl_fields]. unfold field in *. rewrite map_app, VN, <- app_assoc. apply Permutation_app_head, P.
    + destruct (append h idx i) as [h1 s]. destruct (append h1 idx i) as [h1' s2]. destruct (visit prev idx (S i) ds h1') as [[h2 out2] q2] eqn:V.
      injection E as <- <- <-. destruct (IH _ _ _ _ _ V) as [P S0]. split.
      * cbn [flat_map decl_fields map snd app]. rewrite make_field_at. constructor. unfold queue_fields at 1. cbn [q_prev q_decls f_paths make_field].
        transitivity (flat_map (decl_fields (prev ++ [(n, is_ptr ty)])) inner ++ (map snd out2 ++ flat_map queue_fields q2)).
        { rewrite !app_assoc. apply Permutation_app_tail. apply Permutation_app_comm. }
        apply Permutation_app_head, P.
      * cbn [map list_sum fold_right] in *. unfold structs in *. cbn [map list_sum fold_right structs_in]. unfold list_sum in *. rewrite S0. unfold queue_structs. cbn [q_decls]. unfold structs, list_sum. lia.
    + destruct (IH _ _ _ _ _ E) as [P S0]. split; [exact P|exact S0].
Qed.
Lemma explore_fields fuel : forall q h, list_sum (map queue_structs q) <= fuel ->
  exists h' out, explore fuel q h = Some (h', out) /\ Permutation (map snd out) (flat_map queue_fields q).
Proof.
  induction fuel as [|fuel IH]; intros [|f q] h L; cbn [explore].
  - eauto.
  - cbn in L. lia.
  - eauto.
  - destruct (visit (q_prev f) (q_idx f) 0 (q_decls f) h) as [[h1 out1] new] eqn:V. destruct (visit_fields _ _ _ _ _ _ _ _ V) as [P S0].
    destruct (IH (q ++ new) h1) as (h2 & out2 & E & P2).
    { rewrite map_app, list_sum_app, S0. cbn [map list_sum fold_right] in L. unfold queue_structs at 1 in L. unfold list_sum in *. lia. }
    rewrite E. exists h2, (out1 ++ out2). split; [reflexivity|]. rewrite map_app, P2, flat_map_app. cbn [flat_map].
    transitivity ((map snd out1 ++ flat_map queue_fields new) ++ flat_map queue_fields q).
    { rewrite <- app_assoc. apply Permutation_app_head, Permutation_app_comm. }
    apply Permutation_app_tail, P.
Qed.
Lemma explored_fields ds : exists h out, explored ds = Some (h, out) /\ Permutation (map snd out) (declared ds).
Proof.
  destruct (explore_fields (S (structs ds)) [root ds] [[]]) as (h & out & E & P); [cbn [map list_sum fold_right]; unfold queue_structs, root; cbn [q_decls]; lia|].
  exists h, out. split; [exact E|]. rewrite P. cbn. rewrite app_nil_r. reflexivity.
Qed.
Lemma fields_perm sort ds : sorts sort -> exists fs, fields sort ds = Some fs /\ Permutation fs (declared ds).
Proof.
  intros SO. unfold fields. destruct (explored_fields ds) as (h & out & -> & P). eexists. split; [reflexivity|]. rewrite <- P.
  rewrite (Permutation_map snd (proj1 (SO _))), map_map. reflexivity.
Qed.

(** ** Indexes *)
Lemma less_irrefl a : less a a = false.
Proof. induction a; cbn; [reflexivity|]. rewrite Nat.eqb_refl. assumption. Qed.
Lemma less_asym a : forall b, less a b = true -> less b a = false.
Proof.
  induction a as [|x a IH]; intros [|y b]; cbn; intros H; try discriminate; try reflexivity.
  destruct (Nat.eqb_spec x y) as [->|N]; [rewrite Nat.eqb_refl; auto|]. destruct (Nat.eqb_spec y x); [congruence|]. apply Nat.ltb_lt in H. apply Nat.ltb_ge. lia.
Qed.
Lemma less_app p a b : less (p ++ a) (p ++ b) = less a b.
Proof. induction p as [|x p IH]; cbn; [reflexivity|]. rewrite Nat.eqb_refl. exact IH. Qed.
Lemma sorted_is {A} (s l : list (list nat * A)) : Permutation s l -> StronglySorted (fun x y => less (fst y) (fst x) = false) s ->
  StronglySorted (fun x y => less (fst x) (fst y) = true) l -> s = l.
Proof.
  intros P SS SL. revert s P SS. induction SL as [|y l SL IH F]; intros s P SS.
  - symmetry in P. apply Permutation_nil in P. exact P.
  - destruct s as [|x s]; [apply Permutation_nil in P; discriminate|].
    assert (x = y).
    { assert (I : In x (y :: l)) by (eapply Permutation_in; [exact P|now left]). destruct I as [<-|I]; [reflexivity|].
      rewrite Forall_forall in F. specialize (F x I). inversion SS as [|? ? _ FS]; subst. rewrite Forall_forall in FS.
      assert (J : In y (x :: s)) by (eapply Permutation_in; [symmetry; exact P|now left]). destruct J as [->|J]; [reflexivity|].
      specialize (FS y J). congruence. }
    subst y. f_equal. inversion SS; subst. apply IH; [eapply Permutation_cons_inv; exact P|assumption].
Qed.

(** The fields with the index of their declaration *)
Fixpoint number (prev : path) (p : list nat) (k : nat) (ns : list (bytes * bool)) (ty : gotype) (tag : bytes) : list (list nat * sfield) :=
  match ns with [] => [] | (n, ex) :: ns' => (p ++ [k], field_at prev n ty ex false tag) :: number prev p (S k) ns' ty tag end.
Definition labels_of (rec : path -> list nat -> decl -> list (list nat * sfield)) : path -> list nat -> nat -> list decl -> list (list nat * sfield) :=
  fix go prev p i ds := match ds with [] => [] | d :: ds' => rec prev (p ++ [i]) d ++ go prev p (S i) ds' end.
(** [p] is the index of the declaration itself *)
Fixpoint label (prev : path) (p : list nat) (d : decl) : list (list nat * sfield) :=
  match d with
  | Names ns ty tag => number prev (removelast p) (last p 0) ns ty tag
  | Embeds n ex ty tag inner =>
      (p, field_at prev n ty ex true tag) ::
      (fix go i ds := match ds with [] => [] | d :: ds' => label (prev ++ [(n, is_ptr ty)]) (p ++ [i]) d ++ go (S i) ds' end) 0 inner
  | Opaque => []
  end.
Fixpoint labels (prev : path) (p : list nat) (i : nat) (ds : list decl) : list (list nat * sfield) :=
  match ds with [] => [] | d :: ds' => label prev (p ++ [i]) d ++ labels prev p (S i) ds' end.
Lemma label_embeds prev p n ex ty tag inner : label prev p (Embeds n ex ty tag inner) = (p, field_at prev n ty ex true tag) :: labels (prev ++ [(n, is_ptr ty)]) p 0 inner.
Proof.
  cbn [label]. f_equal. generalize 0 as i. induction inner as [|d inner IH]; intros i; [reflexivity|]. cbn [labels]. f_equal. apply IH.
Qed.
Lemma label_names prev p i ns ty tag : label prev (p ++ [i]) (Names ns ty tag) = number prev p i ns ty tag.
Proof. cbn [label]. rewrite removelast_last, last_last. reflexivity. Qed.
Lemma number_fields prev p ty tag ns : forall k, map snd (number prev p k ns ty tag) = map (fun n => field_at prev (fst n) ty (snd n) false tag) ns.
Proof. induction ns as [|[n ex] ns IH]; intros k; [reflexivity|]. cbn. rewrite IH. reflexivity. Qed.
Lemma label_fields d : forall prev p i, map snd (label prev (p ++ [i]) d) = decl_fields prev d.
Proof.
  induction d as [ns ty tag|n ex ty tag inner IH|] using decl_induction; intros prev p i.
  - rewrite label_names. apply number_fields.
  - rewrite label_embeds. cbn [map snd decl_fields]. f_equal.
    change (Nat.leb 1 (ty_ptr ty)) with (is_ptr ty). generalize (p ++ [i]) as p'. generalize 0 as k.
    induction IH as [|d inner ID _ IH2]; intros k p'; [reflexivity|]. cbn [labels flat_map]. rewrite map_app, ID. f_equal. apply IH2.
  - reflexivity.
Qed.
Lemma labels_fields ds : forall prev p i, map snd (labels prev p i ds) = flat_map (decl_fields prev) ds.
Proof. induction ds as [|d ds IH]; intros prev p i; [reflexivity|]. cbn [labels flat_map]. rewrite map_app, label_fields, IH. reflexivity. Qed.

(** They are strictly increasing when only the last declaration of a struct has several names. *)
Definition below (p : list nat) (i : nat) (x : list nat * sfield) : Prop := exists k r, fst x = p ++ k :: r /\ i <= k.
Definition at_index (p : list nat) (i : nat) (x : list nat * sfield) : Prop := exists r, fst x = p ++ i :: r.
Lemma number_below prev p ty tag ns : forall k, Forall (below p k) (number prev p k ns ty tag) /\ StronglySorted (fun x y => less (fst x) (fst y) = true) (number prev p k ns ty tag).
Proof.
  induction ns as [|[n ex] ns IH]; intros k; cbn [number]; [split; constructor|]. destruct (IH (S k)) as [F SS]. split.
  - constructor; [exists k, []; split; [reflexivity|lia]|]. eapply Forall_impl; [|exact F]. intros x (j & r & E & L). exists j, r. split; [exact E|lia].
  - constructor; [exact SS|]. eapply Forall_impl; [|exact F]. intros x (j & r & E & L). cbn [fst]. rewrite E, less_app. cbn. destruct (Nat.eqb_spec k j); [lia|]. apply Nat.ltb_lt. lia.
Qed.
Lemma sorted_app {A} (R : A -> A -> Prop) l1 l2 : StronglySorted R l1 -> StronglySorted R l2 -> (forall x y, In x l1 -> In y l2 -> R x y) -> StronglySorted R (l1 ++ l2).
Proof.
  intros S1 S2 H. induction S1 as [|x l1 S1 IH F]; [exact S2|]. cbn. constructor.
  - apply IH. intros; apply H; [now right|assumption].
  - apply Forall_app. split; [exact F|]. apply Forall_forall. intros y I. apply H; [now left|exact I].
Qed.
Lemma labels_sorted ds : (forall d, In d ds -> forall prev p i, (single d -> Forall (at_index p i) (label prev (p ++ [i]) d)) /\ Forall (below p i) (label prev (p ++ [i]) d) /\
    StronglySorted (fun x y => less (fst x) (fst y) = true) (label prev (p ++ [i]) d)) ->
  ungrouped ds -> forall prev p i, Forall (below p i) (labels prev p i ds) /\ StronglySorted (fun x y => less (fst x) (fst y) = true) (labels prev p i ds).
Proof.
  induction ds as [|d ds IH]; intros H U prev p i; [split; constructor|]. cbn [labels].
  destruct (H d (or_introl eq_refl) prev p i) as (HA & HB & HS).
  assert (UD : ungrouped ds) by (destruct ds; [exact I|apply U]).
  destruct (IH (fun d I => H d (or_intror I)) UD prev p (S i)) as [FB SS]. split.
  - apply Forall_app. split; [exact HB|]. eapply Forall_impl; [|exact FB]. intros x (k & r & E & L). exists k, r. split; [exact E|lia].
  - destruct ds as [|d2 ds]; [cbn; rewrite app_nil_r; exact HS|]. apply sorted_app; [exact HS|exact SS|]. intros x y Ix Iy.
    destruct U as [SI _]. specialize (HA SI). rewrite Forall_forall in HA, FB. destruct (HA x Ix) as (r1 & E1). destruct (FB y Iy) as (k & r2 & E2 & L).
    rewrite E1, E2, less_app. cbn. destruct (Nat.eqb_spec i k); [lia|]. apply Nat.ltb_lt. lia.
Qed.
Lemma label_sorted d : forall n, shallow n d -> forall prev p i, (single d -> Forall (at_index p i) (label prev (p ++ [i]) d)) /\ Forall (below p i) (label prev (p ++ [i]) d) /\
  StronglySorted (fun x y => less (fst x) (fst y) = true) (label prev (p ++ [i]) d).
Proof.
  induction d as [ns ty tag|nm ex ty tag inner IH|] using decl_induction; intros n SH prev p i.
  - rewrite label_names. destruct (number_below prev p ty tag ns i) as [F SS]. split; [|split; assumption].
    intros SI. cbn in SI. destruct ns as [|[n0 e0] [|? ?]]; cbn in SI; [constructor| |lia]. repeat constructor. exists []. reflexivity.
  - rewrite label_embeds. rewrite shallow_embeds in SH. destruct SH as [U SH].
    assert (IN : forall d, In d inner -> exists m, shallow m d).
    { destruct n as [|n]; [subst inner; intros d []|]. intros d I. exists n. clear - SH I. induction inner as [|x inner IH]; [contradiction|]. destruct SH as [SX SH]. destruct I as [<-|I]; auto. }
    destruct (labels_sorted inner) with (prev := prev ++ [(nm, is_ptr ty)]) (p := p ++ [i]) (i := 0) as [FB SS].
    { intros d I. rewrite Forall_forall in IH. destruct (IN d I) as [m SM]. intros; eapply IH; eassumption. }
    { exact U. }
    assert (AT : Forall (at_index p i) (labels (prev ++ [(nm, is_ptr ty)]) (p ++ [i]) 0 inner)).
    { eapply Forall_impl; [|exact FB]. intros x (k & r & E & _). exists (k :: r). rewrite E, <- app_assoc. reflexivity. }
    split; [|split].
    + intros _. constructor; [exists []; reflexivity|exact AT].
    + constructor; [exists i, []; split; [reflexivity|lia]|]. eapply Forall_impl; [|exact AT]. intros x [r E]. exists i, r. split; [exact E|lia].
    + constructor; [exact SS|]. eapply Forall_impl; [|exact FB]. intros x (k & r & E & _). cbn [fst]. rewrite E. rewrite <- (app_nil_r (p ++ [i])) at 1. rewrite less_app. reflexivity.
  - cbn. repeat split; constructor.
Qed.

(** ** With few levels no index is overwritten *)
Definition full (h : heap) (s : slice) : Prop := fst s < length h /\ length (nth (fst s) h []) = snd s.
Definition extends (h h' : heap) : Prop := exists l, h' = h ++ l.
Lemma extends_refl h : extends h h. Proof. exists []. symmetry. apply app_nil_r. Qed.
Lemma extends_trans a b c : extends a b -> extends b c -> extends a c.
Proof. intros [x ->] [y ->]. exists (x ++ y). symmetry. apply app_assoc. Qed.
Lemma extends_nth h h' a : extends h h' -> a < length h -> nth a h' [] = nth a h [].
Proof. intros [l ->] L. apply app_nth1. exact L. Qed.
Lemma full_extends h h' s : extends h h' -> full h s -> full h' s.
Proof. intros E [L F]. split; [destruct E as [l ->]; rewrite app_length; lia|]. rewrite (extends_nth h h' _ E L). exact F. Qed.
Definition valid (h : heap) (s : slice) : Prop := fst s < length h.
Lemma contents_extends h h' s : extends h h' -> valid h s -> contents h' s = contents h s.
Proof. intros E L. unfold contents. rewrite (extends_nth h h' _ E L). reflexivity. Qed.
Lemma full_contents h s : full h s -> contents h s = nth (fst s) h [] /\ length (contents h s) = snd s.
Proof. intros [L F]. unfold contents. rewrite <- F, firstn_all. auto. Qed.
Lemma append_full h s x h' s' : full h s -> append h s x = (h', s') -> extends h h' /\ valid h' s' /\ contents h' s' = contents h s ++ [x] /\
  (snd s <= 1 -> full h' s') /\ snd s' = S (snd s).
Proof.
  destruct s as [a n]. intros F E. destruct F as [L F]. cbn [fst snd] in *. unfold append in E. rewrite F, Nat.ltb_irrefl in E. rewrite <- F, firstn_all in E. injection E as <- <-.
  split; [eexists; reflexivity|]. unfold valid, contents, full. cbn [fst snd]. rewrite app_length. cbn [length]. split; [lia|].
  rewrite !app_nth2, Nat.sub_diag by lia. cbn [nth]. split; [|split].
  - rewrite <- F, firstn_all. rewrite <- Nat.add_1_r, firstn_app_2. reflexivity.
  - intros N1. split; [lia|]. rewrite app_length. cbn [length]. rewrite repeat_length. rewrite F in *. destruct n as [|[|n]]; [reflexivity|reflexivity|lia].
  - rewrite F. reflexivity.
Qed.
Lemma visit_names_labels prev ty tag idx ns : forall k h h' out, full h idx -> visit_names prev ty tag idx k ns h = (h', out) ->
  extends h h' /\ Forall (fun f => valid h' (fst f)) out /\ map (fun f => (contents h' (fst f), snd f)) out = number prev (contents h idx) k ns ty tag.
Proof.
  induction ns as [|[n ex] ns IH]; intros k h h' out F E; cbn [visit_names] in E.
  - injection E as <- <-. split; [apply extends_refl|]. split; constructor.
  - destruct (append h idx k) as [h1 s] eqn:A. destruct (append_full h idx k h1 s F A) as (E1 & V1 & C1 & _).
    destruct (visit_names prev ty tag idx (S k) ns h1) as [h2 out2] eqn:VN. injection E as <- <-.
    destruct (IH (S k) h1 h2 out2 (full_extends _ _ _ E1 F) VN) as (E2 & FV & M). split; [eapply extends_trans; eassumption|].
    assert (VS : valid h2 s) by (unfold valid in *; destruct E2 as [l ->]; rewrite app_length; lia). split; [constructor; [exact VS|exact FV]|].
    cbn [map fst snd number]. rewrite M, (contents_extends h1 h2 s E2 V1), C1, make_field_at, (contents_extends h h1 idx E1 (proj1 F)). reflexivity.
Qed.
Definition queue_labels (h : heap) (q : queued) : list (list nat * sfield) := labels (q_prev q) (contents h (q_idx q)) 0 (q_decls q).
(** [room h n q]: the struct may still embed [n] levels *)
Definition room (h : heap) (q : queued) : Prop :=
  q_decls q = [] \/ exists n, full h (q_idx q) /\ snd (q_idx q) + n <= 2 /\ Forall (shallow n) (q_decls q).
Lemma shallow_inner m inner : fold_right (fun d P => shallow m d /\ P) True inner <-> Forall (shallow m) inner.
Proof. induction inner as [|d inner IH]; cbn; [split; auto|]. rewrite IH. split; [intros [A B0]; constructor; auto|intros H; inversion H; auto]. Qed.
Lemma visit_labels prev idx ds : forall i h h' out new n, full h idx -> snd idx + n <= 2 -> Forall (shallow n) ds -> visit prev idx i ds h = (h', out, new) ->
  extends h h' /\ Forall (fun f => valid h' (fst f)) out /\ Forall (room h') new /\ Forall (fun q => valid h' (q_idx q)) new /\
  Permutation (map (fun f => (contents h' (fst f), snd f)) out ++ flat_map (queue_labels h') new) (labels prev (contents h idx) i ds).
Proof.
  induction ds as [|d ds IH]; intros i h h' out new n F L SH E; cbn [visit] in E.
  - injection E as <- <- <-. split; [apply extends_refl|]. repeat split; try constructor. 
  - inversion SH as [|? ? SD SDS]; subst. destruct d as [ns ty tag|nm ex ty tag inner|].
    + destruct (visit_names prev ty tag idx i ns h) as [h1 fs] eqn:VN. destruct (visit_names_labels prev ty tag idx ns i h h1 fs F VN) as (E1 & FV & M).
      destruct (visit prev idx (S i) ds h1) as [[h2 out2] q2] eqn:V. injection E as <- <- <-.
      destruct (IH _ _ _ _ _ n (full_extends _ _ _ E1 F) L SDS V) as (E2 & FV2 & R & VQ & P). split; [eapply extends_trans; eassumption|].
      assert (FV' : Forall (fun f => valid h2 (fst f)) fs). { eapply Forall_impl; [|exact FV]. intros f VF. unfold valid in *. destruct E2 as [l ->]. rewrite app_length. lia. }
      split; [apply Forall_app; auto|]. split; [exact R|]. split; [exact VQ|].
      cbn [labels]. unfold field in *. rewrite label_names, map_app, <- app_assoc.
      replace (map (fun f => (contents h2 (fst f), snd f)) fs) with (number prev (contents h idx) i ns ty tag).
      * apply Permutation_app_head. rewrite (contents_extends h h1 idx E1 (proj1 F)) in P. exact P.
      * rewrite <- M. apply map_ext_in. intros f I. rewrite Forall_forall in FV. rewrite (contents_extends h1 h2 _ E2 (FV f I)). reflexivity.
    + destruct (append h idx i) as [h1 s] eqn:A1. destruct (append_full h idx i h1 s F A1) as (E1 & V1 & C1 & _).
      destruct (append h1 idx i) as [h2 s2] eqn:A2. destruct (append_full h1 idx i h2 s2 (full_extends _ _ _ E1 F) A2) as (E2 & V2 & C2 & FU & SN).
      destruct (visit prev idx (S i) ds h2) as [[h3 out2] q2] eqn:V. injection E as <- <- <-.
      pose proof (extends_trans _ _ _ E1 E2) as E12.
      destruct (IH _ _ _ _ _ n (full_extends _ _ _ E12 F) L SDS V) as (E3 & FV2 & R & VQ & P). split; [eapply extends_trans; eassumption|].
      assert (VS : valid h3 s). { unfold valid in *. destruct (extends_trans _ _ _ E2 E3) as [l ->]. rewrite app_length. lia. }
      assert (VS2 : valid h3 s2). { unfold valid in *. destruct E3 as [l ->]. rewrite app_length. lia. }
      split; [constructor; [exact VS|exact FV2]|]. split; [|split; [constructor; [exact VS2|exact VQ]|]].
      * constructor; [|exact R]. unfold room. cbn [q_decls q_idx]. rewrite shallow_embeds in SD. destruct SD as [_ SD]. destruct n as [|n]; [left; exact SD|right].
        exists n. split; [eapply full_extends; [exact E3|]; apply FU; lia|]. split; [lia|]. apply shallow_inner, SD.
      * cbn [labels map flat_map]. rewrite label_embeds. cbn [app fst snd]. rewrite make_field_at.
        rewrite (contents_extends h1 h3 s (extends_trans _ _ _ E2 E3) V1), C1. constructor.
        unfold queue_labels at 1. cbn [q_prev q_idx q_decls f_paths make_field].
        rewrite (contents_extends h2 h3 s2 E3 V2), C2, (contents_extends h h1 idx E1 (proj1 F)).
        rewrite (contents_extends h h2 idx E12 (proj1 F)) in P.
        match goal with |- Permutation (?X ++ ?L ++ ?Y) (?L ++ ?Z) => transitivity (L ++ (X ++ Y)); [rewrite !app_assoc; apply Permutation_app_tail, Permutation_app_comm|apply Permutation_app_head] end. exact P.
    + destruct (IH _ _ _ _ _ n F L SDS E) as (E1 & FV & R & VQ & P). repeat (split; [assumption|]). exact P.
Qed.
Lemma room_extends h h' q : extends h h' -> room h q -> room h' q.
Proof. intros E [D|(n & F & R)]; [left; exact D|right]. exists n. split; [eapply full_extends; eassumption|exact R]. Qed.
Lemma explore_labels fuel : forall q h h' out, Forall (room h) q -> Forall (fun q => valid h (q_idx q)) q -> explore fuel q h = Some (h', out) ->
  extends h h' /\ Permutation (map (fun f => (contents h' (fst f), snd f)) out) (flat_map (queue_labels h) q).
Proof.
  induction fuel as [|fuel IH]; intros [|f q] h h' out R VQ E; cbn [explore] in E; try discriminate; try (injection E as <- <-; split; [apply extends_refl|constructor]).
  destruct (visit (q_prev f) (q_idx f) 0 (q_decls f) h) as [[h1 out1] new] eqn:V.
  destruct (explore fuel (q ++ new) h1) as [[h2 out2]|] eqn:EX; [|discriminate]. injection E as <- <-.
  inversion R as [|? ? RF RQ]; subst. inversion VQ as [|? ? VF VQQ]; subst.
  assert (X : extends h h1 /\ Forall (fun f => valid h1 (fst f)) out1 /\ Forall (room h1) new /\ Forall (fun q => valid h1 (q_idx q)) new /\
    Permutation (map (fun f => (contents h1 (fst f), snd f)) out1 ++ flat_map (queue_labels h1) new) (queue_labels h f)).
  { destruct RF as [D|(n & F & L & SH)].
    - rewrite D in V. cbn in V. injection V as <- <- <-. unfold queue_labels. rewrite D. split; [apply extends_refl|]. repeat split; constructor.
    - exact (visit_labels _ _ _ _ _ _ _ _ n F L SH V). }
  destruct X as (E1 & FV & RN & VN & P).
  destruct (IH (q ++ new) h1 h2 out2) as [E2 P2]; [apply Forall_app; split; [eapply Forall_impl; [|exact RQ]; intros; eapply room_extends; eassumption|exact RN]| |exact EX|].
  { apply Forall_app. split; [|exact VN]. eapply Forall_impl; [|exact VQQ]. intros x VX. unfold valid in *. destruct E1 as [l ->]. rewrite app_length. lia. }
  split; [eapply extends_trans; eassumption|]. unfold field in *. rewrite map_app, P2, flat_map_app. cbn [flat_map].
  replace (map (fun f => (contents h2 (fst f), snd f)) out1) with (map (fun f => (contents h1 (fst f), snd f)) out1)
    by (apply map_ext_in; intros x I; rewrite Forall_forall in FV; rewrite (contents_extends h1 h2 _ E2 (FV x I)); reflexivity).
  replace (flat_map (queue_labels h1) q) with (flat_map (queue_labels h) q).
  2:{ clear - VQQ E1. induction VQQ as [|x q VX _ IH]; [reflexivity|]. cbn [flat_map]. rewrite IH. unfold queue_labels at 1 3. rewrite (contents_extends h h1 _ E1 VX). reflexivity. }
  transitivity ((map (fun f => (contents h1 (fst f), snd f)) out1 ++ flat_map (queue_labels h1) new) ++ flat_map (queue_labels h) q).
  { rewrite <- app_assoc. apply Permutation_app_head, Permutation_app_comm. }
  apply Permutation_app_tail, P.
Qed.
Lemma fields_in_order sort ds : sorts sort -> ungrouped ds -> Forall (shallow 2) ds -> fields sort ds = Some (declared ds).
Proof.
  intros SO U SH. unfold fields. destruct (explored_fields ds) as (h & out & E & _). rewrite E.
  destruct (explore_labels (S (structs ds)) [root ds] [[]] h out) as [_ P]; [|repeat constructor|exact E|].
  { constructor; [|constructor]. right. exists 2. split; [split; [apply le_n|reflexivity]|]. split; [apply le_n|exact SH]. }
  cbn [flat_map] in P. rewrite app_nil_r in P. unfold queue_labels, root in P. cbn [q_prev q_idx q_decls contents] in P. cbn in P.
  destruct (labels_sorted ds) with (prev := [] : path) (p := [] : list nat) (i := 0) as [_ SS].
  { intros d I prev p i. rewrite Forall_forall in SH. apply (label_sorted d 2 (SH d I)). }
  { exact U. }
  destruct (SO (map (fun f => (contents h (fst f), snd f)) out)) as [PS SSS].
  rewrite (sorted_is _ (labels [] [] 0 ds)); [f_equal; apply labels_fields|transitivity (map (fun f => (contents h (fst f), snd f)) out); assumption|exact SSS|exact SS].
Qed.
