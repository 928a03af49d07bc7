(** The fields of a struct beside the columns of its table (C76). *)
From Coq Require Import Permutation.
From Verif Require Import Base ModelCompiler ModelNaming ModelParser ModelGen ModelMethods SpecSql SpecGo SpecGen SpecParser SpecEnd SpecOutput
  LemmasBase LemmasCompiler LemmasParser LemmasGen LemmasGen2 PropNaming PropParser PropGen PropEnd.

Lemma combine_self {A C} (gs : list A) (cs : list C) : length gs = length cs -> Forall2 (fun f c => In (f, c) (combine gs cs)) gs cs.
Proof.
  intros L. assert (G : forall gs0 cs0, length gs0 = length cs0 -> incl (combine gs0 cs0) (combine gs cs) -> Forall2 (fun f c => In (f, c) (combine gs cs)) gs0 cs0); [ | apply G; [ exact L | apply incl_refl ] ].
  clear L. induction gs0 as [|f gs0 IH]; intros [|c cs0] L I; try discriminate; constructor; [ apply I; now left | ]. apply IH; [ now injection L | intros x X; apply I; now right ].
Qed.
Lemma forall2_length {A C} (R : A -> C -> Prop) l m : Forall2 R l m -> length l = length m.
Proof. induction 1; cbn; congruence. Qed.
Lemma combine_select {A C} (P : A -> Prop) (gs : list A) : forall (cs : list C) ks, length gs = length cs -> selects (fun x => P (fst x)) (combine gs cs) ks -> selects P gs (map fst ks).
Proof.
  induction gs as [|f gs IH]; intros [|c cs] ks L SE; try discriminate; cbn [combine] in SE; inversion SE; subst; cbn [map]; [ constructor | | ]; injection L as L.
  - constructor; [ assumption | eapply IH; eassumption ].
  - apply sel_no; [ assumption | eapply IH; eassumption ].
Qed.
Lemma combine_nth {A C} (gs : list A) : forall (cs : list C) f c i, NoDup cs -> In (f, c) (combine gs cs) -> nth_error cs i = Some c -> nth_error gs i = Some f.
Proof.
  induction gs as [|g gs IH]; intros [|x cs] f c i ND I N; cbn [combine In] in *; try contradiction. apply NoDup_cons_iff in ND as [N1 N2].
  destruct i as [|i]; cbn [nth_error] in *.
  - injection N as ->. destruct I as [ [= <- ] | I ]; [ reflexivity | ]. exfalso. apply N1. eapply in_combine_r. exact I.
  - destruct I as [ [= <- <-] | I ]; [ exfalso; apply N1; eapply nth_error_In; exact N | ]. eapply IH; eassumption.
Qed.
Lemma combine_map {A C D} (h : C -> D) (gs : list A) : forall cs f c, In (f, c) (combine gs cs) -> In (f, h c) (combine gs (map h cs)).
Proof. induction gs as [|g gs IH]; intros [|x cs] f c I; cbn [combine In map] in *; try contradiction. destruct I as [ [= <- <-] | I ]; [ now left | right; eauto ]. Qed.

Section View.
Variables (conv : bytes) (wrap unwrap : gotype -> bytes * bytes).
Variable sort : list (list nat * sfield) -> list (list nat * sfield).
Variables (name : bytes) (doc : option bytes) (ds : list decl) (t : table).
Notation rename := (rename_func conv).
Hypothesis SORT : sorts sort.
Hypothesis ASCII : ascii_source name ds.
Hypothesis PARSED : parse_struct sort rename wrap unwrap name doc ds = Ok (Some t).

Definition beside (F : fields) (f : sfield) (c : column) : Prop := In (f, c) (combine (all F) (t_columns t)).
Record viewed (F : fields) : Prop := {
  vw_fields : fields_of rename ds F (map c_name (t_columns t));
  vw_built : exists fs ro, build_table rename wrap unwrap name ro fs = Ok t;
  vw_for : Forall2 (column_for rename) (all F) (t_columns t);
  vw_all : Forall2 (beside F) (all F) (t_columns t);
  vw_inserted : Forall2 (beside F) (inserted F) (insert_columns t);
  vw_updated : Forall2 (beside F) (updated F) (columns_without_pk t);
  vw_keys : Forall2 (beside F) (keys F) (t_keys t);
  vw_auto : match auto F, t_auto t with Some f, Some c => beside F f c | None, None => True | _, _ => False end;
  vw_wf : wf t;
  vw_table : plain_name (t_name t);
  vw_plain : forall c, In c (t_columns t) -> plain_name (c_name c) /\ c_wrap c = wrap (c_type c) /\ c_unwrap c = unwrap (c_type c) }.
Lemma full_view : exists F, viewed F.
Proof.
  destruct ASCII as (A1 & A2 & A3). destruct (parse_table sort rename wrap unwrap name doc ds t SORT PARSED) as (fs & FS & P & _ & (gs & ks & SE & F2 & KS & KE & AU) & WF).
  assert (BT : exists ro, build_table rename wrap unwrap name ro fs = Ok t).
  { unfold parse_struct in PARSED. destruct (annotated doc ds) as [ro|]; [ | discriminate ]. rewrite FS in PARSED. exists ro.
    destruct (build_table rename wrap unwrap name ro fs) as [t0| |]; cbn [bind] in PARSED; try discriminate. destruct (t_columns t0); [ discriminate | congruence ]. }
  destruct BT as [ro BT]. pose proof (built_fine conv wrap unwrap name ro fs t A1 A2 ltac:(eapply Permutation_Forall; [ symmetry; exact P | exact A3 ]) BT) as [PT PC].
  assert (ND : NoDup (t_columns t)) by (eapply NoDup_map_inv; apply (wf_names t WF)).
  assert (L : length gs = length (t_columns t)) by (eapply forall2_length; exact F2). pose proof (combine_self _ _ L) as SELF.
  assert (COL : forall f c, In (f, c) (combine gs (t_columns t)) -> (c_readonly c = true <-> readonly_field f) /\ (t_auto t = Some c <-> auto_field f) /\ (In c (t_keys t) <-> key_field f)).
  { intros f c I. pose proof (forall2_in _ _ _ f c F2 I) as CF. split; [ apply CF | ]. split.
    + rewrite AU. split; [ intros (g & J & H); rewrite (combine_left gs (t_columns t) f g c ND I J); exact H | intros H; exists f; auto ].
    + rewrite KE, in_map_iff. split.
      * intros ((g & c') & E & J). cbn in E. subst c'. apply (selects_In _ _ _ (g, c) KS) in J as [J H]. rewrite (combine_left gs (t_columns t) f g c ND I J). exact H.
      * intros H. exists (f, c). split; [ reflexivity | ]. apply (selects_In _ _ _ (f, c) KS). auto. }
  destruct (combine_filter (fun f c => In (f, c) (combine gs (t_columns t))) insert_field (fun c => negb (c_readonly c) && negb (is_auto t c)) gs (t_columns t) SELF) as (hs & SH & FH).
  { intros f c I. destruct (COL f c I) as (H1 & H2 & _). pose proof (is_auto_spec t c WF (in_combine_r _ _ _ _ I)) as H3. unfold insert_field. rewrite <- H1, <- H2, <- H3.
    destruct (c_readonly c), (is_auto t c); cbn; intuition congruence. }
  assert (UV : exists us, selects update_field gs us /\ Forall2 (fun f c => In (f, c) (combine gs (t_columns t))) us (columns_without_pk t)).
  { apply combine_filter; [ exact SELF | ]. intros f c I. destruct (COL f c I) as (H1 & H2 & H3). pose proof (columns_without_pk_spec t c WF) as H4. unfold columns_without_pk in H4. rewrite filter_In in H4.
    pose proof (in_combine_r _ _ _ _ I) as Ic. unfold updatable, is_key in H4. unfold update_field. rewrite <- H1, <- H2, <- H3. split.
    - intros E. destruct (proj1 H4 (conj Ic E)) as (_ & X & Y). rewrite X. intuition congruence.
    - intros (X & Y & Z). apply H4. split; [ exact Ic | ]. split; [ destruct (c_readonly c); [ now destruct X | reflexivity ] | tauto ]. }
  destruct UV as (us & SU & FU).
  assert (AV : exists a, (match a, t_auto t with Some f, Some c => In (f, c) (combine gs (t_columns t)) | None, None => True | _, _ => False end) /\ forall f, a = Some f <-> In f gs /\ auto_field f).
  { destruct (t_auto t) as [c|] eqn:E.
    - destruct (proj1 (AU c) eq_refl) as (f & I & A). exists (Some f). split; [ exact I | ]. intros g. split; [ intros [= <-]; split; [ eapply in_combine_l; exact I | exact A ] | ].
      intros [J G]. assert (X : exists c', In (g, c') (combine gs (t_columns t))). { clear - J L. revert L. generalize (t_columns t). induction gs as [|x gs IH]; intros [|y l] L; [ destruct J | destruct J | discriminate | ]. destruct J as [->|J]; [ exists y; now left | ]. destruct (IH J l) as [c' H]; [ now injection L | ]. exists c'. now right. }
      destruct X as [c' X]. assert (EC : Some c = Some c') by (apply AU; exists g; auto). injection EC as ->. f_equal. eapply combine_left; eassumption.
    - exists None. split; [ exact I | ]. intros g. split; [ discriminate | ]. intros [J G].
      assert (X : exists c', In (g, c') (combine gs (t_columns t))). { clear - J L. revert L. generalize (t_columns t). induction gs as [|x gs IH]; intros [|y l] L; [ destruct J | destruct J | discriminate | ]. destruct J as [->|J]; [ exists y; now left | ]. destruct (IH J l) as [c' H]; [ now injection L | ]. exists c'. now right. }
      destruct X as [c' X]. assert (EC : None = Some c') by (apply AU; exists g; auto). discriminate. }
  destruct AV as (a & AV1 & AV2).
  exists {| all := gs; inserted := hs; updated := us; keys := map fst ks; auto := a |}. constructor; cbn [all inserted updated keys auto]; auto.
  - split; [ | split; [ exact SH | split; [ exact SU | split; [ eapply combine_select; eassumption | exact AV2 ] ] ] ]. cbn [all]. split; [ | split; [ now apply names_of | apply (wf_names t WF) ] ].
    intros f. rewrite (selects_In _ _ _ f SE). split; intros [I H]; (split; [ eapply Permutation_in; [ | exact I ]; (exact P || (symmetry; exact P)) | exact H ]).
  - eauto.
  - unfold beside. cbn [all]. rewrite KE. assert (SUB : incl ks (combine gs (t_columns t))) by (intros x I; eapply selects_In in I; [ apply I | exact KS ]). clear - SUB. induction ks as [|[f c] ks IH]; cbn [map]; constructor; [ apply SUB; now left | apply IH; intros x I; apply SUB; now right ].
Qed.
End View.
