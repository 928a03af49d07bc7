(** Invariants of the tables built by the parser. *)
From Verif Require Import Base ModelCompiler LemmasBase.

Record wf (t : table) : Prop := {
  wf_pos : map c_pos (t_columns t) = seq 0 (length (t_columns t));
  wf_names : NoDup (map c_name (t_columns t));
  wf_keys : forall k, In k (t_keys t) -> In k (t_columns t) /\ c_readonly k = false;
  wf_keys_nodup : NoDup (t_keys t);
  wf_auto : forall a, t_auto t = Some a -> In a (t_columns t) /\ c_readonly a = false /\ ~ In a (t_keys t)
}.

Lemma NoDup_snoc {A} (l : list A) x : NoDup l -> ~ In x l -> NoDup (l ++ [x]).
Proof.
  intros N I. induction l as [|y l IH]; cbn [app]; [constructor; [auto|constructor]|].
  inversion N; subst. constructor.
  - rewrite in_app_iff. intros [H|[->|[]]]; [auto|]. apply I. now left.
  - apply IH; [assumption|]. intros H. apply I. now right.
Qed.

Lemma wf_extend t c name keys auto ro :
  wf t -> c_pos c = length (t_columns t) -> ~ In (c_name c) (map c_name (t_columns t)) ->
  (keys = t_keys t \/ (keys = t_keys t ++ [c] /\ c_readonly c = false)) ->
  (auto = t_auto t \/ (auto = Some c /\ keys = t_keys t /\ c_readonly c = false)) ->
  wf {| t_name := name; t_keys := keys; t_columns := t_columns t ++ [c]; t_readonly := ro; t_auto := auto |}.
Proof.
  intros W P NI K A.
  assert (NC : ~ In c (t_columns t)) by (intros I; apply NI; apply in_map; exact I).
  assert (NK : ~ In c (t_keys t)) by (intros I; apply NC; apply (wf_keys t W c I)).
  constructor; cbn [t_columns t_keys t_auto].
  - rewrite map_app, app_length, seq_app, (wf_pos t W). cbn. rewrite P. reflexivity.
  - rewrite map_app. apply NoDup_snoc; [apply (wf_names t W)|exact NI].
  - intros k I. destruct K as [->|[-> R]].
    + destruct (wf_keys t W k I) as [I2 R2]. split; [apply in_or_app; now left|exact R2].
    + apply in_app_iff in I. destruct I as [I|[<-|[]]].
      * destruct (wf_keys t W k I) as [I2 R2]. split; [apply in_or_app; now left|exact R2].
      * split; [apply in_or_app; right; now left|exact R].
  - destruct K as [->|[-> R]]; [apply (wf_keys_nodup t W)|]. apply NoDup_snoc; [apply (wf_keys_nodup t W)|exact NK].
  - intros a E. destruct A as [->|(-> & -> & R)].
    + destruct (wf_auto t W a E) as (I & R & NK2). split; [apply in_or_app; now left|]. split; [exact R|].
      destruct K as [->|[-> _]]; [exact NK2|]. rewrite in_app_iff. intros [I2|[->|[]]]; auto.
    + inversion E; subst a. split; [apply in_or_app; right; now left|]. split; [exact R|exact NK].
Qed.

Lemma add_field_wf rename wrap unwrap t f t' : wf t -> add_field rename wrap unwrap t f = Ok t' -> wf t'.
Proof.
  intros W. unfold add_field. destruct (Nat.ltb 1 _); [discriminate|].
  destruct (read_tag rename f) as [tr| |]; cbn [bind]; try discriminate.
  destruct tr as [|name opts]; [intros E; inversion E; subst; exact W|].
  destruct (Nat.eqb _ 0 && bseq _ _).
  { intros E; inversion E; subst. destruct name; [exact W|]. destruct W. constructor; assumption. }
  destruct (negb (f_exported f)); [intros E; inversion E; subst; exact W|].
  destruct (f_embedded f); [intros E; inversion E; subst; exact W|].
  destruct (bmem name _) eqn:M; [discriminate|]. apply bmem_not_In in M.
  set (c := {| c_name := name |}).
  destruct (has_opts (parse_tag opts) [B "auto_increment"; B "primary_key"; B "pk"]).
  - destruct (has_opts (parse_tag opts) [B "auto_increment"]).
    + destruct (t_auto t) eqn:A; [discriminate|].
      destruct (c_readonly c) eqn:R; [discriminate|]. intros E; inversion E; subst t'.
      apply wf_extend; auto.
    + destruct (c_readonly c) eqn:R; [discriminate|]. intros E; inversion E; subst t'.
      apply wf_extend; auto.
  - intros E; inversion E; subst t'. apply wf_extend; auto.
Qed.

Lemma add_fields_wf rename wrap unwrap fs : forall t t', wf t -> add_fields rename wrap unwrap t fs = Ok t' -> wf t'.
Proof.
  induction fs as [|f fs IH]; intros t t' W E; cbn [add_fields] in E; [inversion E; subst; exact W|].
  destruct (add_field rename wrap unwrap t f) as [t1| |] eqn:A; cbn [bind] in E; try discriminate.
  eapply IH; [eapply add_field_wf; eauto|exact E].
Qed.

Theorem build_table_wf rename wrap unwrap s ro fs t : build_table rename wrap unwrap s ro fs = Ok t -> wf t.
Proof.
  unfold build_table. apply add_fields_wf. constructor; cbn; intros; try constructor; try contradiction; discriminate.
Qed.

(** Consequences *)
Lemma wf_nth t c : wf t -> In c (t_columns t) -> nth_error (t_columns t) (c_pos c) = Some c.
Proof.
  intros W I. apply In_nth_error in I. destruct I as [i E].
  assert (P : nth_error (map c_pos (t_columns t)) i = Some (c_pos c)) by (rewrite nth_error_map, E; reflexivity).
  rewrite (wf_pos t W) in P. assert (L : (i < length (t_columns t))%nat) by (apply nth_error_Some; congruence).
  rewrite nth_error_nth' with (d := 0) in P by (rewrite seq_length; exact L).
  rewrite seq_nth in P by exact L. cbn in P. inversion P. congruence.
Qed.
Lemma wf_same t c d : wf t -> In c (t_columns t) -> In d (t_columns t) -> same_column c d = true <-> c = d.
Proof.
  intros W I J. unfold same_column. rewrite Nat.eqb_eq. split; [|congruence].
  intros E. apply (wf_nth t c W) in I. apply (wf_nth t d W) in J. congruence.
Qed.
Lemma wf_name_inj t c d : wf t -> In c (t_columns t) -> In d (t_columns t) -> c_name c = c_name d -> c = d.
Proof.
  intros W. pose proof (wf_names t W) as N. induction (t_columns t) as [|x l IH]; [contradiction|].
  cbn [map] in N. inversion N; subst. intros [<-|I] [<-|J] E; auto.
  - exfalso. apply H1. rewrite E. apply in_map. exact J.
  - exfalso. apply H1. rewrite <- E. apply in_map. exact I.
Qed.
Lemma is_auto_spec t c : wf t -> In c (t_columns t) -> is_auto t c = true <-> t_auto t = Some c.
Proof.
  intros W I. unfold is_auto. destruct (t_auto t) as [a|] eqn:A; [|split; discriminate].
  destruct (wf_auto t W a A) as (J & _). rewrite (wf_same t c a W I J). split; [congruence|intros E; inversion E; reflexivity].
Qed.

Lemma NoDup_filter_map {A C} (f : A -> C) p (l : list A) : NoDup (map f l) -> NoDup (map f (filter p l)).
Proof.
  induction l as [|x l IH]; intros N; cbn [filter map]; [constructor|]. inversion N; subst.
  destruct (p x); [|auto]. cbn [map]. constructor; [|auto].
  intros I. apply H1. apply in_map_iff in I. destruct I as (y & E & I). apply filter_In in I.
  rewrite <- E. apply in_map. apply I.
Qed.
Lemma keys_names_nodup t : wf t -> NoDup (map c_name (t_keys t)).
Proof.
  intros W. pose proof (wf_keys_nodup t W) as N. pose proof (wf_keys t W) as K.
  induction (t_keys t) as [|k l IH]; cbn [map]; [constructor|]. inversion N; subst. constructor.
  - intros I. apply in_map_iff in I. destruct I as (y & E & I).
    assert (y = k).
    { eapply (wf_name_inj t); eauto; apply K; [now right|now left]. }
    subst. contradiction.
  - apply IH; [assumption|]. intros; apply K; now right.
Qed.
