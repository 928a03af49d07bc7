From Verif Require Import Base ModelStrconv ModelArray ModelUtf8 ModelEncoding SpecText SpecJson
  LemmasBase LemmasArray LemmasArray2 LemmasUtf8 LemmasJson LemmasEncoding.
Local Open Scope char_scope.
Local Open Scope list_scope.

(** MySQL prints JSON arrays with a space after each comma. *)
Definition mysql_json_array (elems : list bytes) : bytes := B "[" ++ join (B ", ") elems ++ B "]".

(** Element texts seen by a reader that splits at the comma only. *)
Definition spaced (l : list bytes) : list bytes :=
  match l with [] => [] | x :: r => x :: map (fun y => " "%char :: y) r end.
Lemma join_spaced l : join (B ", ") l = join (B ",") (spaced l).
Proof.
  destruct l as [|x r]; [reflexivity|]. cbn [spaced]. revert x.
  induction r as [|y r IH]; intro x; [reflexivity|].
  change (join (B ", ") (x :: y :: r)) with (x ++ B ", " ++ join (B ", ") (y :: r)).
  cbn [map]. change (join (B ",") (x :: ?t :: ?u)) with (x ++ B "," ++ join (B ",") (t :: u)).
  rewrite IH. f_equal. cbn [B list_ascii_of_string app].
  f_equal. destruct r as [|z r]; reflexivity.
Qed.

Definition num_sp_text (s : bytes) : Prop :=
  s <> [] /\ Forall (fun c => In c (B "+-0123456789 ")) s.
Lemma num_sp_reads s : num_sp_text s -> elem_reads js s (Some s) /\ good_head js s.
Proof.
  intros [NE H]. destruct s as [|x s]; [contradiction|].
  assert (R : forall c, In c (B "+-0123456789 ") -> c <> comma /\ c <> opn js /\ c <> cls js /\ c <> dquote /\ c <> "N").
  { intros c Hc. cbn in Hc. repeat destruct Hc as [<-|Hc]; try (repeat split; discriminate). destruct Hc. }
  inversion H as [|? ? Hx Hs]; subst. destruct (R x Hx) as (R1 & R2 & R3 & R4 & R5).
  split.
  - assert (F : Forall (raw_ok js) (x :: s)).
    { eapply Forall_impl; [|exact H]. intros c Hc. destruct (R c Hc) as (A1 & A2 & A3 & _). split; assumption. }
    pose proof (raw_elem_reads js x s F R2 R4) as E.
    assert (RE : raw_elem (x :: s) = Some (x :: s)).
    { unfold raw_elem. destruct (bseq (x :: s) (B "NULL")) eqn:Q; [|reflexivity].
      apply bseq_eq in Q. inversion Q; subst. contradiction. }
    rewrite RE in E. exact E.
  - cbn. split; assumption.
Qed.

Lemma scan_linear_texts ts : Forall (fun t => elem_reads js t (Some t) /\ good_head js t) ts ->
  scan_linear js (list_text "[" "]" ts) = Ok (map Some ts).
Proof.
  intro F. pose proof (scan_linear_render js (fun s : bytes => s) Some ts wf_js) as H.
  rewrite map_id in H. apply H, F.
Qed.

Lemma denotes_head s z : denotes_int s z -> exists c r, s = c :: r /\ c <> " "%char.
Proof.
  assert (D : forall ds, decimal_digits ds -> exists c r, ds = c :: r /\ c <> " "%char).
  { intros ds [NE F]. destruct ds as [|c r]; [contradiction|]. exists c, r. split; [reflexivity|].
    intro; subst. inversion F; subst. cbn in *. lia. }
  intro H. inversion H; subst; [apply D; assumption| |]; eexists; eexists; (split; [reflexivity|discriminate]).
Qed.

Lemma parse_int_space bits s : parse_int bits (" " :: s) = None.
Proof. unfold parse_int. cbn [beq]. change (beq " " "-") with false. change (beq " " "+") with false. cbn iota. reflexivity. Qed.
Lemma parse_uint_space bits s : parse_uint bits (" " :: s) = None.
Proof. reflexivity. Qed.

Lemma mysql_int_text zs : mysql_json_array (map format_int zs) = list_text "[" "]" (spaced (map format_int zs)).
Proof. unfold mysql_json_array, list_text. rewrite join_spaced. reflexivity. Qed.

Lemma spaced_nums zs : Forall (fun t => elem_reads js t (Some t) /\ good_head js t) (spaced (map format_int zs)).
Proof.
  assert (N : forall z, Forall (fun c => In c (B "+-0123456789 ")) (format_int z)).
  { intro z. destruct (denotes_num_text _ _ (format_int_denotes z)) as [_ F]. eapply Forall_impl; [|exact F].
    intros c Hc. cbn in *. tauto. }
  destruct zs as [|z zs]; [constructor|]. cbn [map spaced]. constructor.
  - apply num_sp_reads. split; [apply format_int_nonempty|apply N].
  - apply Forall_forall. intros t Ht. apply in_map_iff in Ht. destruct Ht as (y & <- & Hy).
    apply in_map_iff in Hy. destruct Hy as (z' & <- & _).
    apply num_sp_reads. split; [discriminate|]. constructor; [cbn; tauto|apply N].
Qed.

(** Two or more integers: the normalised text is rejected. *)
Lemma mysql_ints_rejected bits dst z1 z2 zs :
  snd (js_int_scan bits dst (SBytes (mysql_json_array (map format_int (z1 :: z2 :: zs))))) = Err.
Proof.
  unfold js_int_scan. cbn [scan]. unfold scan_bytes.
  rewrite mysql_int_text, scan_linear_texts by apply spaced_nums.
  cbn [map spaced]. cbn [all_elems]. destruct dst.
  - destruct (dec_int_conv (Signed bits) (Some (format_int z1))); [|reflexivity].
    unfold dec_int_conv. rewrite parse_int_space. reflexivity.
  - destruct (dec_int_conv (Signed bits) (Some (format_int z1))); [|reflexivity].
    unfold dec_int_conv. rewrite parse_int_space. reflexivity.
Qed.

(** The normalised text is the same JSON value. *)
Lemma value_space f s : value f (" " :: s) = value f s.
Proof. destruct f; reflexivity. Qed.
Lemma json_elem_spaced t j : json_elem t j -> forall f c rest, c = "," \/ c = "]" ->
  value (S f) ((" " :: t) ++ c :: rest) = Some (j, c :: rest).
Proof. intros [H _] f c rest Hc. rewrite <- app_comm_cons, value_space. apply H, Hc. Qed.
