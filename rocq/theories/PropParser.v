(** C41-C44, C60-C62: from struct declarations to tables. *)
From Coq Require Import Permutation Sorted.
From Verif Require Import Base ModelCompiler ModelParser SpecParser LemmasBase LemmasCompiler LemmasParser LemmasTag.

Section Parse.
Variable sort : list (list nat * sfield) -> list (list nat * sfield).
Variable rename : bytes -> bytes.
Variable wrap unwrap : gotype -> bytes * bytes.
Notation parse := (parse_struct sort rename wrap unwrap).

Lemma parse_table name doc ds t : sorts sort -> parse name doc ds = Ok (Some t) ->
  exists fs, fields sort ds = Some fs /\ Permutation fs (declared ds) /\ acceptable rename (declared ds) /\ describes rename fs t /\ wf t.
Proof.
  intros SO E. unfold parse_struct in E. destruct (annotated doc ds) as [ro|]; [|discriminate].
  destruct (fields_perm sort ds SO) as (fs & F & P). rewrite F in E. exists fs. split; [exact F|]. split; [exact P|].
  pose proof (adds_spec rename wrap unwrap (rename name) ro fs) as A. unfold start in A.
  assert (BT : build_table rename wrap unwrap name ro fs = Ok t).
  { destruct (build_table rename wrap unwrap name ro fs) as [t0| |]; cbn [bind] in E; try discriminate. destruct (t_columns t0); [discriminate|congruence]. }
  unfold build_table in BT. rewrite BT in A. destruct A as [AC DE]. split; [eapply acceptable_perm; eassumption|]. split; [exact DE|]. eapply build_table_wf. exact BT.
Qed.

(** ** C41 *)
(** Partial: shapes with several names in a declaration that is not the last, and structs embedded more than two levels deep, are
    out of order; see the refutations. *)
Theorem C41_order_partial name doc ds t : sorts sort -> ungrouped ds -> Forall (shallow 2) ds ->
  parse name doc ds = Ok (Some t) -> describes rename (declared ds) t.
Proof.
  intros SO U SH E. destruct (parse_table name doc ds t SO E) as (fs & F & _ & _ & DE & _). rewrite (fields_in_order sort ds SO U SH) in F. congruence.
Qed.

(** ** C42 *)
(** Every column is that of an exported field without the tag -, and there is one for each of them.  Partial: the fields of a struct
    that is itself embedded with the tag - keep theirs. *)
Theorem C42_excluded_partial name doc ds t : sorts sort -> parse name doc ds = Ok (Some t) ->
  (forall c, In c (t_columns t) -> exists f, In f (declared ds) /\ has_column f /\ column_for rename f c) /\
  (forall f, In f (declared ds) -> has_column f -> exists c, In c (t_columns t) /\ column_for rename f c).
Proof.
  intros SO E. destruct (parse_table name doc ds t SO E) as (fs & F & P & _ & (gs & ks & SE & F2 & _) & _). split.
  - intros c I. assert (X : exists f, In f gs /\ column_for rename f c).
    { clear - F2 I. induction F2 as [|f c' gs cs H F2 IH]; [contradiction|]. destruct I as [->|I]; [exists f; split; [now left|exact H]|]. destruct (IH I) as (g & J & H'). exists g. split; [now right|exact H']. }
    destruct X as (f & J & CF). apply (selects_in _ _ _ _ SE) in J. exists f. split; [eapply Permutation_in; [exact P|apply J]|]. split; [apply J|exact CF].
  - intros f I HC. assert (J : In f gs) by (apply (selects_in _ _ _ _ SE); split; [eapply Permutation_in; [symmetry; exact P|exact I]|exact HC]).
    clear - F2 J. induction F2 as [|g c gs cs H F2 IH]; [contradiction|]. destruct J as [->|J]; [exists c; split; [now left|exact H]|]. destruct (IH J) as (c' & I & H'). exists c'. split; [now right|exact H'].
Qed.
(** Whatever the tag of the embedded struct, the - included. *)
Theorem C42_embedded_refuted name doc ds t n ex ty tag inner f : sorts sort -> parse name doc ds = Ok (Some t) ->
  In (Embeds n ex ty tag inner) ds -> tag_name tag (B "-") -> In f (flat_map (decl_fields [(n, Nat.leb 1 (ty_ptr ty))]) inner) -> has_column f ->
  exists c, In c (t_columns t) /\ column_for rename f c.
Proof.
  intros SO E I _ J HC. apply (proj2 (C42_excluded_partial name doc ds t SO E) f); [|exact HC].
  unfold declared. apply in_flat_map. exists (Embeds n ex ty tag inner). split; [exact I|]. cbn [decl_fields]. right. exact J.
Qed.

(** ** C43 *)
Theorem C43_accepted name doc ds t : sorts sort -> parse name doc ds = Ok (Some t) ->
  NoDup (map c_name (t_columns t)) /\
  (forall k, In k (t_keys t) \/ t_auto t = Some k -> In k (t_columns t) /\ c_readonly k = false) /\
  acceptable rename (declared ds).
Proof.
  intros SO E. destruct (parse_table name doc ds t SO E) as (fs & F & P & AC & _ & WF). split; [apply (wf_names t WF)|]. split; [|exact AC].
  intros k [I|A]; [apply (wf_keys t WF k I)|]. destruct (wf_auto t WF k A) as (I & R & _). auto.
Qed.
(** And nothing else is asked. *)
Theorem C43_exactly name ds : sorts sort -> (exists r, parse name None ds = Ok r) <-> acceptable rename (declared ds).
Proof.
  intros SO. unfold parse_struct. cbn [annotated]. destruct (fields_perm sort ds SO) as (fs & F & P). rewrite F.
  pose proof (adds_spec rename wrap unwrap (rename name) false fs) as A. unfold start in A. unfold build_table. destruct (add_fields rename wrap unwrap _ fs) as [t| |]; cbn [bind].
  - destruct A as [AC _]. split; [intros _; eapply acceptable_perm; eassumption|eauto].
  - split; [intros [r E]; discriminate|]. intros AC. exfalso. apply A. eapply acceptable_perm; [symmetry; exact P|exact AC].
  - contradiction.
Qed.

(** ** C44 *)
Definition with_tag (f : sfield) (tag : bytes) : sfield :=
  {| f_name := f_name f; f_type := f_type f; f_exported := f_exported f; f_embedded := f_embedded f; f_tag := tag; f_paths := f_paths f |}.
(** The tag gives the name and the options. *)
Theorem C44_tag_partial name ro fs t : build_table rename wrap unwrap name ro fs = Ok t ->
  describes rename fs t /\ (forall f, In f fs -> forall n m, tag_name (f_tag f) n -> tag_name (f_tag f) m -> n = m).
Proof.
  intros E. pose proof (adds_spec rename wrap unwrap (rename name) ro fs) as A. unfold build_table in E. unfold start in A. rewrite E in A. split; [apply A|].
  intros f _ n m T1 T2. rewrite tag_name_iff in *. congruence.
Qed.
Lemma add_field_tag t f tag : hd [] (split_byte "," tag) = hd [] (split_byte "," (f_tag f)) ->
  (forall o, In o [B "auto_increment"; B "primary_key"; B "pk"; B "readonly"] -> In o (parse_tag (tl (split_byte "," tag))) <-> In o (parse_tag (tl (split_byte "," (f_tag f))))) ->
  add_field rename wrap unwrap t (with_tag f tag) = add_field rename wrap unwrap t f.
Proof.
  intros HD OP. unfold add_field. cbn [f_type f_exported f_embedded f_name with_tag f_paths].
  assert (RT : forall g, read_tag rename g = (let n := trim_space (hd [] (split_byte "," (f_tag g))) in
     if bseq n (B "-") then Ok Excluded else match n with [] => Ok (Named (rename (f_name g)) (tl (split_byte "," (f_tag g)))) | _ => if name_regex n then Ok (Named n (tl (split_byte "," (f_tag g)))) else Err end)).
  { intros g. unfold read_tag. destruct (f_tag g) as [|c v] eqn:TG; [reflexivity|]. pose proof (split_nonempty "," (c :: v)) as NE. destruct (split_byte "," (c :: v)); [contradiction|]. reflexivity. }
  rewrite !RT. cbn [f_tag with_tag f_name]. rewrite HD.
  assert (HO : forall keys, (forall k, In k keys -> In k [B "auto_increment"; B "primary_key"; B "pk"; B "readonly"]) ->
    has_opts (parse_tag (tl (split_byte "," tag))) keys = has_opts (parse_tag (tl (split_byte "," (f_tag f)))) keys).
  { intros keys H. apply eq_true_iff_eq. rewrite !has_opts_iff. split; intros (k & I & J); exists k; (split; [exact I|]); apply (OP k (H k I)), J. }
  assert (H1 := HO [B "auto_increment"; B "primary_key"; B "pk"]). assert (H2 := HO [B "auto_increment"]). assert (H3 := HO [B "readonly"]). clear HO.
  destruct (Nat.ltb 1 (ty_ptr (f_type f))); [reflexivity|]. cbv zeta. destruct (bseq (trim_space _) (B "-")); [reflexivity|].
  unfold full_go_path. cbn [f_paths with_tag].
  destruct (trim_space _) as [|c r]; [|destruct (name_regex (c :: r)); [|reflexivity]]; cbn [bind]; rewrite H1, H2, H3 by (cbn; intuition); reflexivity.
Qed.
(** Options may come in any order. *)
Theorem C44_any_order_partial name ro l1 l2 f n opts opts' :
  f_tag f = join (B ",") (n :: opts) -> Forall (fun p => ~ In "," p)%char (n :: opts) -> Permutation opts opts' ->
  build_table rename wrap unwrap name ro (l1 ++ with_tag f (join (B ",") (n :: opts')) :: l2) = build_table rename wrap unwrap name ro (l1 ++ f :: l2).
Proof.
  intros T F P. unfold build_table. rewrite !add_fields_app. destruct (add_fields rename wrap unwrap _ l1) as [t| |]; cbn [bind add_fields]; try reflexivity.
  rewrite add_field_tag; [reflexivity| |]; rewrite T; change (B ",") with [","%char]; rewrite !split_unique; try discriminate; try exact F; cbn [hd tl]; try reflexivity;
    try (inversion F; subst; constructor; [assumption|eapply Permutation_Forall; eassumption]).
  intros o _. unfold parse_tag. rewrite !in_flat_map. split; intros (x & I & J); exists x; (split; [|exact J]); eapply Permutation_in; try exact I; [symmetry; exact P|exact P].
Qed.
(** Options that are none of the four are ignored. *)
Theorem C44_unknown_partial name ro l1 l2 f q core : ~ In ","%char q -> trimmed q core ->
  (forall o, In o [B "auto_increment"; B "primary_key"; B "pk"; B "readonly"] -> core <> o /\ forall v, core <> o ++ B ":" ++ v) ->
  build_table rename wrap unwrap name ro (l1 ++ with_tag f (f_tag f ++ B "," ++ q) :: l2) = build_table rename wrap unwrap name ro (l1 ++ f :: l2).
Proof.
  intros NQ TR UN. unfold build_table. rewrite !add_fields_app. destruct (add_fields rename wrap unwrap _ l1) as [t| |]; cbn [bind add_fields]; try reflexivity.
  assert (SP : forall s, split_byte "," (s ++ B "," ++ q) = split_byte "," s ++ [q]).
  { intros s. rewrite <- (split_join "," s) at 1. pose proof (split_pieces "," s) as FP. pose proof (split_nonempty "," s) as NE.
    induction (split_byte "," s) as [|p l IH]; [contradiction|]. inversion FP; subst. destruct l as [|p2 l].
    - cbn [join app]. change (B "," ++ q) with (","%char :: q). rewrite split_app by assumption. rewrite split_first by exact NQ. reflexivity.
    - rewrite join_cons, <- app_assoc. cbn [app]. rewrite split_app by assumption. cbn [app]. f_equal. apply IH; [assumption|discriminate]. }
  rewrite add_field_tag; [reflexivity| |]; rewrite SP; pose proof (split_nonempty "," (f_tag f)) as NE; destruct (split_byte "," (f_tag f)) as [|p l]; try contradiction; [reflexivity|].
  cbn [app tl]. intros o I. unfold parse_tag. rewrite flat_map_app, in_app_iff. cbn [flat_map]. rewrite app_nil_r.
  split; [|tauto]. intros [J|J]; [exact J|exfalso]. rewrite <- (trimmed_unique _ _ TR) in J. destruct core as [|c r]; [contradiction|]. destruct J as [J|[]].
  destruct (UN o I) as [N1 N2]. pose proof (split_join ":" (c :: r)) as SJ. destruct (split_byte ":" (c :: r)) as [|x [|y l0]]; cbn [hd] in J; subst.
  - cbn in SJ. discriminate.
  - apply N1. symmetry. exact SJ.
  - rewrite join_cons in SJ. apply (N2 (join [":"%char] (y :: l0))). symmetry. exact SJ.
Qed.
(** Upper-case options are not options. *)
Theorem C44_case_refuted name ro f : f_exported f = true -> f_embedded f = false -> ty_ptr (f_type f) = 0 -> ty_base (f_type f) <> table_type -> f_tag f = B "id,PK,Primary_Key,AUTO_INCREMENT,ReadOnly" ->
  exists t c, build_table rename wrap unwrap name ro [f] = Ok t /\ t_columns t = [c] /\ c_name c = B "id" /\ c_readonly c = false /\ t_keys t = [] /\ t_auto t = None.
Proof.
  intros EX EM PT TT TG. apply bseq_neq in TT. unfold build_table. cbn [add_fields]. unfold add_field, read_tag. rewrite PT, TG, TT, EX, EM. cbn. eexists _, _.
  split; [reflexivity|]. cbn. split; [reflexivity|]. cbn. auto.
Qed.
End Parse.

(** *** The tag text is read from the literal of the field *)
(** A key of a struct tag as Go wants it *)
Definition key_ok (k : bytes) : Prop := k <> [] /\ Forall (fun c => (32 < code c)%N /\ c <> ":"%char /\ c <> dq /\ c <> bt /\ code c <> 127%N) k.
Definition value_ok (v : bytes) : Prop := Forall (fun c => c <> dq /\ c <> bs) v.
Definition pair_text (kv : bytes * bytes) : bytes := fst kv ++ B ":" ++ dq :: snd kv ++ [dq].
Definition raw_literal (kvs : list (bytes * bytes)) : bytes := bt :: join (B " ") (map pair_text kvs) ++ [bt].
(** the value of the first pair with that key *)
Inductive first_value (key : bytes) : list (bytes * bytes) -> bytes -> Prop :=
| fv_none : first_value key [] []
| fv_here v l : first_value key ((key, v) :: l) v
| fv_next k v l w : k <> key -> first_value key l w -> first_value key ((k, v) :: l) w.
Lemma tag_key_stop k r : Forall (fun c => (32 < code c)%N /\ c <> ":"%char /\ c <> dq /\ c <> bt /\ code c <> 127%N) k -> tag_key (k ++ ":"%char :: r) = (k, ":"%char :: r).
Proof.
  induction 1 as [|c k (H1 & H2 & H3 & _ & H4) _ IH]; [reflexivity|]. cbn [app tag_key].
  replace (N.leb (code c) 32) with false by (symmetry; apply N.leb_gt; exact H1).
  replace (beq c ":") with false by (symmetry; apply not_true_iff_false; rewrite beq_eq; exact H2).
  replace (beq c dq) with false by (symmetry; apply not_true_iff_false; rewrite beq_eq; exact H3).
  replace (N.eqb (code c) 127) with false by (symmetry; apply N.eqb_neq; exact H4). cbn [orb]. rewrite IH. reflexivity.
Qed.
Lemma tag_value_stop v r : value_ok v -> tag_value (v ++ dq :: r) = Some (v, r).
Proof.
  induction 1 as [|c v (H1 & H2) _ IH]; [reflexivity|]. cbn [app tag_value].
  replace (beq c dq) with false by (symmetry; apply not_true_iff_false; rewrite beq_eq; exact H1).
  replace (beq c bs) with false by (symmetry; apply not_true_iff_false; rewrite beq_eq; exact H2). rewrite IH. reflexivity.
Qed.
Lemma lookup_step fuel key k v r : key_ok k -> value_ok v -> forall sp, Forall (eq " "%char) sp ->
  tag_lookup (S fuel) key (sp ++ pair_text (k, v) ++ r) = if bseq k key then v else tag_lookup fuel key r.
Proof.
  intros [NE KO] VO sp SP. cbn [tag_lookup].
  assert (SK : skip_spaces (sp ++ pair_text (k, v) ++ r) = pair_text (k, v) ++ r).
  { induction SP as [|c sp EQ _ IH]; [|subst c; exact IH]. destruct k as [|c k]; [contradiction|]. cbn. inversion KO as [|? ? (H & _) _]; subst.
    destruct (beq c " ") eqn:E; [apply beq_eq in E; subst c; cbn in H; lia|reflexivity]. }
  rewrite SK. unfold pair_text. cbn [fst snd]. rewrite <- !app_assoc. change (B ":" ++ (dq :: v ++ [dq]) ++ r) with (":"%char :: dq :: (v ++ [dq]) ++ r).
  rewrite (tag_key_stop k _ KO). destruct k as [|c k]; [contradiction|]. rewrite !beq_refl. cbn [andb]. rewrite <- app_assoc. cbn [app].
  change (v ++ dq :: r) with (v ++ dq :: r). rewrite (tag_value_stop v r VO).
  destruct (bseq (c :: k) key); [|reflexivity].
  replace (existsb (fun x => beq x bs) v) with false; [reflexivity|]. symmetry. apply not_true_iff_false. rewrite existsb_exists. intros (x & I & E). apply beq_eq in E.
  unfold value_ok in VO. rewrite Forall_forall in VO. destruct (VO x I). contradiction.
Qed.
Lemma lookup_pairs key kvs v : first_value key kvs v -> forall sp, Forall (fun kv => key_ok (fst kv) /\ value_ok (snd kv)) kvs -> Forall (eq " "%char) sp ->
  forall fuel, length kvs <= fuel -> tag_lookup fuel key (sp ++ join (B " ") (map pair_text kvs)) = v.
Proof.
  induction 1 as [|v l|k v l w NK FV IH]; intros sp OK SP fuel L.
  - cbn. rewrite app_nil_r. destruct fuel; [reflexivity|]. cbn. replace (skip_spaces sp) with ([] : bytes); [reflexivity|].
    symmetry. clear - SP. induction SP as [|c sp <- _ IH]; [reflexivity|exact IH].
  - inversion OK as [|? ? [K V] OK']; subst. cbn [length] in L. destruct fuel as [|fuel]; [lia|]. cbn [map]. destruct l as [|kv l].
    + cbn [map join]. rewrite <- (app_nil_r (pair_text (key, v))), (lookup_step fuel key key v [] K V sp SP), bseq_refl. reflexivity.
    + cbn [map]. rewrite join_cons, (lookup_step fuel key key v _ K V sp SP), bseq_refl. reflexivity.
  - inversion OK as [|? ? [K V] OK']; subst. cbn [length] in L. destruct fuel as [|fuel]; [lia|]. cbn [map]. destruct l as [|kv l].
    + cbn [map join]. rewrite <- (app_nil_r (pair_text (k, v))), (lookup_step fuel key k v [] K V sp SP), (proj2 (bseq_neq k key) NK).
      specialize (IH [] OK' (Forall_nil _) fuel ltac:(cbn; lia)). exact IH.
    + cbn [map]. rewrite join_cons, (lookup_step fuel key k v _ K V sp SP), (proj2 (bseq_neq k key) NK).
      apply (IH [" "%char] OK'); [repeat constructor|lia].
Qed.
Lemma trim_ticks_id s c r d q : s = c :: r -> s = q ++ [d] -> c <> bt -> d <> bt -> trim_ticks (bt :: s ++ [bt]) = s.
Proof.
  intros E1 E2 N1 N2. unfold trim_ticks. cbn [trim_ticks_left]. rewrite beq_refl.
  assert (T1 : trim_ticks_left (s ++ [bt]) = s ++ [bt]). { rewrite E1. cbn [app trim_ticks_left]. destruct (beq c bt) eqn:E; [apply beq_eq in E; contradiction|reflexivity]. }
  rewrite T1, rev_app_distr. cbn [rev app trim_ticks_left]. rewrite beq_refl.
  assert (T2 : trim_ticks_left (rev s) = rev s). { rewrite E2, rev_app_distr. cbn [rev app trim_ticks_left]. destruct (beq d bt) eqn:E; [apply beq_eq in E; contradiction|reflexivity]. }
  rewrite T2. apply rev_involutive.
Qed.
Lemma pairs_ends kvs : kvs <> [] -> Forall (fun kv => key_ok (fst kv) /\ value_ok (snd kv)) kvs ->
  (exists c r, join (B " ") (map pair_text kvs) = c :: r /\ c <> bt) /\ (exists q, join (B " ") (map pair_text kvs) = q ++ [dq]) /\ length kvs <= length (join (B " ") (map pair_text kvs)).
Proof.
  induction kvs as [|[k v] kvs IH]; intros NE OK; [contradiction|]. inversion OK as [|? ? [[NK K] V] OK']; subst. cbn [fst snd] in *.
  destruct k as [|c k]; [contradiction|]. inversion K as [|? ? (_ & _ & _ & NB & _) _]; subst. destruct kvs as [|kv kvs].
  - cbn [map join]. split; [exists c; eexists; split; [reflexivity|exact NB]|]. split; [|cbn; lia].
    exists (c :: k ++ B ":" ++ dq :: v). unfold pair_text. cbn [fst snd app]. f_equal. rewrite <- !app_assoc. reflexivity.
  - cbn [map]. rewrite join_cons. destruct (IH ltac:(discriminate) OK') as (_ & (q & E) & L). cbn [map] in E, L. rewrite E in *. split; [exists c; eexists; split; [reflexivity|exact NB]|].
    split; [exists (pair_text (c :: k, v) ++ B " " ++ q); rewrite <- !app_assoc; reflexivity|]. rewrite !app_length in *. cbn [length pair_text fst app] in *. lia.
Qed.
Theorem C44_raw_literal_partial key kvs v : Forall (fun kv => key_ok (fst kv) /\ value_ok (snd kv)) kvs -> first_value key kvs v -> tag_of key (raw_literal kvs) = v.
Proof.
  intros OK FV. unfold tag_of, raw_literal. destruct kvs as [|kv kvs].
  - inversion FV; subst. cbn. reflexivity.
  - destruct (pairs_ends (kv :: kvs) ltac:(discriminate) OK) as ((c & r & E1 & N1) & (q & E2) & L).
    rewrite (trim_ticks_id _ c r dq q E1 E2 N1) by discriminate.
    apply (lookup_pairs key (kv :: kvs) v FV [] OK (Forall_nil _)). exact L.
Qed.
(** A tag written as an interpreted literal, between double quotes, is never seen. *)
Theorem C44_interpreted_literal_refuted key s : tag_of key (dq :: s) = [].
Proof.
  unfold tag_of. assert (H : exists r, trim_ticks (dq :: s) = dq :: r).
  { unfold trim_ticks. change (trim_ticks_left (dq :: s)) with (dq :: s). cbn [rev].
    assert (G : forall l, exists l', trim_ticks_left (l ++ [dq]) = l' ++ [dq]).
    { induction l as [|c l IH]; [exists []; reflexivity|]. cbn [app trim_ticks_left]. destruct (beq c bt); [exact IH|exists (c :: l); reflexivity]. }
    destruct (G (rev s)) as [l' ->]. rewrite rev_app_distr. cbn. eauto. }
  destruct H as [r ->]. reflexivity.
Qed.

(** ** C60: annotations *)
(** [doc] has the annotation +sql: with these comma-separated flags *)
Definition flagged (doc : bytes) (flags : list bytes) : Prop := exists before after, doc = before ++ B "+sql:" ++ join (B ",") flags ++ after /\
  ~ In "+"%char before /\ flags <> [] /\ Forall (fun p => ~ In "," p)%char flags /\ Forall (fun c => code c <> 10%N) (join (B ",") flags) /\ (after = [] \/ exists r, after = ascii_of_N 10 :: r).
Lemma has_prefix_app (p s : bytes) : has_prefix (p ++ s) p = true.
Proof. induction p as [|c p IH]; [destruct s; reflexivity|]. cbn. rewrite beq_refl. exact IH. Qed.
Lemma until_newline_app l after : Forall (fun c => code c <> 10%N) l -> (after = [] \/ exists r, after = ascii_of_N 10 :: r) -> until_newline (l ++ after) = l.
Proof.
  intros F A. induction F as [|c l H F IH]; cbn [app until_newline].
  - destruct A as [->|[r ->]]; reflexivity.
  - apply N.eqb_neq in H. rewrite H, IH. reflexivity.
Qed.
Lemma annotation_flagged doc flags : flagged doc flags -> annotation doc = Some (join (B ",") flags).
Proof.
  intros (before & after & -> & NP & _ & _ & NN & A). induction before as [|c before IH]; cbn [app].
  - assert (ST : forall r, annotation ("+"%char :: r) = if has_prefix (map lower ("+"%char :: r)) (B "+sql:") then Some (until_newline (skipn 5 ("+"%char :: r))) else annotation r) by reflexivity.
    set (l := join (B ",") flags ++ after). change (B "+sql:" ++ l) with ("+"%char :: "s"%char :: "q"%char :: "l"%char :: ":"%char :: l). rewrite ST.
    replace (has_prefix _ _) with true by (cbn; destruct (map lower l); reflexivity).
    cbn [skipn]. f_equal. apply until_newline_app; assumption.
  - cbn [annotation]. replace (has_prefix (map lower (c :: before ++ B "+sql:" ++ join (B ",") flags ++ after)) (B "+sql:")) with false.
    + apply IH. intros I. apply NP. now right.
    + symmetry. cbn [map]. change (B "+sql:") with ("+"%char :: B "sql:") at 2. cbn [has_prefix].
      replace (beq "+" (lower c)) with false; [reflexivity|]. symmetry. apply not_true_iff_false. rewrite beq_eq. intros E. apply NP. left.
      unfold lower in E. destruct (in_range 65 90 c) eqn:R; [|congruence]. exfalso. apply range_iff in R. assert (C : code "+" = code (ascii_of_N (code c + 32))) by (rewrite <- E; reflexivity).
      change (ascii_of_N (code c + 32)) with (chr (code c + 32)) in C. rewrite code_chr in C by lia. cbn in C. lia.
Qed.
Lemma flags_spec_ro flags ro : (In (B "ignore") flags -> flags_of flags ro = None) /\ (~ In (B "ignore") flags -> exists r, flags_of flags ro = Some r /\ (r = true <-> ro = true \/ In (B "readonly") flags)).
Proof.
  revert ro. induction flags as [|f flags IH]; intros ro; cbn [flags_of In]; [split; [intros []|intros _; exists ro; tauto]|].
  destruct (bseq f (B "readonly")) eqn:R.
  - apply bseq_eq in R. subst f. destruct (IH true) as [I1 I2]. split; [intros [E|I]; [discriminate|auto]|]. intros N. destruct I2 as (r & E & H); [tauto|]. exists r. split; [exact E|]. rewrite H. tauto.
  - apply bseq_neq in R. destruct (bseq f (B "ignore")) eqn:G.
    + apply bseq_eq in G. subst f. split; [reflexivity|]. intros N. exfalso. apply N. now left.
    + apply bseq_neq in G. destruct (IH ro) as [I1 I2]. split; [intros [E|I]; [contradiction|auto]|]. intros N. destruct I2 as (r & E & H); [tauto|]. exists r. split; [exact E|]. rewrite H. tauto.
Qed.
Lemma add_fields_readonly rename wrap unwrap fs : forall t t', add_fields rename wrap unwrap t fs = Ok t' -> t_readonly t' = t_readonly t.
Proof.
  induction fs as [|f fs IH]; intros t t' E; cbn [add_fields] in E; [congruence|]. destruct (add_field rename wrap unwrap t f) as [t1| |] eqn:A; cbn [bind] in E; try discriminate.
  rewrite (IH _ _ E). clear - A. unfold add_field in A. destruct (Nat.ltb 1 _); [discriminate|]. destruct (read_tag rename f) as [[|n o]| |]; cbn [bind] in A; try discriminate; [congruence|].
  destruct (_ && _); [destruct n; injection A as <-; reflexivity|]. destruct (negb _); [congruence|]. destruct (f_embedded f); [congruence|]. destruct (bmem _ _); [discriminate|].
  destruct (has_opts _ _); [destruct (has_opts _ _); [destruct (t_auto t); [discriminate|]|]; destruct (c_readonly _); try discriminate|]; injection A as <-; reflexivity.
Qed.
(** Partial: only structs that embed no struct, and comments without a plus sign before the annotation. *)
Theorem C60_annotated_partial sort rename wrap unwrap name doc flags ds : sorts sort -> flagged doc flags -> (forall d, In d ds -> match d with Embeds _ _ _ _ _ => False | _ => True end) ->
  (In (B "ignore") flags -> parse_struct sort rename wrap unwrap name (Some doc) ds = Ok None) /\
  (~ In (B "ignore") flags -> forall t, parse_struct sort rename wrap unwrap name (Some doc) ds = Ok (Some t) -> t_readonly t = true <-> In (B "readonly") flags).
Proof.
  intros SO FL NE. assert (Z : structs ds = 0).
  { clear - NE. induction ds as [|d ds IH]; [reflexivity|]. unfold structs in *. cbn [map list_sum fold_right]. unfold list_sum in IH. rewrite IH by (intros; apply NE; now right). specialize (NE d (or_introl eq_refl)). destruct d; [reflexivity|contradiction|reflexivity]. }
  unfold parse_struct, annotated. rewrite Z. cbn [Nat.eqb]. rewrite (annotation_flagged doc flags FL). destruct FL as (? & ? & _ & _ & FNE & FC & _).
  change (B ",") with [","%char]. rewrite split_unique by assumption. destruct (flags_spec_ro flags false) as [H1 H2]. split.
  - intros I. rewrite (H1 I). reflexivity.
  - intros N t. destruct (H2 N) as (r & -> & HR). destruct (fields sort ds) as [fs|]; [|discriminate]. unfold build_table.
    destruct (add_fields rename wrap unwrap _ fs) as [t0| |] eqn:A; cbn [bind]; try discriminate. apply add_fields_readonly in A. cbn in A.
    destruct (t_columns t0); [discriminate|]. intros E. injection E as <-. rewrite A, HR. intuition discriminate.
Qed.
(** With an embedded struct no annotation has any effect: ignored structs get a table, read-only ones are writable. *)
Theorem C60_embedded_refuted sort rename wrap unwrap name doc ds n ex ty tag inner : In (Embeds n ex ty tag inner) ds ->
  parse_struct sort rename wrap unwrap name (Some doc) ds = parse_struct sort rename wrap unwrap name None ds.
Proof.
  intros I. unfold parse_struct, annotated. replace (Nat.eqb (structs ds) 0) with false; [reflexivity|]. symmetry. apply Nat.eqb_neq.
  induction ds as [|d ds IH]; [contradiction|]. unfold structs in *. cbn [map list_sum fold_right]. unfold list_sum in IH. destruct I as [->|I]; [cbn; lia|]. specialize (IH I). unfold list_sum. lia.
Qed.
(** In a group of declarations the comments of the single types have no effect. *)
Definition without_doc (s : tspec) : tspec := {| ts_name := ts_name s; ts_doc := None; ts_alias := ts_alias s; ts_matched := ts_matched s; ts_exported := ts_exported s; ts_body := ts_body s |}.
Theorem C60_grouped_refuted doc specs : collect doc specs = collect doc (map without_doc specs).
Proof. induction specs as [|s specs IH]; [reflexivity|]. cbn [collect map without_doc ts_alias ts_matched ts_exported ts_body ts_name]. rewrite <- IH. reflexivity. Qed.

(** ** C61: parsing comes to an end *)
(** Partial: for declarations that are finite trees, that is, no struct is embedded in itself through pointers. *)
Theorem C61_finite_partial sort ds : sorts sort -> exists fs, fields sort ds = Some fs.
Proof. intros SO. destruct (fields_perm sort ds SO) as (fs & F & _). eauto. Qed.
(** A struct that embeds a pointer to itself is visited for ever. *)
Theorem C61_self_refuted e n ex ty tag inner before after :
  let ds := before ++ Embeds n ex ty tag inner :: after in e n = Some ds -> forall fuel rest, explore_named e fuel (ds :: rest) = None.
Proof.
  intros ds EN.
  assert (G : forall fuel q, In ds q -> explore_named e fuel q = None).
  { induction fuel as [|fuel IH]; intros [|d q] I; cbn [explore_named]; try contradiction; [reflexivity|]. rewrite IH; [reflexivity|]. apply in_or_app. destruct I as [->|I]; [right|now left].
    unfold named_new. apply in_flat_map. exists (Embeds n ex ty tag inner). split; [unfold ds; apply in_or_app; right; now left|]. rewrite EN. now left. }
  intros fuel rest. apply G. now left.
Qed.

(** ** C62: every struct of a group is seen *)
Definition wanted (s : tspec) : Prop := ts_alias s = false /\ ts_matched s = true /\ ts_exported s = true.
(** Partial: groups without exported types that are neither structs nor taken from other packages. *)
Theorem C62_group_partial doc specs : (forall s, In s specs -> wanted s -> ts_body s <> Other) ->
  forall s ds, In s specs -> wanted s -> ts_body s = Struct ds -> In (ts_name s, doc, ds) (collect doc specs).
Proof.
  induction specs as [|x specs IH]; intros NO s ds I W BD; [contradiction|]. cbn [collect].
  assert (REST : In s specs -> In (ts_name s, doc, ds) (collect doc specs)) by (intros J; apply (IH (fun s0 I0 => NO s0 (or_intror I0)) s ds J W BD)).
  destruct (ts_alias x || negb (ts_matched x) || negb (ts_exported x)) eqn:SKIP.
  - destruct I as [->|I]; [|auto]. destruct W as (W1 & W2 & W3). rewrite W1, W2, W3 in SKIP. discriminate.
  - apply orb_false_iff in SKIP. destruct SKIP as [SK S3]. apply orb_false_iff in SK. destruct SK as [S1 S2]. apply negb_false_iff in S2, S3.
    specialize (NO x (or_introl eq_refl) (conj S1 (conj S2 S3))). destruct I as [->|I].
    + rewrite BD. now left.
    + destruct (ts_body x) as [d|[d|]|]; [right; auto|right; auto|auto|contradiction].
Qed.
(** Whatever follows an exported type that is no struct is lost. *)
Theorem C62_lost_refuted doc before x after : wanted x -> ts_body x = Other -> collect doc (before ++ x :: after) = collect doc (before ++ [x]).
Proof.
  intros (W1 & W2 & W3) BD. induction before as [|s before IH]; cbn [app collect].
  - rewrite W1, W2, W3, BD. reflexivity.
  - rewrite IH. reflexivity.
Qed.

(** ** C41: shapes that come out in another order, whatever the sorting algorithm *)
Definition text : gotype := {| ty_base := B "string"; ty_ptr := 0 |}.
Definition embedded (n : bytes) (inner : list decl) : decl := Embeds n true {| ty_base := n; ty_ptr := 0 |} [] inner.
Definition one (n : string) : decl := Names [(B n, true)] text [].
(** type T struct { A, B, C string; D string } *)
Definition grouped : list decl := [Names [(B "A", true); (B "B", true); (B "C", true)] text []; one "D"].
(** T embeds E1, which embeds E2, which embeds E3, which embeds X and Y, of two fields each *)
Definition nested : list decl :=
  [embedded (B "E1") [embedded (B "E2") [embedded (B "E3") [embedded (B "X") [one "X1"; one "X2"]; embedded (B "Y") [one "Y1"; one "Y2"]]]]].
Lemma out_of_order sort L x y a b : sorts sort -> In (a, x) L -> (forall a', In (a', x) L -> a' = a) -> (forall b', In (b', y) L -> b' = b) -> less b a = true ->
  forall l1 l2 l3, map snd (sort L) <> l1 ++ x :: l2 ++ y :: l3.
Proof.
  intros SO I UX UY LE l1 l2 l3 E. destruct (SO L) as [P SS]. 
  apply map_eq_app in E. destruct E as (s1 & s2 & ES & E1 & E2). destruct s2 as [|[a' x'] s2]; [discriminate|]. cbn [map snd] in E2. injection E2 as -> E2.
  apply map_eq_app in E2. destruct E2 as (s3 & s4 & -> & E3 & E4). destruct s4 as [|[b' y'] s4]; [discriminate|]. cbn [map snd] in E4. injection E4 as -> E4.
  assert (a' = a) by (apply UX; eapply Permutation_in; [exact P|]; rewrite ES; apply in_or_app; right; now left).
  assert (b' = b) by (apply UY; eapply Permutation_in; [exact P|]; rewrite ES; apply in_or_app; right; right; apply in_or_app; right; now left). subst.
  rewrite ES in SS. clear - SS LE. induction s1 as [|z s1 IH]; cbn [app] in SS.
  - apply StronglySorted_inv in SS. destruct SS as [_ F]. rewrite Forall_forall in F. specialize (F (b, y) ltac:(apply in_or_app; right; now left)). cbn in F. congruence.
  - apply StronglySorted_inv in SS. apply IH, SS.
Qed.
Definition columns_of (r : res (option table)) : list bytes := match r with Ok (Some t) => map c_goname (t_columns t) | _ => [] end.
Theorem C41_grouped_refuted sort rename wrap unwrap name doc : sorts sort -> forall t, parse_struct sort rename wrap unwrap name doc grouped = Ok (Some t) ->
  map c_goname (t_columns t) <> [B "A"; B "B"; B "C"; B "D"] /\ Permutation (map c_goname (t_columns t)) [B "A"; B "B"; B "C"; B "D"].
Proof.
  intros SO t E. destruct (parse_table sort rename wrap unwrap name doc grouped t SO E) as (fs & F & P & _ & (gs & ks & SE & F2 & _) & _).
  assert (ALL : gs = fs).
  { assert (HC : forall f, In f fs -> has_column f).
    { intros f I. eapply Permutation_in in I; [|exact P]. cbn in I. repeat destruct I as [<-|I]; try contradiction; (split; [reflexivity|]; split; [reflexivity|]; split; [unfold excluded; rewrite tag_name_iff; discriminate|intros [_ X]; discriminate]). }
    clear - SE HC. induction SE as [|x l m H SE IH|x l m H SE IH]; [reflexivity|f_equal; apply IH; intros; apply HC; now right|]. exfalso. apply H, HC. now left. }
  subst gs. assert (NM : map c_goname (t_columns t) = map f_name fs).
  { clear - F2. induction F2 as [|f c fs cs (H & _) _ IH]; [reflexivity|]. cbn. rewrite H, IH. reflexivity. }
  rewrite NM. split; [|apply (Permutation_map f_name) in P; exact P].
  unfold fields in F. destruct (explored grouped) as [[h out]|] eqn:X; [|discriminate]. vm_compute in X. injection X as <- <-. injection F as <-.
  match goal with |- context [sort ?l] => set (L := l) in * end. intros Q.
  assert (EQ : exists l1 l2 l3, map snd (sort L) = l1 ++ field_at [] (B "C") text true false [] :: l2 ++ field_at [] (B "D") text true false [] :: l3).
  { assert (PL : Permutation (map snd (sort L)) (declared grouped)) by exact P. remember (map snd (sort L)) as s eqn:ES. clear - Q PL.
    destruct s as [|f1 [|f2 [|f3 [|f4 [|? ?]]]]]; try discriminate. injection Q as Q1 Q2 Q3 Q4. exists [f1; f2], [], [].
    assert (I3 : In f3 (declared grouped)) by (eapply Permutation_in; [exact PL|cbn; tauto]). assert (I4 : In f4 (declared grouped)) by (eapply Permutation_in; [exact PL|cbn; tauto]).
    cbn in I3, I4. repeat destruct I3 as [<-|I3]; try discriminate; try contradiction. repeat destruct I4 as [<-|I4]; try discriminate; try contradiction. reflexivity. }
  destruct EQ as (l1 & l2 & l3 & EQ). revert EQ. apply (out_of_order sort L _ _ [2] [1] SO).
  - cbn. tauto.
  - intros a I. cbn in I. repeat destruct I as [I|I]; try contradiction; try discriminate; congruence.
  - intros a I. cbn in I. repeat destruct I as [I|I]; try contradiction; try discriminate; congruence.
  - reflexivity.
Qed.
Theorem C41_nested_refuted sort rename wrap unwrap name doc : sorts sort -> forall t, parse_struct sort rename wrap unwrap name doc nested = Ok (Some t) ->
  map c_goname (t_columns t) <> [B "X1"; B "X2"; B "Y1"; B "Y2"] /\ Permutation (map c_goname (t_columns t)) [B "X1"; B "X2"; B "Y1"; B "Y2"].
Proof.
  intros SO t E. destruct (parse_table sort rename wrap unwrap name doc nested t SO E) as (fs & F & P & _ & (gs & ks & SE & F2 & _) & _).
  assert (NM : map c_goname (t_columns t) = map f_name gs).
  { clear - F2. induction F2 as [|f c fs cs (H & _) _ IH]; [reflexivity|]. cbn. rewrite H, IH. reflexivity. }
  rewrite NM. split.
  - unfold fields in F. destruct (explored nested) as [[h out]|] eqn:X; [|discriminate]. vm_compute in X. injection X as <- <-. injection F as <-.
    match goal with H : selects _ (map snd (sort ?l)) _ |- _ => set (L := l) in * end. intros Q.
    assert (BEFORE : forall (l : list sfield) m x y m1 m2 m3, selects has_column l m -> m = m1 ++ x :: m2 ++ y :: m3 -> exists l1 l2 l3, l = l1 ++ x :: l2 ++ y :: l3).
    { clear. intros l m x y m1 m2 m3 SE. revert m1. induction SE as [|z l m H SE IH|z l m H SE IH]; intros m1 EQ.
      - destruct m1; discriminate.
      - destruct m1 as [|z' m1].
        + cbn in EQ. injection EQ as -> ->. assert (I : In y l) by (apply (proj1 (selects_in _ _ _ y SE)); apply in_or_app; right; now left). apply in_split in I. destruct I as (l2 & l3 & ->). exists [], l2, l3. reflexivity.
        + cbn in EQ. injection EQ as -> EQ. destruct (IH m1 EQ) as (l1 & l2 & l3 & ->). exists (z' :: l1), l2, l3. reflexivity.
      - destruct (IH m1 EQ) as (l1 & l2 & l3 & ->). exists (z :: l1), l2, l3. reflexivity. }
    pose (pX := [(B "E1", false); (B "E2", false); (B "E3", false); (B "X", false)]). pose (pY := [(B "E1", false); (B "E2", false); (B "E3", false); (B "Y", false)]).
    assert (EQ : exists g1 g4, gs = [g1; field_at pX (B "X2") text true false []; field_at pY (B "Y1") text true false []; g4]).
    { assert (IN : forall g, In g gs -> In g (declared nested)) by (intros g I; apply (selects_in _ _ _ _ SE) in I; eapply Permutation_in; [exact P|apply I]).
      clear - Q IN. destruct gs as [|g1 [|g2 [|g3 [|g4 [|? ?]]]]]; try discriminate. injection Q as Q1 Q2 Q3 Q4. exists g1, g4.
      assert (I2 : In g2 (declared nested)) by (apply IN; cbn; tauto). assert (I3 : In g3 (declared nested)) by (apply IN; cbn; tauto).
      cbn in I2, I3. repeat destruct I2 as [<-|I2]; try discriminate; try contradiction. repeat destruct I3 as [<-|I3]; try discriminate; try contradiction. reflexivity. }
    destruct EQ as (g1 & g4 & EQ). destruct (BEFORE _ _ _ _ [g1] [] [g4] SE EQ) as (l1 & l2 & l3 & EL). revert EL.
    apply (out_of_order sort L _ _ [0; 0; 0; 1; 1] [0; 0; 0; 1; 0] SO).
    + cbn. tauto.
    + intros a I. cbn in I. repeat destruct I as [I|I]; try contradiction; try discriminate; congruence.
    + intros a I. cbn in I. repeat destruct I as [I|I]; try contradiction; try discriminate; congruence.
    + reflexivity.
  - destruct (selects_perm _ _ _ P _ SE) as (m & SM & PM). rewrite (Permutation_map f_name PM).
    assert (M : selects has_column (declared nested) (filter (fun f => negb (f_embedded f)) (declared nested))).
    { cbn. repeat first [apply sel_yes; [split; [reflexivity|]; split; [reflexivity|]; split; [unfold excluded; rewrite tag_name_iff; discriminate|intros [_ Y]; discriminate]|] | apply sel_no; [intros (_ & Y & _); discriminate|]]. constructor. }
    rewrite (selects_unique _ _ _ _ SM M). reflexivity.
Qed.

(** *** Cases *)
Fixpoint put (x : list nat * sfield) (l : list (list nat * sfield)) : list (list nat * sfield) :=
  match l with [] => [x] | y :: l' => if less (fst y) (fst x) then y :: put x l' else x :: l end.
Definition isort (l : list (list nat * sfield)) : list (list nat * sfield) := fold_right put [] l.
Lemma less_trans a : forall b c, less a b = true -> less b c = true -> less a c = true.
Proof.
  induction a as [|x a IH]; intros [|y b] [|z c]; cbn; intros H1 H2; try discriminate; try reflexivity.
  destruct (Nat.eqb_spec x y) as [->|N1].
  - destruct (Nat.eqb_spec y z); [eapply IH; eassumption|exact H2].
  - apply Nat.ltb_lt in H1. destruct (Nat.eqb_spec y z) as [->|N2]; [destruct (Nat.eqb_spec x z); [lia|apply Nat.ltb_lt; exact H1]|].
    apply Nat.ltb_lt in H2. destruct (Nat.eqb_spec x z); [lia|]. apply Nat.ltb_lt. lia.
Qed.
Lemma less_total a : forall b, less a b = false -> a = b \/ less b a = true.
Proof.
  induction a as [|x a IH]; intros [|y b]; cbn; intros H; try discriminate; auto. destruct (Nat.eqb_spec x y) as [->|N].
  - rewrite Nat.eqb_refl. destruct (IH b H) as [->|L]; auto.
  - destruct (Nat.eqb_spec y x); [congruence|]. right. apply Nat.ltb_ge in H. apply Nat.ltb_lt. lia.
Qed.
Lemma isort_sorts : sorts isort.
Proof.
  intros l. induction l as [|x l [P SS]]; [split; constructor|]. cbn [isort fold_right]. fold (isort l). revert SS.
  assert (PP : forall s, Permutation (put x s) (x :: s)). { induction s as [|y s IH]; [reflexivity|]. cbn. destruct (less (fst y) (fst x)); [rewrite IH; apply perm_swap|reflexivity]. }
  intros SS. split; [rewrite PP, P; reflexivity|]. clear P. induction SS as [|y s SS IH F]; cbn [put]; [repeat constructor|].
  destruct (less (fst y) (fst x)) eqn:L.
  - constructor; [exact IH|]. eapply Permutation_Forall; [symmetry; apply PP|]. constructor; [apply less_asym, L|exact F].
  - constructor; [constructor; assumption|]. constructor; [exact L|]. eapply Forall_impl; [|exact F]. intros z H. cbn in H.
    destruct (less_total _ _ L) as [E|L2]; [rewrite <- E; exact H|]. destruct (less (fst z) (fst x)) eqn:G; [|reflexivity]. rewrite (less_trans _ _ _ G L2) in H. discriminate.
Qed.
Definition plain (t : gotype) : bytes * bytes := ([], []).
Definition person : list decl :=
  [Names [(B "ID", true)] {| ty_base := B "int64"; ty_ptr := 0 |} (B ",auto_increment");
   embedded (B "Model") [one "Created"; Names [(B "secret", false)] text []; Names [(B "Hidden", true)] text (B "-")];
   Embeds (B "Skipped") true {| ty_base := B "Skipped"; ty_ptr := 1 |} (B "-") [one "Kept"];
   Opaque;
   Names [(B "First", true); (B "Last", true)] text (B "")].
Example C41_order_partial_case : exists t, parse_struct isort (map lower) plain plain (B "Person") None person = Ok (Some t) /\ sorts isort /\ ungrouped person /\ Forall (shallow 2) person /\
  map c_name (t_columns t) = [B "id"; B "created"; B "kept"; B "first"; B "last"].
Proof. eexists. split; [vm_compute; reflexivity|]. split; [exact isort_sorts|]. split; [cbn; auto|]. split; [repeat constructor; cbn; auto|reflexivity]. Qed.
Example C41_grouped_refuted_case : columns_of (parse_struct isort (map lower) plain plain (B "T") None grouped) = [B "A"; B "B"; B "D"; B "C"].
Proof. reflexivity. Qed.
Example C41_nested_refuted_case : columns_of (parse_struct isort (map lower) plain plain (B "T") None nested) = [B "X1"; B "Y1"; B "X2"; B "Y2"].
Proof. reflexivity. Qed.
Example C42_excluded_partial_case : exists t c, parse_struct isort (map lower) plain plain (B "Person") None person = Ok (Some t) /\ In c (t_columns t) /\ c_goname c = B "Created".
Proof. eexists _, _. split; [vm_compute; reflexivity|]. split; [right; left; reflexivity|reflexivity]. Qed.
Example C42_embedded_refuted_case : exists t f, parse_struct isort (map lower) plain plain (B "Person") None person = Ok (Some t) /\
  In (Embeds (B "Skipped") true {| ty_base := B "Skipped"; ty_ptr := 1 |} (B "-") [one "Kept"]) person /\ tag_name (B "-") (B "-") /\ In f (flat_map (decl_fields [(B "Skipped", true)]) [one "Kept"]) /\ has_column f.
Proof.
  eexists _, _. split; [vm_compute; reflexivity|]. split; [right; right; now left|]. split; [apply tag_name_iff; reflexivity|]. split; [left; reflexivity|].
  split; [reflexivity|]. split; [reflexivity|]. split; [unfold excluded; rewrite tag_name_iff; discriminate|intros [_ Y]; discriminate].
Qed.
Example C43_case : exists t a, parse_struct isort (map lower) plain plain (B "Person") None person = Ok (Some t) /\ t_auto t = Some a /\ c_name a = B "id".
Proof. eexists _, _. split; [vm_compute; reflexivity|]. split; reflexivity. Qed.
Example C43_rejected_case : parse_struct isort (map lower) plain plain (B "T") None [one "A"; one "a"] = Err /\
  parse_struct isort (map lower) plain plain (B "T") None [Names [(B "K", true)] text (B "k,readonly,pk")] = Err /\
  parse_struct isort (map lower) plain plain (B "T") None [Names [(B "K", true)] text (B ",auto_increment"); Names [(B "L", true)] text (B ",auto_increment")] = Err.
Proof. repeat split. Qed.
Definition key_field_of : sfield := field_at [] (B "Key") text true false (B "k,size:10,pk,readonly").
Example C44_case : exists t c, build_table (map lower) plain plain (B "T") false [field_at [] (B "Key") text true false (B " my_key , size:10, pk:asc")] = Ok t /\ t_keys t = [c] /\ c_name c = B "my_key".
Proof. eexists _, _. split; [vm_compute; reflexivity|]. split; reflexivity. Qed.
Example C44_any_order_case : f_tag key_field_of = join (B ",") (B "k" :: [B "size:10"; B "pk"; B "readonly"]) /\ Forall (fun p => ~ In "," p)%char (B "k" :: [B "size:10"; B "pk"; B "readonly"]) /\
  Permutation [B "size:10"; B "pk"; B "readonly"] [B "readonly"; B "pk"; B "size:10"].
Proof. split; [reflexivity|]. split; [repeat constructor; cbn; intuition discriminate|]. apply (Permutation_rev [B "size:10"; B "pk"; B "readonly"]). Qed.
Example C44_unknown_case : ~ In ","%char (B " unique:name ") /\ trimmed (B " unique:name ") (B "unique:name") /\
  (forall o, In o [B "auto_increment"; B "primary_key"; B "pk"; B "readonly"] -> B "unique:name" <> o /\ forall v, B "unique:name" <> o ++ B ":" ++ v).
Proof.
  split; [cbn; intuition discriminate|]. split; [apply trimmed_iff; reflexivity|]. intros o I. cbn [In] in I.
  repeat destruct I as [<-|I]; try contradiction; (split; [discriminate|intros v; discriminate]).
Qed.
Example C44_case_refuted_case : let f := field_at [] (B "Key") text true false (B "id,PK,Primary_Key,AUTO_INCREMENT,ReadOnly") in
  f_exported f = true /\ f_embedded f = false /\ ty_ptr (f_type f) = 0 /\ ty_base (f_type f) <> table_type.
Proof. cbn. repeat split. discriminate. Qed.
Example C44_raw_literal_case : tag_of (B "sql") (raw_literal [(B "json", B "key,omitempty"); (B "sql", B "k,pk")]) = B "k,pk" /\
  first_value (B "sql") [(B "json", B "key,omitempty"); (B "sql", B "k,pk")] (B "k,pk").
Proof. split; [reflexivity|]. constructor; [discriminate|constructor]. Qed.
Example C44_interpreted_literal_case : tag_of (B "sql") (dq :: B "sql:" ++ bs :: dq :: B "k,pk" ++ [bs; dq; dq]) = [].
Proof. reflexivity. Qed.
Example C60_case : flagged (B "Log is read only. +sql:readonly") [B "readonly"] /\
  (exists t, parse_struct isort (map lower) plain plain (B "Log") (Some (B "Log is read only. +sql:readonly")) [one "Text"] = Ok (Some t) /\ t_readonly t = true) /\
  (exists t, parse_struct isort (map lower) plain plain (B "Log") (Some (B "+sql:ignore")) person = Ok (Some t) /\ t_readonly t = false).
Proof.
  split; [exists (B "Log is read only. "), []; split; [reflexivity|]; split; [cbn; intuition discriminate|]; split; [discriminate|]; split; [repeat constructor; cbn; intuition discriminate|]; split; [repeat constructor; discriminate|now left]|].
  split; eexists; (split; [vm_compute; reflexivity|reflexivity]).
Qed.
Example C60_grouped_case : collect None [{| ts_name := B "Log"; ts_doc := Some (B "+sql:ignore"); ts_alias := false; ts_matched := true; ts_exported := true; ts_body := Struct [one "Text"] |}] = [(B "Log", None, [one "Text"])].
Proof. reflexivity. Qed.
Definition node : decl := Embeds (B "Node") true {| ty_base := B "Node"; ty_ptr := 1 |} [] [].
Example C61_case : let e n := if bseq n (B "Node") then Some [one "Key"; node] else None in explore_named e (2 * 100) [[one "Key"; node]] = None.
Proof. apply (C61_self_refuted _ (B "Node") true {| ty_base := B "Node"; ty_ptr := 1 |} [] [] [one "Key"] []). reflexivity. Qed.
Example C61_finite_case : exists fs, fields isort person = Some fs /\ length fs = 9.
Proof. eexists. split; [vm_compute; reflexivity|reflexivity]. Qed.
Definition exported_type (n : string) (b : body) : tspec := {| ts_name := B n; ts_doc := None; ts_alias := false; ts_matched := true; ts_exported := true; ts_body := b |}.
Example C62_case : collect None [exported_type "A" (Struct [one "X"]); exported_type "Kind" Other; exported_type "Z" (Struct [one "Y"])] = [(B "A", None, [one "X"])] /\
  wanted (exported_type "Kind" Other).
Proof. repeat split. Qed.
Print Assumptions C41_order_partial.
Print Assumptions C41_grouped_refuted.
Print Assumptions C41_nested_refuted.
Print Assumptions C42_excluded_partial.
Print Assumptions C42_embedded_refuted.
Print Assumptions C43_accepted.
Print Assumptions C43_exactly.
Print Assumptions C44_tag_partial.
Print Assumptions C44_any_order_partial.
Print Assumptions C44_unknown_partial.
Print Assumptions C44_case_refuted.
Print Assumptions C44_raw_literal_partial.
Print Assumptions C44_interpreted_literal_refuted.
Print Assumptions C60_annotated_partial.
Print Assumptions C60_embedded_refuted.
Print Assumptions C60_grouped_refuted.
Print Assumptions C61_finite_partial.
Print Assumptions C61_self_refuted.
Print Assumptions C62_group_partial.
Print Assumptions C62_lost_refuted.
