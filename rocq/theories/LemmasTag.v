(** Proofs about tags, columns and tables. *)
From Coq Require Import Permutation.
From Verif Require Import Base ModelCompiler ModelParser SpecParser LemmasBase LemmasCompiler.

(** ** Splitting *)
Lemma split_nonempty sep s : split_byte sep s <> [].
Proof. destruct s as [|c s]; cbn; [discriminate|]. destruct (beq c sep); [discriminate|]. destruct (split_byte sep s); discriminate. Qed.
Lemma split_join sep s : join [sep] (split_byte sep s) = s.
Proof.
  induction s as [|c s IH]; [reflexivity|]. cbn [split_byte]. destruct (beq c sep) eqn:E.
  - apply beq_eq in E. subst c. pose proof (split_nonempty sep s). destruct (split_byte sep s) as [|p l]; [contradiction|]. rewrite join_cons, IH. reflexivity.
  - pose proof (split_nonempty sep s). destruct (split_byte sep s) as [|p l]; [contradiction|]. destruct l as [|q l].
    + cbn in *. rewrite IH. reflexivity.
    + rewrite join_cons in *. cbn [app]. rewrite <- IH. reflexivity.
Qed.
Lemma split_pieces sep s : Forall (fun p => ~ In sep p) (split_byte sep s).
Proof.
  induction s as [|c s IH]; cbn [split_byte]; [repeat constructor; intros []|]. destruct (beq c sep) eqn:E.
  - constructor; [intros []|exact IH].
  - destruct (split_byte sep s) as [|p l]; [repeat constructor; intros [->|[]]; rewrite beq_refl in E; discriminate|].
    inversion IH; subst. constructor; [|assumption]. intros [->|I]; [rewrite beq_refl in E; discriminate|contradiction].
Qed.
Lemma split_first sep p : ~ In sep p -> split_byte sep p = [p].
Proof.
  induction p as [|c p IH]; intros N; [reflexivity|]. cbn [split_byte]. destruct (beq c sep) eqn:E; [apply beq_eq in E; subst; exfalso; apply N; now left|].
  rewrite IH; [reflexivity|]. intros I. apply N. now right.
Qed.
Lemma split_app sep p r : ~ In sep p -> split_byte sep (p ++ sep :: r) = p :: split_byte sep r.
Proof.
  induction p as [|c p IH]; intros N; cbn [app split_byte]; [rewrite beq_refl; reflexivity|].
  destruct (beq c sep) eqn:E; [apply beq_eq in E; subst; exfalso; apply N; now left|].
  rewrite IH; [reflexivity|]. intros I. apply N. now right.
Qed.
Lemma split_unique sep ps : ps <> [] -> Forall (fun p => ~ In sep p) ps -> split_byte sep (join [sep] ps) = ps.
Proof.
  induction ps as [|p ps IH]; intros NE F; [contradiction|]. inversion F; subst. destruct ps as [|q ps]; [apply split_first; assumption|].
  rewrite join_cons. cbn [app]. rewrite split_app by assumption. f_equal. apply IH; [discriminate|assumption].
Qed.
Lemma parts_split tag parts : tag_parts tag parts <-> parts = split_byte "," tag.
Proof.
  split.
  - intros (NE & F & <-). symmetry. apply (split_unique ","%char parts NE F).
  - intros ->. split; [apply split_nonempty|]. split; [apply split_pieces|]. apply (split_join ","%char).
Qed.

(** ** Trimming *)
Lemma white_spec c : is_white c = true <-> white c.
Proof.
  unfold is_white, in_range, white. rewrite orb_true_iff, andb_true_iff, !N.leb_le, beq_eq. split; (intros [H|H]; [left; exact H|right]).
  - subst c. reflexivity.
  - apply code_inj. rewrite H. reflexivity.
Qed.
Lemma trim_left_white a r : Forall white a -> trim_left (a ++ r) = trim_left r.
Proof. induction 1 as [|c a W _ IH]; [reflexivity|]. cbn. rewrite (proj2 (white_spec c) W). exact IH. Qed.
Lemma trim_left_spec s : exists a, Forall white a /\ s = a ++ trim_left s /\ (forall c r, trim_left s = c :: r -> ~ white c).
Proof.
  induction s as [|c s (a & W & E & H)]; [exists []; split; [constructor|]; split; [reflexivity|discriminate]|]. cbn [trim_left].
  destruct (is_white c) eqn:WC.
  - exists (c :: a). split; [constructor; [apply white_spec, WC|exact W]|]. split; [cbn; f_equal; exact E|exact H].
  - exists []. split; [constructor|]. split; [reflexivity|]. intros c0 r0 E0. injection E0 as <- <-. rewrite <- white_spec. congruence.
Qed.
Lemma trim_left_id s : (forall c r, s = c :: r -> ~ white c) -> trim_left s = s.
Proof. destruct s as [|c s]; [reflexivity|]. intros H. cbn. specialize (H c s eq_refl). rewrite <- white_spec in H. destruct (is_white c); congruence. Qed.
Lemma trim_trimmed s : trimmed s (trim_space s).
Proof.
  unfold trim_space. destruct (trim_left_spec s) as (a & WA & EA & HA). destruct (trim_left_spec (rev (trim_left s))) as (b & WB & EB & HB).
  assert (E : trim_left s = rev (trim_left (rev (trim_left s))) ++ rev b). { rewrite <- rev_app_distr, <- EB. symmetry. apply rev_involutive. }
  exists a, (rev b). split; [rewrite EA at 1; rewrite E at 1; reflexivity|]. split; [exact WA|]. split; [apply Forall_rev, WB|]. split.
  - intros c r EQ. rewrite EQ in E. cbn in E. eapply HA, E.
  - intros c r EQ. apply (f_equal (@rev _)) in EQ. rewrite rev_involutive, rev_app_distr in EQ. cbn in EQ. eapply HB, EQ.
Qed.
Lemma trimmed_unique s core : trimmed s core -> core = trim_space s.
Proof.
  intros (a & b & -> & WA & WB & H1 & H2). unfold trim_space. rewrite trim_left_white by exact WA.
  destruct core as [|c core].
  - cbn [app]. rewrite <- (app_nil_r b), trim_left_white by exact WB. reflexivity.
  - rewrite (trim_left_id ((c :: core) ++ b)) by (intros c0 r0 E; injection E as <- <-; eapply H1; reflexivity).
    rewrite rev_app_distr, trim_left_white by (apply Forall_rev, WB).
    rewrite (trim_left_id (rev (c :: core))), rev_involutive; [reflexivity|]. intros c0 r0 E. apply (H2 c0 (rev r0)).
    apply (f_equal (@rev _)) in E. rewrite rev_involutive in E. rewrite E. reflexivity.
Qed.
Lemma trimmed_iff s core : trimmed s core <-> core = trim_space s.
Proof. split; [apply trimmed_unique|intros ->; apply trim_trimmed]. Qed.
Lemma tag_name_iff tag n : tag_name tag n <-> n = trim_space (hd [] (split_byte "," tag)).
Proof.
  split.
  - intros (p & ps & TP & TR). apply parts_split in TP. rewrite <- TP. apply trimmed_unique, TR.
  - intros ->. pose proof (split_nonempty "," tag) as NE. destruct (split_byte "," tag) as [|p ps] eqn:E; [contradiction|].
    exists p, ps. split; [apply parts_split; symmetry; exact E|apply trim_trimmed].
Qed.
Lemma has_option_iff tag o : ~ In ":"%char o -> has_option tag o <-> In o (parse_tag (tl (split_byte "," tag))).
Proof.
  intros NC. unfold parse_tag. rewrite in_flat_map. split.
  - intros (p & ps & q & core & TP & I & TR & NE & H). apply parts_split in TP. rewrite <- TP. exists q. split; [exact I|].
    rewrite <- (trimmed_unique _ _ TR). destruct core as [|c core]; [contradiction|]. left. destruct H as [->|[v H]].
    + rewrite split_first by exact NC. reflexivity.
    + rewrite H. change (B ":" ++ v) with (":"%char :: v). rewrite split_app by exact NC. reflexivity.
  - intros (q & I & IO). pose proof (split_nonempty "," tag) as NE. destruct (split_byte "," tag) as [|p ps] eqn:E; [contradiction|].
    exists p, ps, q, (trim_space q). split; [apply parts_split; symmetry; exact E|]. split; [exact I|]. split; [apply trim_trimmed|].
    destruct (trim_space q) as [|c r] eqn:T; [contradiction|]. split; [discriminate|]. destruct IO as [<-|[]].
    pose proof (split_join ":" (c :: r)) as J. pose proof (split_nonempty ":" (c :: r)) as NS. destruct (split_byte ":" (c :: r)) as [|x l]; [contradiction|].
    cbn [hd]. destruct l as [|y l]; [left; symmetry; exact J|right]. rewrite join_cons in J. eexists. symmetry. exact J.
Qed.

(** ** Names *)
Lemma range_iff lo hi c : in_range lo hi c = true <-> (lo <= code c <= hi)%N.
Proof. unfold in_range. rewrite andb_true_iff, !N.leb_le. reflexivity. Qed.
Lemma alnum_iff c : is_alnum c || beq c "_" = true <-> letter c \/ digit c \/ c = "_"%char.
Proof.
  unfold is_alnum, is_alpha, is_upper, is_lower, is_digit. rewrite !orb_true_iff, !range_iff, beq_eq. unfold letter, digit. tauto.
Qed.
Lemma name_tail_iff n : forall s, length s <= n -> name_tail s = true <-> word s.
Proof.
  induction n as [|n IH]; intros s L.
  - destruct s; [|cbn in L; lia]. split; [constructor|reflexivity].
  - destruct s as [|c r]; [split; [constructor|reflexivity]|]. cbn [length] in L. cbn [name_tail]. destruct (is_alnum c || beq c "_") eqn:A.
    + rewrite IH by lia. apply alnum_iff in A. split; [intros W; constructor; assumption|]. intros W. inversion W; subst; try assumption.
      * exfalso. unfold letter, digit in A. destruct A as [A|[A|A]]; [lia|lia|]. subst c. cbn in H1. discriminate.
      * exfalso. unfold letter, digit in A. destruct A as [A|[A|A]]; [lia|lia|]. subst c. cbn in H1. discriminate.
    + assert (NA : ~ (letter c \/ digit c \/ c = "_"%char)) by (rewrite <- alnum_iff; congruence).
      destruct r as [|c2 r2]; [split; [discriminate|]; intros W; inversion W; subst; contradiction|].
      destruct (N.eqb_spec (code c) 197) as [E1|E1]; cbn [andb].
      * destruct (N.eqb_spec (code c2) 191) as [E2|E2].
        -- cbn in L. rewrite IH by lia. split; [intros W; apply word_long_s; assumption|]. intros W. inversion W; subst; [contradiction|assumption|congruence].
        -- replace (match r2 with [] => false | c3 :: r3 => if N.eqb (code c) 226 && N.eqb (code c2) 132 && N.eqb (code c3) 170 then name_tail r3 else false end) with false
             by (destruct r2; [reflexivity|]; rewrite E1; reflexivity).
           split; [discriminate|]. intros W. inversion W; subst; [contradiction|congruence|congruence].
      * destruct r2 as [|c3 r3]; [split; [discriminate|]; intros W; inversion W; subst; [contradiction|congruence]|].
        destruct (N.eqb_spec (code c) 226) as [F1|F1]; cbn [andb]; [|split; [discriminate|]; intros W; inversion W; subst; [contradiction|congruence|congruence]].
        destruct (N.eqb_spec (code c2) 132) as [F2|F2]; cbn [andb]; [|split; [discriminate|]; intros W; inversion W; subst; [contradiction|congruence|congruence]].
        destruct (N.eqb_spec (code c3) 170) as [F3|F3]; [|split; [discriminate|]; intros W; inversion W; subst; [contradiction|congruence|congruence]].
        cbn in L. rewrite IH by lia. split; [intros W; apply word_kelvin; assumption|]. intros W. inversion W; subst; [contradiction|congruence|assumption].
Qed.
Lemma name_regex_iff n : name_regex n = true <-> good_name n.
Proof.
  unfold name_regex, good_name. destruct n as [|c r]; [split; [discriminate|intros (c & r & E & _); discriminate]|].
  rewrite andb_true_iff, negb_true_iff, orb_false_iff, (name_tail_iff (length (c :: r))) by apply le_n. unfold is_digit.
  assert (D : in_range 48 57 c = false <-> ~ digit c) by (rewrite <- not_true_iff_false, range_iff; reflexivity).
  assert (U : beq c "_" = false <-> c <> "_"%char) by (rewrite <- not_true_iff_false, beq_eq; reflexivity).
  rewrite D, U. split.
  - intros [[A C] W]. exists c, r. auto.
  - intros (c0 & r0 & E & A & C & W). injection E as <- <-. auto.
Qed.

(** ** The tag of a field *)
Lemma read_tag_cases rename f :
  match read_tag rename f with
  | Ok Excluded => excluded f
  | Ok (Named n opts) => ~ excluded f /\ column_name rename f n /\ opts = tl (split_byte "," (f_tag f)) /\ (forall m, tag_name (f_tag f) m -> m = [] \/ good_name m)
  | Err => exists n, tag_name (f_tag f) n /\ n <> [] /\ n <> B "-" /\ ~ good_name n
  | Panic => False
  end.
Proof.
  unfold read_tag, excluded, column_name. destruct (f_tag f) as [|c0 v0] eqn:TAG.
  - assert (T : tag_name [] []) by (apply tag_name_iff; reflexivity). split; [rewrite tag_name_iff; discriminate|]. split; [left; split; [exact T|reflexivity]|]. split; [reflexivity|].
    intros m M. apply tag_name_iff in M. left. exact M.
  - set (v := c0 :: v0). pose proof (split_nonempty "," v) as NE. pose proof (tag_name_iff v) as TN. destruct (split_byte "," v) as [|p rest]; [contradiction|]. cbn [hd tl] in *.
    destruct (bseq (trim_space p) (B "-")) eqn:D.
    + apply bseq_eq in D. apply TN. symmetry. exact D.
    + apply bseq_neq in D. destruct (trim_space p) as [|c r] eqn:T.
      * split; [rewrite TN; congruence|]. split; [left; split; [apply TN; reflexivity|reflexivity]|]. split; [reflexivity|]. intros m M. apply TN in M. left. exact M.
      * destruct (name_regex (c :: r)) eqn:R.
        -- split; [rewrite TN; congruence|]. split; [right; split; [apply TN; reflexivity|discriminate]|]. split; [reflexivity|]. intros m M. apply TN in M. right. rewrite M. apply name_regex_iff, R.
        -- exists (c :: r). split; [apply TN; reflexivity|]. split; [discriminate|]. split; [exact D|]. rewrite <- name_regex_iff. congruence.
Qed.
Lemma column_name_unique rename f n m : column_name rename f n -> column_name rename f m -> n = m.
Proof.
  unfold column_name. rewrite !tag_name_iff. intros [[A1 A2]|[A1 A2]] [[C1 C2]|[C1 C2]]; congruence.
Qed.
Lemma has_opts_iff opts keys : has_opts opts keys = true <-> exists k, In k keys /\ In k opts.
Proof. unfold has_opts. rewrite existsb_exists. split; intros (k & I & M); exists k; (split; [exact I|]); apply bmem_In; exact M. Qed.

(** ** Selections *)
Lemma selects_app {A} (P : A -> Prop) l m l' m' : selects P l m -> selects P l' m' -> selects P (l ++ l') (m ++ m').
Proof. induction 1; intros H2; cbn; [exact H2|apply sel_yes; auto|apply sel_no; auto]. Qed.
Lemma selects_one {A} (P : A -> Prop) x : P x -> selects P [x] [x].
Proof. intros H. apply sel_yes; [exact H|constructor]. Qed.
Lemma selects_none {A} (P : A -> Prop) x : ~ P x -> selects P [x] [].
Proof. intros H. apply sel_no; [exact H|constructor]. Qed.
Lemma selects_unique {A} (P : A -> Prop) l m m' : selects P l m -> selects P l m' -> m = m'.
Proof.
  intros H. revert m'. induction H; intros m' H'; inversion H'; subst; try contradiction; auto. f_equal. auto.
Qed.
Lemma selects_in {A} (P : A -> Prop) l m x : selects P l m -> In x m <-> In x l /\ P x.
Proof.
  induction 1 as [|y l m PY H IH|y l m PY H IH]; cbn [In]; [tauto| |].
  - rewrite IH. intuition congruence.
  - rewrite IH. intuition congruence.
Qed.
Lemma selects_snoc {A} (P : A -> Prop) l x m : selects P (l ++ [x]) m -> (exists m', m = m' ++ [x] /\ P x /\ selects P l m') \/ (~ P x /\ selects P l m).
Proof.
  revert m. induction l as [|y l IH]; intros m H; cbn [app] in H.
  - inversion H as [|? ? ? PX HN|? ? ? NX HN]; subst; inversion HN; subst; [left; exists []; split; [reflexivity|split; [exact PX|constructor]]|right; split; [exact NX|constructor]].
  - inversion H as [|? ? m2 PX HN|? ? ? NX HN]; subst.
    + destruct (IH _ HN) as [(m' & -> & PX' & S')|[NX S']]; [left; exists (y :: m'); split; [reflexivity|]; split; [exact PX'|apply sel_yes; assumption]|right; split; [exact NX|apply sel_yes; assumption]].
    + destruct (IH _ HN) as [(m' & -> & PX' & S')|[NX' S']]; [left; exists m'; split; [reflexivity|]; split; [exact PX'|apply sel_no; assumption]|right; split; [exact NX'|apply sel_no; assumption]].
Qed.
Lemma selects_perm {A} (P : A -> Prop) l l' : Permutation l l' -> forall m, selects P l m -> exists m', selects P l' m' /\ Permutation m m'.
Proof.
  induction 1 as [|x l l' PE IH|x y l|l l' l'' P1 IH1 P2 IH2]; intros m S0.
  - inversion S0; subst. exists []. split; constructor.
  - inversion S0; subst.
    + destruct (IH _ H3) as (m' & S' & PM). exists (x :: m'). split; [apply sel_yes; assumption|constructor; exact PM].
    + destruct (IH _ H3) as (m' & S' & PM). exists m'. split; [apply sel_no; assumption|exact PM].
  - inversion S0 as [|? ? ? PY S1|? ? ? PY S1]; subst; inversion S1 as [|? ? ? PX S2|? ? ? PX S2]; subst.
    + eexists. split; [apply sel_yes; [exact PX|apply sel_yes; [exact PY|exact S2]]|apply perm_swap].
    + eexists. split; [apply sel_no; [exact PX|apply sel_yes; [exact PY|exact S2]]|reflexivity].
    + eexists. split; [apply sel_yes; [exact PX|apply sel_no; [exact PY|exact S2]]|reflexivity].
    + eexists. split; [apply sel_no; [exact PX|apply sel_no; [exact PY|exact S2]]|reflexivity].
  - destruct (IH1 _ S0) as (m1 & S1 & PM1). destruct (IH2 _ S1) as (m2 & S2 & PM2). exists m2. split; [exact S2|]. transitivity m1; assumption.
Qed.

(** ** One field after the other *)
Section Table.
Variable rename : bytes -> bytes.
Variable wrap unwrap : gotype -> bytes * bytes.
Notation add := (add_field rename wrap unwrap).
Notation adds := (add_fields rename wrap unwrap).

Lemma add_fields_app t l l' : adds t (l ++ l') = bind (adds t l) (fun t' => adds t' l').
Proof. revert t. induction l as [|f l IH]; intros t; cbn; [reflexivity|]. destruct (add t f); cbn [bind]; auto. Qed.
Definition option_flags (f : sfield) (tag : list bytes) : Prop :=
  (has_opts tag [B "auto_increment"] = true <-> auto_field f) /\ (has_opts tag [B "readonly"] = true <-> readonly_field f) /\
  (has_opts tag [B "auto_increment"; B "primary_key"; B "pk"] = true <-> auto_field f \/ key_field f).
Lemma flags_spec f : option_flags f (parse_tag (tl (split_byte "," (f_tag f)))).
Proof.
  unfold option_flags, auto_field, key_field, readonly_field, auto_field. rewrite !has_opts_iff.
  rewrite !has_option_iff by (cbn; intuition discriminate). cbn [In].
  assert (DEC : In (B "auto_increment") (parse_tag (tl (split_byte "," (f_tag f)))) \/ ~ In (B "auto_increment") (parse_tag (tl (split_byte "," (f_tag f))))).
  { destruct (bmem (B "auto_increment") (parse_tag (tl (split_byte "," (f_tag f))))) eqn:E; [left; apply bmem_In, E|right; apply bmem_not_In, E]. }
  split; [|split].
  - split; [intros (k & [<-|[]] & I); exact I|intros I; eauto].
  - split; [intros (k & [<-|[]] & I); exact I|intros I; eauto].
  - split.
    + intros (k & [<-|[<-|[<-|[]]]] & I); tauto.
    + intros [I|[[I|I] _]]; eauto 7.
Qed.
(** what is asked of one more field *)
Definition welcome (names : list bytes) (auto : Prop) (f : sfield) : Prop :=
  ty_ptr (f_type f) <= 1 /\ (forall n, tag_name (f_tag f) n -> n = [] \/ n = B "-" \/ good_name n) /\
  (has_column f -> (forall n, column_name rename f n -> ~ In n names) /\ (auto_field f -> ~ auto) /\ (auto_field f \/ key_field f -> ~ readonly_field f)).
Lemma add_field_cases t f :
  match add t f with
  | Ok t' => welcome (map c_name (t_columns t)) (t_auto t <> None) f /\
      (has_column f -> exists c, column_for rename f c /\ t_columns t' = t_columns t ++ [c] /\
         ((auto_field f /\ t_auto t' = Some c /\ t_keys t' = t_keys t) \/
          (key_field f /\ t_auto t' = t_auto t /\ t_keys t' = t_keys t ++ [c]) \/
          (~ auto_field f /\ ~ key_field f /\ t_auto t' = t_auto t /\ t_keys t' = t_keys t))) /\
      (~ has_column f -> t_columns t' = t_columns t /\ t_auto t' = t_auto t /\ t_keys t' = t_keys t)
  | Err => ~ welcome (map c_name (t_columns t)) (t_auto t <> None) f
  | Panic => False
  end.
Proof.
  unfold add_field. destruct (Nat.ltb 1 (ty_ptr (f_type f))) eqn:PT; [intros (L & _); apply Nat.ltb_lt in PT; lia|].
  apply Nat.ltb_ge in PT. pose proof (read_tag_cases rename f) as RT. pose proof (flags_spec f) as FL. destruct (read_tag rename f) as [[|name opts]| |]; cbn [bind].
  - assert (NC : ~ has_column f) by (intros (_ & _ & X & _); contradiction). split; [|split; [intros; contradiction|auto]].
    split; [exact PT|]. split; [|intros; contradiction]. intros n T. unfold excluded in RT. rewrite tag_name_iff in *. right. left. congruence.
  - destruct RT as (NX & CN & OP & GN).
    assert (GN' : forall n, tag_name (f_tag f) n -> n = [] \/ n = B "-" \/ good_name n) by (intros n T; destruct (GN n T); auto).
    destruct (Nat.eqb (ty_ptr (f_type f)) 0 && bseq (ty_base (f_type f)) table_type) eqn:TT.
    { assert (NC : ~ has_column f). { intros (_ & _ & _ & X). apply X. apply andb_true_iff in TT. destruct TT as [T1 T2]. apply Nat.eqb_eq in T1. apply bseq_eq in T2. auto. }
      split; [split; [exact PT|split; [exact GN'|intros; contradiction]]|]. split; [intros; contradiction|]. destruct name; auto. }
    destruct (f_exported f) eqn:EX; cbn [negb].
    2:{ assert (NC : ~ has_column f) by (intros (X & _); congruence). split; [split; [exact PT|split; [exact GN'|intros; contradiction]]|]. split; [intros; contradiction|auto]. }
    destruct (f_embedded f) eqn:EM.
    { assert (NC : ~ has_column f) by (intros (_ & X & _); congruence). split; [split; [exact PT|split; [exact GN'|intros; contradiction]]|]. split; [intros; contradiction|auto]. }
    assert (HC : has_column f).
    { split; [exact EX|]. split; [exact EM|]. split; [exact NX|]. intros [T1 T2]. rewrite T1, T2, bseq_refl in TT. discriminate. }
    destruct (bmem name (map c_name (t_columns t))) eqn:BM.
    { apply bmem_In in BM. intros (_ & _ & W). destruct (W HC) as (W1 & _). exact (W1 name CN BM). }
    apply bmem_not_In in BM. subst opts. destruct FL as (FA & FR & FK). set (tag := parse_tag (tl (split_byte "," (f_tag f)))) in *.
    set (c := {| c_name := name |}).
    assert (CF : column_for rename f c) by (repeat split; try reflexivity; try assumption; apply FR).
    assert (FRESH : forall n, column_name rename f n -> ~ In n (map c_name (t_columns t))) by (intros n CN2; rewrite (column_name_unique _ _ _ _ CN2 CN); exact BM).
    change (c_readonly c) with (has_opts tag [B "readonly"]).
    destruct (has_opts tag [B "auto_increment"; B "primary_key"; B "pk"]) eqn:HK.
    + destruct (has_opts tag [B "auto_increment"]) eqn:HA.
      * destruct (t_auto t) as [a|] eqn:TA; [intros (_ & _ & W); destruct (W HC) as (_ & W2 & _); apply W2; [apply FA; reflexivity|discriminate]|].
        destruct (has_opts tag [B "readonly"]) eqn:HR; [intros (_ & _ & W); destruct (W HC) as (_ & _ & W3); apply W3; [left; apply FA; reflexivity|apply FR; reflexivity]|].
        split; [|split; [|intros; contradiction]].
        -- split; [exact PT|]. split; [exact GN'|]. intros _. split; [exact FRESH|]. split; [intros _ NN; apply NN; reflexivity|]. intros _ R. apply FR in R. discriminate.
        -- intros _. exists c. split; [exact CF|]. split; [reflexivity|]. left. split; [apply FA; reflexivity|auto].
      * assert (KF : key_field f). { destruct (proj1 FK eq_refl) as [A|K]; [apply FA in A; discriminate|exact K]. }
        destruct (has_opts tag [B "readonly"]) eqn:HR; [intros (_ & _ & W); destruct (W HC) as (_ & _ & W3); apply W3; [right; exact KF|apply FR; reflexivity]|].
        split; [|split; [|intros; contradiction]].
        -- split; [exact PT|]. split; [exact GN'|]. intros _. split; [exact FRESH|]. split; [intros A; apply FA in A; discriminate|]. intros _ R. apply FR in R. discriminate.
        -- intros _. exists c. split; [exact CF|]. split; [reflexivity|]. right. left. auto.
    + assert (NAK : ~ (auto_field f \/ key_field f)) by (intros X; apply FK in X; discriminate).
      split; [|split; [|intros; contradiction]].
      * split; [exact PT|]. split; [exact GN'|]. intros _. split; [exact FRESH|]. split; [intros A; exfalso; auto|intros AK; contradiction].
      * intros _. exists c. split; [exact CF|]. split; [reflexivity|]. right. right. split; [intros A; auto|]. split; [intros K; auto|auto].
  - destruct RT as (n & T & N1 & N2 & N3). intros (_ & W & _). destruct (W n T) as [X|[X|X]]; auto.
  - exact RT.
Qed.

Definition start (name : bytes) (ro : bool) : table := {| t_name := name; t_keys := []; t_columns := []; t_readonly := ro; t_auto := None |}.
Lemma column_dec f : has_column f \/ ~ has_column f.
Proof.
  unfold has_column, excluded. destruct (f_exported f); [|right; intros (X & _); discriminate]. destruct (f_embedded f); [right; intros (_ & X & _); discriminate|].
  destruct (bytes_eq_dec (B "-") (trim_space (hd [] (split_byte "," (f_tag f))))) as [E|E]; rewrite tag_name_iff.
  - right. intros (_ & _ & X & _). contradiction.
  - destruct (Nat.eq_dec (ty_ptr (f_type f)) 0) as [T1|T1]; [|left; tauto]. destruct (bytes_eq_dec (ty_base (f_type f)) table_type) as [T2|T2]; [|left; tauto]. right. tauto.
Qed.
Lemma names_of gs cs : Forall2 (column_for rename) gs cs -> Forall2 (column_name rename) gs (map c_name cs).
Proof. induction 1 as [|f c gs cs H _ IH]; cbn; constructor; [apply H|exact IH]. Qed.
Lemma forall2_len {A C} (R : A -> C -> Prop) l m : Forall2 R l m -> length l = length m.
Proof. induction 1; cbn; congruence. Qed.
Lemma combine_snoc {A C} (l : list A) (m : list C) x y : length l = length m -> combine (l ++ [x]) (m ++ [y]) = combine l m ++ [(x, y)].
Proof. revert m. induction l as [|a l IH]; intros [|c m] L; cbn in *; try discriminate; [reflexivity|]. rewrite IH by lia. reflexivity. Qed.
Lemma in_pair_left {A C} (l : list A) (m : list C) x : length l = length m -> In x l -> exists y, In (x, y) (combine l m).
Proof. revert m. induction l as [|a l IH]; intros [|c m] L I; cbn in *; try discriminate; [contradiction|]. destruct I as [<-|I]; [eauto|]. destruct (IH m) as [y J]; [lia|exact I|eauto]. Qed.

Definition acceptable' (fs : list sfield) : Prop :=
  Forall (fun f => ty_ptr (f_type f) <= 1) fs /\
  (forall f n, In f fs -> tag_name (f_tag f) n -> n = [] \/ n = B "-" \/ good_name n) /\
  exists gs ns, selects has_column fs gs /\ Forall2 (column_name rename) gs ns /\ NoDup ns /\
  (forall i j f g, nth_error gs i = Some f -> nth_error gs j = Some g -> auto_field f -> auto_field g -> i = j) /\
  (forall f, In f gs -> auto_field f \/ key_field f -> ~ readonly_field f).
Lemma auto_dec f : auto_field f \/ ~ auto_field f.
Proof. pose proof (flags_spec f) as (FA & _). destruct (has_opts _ [B "auto_increment"]); [left; apply FA; reflexivity|right; intros A; apply FA in A; discriminate]. Qed.
Lemma at_most_one gs : (forall i j f g, nth_error gs i = Some f -> nth_error gs j = Some g -> auto_field f -> auto_field g -> i = j) <-> exists autos, selects auto_field gs autos /\ length autos <= 1.
Proof.
  split.
  - induction gs as [|f gs IH]; intros U; [exists []; split; [constructor|cbn; lia]|].
    destruct IH as (ab & SE & L). { intros i j g g' Ei Ej A A'. specialize (U (S i) (S j) g g' Ei Ej A A'). congruence. }
    destruct (auto_dec f) as [A|A]; [|exists ab; split; [apply sel_no; assumption|exact L]].
    destruct ab as [|g ab]; [exists [f]; split; [apply sel_yes; assumption|cbn; lia]|].
    assert (I : In g (g :: ab)) by now left. apply (selects_in _ _ _ _ SE) in I. destruct I as [I AG]. apply In_nth_error in I. destruct I as [i NI].
    specialize (U 0 (S i) f g eq_refl NI A AG). discriminate.
  - intros (ab & SE & L). induction SE as [|f gs ab A SE IH|f gs ab A SE IH].
    + intros [|?]; discriminate.
    + destruct ab; [|cbn in L; lia].
      assert (NO : forall g, In g gs -> ~ auto_field g) by (intros g I AG; apply (proj2 (selects_in _ _ _ g SE)); auto).
      intros [|i] [|j] g g' Ei Ej AG AG'; [reflexivity| | |]; exfalso; cbn in Ei, Ej.
      * eapply NO; [eapply nth_error_In, Ej|exact AG'].
      * eapply NO; [eapply nth_error_In, Ei|exact AG].
      * eapply NO; [eapply nth_error_In, Ej|exact AG'].
    + intros [|i] [|j] g g' Ei Ej AG AG'; cbn in Ei, Ej; [reflexivity|congruence|congruence|]. f_equal. eapply IH; eassumption.
Qed.
Lemma acceptable_iff fs : acceptable rename fs <-> acceptable' fs.
Proof.
  split; intros (H1 & H2 & gs & ns & H3 & H4 & H5 & H6 & H7); (split; [exact H1|]; split; [exact H2|]; exists gs, ns; split; [exact H3|]; split; [exact H4|]; split; [exact H5|]; split; [apply at_most_one, H6|exact H7]).
Qed.
Lemma acceptable_perm fs fs' : Permutation fs fs' -> acceptable rename fs -> acceptable rename fs'.
Proof.
  intros P (H1 & H2 & gs & ns & H3 & H4 & H5 & (ab & SA & LA) & H7). split; [eapply Permutation_Forall; eassumption|].
  split; [intros f n I; apply H2; eapply Permutation_in; [symmetry; exact P|exact I]|].
  destruct (selects_perm _ _ _ P _ H3) as (gs' & SE' & PG). 
  destruct (Permutation_Forall2 PG H4) as (ns' & PN & F').
  exists gs', ns'. split; [exact SE'|]. split; [exact F'|]. split; [eapply Permutation_NoDup; eassumption|]. split.
  - destruct (selects_perm _ _ _ PG _ SA) as (ab' & SA' & PA). exists ab'. split; [exact SA'|]. rewrite <- (Permutation_length PA). exact LA.
  - intros f I. apply H7. eapply Permutation_in; [symmetry; exact PG|exact I].
Qed.

Lemma adds_spec' name ro fs : match adds (start name ro) fs with
  | Ok t => acceptable' fs /\ describes rename fs t
  | Err => ~ acceptable' fs
  | Panic => False
  end.
Proof.
  induction fs as [|f fs IH] using rev_ind.
  - cbn. split.
    + split; [constructor|]. split; [intros ? ? []|]. exists [], []. split; [constructor|]. split; [constructor|]. split; [constructor|]. split; [intros [|?] ? ? ?; discriminate|intros ? []].
    + exists [], []. cbn. split; [constructor|]. split; [constructor|]. split; [constructor|]. split; [reflexivity|]. intros c. split; [discriminate|intros (f & [] & _)].
  - rewrite add_fields_app. destruct (adds (start name ro) fs) as [t| |]; cbn [bind].
    + destruct IH as [AC (gs & ks & SE & F2 & SK & KS & AU)]. cbn [add_fields]. pose proof (add_field_cases t f) as AF.
      pose proof (forall2_len _ _ _ F2) as LE.
      destruct AC as (A1 & A2 & gs' & ns & SE' & FN & ND & A4 & A5). rewrite (selects_unique _ _ _ _ SE' SE) in *. clear gs' SE'.
      assert (NS : ns = map c_name (t_columns t)).
      { pose proof (names_of _ _ F2) as FN2. clear - FN FN2. revert FN2. generalize (map c_name (t_columns t)) as ms. induction FN as [|g n gs ns H FN IH]; intros ms FN2; inversion FN2; subst; [reflexivity|]. f_equal; [eapply column_name_unique; eassumption|apply IH; assumption]. }
      subst ns.
      assert (HASAUTO : t_auto t <> None <-> exists g, In g gs /\ auto_field g).
      { split.
        - intros N. destruct (t_auto t) as [a|] eqn:TA; [|contradiction]. destruct (proj1 (AU a) eq_refl) as (g & I & AG). exists g. split; [eapply in_combine_l, I|exact AG].
        - intros (g & I & AG). destruct (in_pair_left gs (t_columns t) g LE I) as [c J]. rewrite (proj2 (AU c)); [discriminate|eauto]. }
      destruct (add t f) as [t'| |]; cbn [bind].
      * destruct AF as ((W1 & W2 & W3) & YES & NO). destruct (column_dec f) as [HC|HC].
        -- destruct (W3 HC) as (X1 & X2 & X3). destruct (YES HC) as (c & CF & TC & KIND). split.
           ++ split; [apply Forall_app; split; [exact A1|constructor; [exact W1|constructor]]|]. split.
              { intros g n I T. apply in_app_iff in I. destruct I as [I|[<-|[]]]; [apply (A2 g n I T)|apply (W2 n T)]. }
              exists (gs ++ [f]), (map c_name (t_columns t) ++ [c_name c]). split; [apply selects_app; [exact SE|apply selects_one, HC]|].
              split; [apply Forall2_app; [exact FN|constructor; [apply CF|constructor]]|]. split; [apply NoDup_snoc; [exact ND|apply X1, CF]|]. split.
              ** assert (OLD : forall i g, nth_error (gs ++ [f]) i = Some g -> (i < length gs /\ nth_error gs i = Some g) \/ (i = length gs /\ g = f)).
                 { intros i g E. destruct (Nat.lt_ge_cases i (length gs)) as [L|L]; [left; rewrite nth_error_app1 in E by exact L; auto|right].
                   rewrite nth_error_app2 in E by exact L. destruct (i - length gs) as [|k] eqn:K; cbn in E; [split; [lia|congruence]|destruct k; discriminate]. }
                 intros i j g g' Ei Ej Ag Ag'. destruct (OLD i g Ei) as [[Li Ni]|[-> ->]]; destruct (OLD j g' Ej) as [[Lj Nj]|[-> ->]].
                 --- eapply A4; eassumption.
                 --- exfalso. apply (X2 Ag'). apply HASAUTO. exists g. split; [eapply nth_error_In, Ni|exact Ag].
                 --- exfalso. apply (X2 Ag). apply HASAUTO. exists g'. split; [eapply nth_error_In, Nj|exact Ag'].
                 --- reflexivity.
              ** intros g I. apply in_app_iff in I. destruct I as [I|[<-|[]]]; [apply A5, I|exact X3].
           ++ assert (SEL : selects has_column (fs ++ [f]) (gs ++ [f])) by (apply selects_app; [exact SE|apply selects_one, HC]).
              assert (FC : Forall2 (column_for rename) (gs ++ [f]) (t_columns t')) by (rewrite TC; apply Forall2_app; [exact F2|constructor; [apply CF|constructor]]).
              assert (CMB : combine (gs ++ [f]) (t_columns t') = combine gs (t_columns t) ++ [(f, c)]) by (rewrite TC; apply combine_snoc, LE).
              destruct KIND as [(AF & TA & TK)|[(KF & TA & TK)|(NA & NK & TA & TK)]].
              ** exists (gs ++ [f]), ks. rewrite CMB. split; [exact SEL|]. split; [exact FC|].
                 split; [rewrite <- (app_nil_r ks); apply selects_app; [exact SK|apply selects_none; cbn; intros [_ X]; contradiction]|].
                 split; [congruence|]. intros c'. rewrite TA. split.
                 --- intros E. injection E as <-. exists f. split; [apply in_or_app; right; now left|exact AF].
                 --- intros (g & I & AG). apply in_app_iff in I. destruct I as [I|[E|[]]]; [|congruence].
                     exfalso. apply (X2 AF). apply HASAUTO. exists g. split; [eapply in_combine_l, I|exact AG].
              ** exists (gs ++ [f]), (ks ++ [(f, c)]). rewrite CMB. split; [exact SEL|]. split; [exact FC|].
                 split; [apply selects_app; [exact SK|apply selects_one, KF]|].
                 split; [rewrite map_app; cbn; congruence|]. intros c'. rewrite TA, AU. split.
                 --- intros (g & I & AG). exists g. split; [apply in_or_app; now left|exact AG].
                 --- intros (g & I & AG). apply in_app_iff in I. destruct I as [I|[E|[]]]; [eauto|]. injection E as <- <-. destruct KF as [_ NA]. contradiction.
              ** exists (gs ++ [f]), ks. rewrite CMB. split; [exact SEL|]. split; [exact FC|].
                 split; [rewrite <- (app_nil_r ks); apply selects_app; [exact SK|apply selects_none; exact NK]|].
                 split; [congruence|]. intros c'. rewrite TA, AU. split.
                 --- intros (g & I & AG). exists g. split; [apply in_or_app; now left|exact AG].
                 --- intros (g & I & AG). apply in_app_iff in I. destruct I as [I|[E|[]]]; [eauto|]. injection E as <- <-. contradiction.
        -- destruct (NO HC) as (TC & TA & TK).
           assert (SEL : selects has_column (fs ++ [f]) gs) by (rewrite <- (app_nil_r gs); apply selects_app; [exact SE|apply selects_none, HC]). split.
           ++ split; [apply Forall_app; split; [exact A1|constructor; [exact W1|constructor]]|]. split.
              { intros g n I T. apply in_app_iff in I. destruct I as [I|[<-|[]]]; [apply (A2 g n I T)|apply (W2 n T)]. }
              exists gs, (map c_name (t_columns t)). auto 8.
           ++ exists gs, ks. rewrite TC, TK. repeat split; auto; rewrite TA; apply AU.
      * intros (B1 & B2 & gs2 & ns2 & SE2 & FN2 & ND2 & B4 & B5). apply AF. apply Forall_app in B1. destruct B1 as [_ B1]. inversion B1; subst.
        split; [assumption|]. split; [intros n T; apply (B2 f n); [apply in_or_app; right; now left|exact T]|]. intros HC.
        destruct (selects_snoc _ _ _ _ SE2) as [(m' & -> & _ & SM)|[NX _]]; [|contradiction]. rewrite (selects_unique _ _ _ _ SM SE) in *.
        split; [|split].
        -- intros n CN I. apply Forall2_app_inv_l in FN2. destruct FN2 as (n1 & n2 & FN1 & FN3 & ->).
           inversion FN3 as [|? n' ? ? CN' FN4]; subst. inversion FN4; subst.
           assert (n1 = map c_name (t_columns t)).
           { clear - FN FN1. revert n1 FN1. induction FN as [|g n0 gs ns H FN IH]; intros ms FN2; inversion FN2; subst; [reflexivity|]. f_equal; [eapply column_name_unique; eassumption|apply IH; assumption]. }
           subst n1. rewrite (column_name_unique _ _ _ _ CN' CN) in ND2. apply NoDup_remove_2 in ND2. rewrite app_nil_r in ND2. contradiction.
        -- intros A N. apply HASAUTO in N. destruct N as (g & I & AG). apply In_nth_error in I. destruct I as [i NI].
           assert (L : i < length gs) by (apply nth_error_Some; congruence).
           assert (i = length gs); [|lia]. apply (B4 i (length gs) g f); [rewrite nth_error_app1 by exact L; exact NI|rewrite nth_error_app2, Nat.sub_diag by lia; reflexivity|exact AG|exact A].
        -- apply B5. apply in_or_app. right. now left.
      * exact AF.
    + intros (B1 & B2 & gs2 & ns2 & SE2 & FN2 & ND2 & B4 & B5). apply IH. apply Forall_app in B1. destruct B1 as [B1 _]. split; [exact B1|].
      split; [intros g n I T; apply (B2 g n); [apply in_or_app; now left|exact T]|].
      destruct (selects_snoc _ _ _ _ SE2) as [(m' & -> & _ & SM)|[NX SM]]; [|exists gs2, ns2; auto 8].
      apply Forall2_app_inv_l in FN2. destruct FN2 as (n1 & n2 & FN1 & FN3 & ->). exists m', n1. split; [exact SM|]. split; [exact FN1|].
      split; [clear - ND2; induction n1 as [|x n1 IH]; [constructor|]; cbn in ND2; inversion ND2; subst; constructor; [rewrite in_app_iff in *; tauto|auto]|]. split.
      * intros i j g g' Ei Ej. apply B4; rewrite nth_error_app1; try assumption; apply nth_error_Some; congruence.
      * intros g I. apply B5. apply in_or_app. now left.
    + exact IH.
Qed.
Lemma adds_spec name ro fs : match adds (start name ro) fs with
  | Ok t => acceptable rename fs /\ describes rename fs t
  | Err => ~ acceptable rename fs
  | Panic => False
  end.
Proof. pose proof (adds_spec' name ro fs) as H. destruct (adds (start name ro) fs); rewrite ?acceptable_iff; exact H. Qed.
End Table.
