(** C48: which files a source pattern selects. *)
From Verif Require Import Base ModelCompiler ModelPaths SpecParser LemmasBase LemmasTag.

(** ** Paths and their texts *)
Definition segment (s : bytes) : Prop := s <> [] /\ ~ In "/"%char s /\ s <> B "." /\ s <> B "..".
(** Where the text of an absolute path leads, part by part. *)
Inductive walk : list bytes -> list bytes -> list bytes -> Prop :=
| w_end cur : walk cur [] cur
| w_empty cur r to : walk cur r to -> walk cur ([] :: r) to
| w_dot cur r to : walk cur r to -> walk cur (B "." :: r) to
| w_up cur s r to : walk cur r to -> walk (cur ++ [s]) (B ".." :: r) to
| w_top r to : walk [] r to -> walk [] (B ".." :: r) to
| w_down cur s r to : segment s -> walk (cur ++ [s]) r to -> walk cur (s :: r) to.
Definition spells (text : bytes) (segs : list bytes) : Prop :=
  exists parts, parts <> [] /\ text = slashed parts /\ Forall (fun p => ~ In "/"%char p) parts /\ walk [] parts segs.
(** Every name on the disk is a name, and every file stands in a directory. *)
Definition sound (d : disk) : Prop :=
  (forall x, In x (dirs d) -> Forall segment x) /\
  (forall dir name, In (dir, name) (files d) -> In dir (dirs d) /\ segment name /\ ~ In (dir ++ [name]) (dirs d)).

Lemma split_on_nil sep s : split_on sep s <> [].
Proof. destruct s as [|c r]; [discriminate|]. cbn [split_on]. destruct (beq c sep); [discriminate|]. destruct (split_on sep r); discriminate. Qed.
Lemma split_on_part sep p s : ~ In sep p -> split_on sep (p ++ sep :: s) = p :: split_on sep s.
Proof.
  induction p as [|c p IH]; intros N; cbn [app split_on].
  - unfold beq. rewrite Ascii.eqb_refl. reflexivity.
  - destruct (beq c sep) eqn:E; [apply Ascii.eqb_eq in E as ->; exfalso; apply N; left; reflexivity|]. rewrite IH by (intros I; apply N; right; exact I). reflexivity.
Qed.
Lemma split_on_whole sep p : ~ In sep p -> split_on sep p = [p].
Proof.
  induction p as [|c p IH]; intros N; cbn [split_on]; [reflexivity|].
  destruct (beq c sep) eqn:E; [apply Ascii.eqb_eq in E as ->; exfalso; apply N; left; reflexivity|]. rewrite IH by (intros I; apply N; right; exact I). reflexivity.
Qed.
Lemma split_slashed parts : parts <> [] -> Forall (fun p => ~ In "/"%char p) parts -> split_on "/" (slashed parts) = [] :: parts.
Proof.
  intros NE F. assert (G : forall p ps, Forall (fun q => ~ In "/"%char q) (p :: ps) -> split_on "/" (p ++ slashed ps) = p :: ps).
  { intros p ps. revert p. induction ps as [|q ps IH]; intros p Fp; inversion Fp as [|? ? N Fq]; subst.
    - unfold slashed. cbn [map concat]. rewrite app_nil_r. apply split_on_whole, N.
    - change (slashed (q :: ps)) with ("/"%char :: q ++ slashed ps). rewrite split_on_part by exact N. rewrite IH by exact Fq. reflexivity. }
  destruct parts as [|p ps]; [contradiction|]. change (slashed (p :: ps)) with ("/"%char :: p ++ slashed ps). cbn [split_on]. change (beq "/" "/") with true. cbn [app]. rewrite G by exact F. reflexivity.
Qed.
Lemma clean_walk cur parts to : walk cur parts to -> clean_from (rev cur) parts = to.
Proof.
  induction 1 as [cur|cur r to W IH|cur r to W IH|cur s r to W IH|r to W IH|cur s r to [N1 [N2 [N3 N4]]] W IH]; cbn [clean_from].
  - apply rev_involutive.
  - exact IH.
  - exact IH.
  - change (bseq (B "..") [] || bseq (B "..") (B ".")) with false. change (bseq (B "..") (B "..")) with true. cbn match. rewrite rev_unit. exact IH.
  - exact IH.
  - apply bseq_neq in N1, N3, N4. rewrite N1, N3, N4. cbn match. rewrite rev_unit in IH. exact IH.
Qed.
Lemma walk_segments cur parts to : Forall segment cur -> walk cur parts to -> Forall segment to.
Proof.
  intros F W. induction W; auto. apply IHW. apply Forall_app in F as [F _]. exact F. apply IHW. apply Forall_app. split; [exact F|]. constructor; [assumption|constructor].
Qed.
Lemma clean_spells text segs : spells text segs -> clean text = segs.
Proof.
  intros (parts & NE & -> & F & W). unfold clean. rewrite split_slashed by assumption. cbn [clean_from]. change (bseq [] [] || bseq [] (B ".")) with true. cbn match. exact (clean_walk [] parts segs W).
Qed.
Lemma walk_down cur segs : Forall segment segs -> walk cur segs (cur ++ segs).
Proof.
  intros F. revert cur. induction F as [|s segs S1 F IH]; intros cur; [rewrite app_nil_r; constructor|]. apply w_down; [exact S1|]. specialize (IH (cur ++ [s])). rewrite <- app_assoc in IH. exact IH.
Qed.
Lemma spells_slashed segs : segs <> [] -> Forall segment segs -> spells (slashed segs) segs.
Proof.
  intros NE F. exists segs. split; [exact NE|]. split; [reflexivity|]. split; [|apply (walk_down [] segs F)]. eapply Forall_impl; [|exact F]. intros s (_ & N & _). exact N.
Qed.
Lemma slashed_app a b : slashed (a ++ b) = slashed a ++ slashed b.
Proof. unfold slashed. rewrite map_app, concat_app. reflexivity. Qed.
Lemma slashed_inj a b : Forall segment a -> Forall segment b -> slashed a = slashed b -> a = b.
Proof.
  intros Fa Fb E. destruct a as [|x a], b as [|y b]; [reflexivity|discriminate|discriminate|].
  assert (H : forall l, Forall segment l -> Forall (fun p => ~ In "/"%char p) l) by (intros l Fl; eapply Forall_impl; [|exact Fl]; intros s (_ & N & _); exact N).
  pose proof (split_slashed (x :: a) ltac:(discriminate) (H _ Fa)) as P. rewrite E, (split_slashed (y :: b) ltac:(discriminate) (H _ Fb)) in P. injection P as -> ->. reflexivity.
Qed.
Lemma text_of_snoc dir name : text_of (dir ++ [name]) = slashed (dir ++ [name]).
Proof. destruct dir; reflexivity. Qed.
Lemma segs_eq_iff a b : segs_eq a b = true <-> a = b.
Proof. unfold segs_eq. destruct (list_eq_dec (list_eq_dec Ascii.ascii_dec) a b); split; congruence. Qed.
Lemma existsb_segs x l : existsb (segs_eq x) l = true <-> In x l.
Proof. rewrite existsb_exists. split; [intros (y & I & E); apply segs_eq_iff in E as ->; exact I|intros I; exists x; split; [exact I|apply segs_eq_iff; reflexivity]]. Qed.

(** no star anywhere: neither kind of wildcard *)
Definition starless (s : bytes) : Prop := ~ In "*"%char s.
Lemma cut_starless s : starless s -> cut_stars s = None.
Proof.
  induction s as [|c s IH]; intros N; [reflexivity|]. cbn [cut_stars]. replace (has_prefix (c :: s) (B "**")) with false.
  - rewrite IH by (intros I; apply N; right; exact I). reflexivity.
  - symmetry. destruct (has_prefix (c :: s) (B "**")) eqn:E; [|reflexivity]. apply has_prefix_spec in E as [r E]. injection E as -> _. exfalso. apply N. left. reflexivity.
Qed.
Lemma glob_segments_sub parts : incl (snd (glob_segments parts)) parts.
Proof.
  induction parts as [|p [|q ps] IH]; [apply incl_refl|apply incl_refl|].
  change (glob_segments (p :: q :: ps)) with (if glob_segment p then let '(a, rest) := glob_segments (q :: ps) in (p ++ "/"%char :: a, rest) else ([], p :: q :: ps)). destruct (glob_segment p); [|apply incl_refl].
  destruct (glob_segments (q :: ps)) as [a rest]. cbn [snd] in *. intros x I. right. exact (IH x I).
Qed.
Lemma split_on_chars sep s p : In p (split_on sep s) -> incl p s.
Proof.
  revert p. induction s as [|c s IH]; intros p; cbn [split_on]; [intros [<-|[]]; apply incl_refl|]. destruct (beq c sep).
  - intros [<-|I]; [intros x []|]. intros x Ix. right. exact (IH p I x Ix).
  - destruct (split_on sep s) as [|q qs] eqn:E; [destruct (split_on_nil sep s E)|]. intros [<-|I].
    + intros x [<-|Ix]; [left; reflexivity|]. right. exact (IH q (or_introl eq_refl) x Ix).
    + intros x Ix. right. exact (IH p (or_intror I) x Ix).
Qed.
Lemma skip_words_sub s : incl (skip_words s) s.
Proof. induction s as [|c s IH]; [apply incl_refl|]. cbn [skip_words]. destruct (ModelPaths.word c); [intros x I; right; exact (IH x I)|apply incl_refl]. Qed.
Lemma glob_starless s : starless s -> glob_root s = None.
Proof.
  induction s as [|c s IH]; intros N; [reflexivity|]. cbn [glob_root]. rewrite (IH ltac:(intros I; apply N; right; exact I)). destruct (beq c "/"); [|reflexivity].
  pose proof (glob_segments_sub (split_on "/" s)) as SUB. destruct (glob_segments (split_on "/" s)) as [a rest]. cbn [snd] in SUB. destruct rest as [|p rest]; [reflexivity|].
  replace (glob_tail p) with false; [reflexivity|]. symmetry. unfold glob_tail. destruct (skip_words p) as [|x r] eqn:E; [reflexivity|]. destruct (beq x "*") eqn:EX; [|reflexivity]. exfalso.
  apply Ascii.eqb_eq in EX as ->. apply N. right. apply (split_on_chars "/" s p (SUB p (or_introl eq_refl))). apply skip_words_sub. rewrite E. left. reflexivity.
Qed.
(** ** A file *)
(** However its path is written, exactly the file is selected. *)
Theorem C48_file_partial d skip text dir name : sound d -> starless text -> spells text (dir ++ [name]) -> In (dir, name) (files d) -> ~ In dir skip ->
  exists l, selected d skip text = Ok l /\ forall f, In f l <-> f = (dir, name).
Proof.
  intros [S1 S2] N SP I NS. destruct (S2 _ _ I) as (ID & SN & ND). unfold selected, plan. rewrite (cut_starless _ N), (glob_starless _ N), (clean_spells _ _ SP).
  replace (is_dir d (dir ++ [name])) with false by (symmetry; apply not_true_iff_false; intros E; apply ND, existsb_segs, E).
  replace (is_file d (dir ++ [name])) with true by (symmetry; apply existsb_exists; exists (dir, name); split; [exact I|apply segs_eq_iff; reflexivity]).
  cbn [bind]. eexists. split; [reflexivity|]. intros [dir' name']. rewrite filter_In, removelast_last. cbn [fst snd matches]. rewrite !andb_true_iff, negb_true_iff, existsb_segs.
  split.
  - intros (I' & (D' & _) & E). destruct D' as [<-|[]]. apply bseq_eq in E. rewrite !text_of_snoc in E. destruct (S2 _ _ I') as (_ & SN' & _). apply slashed_inj in E.
    + apply app_inj_tail in E as [_ ->]. reflexivity.
    + apply Forall_app. split; [exact (S1 _ ID)|constructor; [exact SN'|constructor]].
    + apply Forall_app. split; [exact (S1 _ ID)|constructor; [exact SN|constructor]].
  - intros E. injection E as -> ->. split; [exact I|]. split; [split; [left; reflexivity|]|apply bseq_refl]. apply not_true_iff_false. intros E. apply NS, existsb_segs, E.
Qed.
(** ** A folder *)
(** Written without dots: exactly the files directly in it. *)
Theorem C48_folder_partial d skip segs slash : sound d -> segs <> [] -> In segs (dirs d) -> ~ In segs skip -> starless (slashed segs) -> slash = [] \/ slash = B "/" ->
  exists l, selected d skip (slashed segs ++ slash) = Ok l /\ forall f, In f l <-> In f (files d) /\ fst f = segs.
Proof.
  intros [S1 S2] NE I NS N SL. unfold selected, plan. assert (N' : starless (slashed segs ++ slash)) by (intros X; apply in_app_or in X as [X|X]; [exact (N X)|destruct SL as [-> | ->]; [destruct X|destruct X as [X|[]]; discriminate]]).
  rewrite (cut_starless _ N'), (glob_starless _ N').
  assert (C : clean (slashed segs ++ slash) = segs).
  { destruct SL as [-> | ->]; [rewrite app_nil_r; apply clean_spells, spells_slashed; auto|]. apply clean_spells. exists (segs ++ [[]]). split; [destruct segs; discriminate|]. split; [rewrite slashed_app; reflexivity|].
    pose proof (S1 _ I) as F. split.
    - apply Forall_app. split; [eapply Forall_impl; [|exact F]; intros s (_ & X & _); exact X|constructor; [intros []|constructor]].
    - assert (G : forall cur, walk cur (segs ++ [[]]) (cur ++ segs)); [|exact (G [])]. clear -F. induction F as [|s segs SG F IH]; intros cur; cbn [app]; [rewrite app_nil_r; apply w_empty, w_end|].
      apply w_down; [exact SG|]. specialize (IH (cur ++ [s])). rewrite <- app_assoc in IH. exact IH. }
  rewrite C. replace (is_dir d segs) with true by (symmetry; apply existsb_segs, I). cbn [bind]. eexists. split; [reflexivity|].
  intros [dir name]. rewrite filter_In. cbn [fst snd matches]. rewrite !andb_true_iff, negb_true_iff, existsb_segs. split.
  - intros (I' & ([<-|[]] & _) & _). auto.
  - intros [I' ->]. split; [exact I'|]. split; [split; [left; reflexivity|]|].
    + apply not_true_iff_false. intros E. apply NS, existsb_segs, E.
    + apply has_prefix_spec. rewrite text_of_snoc, slashed_app. unfold slashed at 2. cbn [map concat]. rewrite app_nil_r. destruct SL as [-> | ->]; [exists ("/"%char :: name)|exists name]; rewrite <- app_assoc; reflexivity.
Qed.
(** Refuted: no file of a subfolder is selected, for any disk. *)
Theorem C48_subfolder_refuted d skip segs sub rest name l : sound d -> In segs (dirs d) -> segs <> [] -> starless (slashed segs) -> selected d skip (slashed segs) = Ok l -> ~ In (segs ++ sub :: rest, name) l.
Proof.
  intros S0 I NE N E. destruct S0 as [S1 S2]. unfold selected, plan in E. rewrite (cut_starless _ N), (glob_starless _ N), (clean_spells _ segs) in E by (apply spells_slashed; auto).
  replace (is_dir d segs) with true in E by (symmetry; apply existsb_segs, I). cbn [bind] in E. apply (f_equal (fun r => match r with Ok x => x | _ => [] end)) in E. cbn beta iota in E. rewrite <- E, filter_In. cbn [fst]. rewrite !andb_true_iff, existsb_segs.
  intros (_ & ([E1|[]] & _) & _). apply (f_equal (@length bytes)) in E1. rewrite app_length in E1. cbn [length] in E1. lia.
Qed.
(** Refuted: a folder whose path has a dot or a doubled slash selects nothing. *)
Theorem C48_unclean_refuted d skip text segs : sound d -> starless text -> spells text segs -> In segs (dirs d) -> (forall name, ~ exists r, slashed (segs ++ [name]) = text ++ r) -> selected d skip text = Ok [].
Proof.
  intros [S1 S2] N SP I NP. unfold selected, plan. rewrite (cut_starless _ N), (glob_starless _ N), (clean_spells _ _ SP). replace (is_dir d segs) with true by (symmetry; apply existsb_segs, I). cbn [bind]. f_equal. clear S2.
  induction (files d) as [|[dir name] fs IH]; [reflexivity|]. cbn [filter fst snd]. destruct (existsb (segs_eq dir) [segs]) eqn:E; [|exact IH]. apply existsb_segs in E as [<-|[]].
  destruct (matches (Folder text) (text_of (segs ++ [name]))) eqn:M; [|rewrite andb_false_r; exact IH]. exfalso. cbn [matches] in M. apply has_prefix_spec in M as [r M]. rewrite text_of_snoc in M. apply (NP name). exists r. exact M.
Qed.
(** ** Everything below a folder *)
(** The language of a regular expression. *)
Inductive lang : rx -> bytes -> Prop :=
| l_eps : lang Eps []
| l_one f c : f c = true -> lang (One f) [c]
| l_cat a b s t : lang a s -> lang b t -> lang (Cat a b) (s ++ t)
| l_left a b s : lang a s -> lang (Alt a b) s
| l_right a b s : lang b s -> lang (Alt a b) s
| l_none a : lang (Star a) []
| l_more a s t : lang a s -> lang (Star a) t -> lang (Star a) (s ++ t).
Lemma nullable_lang r : nullable r = true <-> lang r [].
Proof.
  split.
  - induction r; cbn [nullable]; intros H; try discriminate; [constructor| | |constructor].
    + apply andb_true_iff in H as [H1 H2]. apply (l_cat r1 r2 [] []); auto.
    + apply orb_true_iff in H as [H|H]; [apply l_left|apply l_right]; auto.
  - remember [] as s. intros L. induction L; cbn [nullable]; try discriminate; try reflexivity.
    + apply app_eq_nil in Heqs as [-> ->]. rewrite IHL1, IHL2; reflexivity.
    + rewrite IHL by assumption. reflexivity.
    + rewrite IHL by assumption. apply orb_true_r.
Qed.
Lemma deriv_lang c r : forall s, lang (deriv c r) s <-> lang r (c :: s).
Proof.
  induction r as [| |f|a IHa b IHb|a IHa b IHb|a IHa]; intros s; cbn [deriv].
  - split; inversion 1.
  - split; inversion 1.
  - destruct (f c) eqn:E; split; inversion 1; subst; try congruence; constructor; assumption.
  - assert (H1 : forall t, lang (Cat (deriv c a) b) t -> lang (Cat a b) (c :: t)).
    { intros t L. inversion L; subst. rewrite app_comm_cons. constructor; [apply IHa|]; assumption. }
    assert (H2 : forall t, lang (Cat a b) (c :: t) -> lang (Cat (deriv c a) b) t \/ lang a [] /\ lang b (c :: t)).
    { intros t L. inversion L as [| |? ? s1 s2 L1 L2 E1 E2| | | |]; subst. destruct s1 as [|x s1]; [cbn [app] in *; subst; auto|]. left. injection E2 as -> <-. constructor; [apply IHa; exact L1|exact L2]. }
    destruct (nullable a) eqn:E.
    + apply nullable_lang in E. split.
      * intros L. inversion L; subst; [apply H1; assumption|]. apply (l_cat a b [] (c :: s) E). apply IHb. assumption.
      * intros L. destruct (H2 s L) as [L1|[_ L2]]; [apply l_left, L1|apply l_right, IHb, L2].
    + split; [apply H1|]. intros L. destruct (H2 s L) as [L1|[L1 _]]; [exact L1|]. apply nullable_lang in L1. congruence.
  - split; intros L; inversion L; subst; [apply l_left, IHa|apply l_right, IHb|apply l_left, IHa|apply l_right, IHb]; assumption.
  - split.
    + intros L. inversion L; subst. rewrite app_comm_cons. constructor; [apply IHa|]; assumption.
    + remember (Star a) as r. remember (c :: s) as t. intros L. revert s Heqt. induction L as [| | | | | |a' s1 s2 L1 _ L2 IHL2]; intros s0 Ht; try discriminate. injection Heqr as ->.
      destruct s1 as [|x s1]; [apply (IHL2 eq_refl s0); exact Ht|]. injection Ht as -> <-. constructor; [apply IHa; exact L1|exact L2].
Qed.
Lemma accepts_lang s : forall r, accepts r s = true <-> lang r s.
Proof. induction s as [|c s IH]; intros r; cbn [accepts]; [apply nullable_lang|]. rewrite IH. apply deriv_lang. Qed.
Lemma lang_star f s : Forall (fun c => f c = true) s -> lang (Star (One f)) s.
Proof. induction 1 as [|c s H F IH]; [constructor|]. apply (l_more (One f) [c] s); [constructor; exact H|exact IH]. Qed.
Lemma match_whole r s : lang r s -> match_string r s = true.
Proof.
  intros L. apply accepts_lang. apply (l_cat anything (Cat r anything) [] s); [constructor|]. rewrite <- (app_nil_r s). constructor; [exact L|constructor].
Qed.
(** Characters without a meaning of their own in a pattern: not one of | ^ $ { ( ) [ ? + * or a backslash. *)
Definition tame (c : byte) : Prop := ~ In c (B "|^${()[?+*\") /\ c <> LF.
Fixpoint literal (s : bytes) (r : rx) : rx :=
  match s with
  | [] => r
  | c :: s' => Cat (One (if beq c "/" then fun x => false || beq x backslash || beq x "/" else beq c)) (literal s' r)
  end.
Lemma tame_cases c : tame c -> special c = false /\ is_repeat c = false /\ beq c "[" = false /\ beq c "(" = false /\ beq c ")" = false /\ beq c backslash = false /\ beq c "*" = false.
Proof.
  intros [N _]. assert (H : forall x, In x (B "|^${()[?+*\") -> beq c x = false) by (intros x I; apply not_true_iff_false; intros E; apply Ascii.eqb_eq in E as ->; contradiction).
  unfold special, is_repeat. cbn [existsb]. rewrite !H by (cbn; tauto). repeat split.
Qed.
Definition no_repeat (s : bytes) : Prop := match s with [] => True | c :: _ => is_repeat c = false end.
Lemma compile_literal s rest : Forall tame s -> no_repeat rest -> forall k, compile_seq (length s + k) (path2regex s ++ rest) = (let* x := compile_seq k rest in Ok (literal s (fst x), snd x)).
Proof.
  intros F NR k. induction F as [|c s T F IH].
  - change (path2regex [] ++ rest) with rest. cbn [length Nat.add literal]. destruct (compile_seq k rest) as [[? ?]| |]; reflexivity.
  - assert (Q : forall a, quantified a (path2regex s ++ rest) = Ok (a, path2regex s ++ rest)).
    { intros a. destruct F as [|c1 s T1 F].
      - change (path2regex [] ++ rest) with rest. unfold no_repeat in NR. destruct rest as [|x rest]; [reflexivity|]. cbn [quantified]. rewrite NR. reflexivity.
      - destruct (tame_cases c1 T1) as (_ & R1 & _ & _ & _ & B1 & S1). unfold path2regex. cbn [map concat]. rewrite S1, B1. destruct (beq c1 "."); [reflexivity|]. destruct (beq c1 "/"); [reflexivity|].
        cbn [app quantified]. rewrite R1. reflexivity. }
    destruct (tame_cases c T) as (SP & R1 & L1 & P1 & P2 & B1 & S1). change (path2regex (c :: s)) with ((if beq c "." then B "\." else if beq c "*" then B ".*" else if beq c backslash then B "[\\/]" else if beq c "/" then B "[\\/]" else [c]) ++ path2regex s).
    rewrite S1, B1. cbn [length Nat.add literal]. destruct (beq c ".") eqn:D.
    + apply Ascii.eqb_eq in D as ->. change (beq "." "/") with false. cbn match. rewrite <- app_assoc. change (B "\." ++ path2regex s ++ rest) with (backslash :: "."%char :: (path2regex s ++ rest)).
      cbn [compile_seq]. change (beq backslash ")") with false. change (special backslash) with false. change (is_repeat backslash) with false. change (beq backslash ".") with false. change (beq backslash "[") with false. change (beq backslash "(") with false. change (beq backslash backslash) with true.
      change (is_alnum ".") with false. cbn match. cbn [bind fst snd]. rewrite Q. cbn [bind fst snd]. rewrite IH. destruct (compile_seq k rest) as [[? ?]| |]; reflexivity.
    + destruct (beq c "/") eqn:SL.
      * rewrite <- app_assoc. change (B "[\\/]" ++ path2regex s ++ rest) with ("["%char :: backslash :: backslash :: "/"%char :: "]"%char :: (path2regex s ++ rest)).
        cbn [compile_seq]. change (beq "[" ")") with false. change (special "[") with false. change (is_repeat "[") with false. change (beq "[" ".") with false. change (beq "[" "[") with true. cbn match.
        match goal with |- context [class_from ?x true ?f] => replace (class_from x true f) with (Ok (fun y : byte => false || beq y backslash || beq y "/", path2regex s ++ rest)) end.
        2: { generalize (path2regex s ++ rest). intros z. destruct z; reflexivity. }
        cbn [bind fst snd]. rewrite Q. cbn [bind fst snd]. rewrite IH. destruct (compile_seq k rest) as [[? ?]| |]; reflexivity.
      * cbn [app compile_seq]. rewrite P2, SP, R1, D, L1, P1, B1. cbn [bind fst snd]. rewrite Q. cbn [bind fst snd]. rewrite IH. destruct (compile_seq k rest) as [[? ?]| |]; reflexivity.
Qed.
Lemma lang_literal s r t : lang r t -> lang (literal s r) (s ++ t).
Proof.
  intros L. induction s as [|c s IH]; [exact L|]. cbn [literal]. apply (l_cat _ _ [c] (s ++ t)); [|exact IH]. constructor. destruct (beq c "/") eqn:E; [apply Ascii.eqb_eq in E as ->; reflexivity|apply Ascii.eqb_refl].
Qed.
Lemma path2regex_length s : (length s <= length (path2regex s))%nat.
Proof.
  induction s as [|c s IH]; [reflexivity|]. unfold path2regex in *. cbn [map concat length]. rewrite app_length.
  match goal with |- (_ <= length ?x + _)%nat => assert (X : (1 <= length x)%nat) end; [|lia].
  destruct (beq c "."); [repeat constructor|]. destruct (beq c "*"); [repeat constructor|]. destruct (beq c backslash); [repeat constructor|]. destruct (beq c "/"); repeat constructor.
Qed.
Lemma cut_stars_root s after : Forall tame s -> cut_stars (s ++ B "**" ++ after) = Some (s, after).
Proof.
  induction 1 as [|c s T F IH]; [reflexivity|]. cbn [app cut_stars]. destruct (tame_cases c T) as (_ & _ & _ & _ & _ & _ & S1).
  replace (has_prefix (c :: s ++ B "**" ++ after) (B "**")) with false; [rewrite IH; reflexivity|]. symmetry. apply not_true_iff_false. intros E. apply has_prefix_spec in E as [x E]. injection E as -> _. discriminate.
Qed.
Lemma starts_with_iff a p : starts_with a p = true <-> exists r, a = p ++ r.
Proof.
  revert a. induction p as [|x p IH]; intros a; [split; [exists a; reflexivity|destruct a; reflexivity]|]. destruct a as [|y a]; [split; [discriminate|intros [r E]; discriminate]|].
  cbn [starts_with]. rewrite andb_true_iff, IH, bseq_eq. split; [intros [-> [r ->]]; exists r; reflexivity|intros [r E]; injection E as -> ->; split; [reflexivity|exists r; reflexivity]].
Qed.
Definition starred : rx := Star (Cat (One (fun x => false || beq x backslash || beq x "/")) (Cat (Cat (One (fun x => false || in_range (code "a") (code "z") x || in_range (code "0") (code "9") x || beq x "_" || beq x "-"))
  (Star (One (fun x => false || in_range (code "a") (code "z") x || in_range (code "0") (code "9") x || beq x "_" || beq x "-")))) Eps)).
Definition go_suffix : rx := Cat (One (fun x => false || beq x backslash || beq x "/")) (Cat (Star (One (fun x => negb (beq x LF)))) (Cat (One (beq ".")) (Cat (One (beq "g")) (Cat (One (beq "o")) Eps)))).
Lemma compile_rest k : compile_seq (40 + k) (B "([\\/][a-z0-9_-]+)*" ++ path2regex (B "/*.go")) = Ok (Cat starred go_suffix, []).
Proof. reflexivity. Qed.
Lemma compile_root s : Forall tame s -> compile (path2regex s ++ B "([\\/][a-z0-9_-]+)*" ++ path2regex (B "/*.go")) = Ok (literal s (Cat starred go_suffix)).
Proof.
  intros F. unfold compile. set (rest := B "([\\/][a-z0-9_-]+)*" ++ path2regex (B "/*.go")).
  assert (L : exists k, S (length (path2regex s ++ rest)) = (length s + (25 + k))%nat).
  { pose proof (path2regex_length s) as P. rewrite app_length. assert (X : (24 <= length rest)%nat) by (vm_compute; repeat constructor). exists (S (length (path2regex s) + length rest) - length s - 25)%nat. lia. }
  destruct L as [k ->]. rewrite compile_literal; [|exact F|reflexivity]. reflexivity.
Qed.
(** The pattern of the default configuration, in any folder: exactly the Go files at any depth. *)
Theorem C48_everything_partial d skip segs : sound d -> segs <> [] -> In segs (dirs d) -> Forall tame (slashed segs) -> 
  (forall dir name, In (dir, name) (files d) -> ~ In LF (slashed dir) /\ exists base, name = base ++ B ".go" /\ ~ In LF base) ->
  exists l, select d skip (slashed segs) (B "./**/*") = Ok l /\ forall f, In f l <-> In f (files d) /\ (exists sub, fst f = segs ++ sub) /\ ~ In (fst f) skip.
Proof.
  intros [S1 S2] NE I T GO. unfold select. change (resolve (slashed segs) (B "./**/*")) with (Ok (if last_is (slashed segs ++ B "/**/*") "*" then (slashed segs ++ B "/**/*") ++ B ".go" else slashed segs ++ B "/**/*")).
  unfold last_is. rewrite rev_app_distr. change (rev (B "/**/*")) with (B "*/**/"). cbn [app]. change (B "*/**/" ++ rev (slashed segs)) with ("*"%char :: B "/**/" ++ rev (slashed segs)). cbn match. change (beq "*" "*") with true. cbn [bind].
  unfold selected, plan.
  replace ((slashed segs ++ B "/**/*") ++ B ".go") with ((slashed segs ++ B "/") ++ B "**" ++ B "/*.go") by (rewrite <- !app_assoc; reflexivity).
  assert (TS : tame "/") by (split; [cbn; intuition discriminate|discriminate]).
  rewrite cut_stars_root by (apply Forall_app; split; [exact T|constructor; [exact TS|constructor]]).
  assert (TR : trim_slash (trim_space (slashed segs ++ B "/")) = slashed segs).
  { rewrite <- (trimmed_unique (slashed segs ++ B "/") (slashed segs ++ B "/")).
    - unfold trim_slash, last_is. rewrite rev_app_distr. cbn [rev B list_ascii_of_string app]. change (beq "/" "/") with true. cbn match. apply removelast_last.
    - exists [], []. rewrite app_nil_r. split; [reflexivity|]. split; [constructor|]. split; [constructor|]. split.
      + destruct segs as [|s0 segs]; [contradiction|]. intros c r E. injection E as <- _. intros [[_ W]|W]; vm_compute in W; [apply W; reflexivity|discriminate].
      + intros c r E. apply app_inj_tail in E as [_ <-]. intros [[_ W]|W]; vm_compute in W; [apply W; reflexivity|discriminate]. }
  rewrite TR. rewrite (compile_root (slashed segs) T). cbn [bind]. rewrite (clean_spells (slashed segs) segs) by (apply spells_slashed; auto).
  destruct (slashed segs) as [|c0 s0] eqn:ES; [destruct segs; [contradiction|discriminate]|]. rewrite <- ES in *. eexists. split; [reflexivity|].
  intros [dir name]. rewrite filter_In. cbn [fst snd]. rewrite !andb_true_iff, negb_true_iff, existsb_segs. unfold below. rewrite filter_In, starts_with_iff. split.
  - intros (I' & ((_ & SUB) & NS) & _). split; [exact I'|]. split; [exact SUB|]. rewrite <- existsb_segs. apply not_true_iff_false. exact NS.
  - intros (I' & SUB & NS). split; [exact I'|]. split; [split; [split; [exact (proj1 (S2 _ _ I'))|exact SUB]|]|].
    + apply not_true_iff_false. rewrite existsb_segs. exact NS.
    + destruct SUB as [sub ->]. destruct (GO _ _ I') as (N1 & base & -> & N2). cbn [matches]. apply match_whole. rewrite text_of_snoc, <- app_assoc, slashed_app. apply lang_literal.
      apply (l_cat starred go_suffix [] (slashed (sub ++ [base ++ B ".go"]))); [constructor|]. rewrite slashed_app. rewrite slashed_app in N1.
      assert (BODY : exists body, slashed sub ++ slashed [base ++ B ".go"] = "/"%char :: body ++ B ".go" /\ ~ In LF body).
      { unfold slashed at 2. cbn [map concat]. rewrite app_nil_r. destruct sub as [|u sub].
        - exists base. split; [reflexivity|exact N2].
        - exists (u ++ slashed sub ++ "/"%char :: base). split; [change (slashed (u :: sub)) with ("/"%char :: u ++ slashed sub); cbn [app]; rewrite <- !app_assoc; reflexivity|].
          intros X. apply in_app_or in X as [X|X]; [apply N1, in_or_app; right; right; apply in_or_app; left; exact X|]. apply in_app_or in X as [X|[X|X]]; [apply N1, in_or_app; right; right; apply in_or_app; right; exact X|discriminate|exact (N2 X)]. }
      destruct BODY as (body & -> & NB). unfold go_suffix. apply (l_cat _ _ ["/"%char] (body ++ B ".go")); [constructor; reflexivity|]. constructor.
      * apply lang_star. apply Forall_forall. intros x X. apply negb_true_iff, not_true_iff_false. intros E. apply Ascii.eqb_eq in E as ->. exact (NB X).
      * apply (l_cat _ _ ["."%char] (B "go")); [constructor; reflexivity|]. apply (l_cat _ _ ["g"%char] (B "o")); [constructor; reflexivity|]. apply (l_cat _ _ ["o"%char] []); [constructor; reflexivity|constructor].
Qed.
(** Refuted, on one disk: other ways to write the same. *)
Definition home : disk :=
  {| dirs := [[]; [B "home"]; [B "home"; B "proj"]; [B "home"; B "proj"; B "models"]; [B "home"; B "proj"; B "models"; B "Sub"]; [B "home"; B "shared"]; [B "home"; B "proj"; B "x"]; [B "home"; B "proj"; B "c++"]];
     files := [([B "home"; B "proj"; B "models"], B "user.go"); ([B "home"; B "proj"; B "models"], B "User.go"); ([B "home"; B "proj"; B "models"; B "Sub"], B "one.go");
               ([B "home"; B "shared"], B "shared.go"); ([B "home"; B "proj"; B "x"], B "one.go"); ([B "home"; B "proj"; B "c++"], B "one.go")] |}.
Definition in_home (src : bytes) : res (list (list bytes * bytes)) := select home [] (B "/home/proj") src.
Ltac not_in := let H := fresh in intros H; cbn [In] in H; repeat destruct H as [H|H]; try discriminate H; destruct H.
Lemma home_sound : sound home.
Proof.
  assert (G : forall s, (match s with [] => false | _ => true end) && negb (existsb (beq "/") s) && negb (bseq s (B ".")) && negb (bseq s (B "..")) = true -> segment s).
  { intros s H. apply andb_true_iff in H as [H H4]. apply andb_true_iff in H as [H H3]. apply andb_true_iff in H as [H1 H2]. split; [destruct s; discriminate|]. split; [|split; intros ->; discriminate].
    intros I. apply negb_true_iff in H2. apply not_true_iff_false in H2. apply H2, existsb_exists. exists "/"%char. split; [exact I|reflexivity]. }
  split.
  - intros x I. cbn [home dirs In] in I. repeat (destruct I as [<-|I]; [repeat (constructor; [apply G; reflexivity|]); constructor|]). destruct I.
  - intros dir name I. cbn [home files In] in I. repeat (destruct I as [E|I]; [injection E as <- <-; split; [cbn [home dirs In]; tauto|]; split; [apply G; reflexivity|cbn [home dirs app]; not_in]|]). destruct I.
Qed.
Theorem C48_spellings_refuted :
  (** a sibling of the working directory *)
  in_home (B "../shared") = Ok [] /\ in_home (B "/home/shared") = Ok [([B "home"; B "shared"], B "shared.go")] /\
  (** a dot inside *)
  in_home (B "./models/../models") = Ok [] /\
  (** everything below, without a last star *)
  in_home (B "./models/**") = Ok [([B "home"; B "proj"; B "models"], B "user.go")] /\
  (** a file below a folder with a capital letter *)
  in_home (B "./models/**/one.go") = Ok [] /\
  (** the files of a folder with a short name *)
  in_home (B "./x/*.go") = Ok [] /\
  (** a folder with a plus *)
  in_home (B "./c++/**/*") = Panic.
Proof. repeat split; vm_compute; reflexivity. Qed.
Print Assumptions C48_file_partial.
Print Assumptions C48_folder_partial.
Print Assumptions C48_subfolder_refuted.
Print Assumptions C48_unclean_refuted.
Print Assumptions C48_everything_partial.
Print Assumptions C48_spellings_refuted.
Example C48_file_case : spells (B "/home//proj/./x/../models/user.go") ([B "home"; B "proj"; B "models"] ++ [B "user.go"]) /\ In ([B "home"; B "proj"; B "models"], B "user.go") (files home).
Proof.
  split; [|left; reflexivity]. exists [B "home"; []; B "proj"; B "."; B "x"; B ".."; B "models"; B "user.go"]. split; [discriminate|]. split; [reflexivity|].
  split; [repeat (constructor; [cbn; intuition discriminate|]); constructor|].
  assert (G : forall s, (match s with [] => false | _ => true end) && negb (existsb (beq "/") s) && negb (bseq s (B ".")) && negb (bseq s (B "..")) = true -> segment s).
  { intros s H. apply andb_true_iff in H as [H H4]. apply andb_true_iff in H as [H H3]. apply andb_true_iff in H as [H1 H2]. split; [destruct s; discriminate|]. split; [|split; intros ->; discriminate].
    intros I. apply negb_true_iff in H2. apply not_true_iff_false in H2. apply H2, existsb_exists. exists "/"%char. split; [exact I|reflexivity]. }
  apply w_down; [apply G; reflexivity|]. apply w_empty. apply w_down; [apply G; reflexivity|]. apply w_dot. apply w_down; [apply G; reflexivity|]. apply (w_up [B "home"; B "proj"] (B "x")). apply w_down; [apply G; reflexivity|]. apply w_down; [apply G; reflexivity|]. apply w_end.
Qed.
Example C48_everything_case : Forall tame (slashed [B "home"; B "proj"]) /\ exists l, select home [[B "home"; B "proj"; B "x"]] (slashed [B "home"; B "proj"]) (B "./**/*") = Ok l /\ length l = 4.
Proof. split; [repeat (constructor; [split; [cbn; intuition discriminate|discriminate]|]); constructor|]. eexists. split; [vm_compute; reflexivity|reflexivity]. Qed.
