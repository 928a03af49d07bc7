(** C48: the beginning of a file name, at any depth: /a/**/user_*.go *)
From Coq Require Import List Bool NArith Lia.
From Verif Require Import Base ModelCompiler ModelPaths SpecParser LemmasBase LemmasTag PropPaths PropPatterns PropPrefix.
Import ListNotations.

Lemma compile_deep s pre : Forall tame s -> Forall wordly pre ->
  compile (path2regex s ++ B "([\\/][a-z0-9_-]+)*" ++ path2regex ("/"%char :: pre ++ B "*.go")) = Ok (literal s (Cat starred (literal ("/"%char :: pre) any_go))).
Proof.
  intros F W.
  assert (TP : Forall tame ("/"%char :: pre)).
  { constructor; [ split; [ cbn; intuition discriminate | discriminate ] | ]. eapply Forall_impl; [ | exact W ]. intros x Wx. apply (wordly_plain x Wx). }
  assert (P : path2regex ("/"%char :: pre ++ B "*.go") = path2regex ("/"%char :: pre) ++ B ".*\.go").
  { change ("/"%char :: pre ++ B "*.go") with (("/"%char :: pre) ++ B "*.go"). rewrite path2regex_app. reflexivity. }
  rewrite P. set (rest := B "([\\/][a-z0-9_-]+)*" ++ path2regex ("/"%char :: pre) ++ B ".*\.go"). unfold compile.
  assert (L : exists k, S (length (path2regex s ++ rest)) = (length s + (20 + (length pre + k)))%nat).
  { pose proof (path2regex_length s) as Q. pose proof (path2regex_length pre) as Q2. rewrite app_length.
    assert (LR : (20 + length pre <= length rest)%nat).
    { unfold rest. rewrite !app_length. change (length (B "([\\/][a-z0-9_-]+)*")) with 19%nat. change (path2regex ("/"%char :: pre)) with (B "[\\/]" ++ path2regex pre).
      rewrite app_length. change (length (B "[\\/]")) with 5%nat. lia. }
    exists (S (length (path2regex s) + length rest) - length s - 20 - length pre)%nat. lia. }
  destruct L as [k ->]. rewrite compile_literal; [ | exact F | reflexivity ]. unfold rest.
  change (path2regex ("/"%char :: pre) ++ B ".*\.go") with ("["%char :: (B "\\/]" ++ path2regex pre) ++ B ".*\.go"). rewrite group_step.
  change ("["%char :: (B "\\/]" ++ path2regex pre) ++ B ".*\.go") with (path2regex ("/"%char :: pre) ++ B ".*\.go").
  replace (19 + (length pre + k))%nat with (length ("/"%char :: pre) + (6 + (12 + k)))%nat by (cbn [length]; lia).
  rewrite compile_literal; [ | exact TP | reflexivity ].
  change (compile_seq (6 + (12 + k)) (B ".*\.go")) with (@Ok (rx * bytes) (any_go, [])). reflexivity.
Qed.

(** Folder names that the expression for two stars knows: small letters, digits, _ and - *)
Definition low (s : bytes) : Prop := s <> [] /\ Forall (fun x => (97 <= code x <= 122)%N \/ (48 <= code x <= 57)%N \/ In x (B "_-")) s.
Definition cls (x : byte) : bool := false || in_range (code "a") (code "z") x || in_range (code "0") (code "9") x || beq x "_" || beq x "-".
Lemma low_cls x : (97 <= code x <= 122)%N \/ (48 <= code x <= 57)%N \/ In x (B "_-") -> cls x = true.
Proof.
  unfold cls, in_range. change (code "a") with 97%N. change (code "z") with 122%N. change (code "0") with 48%N. change (code "9") with 57%N.
  rewrite !orb_true_iff, !andb_true_iff, !N.leb_le. intros [H|[H|H]]; [ tauto | tauto | ].
  cbn in H. destruct H as [<-|[<-|[]]]; [ left; right; reflexivity | right; reflexivity ].
Qed.
Lemma starred_low sub : Forall low sub -> lang starred (slashed sub).
Proof.
  induction 1 as [|s sub [NE L] F IH]; [ constructor | ]. change (slashed (s :: sub)) with (("/"%char :: s) ++ slashed sub).
  apply l_more; [ | exact IH ]. apply (l_cat _ _ ["/"%char] s); [ constructor; reflexivity | ]. rewrite <- (app_nil_r s). apply l_cat; [ | constructor ].
  destruct s as [|c s]; [ contradiction | ]. inversion L as [|? ? Lc Ls]; subst. apply (l_cat _ _ [c] s); [ constructor; apply (low_cls c Lc) | ].
  apply lang_star. eapply Forall_impl; [ | exact Ls ]. intros x Hx. apply (low_cls x Hx).
Qed.
Lemma lang_any t : ~ In LF t -> lang any_go (t ++ B ".go").
Proof.
  intros N. apply l_cat; [ apply lang_star, Forall_forall; intros c Ic; apply negb_true_iff, not_true_iff_false; intros X; apply Ascii.eqb_eq in X as ->; contradiction | ].
  apply (l_cat _ _ ["."%char] (B "go")); [ constructor; reflexivity | ]. apply (l_cat _ _ ["g"%char] (B "o")); [ constructor; reflexivity | ].
  apply (l_cat _ _ ["o"%char] []); [ constructor; reflexivity | constructor ].
Qed.

Definition deep (segs : list bytes) (pre : bytes) : bytes := slashed segs ++ B "/**/" ++ pre ++ B "*.go".
Lemma deep_selected d skip segs pre : sound d -> segs <> [] -> In segs (dirs d) -> Forall tame (slashed segs) -> Forall wordly pre ->
  exists l, selected d skip (deep segs pre) = Ok l /\
    (forall f, In f l -> In f (files d) /\ (exists sub, fst f = segs ++ sub) /\ ~ In (fst f) skip) /\
    (forall sub name, In (segs ++ sub, name) (files d) -> ~ In (segs ++ sub) skip ->
      (exists w t, slashed sub ++ "/"%char :: name = w ++ "/"%char :: pre ++ t ++ B ".go" /\ lang starred w /\ ~ In LF t) -> In (segs ++ sub, name) l).
Proof.
  intros [S1 S2] NE I T W. pose proof (S1 segs I) as SG. unfold selected, plan, deep.
  replace (slashed segs ++ B "/**/" ++ pre ++ B "*.go") with ((slashed segs ++ B "/") ++ B "**" ++ ("/"%char :: pre ++ B "*.go")) by (rewrite <- !app_assoc; reflexivity).
  assert (TS : tame "/") by (split; [ cbn; intuition discriminate | discriminate ]).
  rewrite cut_stars_root by (apply Forall_app; split; [ exact T | constructor; [ exact TS | constructor ] ]).
  rewrite (trim_root segs NE), (compile_deep _ pre T W). cbn [bind].
  assert (CL : clean (slashed segs) = segs) by (apply clean_spells, spells_slashed; assumption).
  assert (PICK : match slashed segs with [] => [] | _ => below d (clean (slashed segs)) end = below d segs)
    by (rewrite CL; destruct segs; [ contradiction | reflexivity ]).
  rewrite PICK. eexists. split; [ reflexivity | ]. split.
  - intros [dir name] If. apply filter_In in If as [If H]. cbn [fst snd] in *. rewrite !andb_true_iff, negb_true_iff, existsb_segs in H. unfold below in H.
    rewrite filter_In, starts_with_iff in H. destruct H as [[[_ SUB] NS] _]. split; [ exact If | ]. split; [ exact SUB | ].
    intros Z. apply existsb_segs in Z. congruence.
  - intros sub name If NS (w & t & E & Lw & NL). rewrite filter_In. cbn [fst snd]. rewrite !andb_true_iff, negb_true_iff, existsb_segs. unfold below. rewrite filter_In, starts_with_iff.
    split; [ exact If | ]. destruct (S2 _ _ If) as (ID & _).
    split; [ split; [ split; [ exact ID | exists sub; reflexivity ] | apply not_true_iff_false; intros Z; apply existsb_segs in Z; contradiction ] | ].
    cbn [matches]. apply match_whole. rewrite text_of_snoc, !slashed_app. change (slashed [name]) with ("/"%char :: name ++ []). rewrite app_nil_r, <- app_assoc, E.
    apply lang_literal. apply l_cat; [ exact Lw | ]. change ("/"%char :: pre ++ t ++ B ".go") with (("/"%char :: pre) ++ t ++ B ".go").
    apply lang_literal. now apply lang_any.
Qed.

(** Below a folder, at any depth: the Go files whose names begin with the text in front of the star are selected when the folders between have names of small letters,
    digits, _ and -; everything selected is below the folder.  Missing: folders with other names (C48_spellings_refuted), and that nothing else is
    selected (C48_deep_refuted). *)
Theorem C48_deep_partial d skip segs pre : sound d -> segs <> [] -> In segs (dirs d) -> Forall tame (slashed segs) -> Forall wordly pre ->
  exists l, selected d skip (deep segs pre) = Ok l /\
    (forall f, In f l -> In f (files d) /\ (exists sub, fst f = segs ++ sub) /\ ~ In (fst f) skip) /\
    (forall sub base, Forall low sub -> ~ In LF base -> In (segs ++ sub, pre ++ base ++ B ".go") (files d) -> ~ In (segs ++ sub) skip ->
      In (segs ++ sub, pre ++ base ++ B ".go") l).
Proof.
  intros S NE I T W. destruct (deep_selected d skip segs pre S NE I T W) as (l & E & A & C). exists l. split; [ exact E | ]. split; [ exact A | ].
  intros sub base L NL If NS. apply (C sub _ If NS). exists (slashed sub), base. split; [ reflexivity | ]. split; [ now apply starred_low | exact NL ].
Qed.
Print Assumptions C48_deep_partial.

(** Refuted: a folder whose name begins with the text in front of the star is taken for a file name: all Go files of it are selected, whatever their names. *)
Theorem C48_deep_refuted d skip segs pre l more base : sound d -> segs <> [] -> In segs (dirs d) -> Forall tame (slashed segs) -> Forall wordly pre ->
  selected d skip (deep segs pre) = Ok l -> ~ In LF more -> ~ In LF base ->
  In (segs ++ [pre ++ more], base ++ B ".go") (files d) -> ~ In (segs ++ [pre ++ more]) skip -> In (segs ++ [pre ++ more], base ++ B ".go") l.
Proof.
  intros S NE I T W E NM NB If NS. destruct (deep_selected d skip segs pre S NE I T W) as (l' & E' & _ & C). rewrite E' in E. injection E as <-.
  apply (C _ _ If NS). exists [], (more ++ "/"%char :: base). split; [ | split; [ constructor | ] ].
  - change (slashed [pre ++ more]) with ("/"%char :: (pre ++ more) ++ []). rewrite app_nil_r. cbn [app]. rewrite <- !app_assoc. reflexivity.
  - intros X. apply in_app_or in X as [X|[X|X]]; [ contradiction | discriminate | contradiction ].
Qed.
Print Assumptions C48_deep_refuted.

Example C48_deep_case :
  let d := {| dirs := [[B "db"]; [B "db"; B "user_old"]; [B "db"; B "v2"]];
              files := [([B "db"], B "user_a.go"); ([B "db"], B "post.go"); ([B "db"; B "user_old"], B "post.go"); ([B "db"; B "v2"], B "user_b.go"); ([B "db"; B "v2"], B "post.go")] |} in
  selected d [] (B "/db/**/user_*.go") = Ok [([B "db"], B "user_a.go"); ([B "db"; B "user_old"], B "post.go"); ([B "db"; B "v2"], B "user_b.go")] /\
  low (B "v2") /\ deep [B "db"] (B "user_") = B "/db/**/user_*.go".
Proof.
  split; [ vm_compute; reflexivity | ]. split; [ | reflexivity ].
  split; [ discriminate | ]. constructor; [ left; split; vm_compute; discriminate | ]. constructor; [ right; left; split; vm_compute; discriminate | constructor ].
Qed.
