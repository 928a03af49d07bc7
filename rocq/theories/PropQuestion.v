(** C48: a question mark in a pattern, such as /a/**/user?.go *)
From Coq Require Import List Bool NArith Lia.
From Verif Require Import Base ModelCompiler ModelPaths SpecParser LemmasBase LemmasTag PropPaths PropPatterns PropPrefix.
Import ListNotations.

Definition optional (c : byte) : rx := Cat (Alt (One (beq c)) Eps) (Cat (One (beq ".")) (Cat (One (beq "g")) (Cat (One (beq "o")) Eps))).
Lemma compile_optional c k : wordly c -> compile_seq (6 + k) (c :: B "?\.go") = Ok (optional c, []).
Proof.
  intros W. destruct (tame_cases c (proj1 (wordly_plain c W))) as (SP & R1 & L1 & P1 & P2 & B1 & _).
  assert (D : beq c "." = false) by (apply not_true_iff_false; intros E; apply Ascii.eqb_eq in E as ->; apply wordly_word in W; discriminate).
  change (6 + k)%nat with (S (5 + k)). cbn [compile_seq]. rewrite P2, SP, R1, D, L1, P1, B1. cbn [bind fst snd].
  change (quantified (One (beq c)) (B "?\.go")) with (@Ok (rx * bytes) (Alt (One (beq c)) Eps, B "\.go")). cbn [bind fst snd].
  change (compile_seq (5 + k) (B "\.go")) with (@Ok (rx * bytes) (Cat (One (beq ".")) (Cat (One (beq "g")) (Cat (One (beq "o")) Eps)), [])). reflexivity.
Qed.
Lemma wordly_regex c : wordly c -> path2regex [c] = [c].
Proof.
  intros W. destruct (tame_cases c (proj1 (wordly_plain c W))) as (_ & _ & _ & _ & _ & B1 & S1).
  assert (D : beq c "." = false) by (apply not_true_iff_false; intros E; apply Ascii.eqb_eq in E as ->; apply wordly_word in W; discriminate).
  assert (S : beq c "/" = false) by (apply not_true_iff_false; intros E; apply Ascii.eqb_eq in E; apply (proj2 (wordly_plain c W)); exact E).
  unfold path2regex. cbn [map concat]. rewrite D, S1, B1, S. reflexivity.
Qed.
Lemma compile_question s pre c : Forall tame s -> Forall wordly pre -> wordly c ->
  compile (path2regex s ++ B "([\\/][a-z0-9_-]+)*" ++ path2regex ("/"%char :: pre ++ c :: B "?.go")) = Ok (literal s (Cat starred (literal ("/"%char :: pre) (optional c)))).
Proof.
  intros F W Wc.
  assert (TP : Forall tame ("/"%char :: pre)).
  { constructor; [ split; [ cbn; intuition discriminate | discriminate ] | ]. eapply Forall_impl; [ | exact W ]. intros x Wx. apply (wordly_plain x Wx). }
  assert (P : path2regex ("/"%char :: pre ++ c :: B "?.go") = path2regex ("/"%char :: pre) ++ c :: B "?\.go").
  { change ("/"%char :: pre ++ c :: B "?.go") with (("/"%char :: pre) ++ [c] ++ B "?.go"). rewrite !path2regex_app, (wordly_regex c Wc). reflexivity. }
  rewrite P. set (rest := B "([\\/][a-z0-9_-]+)*" ++ path2regex ("/"%char :: pre) ++ c :: B "?\.go"). unfold compile.
  assert (L : exists k, S (length (path2regex s ++ rest)) = (length s + (20 + (length pre + k)))%nat).
  { pose proof (path2regex_length s) as Q. pose proof (path2regex_length pre) as Q2. rewrite app_length.
    assert (LR : (20 + length pre <= length rest)%nat).
    { unfold rest. rewrite !app_length. change (length (B "([\\/][a-z0-9_-]+)*")) with 19%nat. change (path2regex ("/"%char :: pre)) with (B "[\\/]" ++ path2regex pre).
      rewrite app_length. change (length (B "[\\/]")) with 5%nat. lia. }
    exists (S (length (path2regex s) + length rest) - length s - 20 - length pre)%nat. lia. }
  destruct L as [k ->]. rewrite compile_literal; [ | exact F | reflexivity ]. unfold rest.
  change (path2regex ("/"%char :: pre) ++ c :: B "?\.go") with ("["%char :: (B "\\/]" ++ path2regex pre) ++ c :: B "?\.go"). rewrite group_step.
  change ("["%char :: (B "\\/]" ++ path2regex pre) ++ c :: B "?\.go") with (path2regex ("/"%char :: pre) ++ c :: B "?\.go").
  replace (19 + (length pre + k))%nat with (length ("/"%char :: pre) + (6 + (12 + k)))%nat by (cbn [length]; lia).
  rewrite compile_literal; [ | exact TP | cbn; apply (tame_cases c (proj1 (wordly_plain c Wc))) ].
  rewrite (compile_optional c (12 + k) Wc). reflexivity.
Qed.
Lemma star_first f b w : lang (Star (Cat (One f) b)) w -> w = [] \/ exists x, In x w /\ f x = true.
Proof.
  intros L. inversion L as [| | | | | |a s t L1 L2 E1 E2]; subst; [ left; reflexivity | right ].
  inversion L1 as [| |? ? s1 s2 X1 X2 E3 E4| | | |]; subst. inversion X1; subst. exists c. split; [ left; reflexivity | assumption ].
Qed.
Lemma optional_lang c b : lang (optional c) b -> b = B ".go" \/ b = c :: B ".go".
Proof.
  intros L. inversion L as [| |? ? a1 b1 L0 L1 E1 E2| | | |]; subst. inversion L1 as [| |? ? a2 b2 X2 L2 E3 E4| | | |]; subst.
  inversion L2 as [| |? ? a3 b3 X3 L3 E5 E6| | | |]; subst. inversion L3 as [| |? ? a4 b4 X4 L4 E7 E8| | | |]; subst. inversion L4; subst.
  inversion X2 as [|? x2 Y2| | | | |]; inversion X3 as [|? x3 Y3| | | | |]; inversion X4 as [|? x4 Y4| | | | |]; subst.
  apply Ascii.eqb_eq in Y2, Y3, Y4. subst.
  inversion L0 as [| | |? ? ? Z|? ? ? Z| |]; subst; inversion Z as [|? z Yz| | | | |]; subst; [ right | left; reflexivity ].
  apply Ascii.eqb_eq in Yz. subst. reflexivity.
Qed.

(** Refuted: the question mark does not stand for one character, it makes the one before it optional.  The file without that character is selected, the file with one
    more is not. *)
Theorem C48_question_refuted d skip segs pre c : sound d -> segs <> [] -> In segs (dirs d) -> Forall tame (slashed segs) -> Forall wordly pre -> wordly c -> ~ In segs skip ->
  exists l, selected d skip (slashed segs ++ B "/**/" ++ pre ++ c :: B "?.go") = Ok l /\
    (In (segs, pre ++ B ".go") (files d) -> In (segs, pre ++ B ".go") l) /\
    (forall x, wordly x -> ~ In (segs, pre ++ c :: x :: B ".go") l).
Proof.
  intros [S1 S2] NE I T W Wc NSK. pose proof (S1 segs I) as SG. unfold selected, plan.
  replace (slashed segs ++ B "/**/" ++ pre ++ c :: B "?.go") with ((slashed segs ++ B "/") ++ B "**" ++ ("/"%char :: pre ++ c :: B "?.go")) by (rewrite <- !app_assoc; reflexivity).
  assert (TS : tame "/") by (split; [ cbn; intuition discriminate | discriminate ]).
  rewrite cut_stars_root by (apply Forall_app; split; [ exact T | constructor; [ exact TS | constructor ] ]).
  rewrite (trim_root segs NE), (compile_question _ pre c T W Wc). cbn [bind].
  assert (CL : clean (slashed segs) = segs) by (apply clean_spells, spells_slashed; assumption).
  assert (PICK : match slashed segs with [] => [] | _ => below d (clean (slashed segs)) end = below d segs)
    by (rewrite CL; destruct segs; [ contradiction | reflexivity ]).
  rewrite PICK. eexists. split; [ reflexivity | ]. split.
  - intros If. rewrite filter_In. cbn [fst snd]. rewrite !andb_true_iff, negb_true_iff, existsb_segs. unfold below. rewrite filter_In, starts_with_iff.
    split; [ exact If | ]. split; [ split; [ split; [ exact I | exists []; symmetry; apply app_nil_r ] | apply not_true_iff_false; intros Z; apply existsb_segs in Z; contradiction ] | ].
    cbn [matches]. apply match_whole. rewrite text_of_snoc, slashed_app. apply lang_literal.
    change (slashed [pre ++ B ".go"]) with ("/"%char :: (pre ++ B ".go") ++ []). rewrite app_nil_r.
    apply (l_cat starred _ [] ("/"%char :: pre ++ B ".go")); [ constructor | ].
    change ("/"%char :: pre ++ B ".go") with (("/"%char :: pre) ++ B ".go"). apply lang_literal.
    apply (l_cat _ _ [] (B ".go")); [ apply l_right; constructor | ].
    apply (l_cat _ _ ["."%char] (B "go")); [ constructor; reflexivity | ]. apply (l_cat _ _ ["g"%char] (B "o")); [ constructor; reflexivity | ].
    apply (l_cat _ _ ["o"%char] []); [ constructor; reflexivity | constructor ].
  - intros x Wx If. apply filter_In in If as [If H]. cbn [fst snd matches] in H. rewrite !andb_true_iff in H. destruct H as [_ M].
    rewrite text_of_snoc, slashed_app in M. change (slashed [pre ++ c :: x :: B ".go"]) with ("/"%char :: (pre ++ c :: x :: B ".go") ++ []) in M. rewrite app_nil_r in M.
    apply match_inside in M as (u & t & v & E & L).
    destruct (S2 _ _ If) as (_ & (_ & NSN & _) & _).
    assert (NBW : forall y, wordly y -> y <> backslash) by (intros y Wy Ey; subst y; apply wordly_word in Wy; discriminate).
    assert (NBP : ~ In backslash (slashed segs ++ "/"%char :: pre ++ c :: x :: B ".go")).
    { intros Y. apply in_app_or in Y as [Y|[Y|Y]]; [ rewrite Forall_forall in T; destruct (T _ Y) as [Z _]; apply Z; cbn; tauto | discriminate | ].
      apply in_app_or in Y as [Y|[Y|[Y|Y]]]; [ rewrite Forall_forall in W; exact (NBW _ (W _ Y) eq_refl) | exact (NBW _ Wc Y) | exact (NBW _ Wx Y) | cbn in Y; intuition discriminate ]. }
    assert (NBT : ~ In backslash t) by (intros Y; apply NBP; rewrite E; apply in_or_app; right; apply in_or_app; left; exact Y).
    destruct (literal_lang _ _ _ L NBT) as (b & -> & Lb).
    inversion Lb as [| |? ? w b1 Lw Lb1 E1 E2| | | |]; subst.
    assert (NB1 : ~ In backslash b1) by (intros Y; apply NBT; apply in_or_app; right; apply in_or_app; right; exact Y).
    destruct (literal_lang ("/"%char :: pre) (optional c) b1 Lb1 NB1) as (b2 & -> & Lb2). apply optional_lang in Lb2.
    pose proof (f_equal slashes E) as SE. rewrite !slashes_app in SE. cbn [slashes] in SE. change (beq "/" "/") with true in SE. cbn iota in SE.
    rewrite (slashes_none _ NSN) in SE. rewrite ?slashes_app in SE. cbn [slashes] in SE. change (beq "/" "/") with true in SE. cbn iota in SE.
    assert (U : u = []).
    { destruct u as [|y u]; [ reflexivity | exfalso ].
      assert (C : y = "/"%char) by (destruct segs as [|s0 segs']; [ contradiction | ]; injection E as <- _; reflexivity).
      subst y. cbn [slashes] in SE. change (beq "/" "/") with true in SE. cbn iota in SE. lia. }
    assert (WN : w = []).
    { destruct (star_first _ _ _ Lw) as [->|(y & Iy & FY)]; [ reflexivity | exfalso ].
      apply orb_true_iff in FY as [FY|FY].
      - cbn [orb] in FY. apply Ascii.eqb_eq in FY. subst y. apply NBT. apply in_or_app. right. apply in_or_app. left. exact Iy.
      - apply Ascii.eqb_eq in FY. subst y. apply in_split in Iy as (w1 & w2 & ->). rewrite slashes_app in SE. cbn [slashes] in SE. change (beq "/" "/") with true in SE. cbn iota in SE. lia. }
    subst u w. cbn [app] in E. rewrite <- !app_assoc in E. apply app_inv_head in E. cbn [app] in E. injection E as E.
    rewrite <- ?app_assoc in E. apply app_inv_head in E.
    assert (ND : forall y, wordly y -> y <> "."%char) by (intros y Wy Ey; subst y; apply wordly_word in Wy; discriminate).
    destruct Lb2 as [->| ->]; cbn [app] in E.
    + injection E as E _. exact (ND c Wc E).
    + injection E as E _. exact (ND x Wx E).
Qed.
Print Assumptions C48_question_refuted.

(** The pattern for users by their number selects the file without one. *)
Example C48_question_case :
  let d := {| dirs := [[B "models"]]; files := [([B "models"], B "use.go"); ([B "models"], B "user.go"); ([B "models"], B "user1.go")] |} in
  selected d [] (B "/models/**/user?.go") = Ok [([B "models"], B "use.go"); ([B "models"], B "user.go")].
Proof. vm_compute. reflexivity. Qed.
