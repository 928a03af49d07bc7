(** C48: patterns with the beginning of a file name in front of the star, such as /a/b/user_*.go *)
From Coq Require Import List Bool NArith Lia.
From Verif Require Import Base ModelCompiler ModelPaths SpecParser LemmasBase LemmasTag PropPaths PropPatterns.
Import ListNotations.

(** Letters, digits and underscores *)
Definition wordly (c : byte) : Prop := is_alnum c = true \/ c = "_"%char.
Lemma wordly_word c : wordly c -> ModelPaths.word c = true.
Proof. unfold ModelPaths.word. intros [H| ->]; [ now rewrite H | reflexivity ]. Qed.
Lemma wordly_plain c : wordly c -> tame c /\ c <> "/"%char.
Proof.
  intros W. apply wordly_word in W. unfold tame. split; [ split | ]; intros E; [ | subst; discriminate W | subst; discriminate W ].
  cbn in E. repeat (destruct E as [E|E]; [ subst; discriminate W | ]). destruct E.
Qed.

Definition pattern (segs : list bytes) (pre : bytes) : bytes := slashed segs ++ "/"%char :: pre ++ B "*.go".
Lemma cut_once s : starless s -> cut_stars (s ++ B "*.go") = None.
Proof.
  induction s as [|c s IH]; intros N; [ reflexivity | ]. cbn [app cut_stars].
  replace (has_prefix (c :: s ++ B "*.go") (B "**")) with false; [ rewrite IH by (intros I; apply N; right; exact I); reflexivity | ].
  symmetry. apply not_true_iff_false. intros E. apply has_prefix_spec in E as [r E]. injection E as -> _. apply N. left. reflexivity.
Qed.
Lemma skip_pre pre s : Forall wordly pre -> skip_words (pre ++ "*"%char :: s) = "*"%char :: s.
Proof. induction 1 as [|c pre W F IH]; [ reflexivity | ]. cbn [app skip_words]. now rewrite (wordly_word c W). Qed.
Lemma tail_pre pre : Forall wordly pre -> glob_tail (pre ++ B "*.go") = true.
Proof. intros F. unfold glob_tail. change (B "*.go") with ("*"%char :: B ".go"). rewrite (skip_pre pre _ F). reflexivity. Qed.
Lemma split_last segs z : ~ In "/"%char z -> Forall (fun p => ~ In "/"%char p) segs -> forall p, ~ In "/"%char p ->
  split_on "/" (p ++ slashed segs ++ "/"%char :: z) = p :: segs ++ [z].
Proof.
  intros NZ F. induction F as [|q segs N F IH]; intros p NP.
  - cbn [slashed map concat app]. rewrite split_on_part by exact NP. f_equal.
    rewrite <- (app_nil_r z) at 1. clear - NZ. rewrite app_nil_r. induction z as [|c z IH]; [ reflexivity | ]. cbn [split_on].
    destruct (beq c "/") eqn:E; [ apply Ascii.eqb_eq in E as ->; exfalso; apply NZ; left; reflexivity | ].
    rewrite IH by (intros I; apply NZ; right; exact I). reflexivity.
  - change (slashed (q :: segs)) with ("/"%char :: q ++ slashed segs). cbn [app]. rewrite <- app_assoc. rewrite split_on_part by exact NP.
    rewrite (IH q N). reflexivity.
Qed.
Lemma segments_last segs z : Forall known segs -> glob_segments (segs ++ [z]) = (concat (map (fun s => s ++ B "/") segs), [z]).
Proof.
  induction 1 as [|s segs K F IH]; [ reflexivity | ]. cbn [app map concat]. destruct (segs ++ [z]) as [|q r] eqn:E; [ destruct segs; discriminate | ].
  change (glob_segments (s :: q :: r)) with (if glob_segment s then let '(a, rest) := glob_segments (q :: r) in (s ++ "/"%char :: a, rest) else ([], s :: q :: r)).
  rewrite (proj2 (known_iff s) K), IH. rewrite <- app_assoc. reflexivity.
Qed.
Lemma root_pre segs pre : Forall (fun p => ~ In "/"%char p) segs -> Forall known segs -> Forall wordly pre ->
  glob_root (pattern segs pre) = Some (slashed segs ++ B "/").
Proof.
  intros Fl Kl W. rewrite <- slashed_tail. unfold pattern.
  assert (NZ : ~ In "/"%char (pre ++ B "*.go")).
  { intros I. apply in_app_or in I as [I|I]; [ rewrite Forall_forall in W; apply (proj2 (wordly_plain _ (W _ I))); reflexivity | cbn in I; intuition discriminate ]. }
  destruct Fl as [|p l N1 Fl].
  - cbn [slashed map concat app glob_root]. change (beq "/" "/") with true. cbv iota.
    change (split_on "/" (pre ++ B "*.go")) with (split_on "/" (pre ++ B "*.go")).
    assert (E : split_on "/" (pre ++ B "*.go") = [pre ++ B "*.go"]).
    { pose proof (split_last [] (pre ++ B "*.go") NZ (Forall_nil _) [] ltac:(intros [])) as X. cbn in X. injection X as X. exact X. }
    rewrite E. cbn [glob_segments]. rewrite (tail_pre pre W). reflexivity.
  - change (slashed (p :: l)) with ("/"%char :: p ++ slashed l). rewrite <- app_comm_cons. cbn [glob_root]. change (beq "/" "/") with true. cbv iota. rewrite <- app_assoc.
    rewrite (split_last l _ NZ Fl p N1). change (p :: l ++ [pre ++ B "*.go"]) with ((p :: l) ++ [pre ++ B "*.go"]).
    rewrite (segments_last (p :: l) _ Kl), (tail_pre pre W). reflexivity.
Qed.
Definition any_go : rx := Cat (Star (One (fun x => negb (beq x LF)))) (Cat (One (beq ".")) (Cat (One (beq "g")) (Cat (One (beq "o")) Eps))).
Lemma compile_pre s : Forall tame s -> compile (path2regex (s ++ B "*.go")) = Ok (literal s any_go).
Proof.
  intros F. rewrite path2regex_app. unfold compile. set (rest := path2regex (B "*.go")).
  assert (L : exists k, S (length (path2regex s ++ rest)) = (length s + (7 + k))%nat).
  { pose proof (path2regex_length s) as P. rewrite app_length. assert (X : (6 <= length rest)%nat) by (vm_compute; repeat constructor).
    exists (S (length (path2regex s) + length rest) - length s - 7)%nat. lia. }
  destruct L as [k ->]. rewrite compile_literal; [ | exact F | reflexivity ]. reflexivity.
Qed.

(** What matches, from the text back to the pattern *)
Lemma literal_lang s r : forall t, lang (literal s r) t -> ~ In backslash t -> exists b, t = s ++ b /\ lang r b.
Proof.
  induction s as [|c s IH]; intros t L N; [ exists t; split; [ reflexivity | exact L ] | ].
  cbn [literal] in L. inversion L as [| |? ? s1 s2 L1 L2 E1 E2| | | |]; subst. inversion L1 as [|f x FX| | | | |]; subst.
  destruct (IH s2 L2) as (b & -> & Lb). { intros I. apply N. apply in_or_app. right. exact I. }
  exists b. split; [ | exact Lb ]. cbn [app]. f_equal.
  destruct (beq c "/") eqn:E.
  - apply Ascii.eqb_eq in E as ->. apply orb_true_iff in FX as [FX|FX]; [ | now apply Ascii.eqb_eq in FX ].
    exfalso. apply N. left. cbn [orb] in FX. now apply Ascii.eqb_eq in FX.
  - symmetry. now apply Ascii.eqb_eq.
Qed.
Lemma match_inside r s : match_string r s = true -> exists u t v, s = u ++ t ++ v /\ lang r t.
Proof.
  intros M. apply accepts_lang in M. inversion M as [| |? ? u w _ L E1 E2| | | |]; subst. inversion L as [| |? ? t v Lt _ E3 E4| | | |]; subst.
  exists u, t, v. split; [ reflexivity | exact Lt ].
Qed.
Lemma any_go_length b : lang any_go b -> (3 <= length b)%nat.
Proof.
  intros L. inversion L as [| |? ? a1 b1 _ L1 E1 E2| | | |]; subst. inversion L1 as [| |? ? a2 b2 X2 L2 E3 E4| | | |]; subst.
  inversion L2 as [| |? ? a3 b3 X3 L3 E5 E6| | | |]; subst. inversion L3 as [| |? ? a4 b4 X4 L4 E7 E8| | | |]; subst.
  inversion X2; inversion X3; inversion X4; subst. rewrite !app_length. cbn [length]. lia.
Qed.
(** How many slashes a text has *)
Fixpoint slashes (s : bytes) : nat := match s with [] => 0 | c :: r => (if beq c "/" then 1 else 0) + slashes r end.
Lemma slashes_app a b : slashes (a ++ b) = (slashes a + slashes b)%nat.
Proof. induction a as [|c a IH]; [ reflexivity | ]. cbn [app slashes]. rewrite IH. lia. Qed.
Lemma slashes_none s : ~ In "/"%char s -> slashes s = 0%nat.
Proof.
  induction s as [|c s IH]; intros N; [ reflexivity | ]. cbn [slashes].
  destruct (beq c "/") eqn:E; [ apply Ascii.eqb_eq in E as ->; exfalso; apply N; left; reflexivity | ].
  rewrite IH; [ reflexivity | intros I; apply N; right; exact I ].
Qed.

(** Exactly the Go files of the folder whose names begin with the text in front of the star.  Missing: other characters in front of the star (a dash: the
    folder is not found), names with backslashes. *)
Theorem C48_prefix_partial d skip segs pre : sound d -> segs <> [] -> In segs (dirs d) -> Forall tame (slashed segs) -> Forall known segs -> Forall wordly pre ->
  (forall name, In (segs, name) (files d) -> exists base, name = base ++ B ".go" /\ ~ In LF base /\ ~ In backslash base) ->
  exists l, selected d skip (pattern segs pre) = Ok l /\
    forall f, In f l <-> In f (files d) /\ fst f = segs /\ ~ In segs skip /\ exists base, snd f = pre ++ base ++ B ".go".
Proof.
  intros [S1 S2] NE I T K W GO. pose proof (S1 segs I) as SG. unfold selected, plan.
  assert (TP : Forall tame (slashed segs ++ "/"%char :: pre)).
  { apply Forall_app. split; [ exact T | ]. constructor; [ split; [ cbn; intuition discriminate | discriminate ] | ].
    eapply Forall_impl; [ | exact W ]. intros c Wc. apply (wordly_plain c Wc). }
  assert (EP : pattern segs pre = (slashed segs ++ "/"%char :: pre) ++ B "*.go") by (unfold pattern; rewrite <- app_assoc; reflexivity).
  assert (CU : cut_stars (pattern segs pre) = None) by (rewrite EP; apply cut_once, tame_starless, TP).
  assert (NS : Forall (fun p => ~ In "/"%char p) segs) by (eapply Forall_impl; [ | exact SG ]; intros s (_ & X & _); exact X).
  rewrite CU, (root_pre segs pre NS K W), EP, (compile_pre _ TP). cbn [bind]. rewrite trim_tail.
  assert (CL : clean (slashed segs) = segs) by (apply clean_spells, spells_slashed; assumption).
  assert (PICK : match slashed segs with [] => [] | _ => [clean (slashed segs)] end = [segs])
    by (rewrite CL; destruct segs; [ contradiction | reflexivity ]).
  rewrite PICK. eexists. split; [ reflexivity | ]. intros [dir name]. rewrite filter_In. cbn [fst snd matches].
  rewrite !andb_true_iff, negb_true_iff, existsb_segs. split.
  - intros (If & [[[<-|[]] NSK] M]). split; [ exact If | ]. split; [ reflexivity | ].
    split; [ intros X; apply existsb_segs in X; congruence | ].
    destruct (GO name If) as (b0 & En & _ & NB). destruct (S2 _ _ If) as (_ & (_ & NSN & _) & _).
    rewrite text_of_snoc, slashed_app in M. change (slashed [name]) with ("/"%char :: name ++ []) in M. rewrite app_nil_r in M.
    apply match_inside in M as (u & t & v & E & L).
    assert (NBS : ~ In backslash t).
    { intros X. assert (Y : In backslash (slashed segs ++ "/"%char :: name)) by (rewrite E; apply in_or_app; right; apply in_or_app; left; exact X).
      apply in_app_or in Y as [Y|[Y|Y]]; [ rewrite Forall_forall in T; destruct (T _ Y) as [Z _]; apply Z; cbn; tauto | discriminate | ].
      rewrite En in Y. apply in_app_or in Y as [Y|Y]; [ contradiction | cbn in Y; intuition discriminate ]. }
    destruct (literal_lang _ _ _ L NBS) as (b & -> & Lb). apply any_go_length in Lb.
    assert (U : u = []).
    { destruct u as [|c u]; [ reflexivity | exfalso ]. pose proof (f_equal slashes E) as SE.
      assert (C : c = "/"%char) by (destruct segs as [|s0 segs']; [ contradiction | ]; injection E as <- _; reflexivity).
      subst c. rewrite !slashes_app in SE. cbn [slashes] in SE. change (beq "/" "/") with true in SE. cbn iota in SE.
      rewrite (slashes_none name NSN) in SE. lia. }
    subst u. cbn [app] in E. rewrite <- !app_assoc in E. apply app_inv_head in E. cbn [app] in E. injection E as E. rewrite <- app_assoc in E || idtac.
    assert (LB : (length (pre ++ b ++ v) = length b0 + 3)%nat) by (rewrite <- E, En, app_length; reflexivity).
    rewrite !app_length in LB.
    assert (EB : b0 = pre ++ skipn (length pre) b0).
    { assert (FP : firstn (length pre) b0 = pre).
      { rewrite En in E. apply (f_equal (firstn (length pre))) in E. rewrite !firstn_app in E.
        replace (length pre - length b0)%nat with 0%nat in E by lia. rewrite Nat.sub_diag in E. cbn [firstn] in E. rewrite !app_nil_r, firstn_all in E. exact E. }
      rewrite <- FP at 1. symmetry. apply firstn_skipn. }
    exists (skipn (length pre) b0). rewrite En, EB at 1. rewrite <- app_assoc. reflexivity.
  - intros (If & -> & NSK & base & En). split; [ exact If | ].
    split; [ split; [ left; reflexivity | apply not_true_iff_false; intros X; apply existsb_segs in X; contradiction ] | ].
    apply match_whole. destruct (GO name If) as (b0 & En0 & NL & _).
    assert (Eb : b0 = pre ++ base) by (rewrite En, app_assoc in En0; apply app_inv_tail in En0; symmetry; exact En0).
    rewrite text_of_snoc, slashed_app. change (slashed [name]) with ("/"%char :: name ++ []). rewrite app_nil_r, En.
    replace (slashed segs ++ "/"%char :: pre ++ base ++ B ".go") with ((slashed segs ++ "/"%char :: pre) ++ base ++ B ".go") by (rewrite <- app_assoc; reflexivity).
    apply lang_literal. apply l_cat.
    + apply lang_star, Forall_forall. intros c Ic. apply negb_true_iff, not_true_iff_false. intros X. apply Ascii.eqb_eq in X as ->.
      apply NL. rewrite Eb. apply in_or_app. right. exact Ic.
    + apply (l_cat _ _ ["."%char] (B "go")); [ constructor; reflexivity | ]. apply (l_cat _ _ ["g"%char] (B "o")); [ constructor; reflexivity | ].
      apply (l_cat _ _ ["o"%char] []); [ constructor; reflexivity | constructor ].
Qed.
Print Assumptions C48_prefix_partial.

(** ** Other characters in front of the star *)
Lemma split_all l : Forall (fun p => ~ In "/"%char p) l -> forall p, ~ In "/"%char p -> split_on "/" (p ++ slashed l) = p :: l.
Proof.
  intros F. induction F as [|q l N F IH]; intros p NP.
  - cbn [slashed map concat]. rewrite app_nil_r. induction p as [|c p IH]; [ reflexivity | ]. cbn [split_on].
    destruct (beq c "/") eqn:E; [ apply Ascii.eqb_eq in E as ->; exfalso; apply NP; left; reflexivity | ].
    rewrite IH by (intros I; apply NP; right; exact I). reflexivity.
  - change (slashed (q :: l)) with ("/"%char :: q ++ slashed l). rewrite split_on_part by exact NP. now rewrite (IH q N).
Qed.
Lemma segments_head l : l <> [] -> exists a p r, glob_segments l = (a, p :: r) /\ In p l.
Proof.
  induction l as [|p l IH]; intros N; [ contradiction | ]. destruct l as [|q l]; [ exists [], p, []; split; [ reflexivity | left; reflexivity ] | ].
  change (glob_segments (p :: q :: l)) with (if glob_segment p then let '(a, rest) := glob_segments (q :: l) in (p ++ "/"%char :: a, rest) else ([], p :: q :: l)).
  destruct (glob_segment p).
  - destruct (IH ltac:(discriminate)) as (a & x & r & -> & I). exists (p ++ "/"%char :: a), x, r. split; [ reflexivity | right; exact I ].
  - exists [], p, (q :: l). split; [ reflexivity | left; reflexivity ].
Qed.
Lemma root_none l : Forall (fun p => ~ In "/"%char p) l -> Forall (fun p => glob_tail p = false) l -> glob_root (slashed l) = None.
Proof.
  intros F. induction F as [|p l N F IH]; intros G; [ reflexivity | ]. inversion G as [|? ? Gp Gl]; subst.
  change (slashed (p :: l)) with ("/"%char :: p ++ slashed l). cbn [glob_root]. change (beq "/" "/") with true. cbv iota.
  rewrite (split_all l F p N). destruct (segments_head (p :: l) ltac:(discriminate)) as (a & x & r & -> & I).
  rewrite Forall_forall in G. rewrite (G x I), root_skip by exact N. apply IH, Gl.
Qed.
Lemma tail_odd pre x post : Forall wordly pre -> ModelPaths.word x = false -> x <> "*"%char -> glob_tail (pre ++ x :: post) = false.
Proof.
  intros F W N. unfold glob_tail.
  assert (E : skip_words (pre ++ x :: post) = x :: post).
  { induction F as [|c pre Wc F IH]; cbn [app skip_words]; [ now rewrite W | ]. rewrite (wordly_word c Wc). exact IH. }
  rewrite E. destruct (beq x "*") eqn:EX; [ apply Ascii.eqb_eq in EX; contradiction | reflexivity ].
Qed.
(** With a character in front of the star that is no letter, digit or underscore (a dash, a dot) nothing is selected, whatever the folder holds. *)
Theorem C48_dash_refuted d skip segs pre x post : let name := pre ++ x :: post ++ B "*.go" in
  Forall segment (segs ++ [name]) -> Forall starless segs -> Forall wordly pre -> ~ wordly x -> x <> "*"%char -> starless post ->
  ~ In (segs ++ [name]) (dirs d) -> ~ In (segs, name) (files d) -> selected d skip (slashed (segs ++ [name])) = Ok [].
Proof.
  intros name SG SL W NW NX SP ND NF. unfold selected, plan.
  assert (WX : ModelPaths.word x = false).
  { apply not_true_iff_false. intros H. apply NW. unfold ModelPaths.word in H. apply orb_true_iff in H as [H|H]; [ left; exact H | right; now apply Ascii.eqb_eq ]. }
  assert (EN : slashed (segs ++ [name]) = (slashed segs ++ "/"%char :: pre ++ x :: post) ++ B "*.go").
  { rewrite slashed_app. change (slashed [name]) with ("/"%char :: name ++ []). rewrite app_nil_r. unfold name. rewrite <- app_assoc. cbn [app]. rewrite <- app_assoc. reflexivity. }
  assert (CU : cut_stars (slashed (segs ++ [name])) = None).
  { rewrite EN. apply cut_once. intros I. apply in_app_or in I as [I|[I|I]]; [ | discriminate | ].
    - unfold slashed in I. apply in_concat in I as (q & Q & I). apply in_map_iff in Q as (s & <- & Is). destruct I as [I|I]; [ discriminate | ].
      rewrite Forall_forall in SL. apply (SL s Is I).
    - apply in_app_or in I as [I|[I|I]]; [ rewrite Forall_forall in W; destruct (wordly_plain _ (W _ I)) as [[Z _] _]; apply Z; cbn; tauto | contradiction | contradiction ]. }
  rewrite CU.
  assert (GR : glob_root (slashed (segs ++ [name])) = None).
  { apply root_none; [ eapply Forall_impl; [ | exact SG ]; intros s (_ & X & _); exact X | ].
    apply Forall_app. split; [ eapply Forall_impl; [ | exact SL ]; intros s; apply tail_starless | ].
    constructor; [ apply tail_odd; assumption | constructor ]. }
  rewrite GR, (clean_spells _ (segs ++ [name])) by (apply spells_slashed; [ destruct segs; discriminate | exact SG ]).
  replace (is_dir d (segs ++ [name])) with false by (symmetry; apply not_true_iff_false; intros E; apply ND, existsb_segs, E).
  replace (is_file d (segs ++ [name])) with false; [ reflexivity | ].
  symmetry. apply not_true_iff_false. intros E. apply existsb_exists in E as ([dir n] & If & E). apply segs_eq_iff in E. cbn [fst snd] in E.
  apply app_inj_tail in E as [-> ->]. contradiction.
Qed.
Print Assumptions C48_dash_refuted.

(** The files of /models that begin with user_, and none with a dash. *)
Example C48_prefix_case :
  let d := {| dirs := [[B "models"]]; files := [([B "models"], B "user_a.go"); ([B "models"], B "user.go"); ([B "models"], B "user-a.go")] |} in
  sound d /\ Forall known [B "models"] /\ Forall wordly (B "user_") /\
  selected d [] (B "/models/user_*.go") = Ok [([B "models"], B "user_a.go")] /\
  selected d [] (B "/models/user-*.go") = Ok [] /\ pattern [B "models"] (B "user_") = B "/models/user_*.go".
Proof.
  assert (SM : segment (B "models")) by (repeat split; try discriminate; cbn; intuition discriminate).
  split; [ | split; [ | split ] ].
  - split.
    + intros segs [<-|[]]. constructor; [ exact SM | constructor ].
    + intros dir name [E|[E|[E|[]]]]; injection E as <- <-; (split; [ left; reflexivity | split; [ repeat split; try discriminate; cbn; intuition discriminate | intros [X|[]]; discriminate ] ]).
  - constructor; [ | constructor ]. exists "m"%char, (B "odels"). repeat split; [ discriminate | ]. repeat constructor; left; reflexivity.
  - repeat constructor; first [ left; reflexivity | right; reflexivity ].
  - vm_compute. repeat split; reflexivity.
Qed.
