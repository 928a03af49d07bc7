(** C78: a mapping of the configuration that is no template. *)
From Coq Require Import List Bool Ascii NArith.
From Verif Require Import Base ModelStrconv ModelTypes ModelConfig ModelExpr ModelResolve ModelColumn LemmasBase.
Import ModelColumn.
Import ListNotations.

Lemma action_open b : ~ In "}"%char b -> action b = None.
Proof.
  induction b as [|c b IH]; intros N; [reflexivity|]. cbn [action]. destruct b as [|d q]; [reflexivity|]. destruct (beq c "}") eqn:E; [apply Ascii.eqb_eq in E as ->; exfalso; apply N; left; reflexivity|]. cbn [andb].
  rewrite IH by (intros I; apply N; right; exact I). reflexivity.
Qed.
Lemma template_open b : ~ In "}"%char b -> forall fuel a cur, ~ In "{"%char a -> template fuel cur (a ++ B "{{" ++ b) = None.
Proof.
  intros N. induction fuel as [|f IH]; intros a cur NA; [reflexivity|]. destruct a as [|c a].
  - change ([] ++ B "{{" ++ b) with ("{"%char :: "{"%char :: b). cbn [template]. replace (has_prefix ("{"%char :: "{"%char :: b) (B "{{")) with true by (destruct b; reflexivity). cbn [skipn]. rewrite (action_open b N). reflexivity.
  - cbn [app template]. replace (has_prefix (c :: a ++ B "{{" ++ b) (B "{{")) with false; [apply IH; intros I; apply NA; right; exact I|].
    symmetry. apply not_true_iff_false. intros E. apply has_prefix_spec in E as [r E]. injection E as -> _. apply NA. left. reflexivity.
Qed.
(** An action that is opened and not closed, in the mapping for the type of a column: the generator panics instead of reporting it. *)
Theorem C78_broken_refuted d e custom fuel path t a b other self load l : is_basic_type t = false -> ~ In "{"%char a -> ~ In "}"%char b ->
  (exists c, valuer d e ((type_string t, (a ++ B "{{" ++ b, other)) :: custom) fuel path t = Some c /\ render self load l c = Panic) /\
  (exists c, scanner d e ((type_string t, (other, a ++ B "{{" ++ b)) :: custom) fuel path t = Some c /\ render self load l c = Panic).
Proof.
  intros P NA NB. assert (NE : bseq (a ++ B "{{" ++ b) [] = false) by (apply not_true_iff_false; intros X; apply bseq_eq in X; destruct a; discriminate).
  unfold valuer, scanner. rewrite P. cbn [entry]. rewrite !bseq_refl, NE. unfold filled, parse_template. rewrite (template_open b NB _ a [] NA). split; eexists; split; reflexivity.
Qed.
Print Assumptions C78_broken_refuted.
Example C78_broken_case : is_basic_type (TSlice (TBasic (B "string"))) = false /\ ~ In "{"%char (B "pq.Array(") /\ ~ In "}"%char (B "goPath)").
Proof. split; [reflexivity|]. split; cbn; intuition discriminate. Qed.
