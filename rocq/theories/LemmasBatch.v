(** Upserts and batches on a table that holds a map. *)
From Coq Require Import List Bool ZArith Lia.
From Verif Require Import Base ModelCompiler ModelGen ModelRuntime ModelRows ModelHistory ModelBatch SpecSql SpecGen SpecRuntime SpecDb SpecStore SpecRows SpecConflict SpecHistory SpecBatch
  LemmasBase LemmasCompiler LemmasRuntime7 LemmasStore LemmasConflict PropRuntime PropConflict PropHistory.
Import ListNotations.

Section Map.
Context {V : Type}.
Variables (D : semantics V) (t : table) (leaves : upsert_opts -> column -> bool) (o : upsert_opts).
Hypothesis W : wf t.
Hypothesis EQ : equality D.
Hypothesis PATHS : NoDup (map c_gopath (t_columns t)).
Notation key := (map c_name (key_of t)).
Notation same := (same_on D key).
Notation has := (has_key_of D t).
Notation stands := (stands D t).

Lemma stands_same rows m m' : (forall x, m x = m' x) -> stands rows m -> stands rows m'.
Proof. intros E [UN H]. split; [exact UN|]. intros x. specialize (H x). rewrite E in H. exact H. Qed.
Lemma has_dec r y : has r y \/ ~ has r y.
Proof.
  unfold has_key_of, has_key. clear. induction (key_of t) as [|k l IH]; [left; intros k []|]. destruct (cmp D (r (c_name k)) (y (c_gopath k))) as [[]|] eqn:E; [|right; intros X; specialize (X k (or_introl eq_refl)); congruence..].
  destruct IH as [IH|IH]; [left; intros k' [<-|I]; [exact E|apply IH, I]|right; intros X; apply IH; intros k' I; apply X; right; exact I].
Qed.
Lemma path_inj c c' : In c (t_columns t) -> In c' (t_columns t) -> c_gopath c = c_gopath c' -> c = c'.
Proof.
  clear W EQ. intros I I' E. induction (t_columns t) as [|a l IH]; [destruct I|]. cbn [map] in PATHS. inversion PATHS as [|a' l' NI ND]; subst.
  destruct I as [->|I], I' as [->|I']; [reflexivity| | |apply IH; assumption]; exfalso; apply NI; [rewrite E|rewrite <- E]; apply in_map; assumption.
Qed.
Lemma key_eq_has r y x : key_eq D t y x = true -> has r x -> has r y.
Proof. intros E K. rewrite (key_eq_sym D t EQ) in E. exact (has_trans D t EQ r x y K E). Qed.

(** Existing rows with the key are changed *)
Lemma merge_step rows m y (f : row V -> row V) : stands rows m -> (exists r, In r rows /\ has r y) -> (forall r, ~ has r y -> f r = r) ->
  (forall r, has r y -> (forall c, In c (t_columns t) -> In c (key_of t) \/ leaves o c = true -> f r (c_name c) = r (c_name c)) /\
    (forall c, In c (t_columns t) -> ~ In c (key_of t) -> leaves o c = false -> f r (c_name c) = y (c_gopath c))) ->
  stands (map f rows) (fun x => put_in D t leaves o x (m x) y).
Proof.
  intros ST EX F1 F2. destruct ST as [U H].
  assert (KF : forall r k, In k (key_of t) -> f r (c_name k) = r (c_name k)). { intros r k I. destruct (has_dec r y) as [K|K]; [apply (F2 r K); [apply (key_in t W k I)|left; exact I]|rewrite (F1 r K); reflexivity]. }
  assert (SF : forall r z, same (f r) z = same r z). { intros r z. unfold same_on. replace (map (f r) key) with (map r key); [reflexivity|]. rewrite !map_map. apply map_ext_in. intros k I. symmetry. apply KF, I. }
  assert (HF : forall r x, has (f r) x <-> has r x). { intros r x. unfold has_key_of, has_key. split; intros K k I; specialize (K k I); rewrite KF in * by exact I; exact K. }
  assert (UN : unique_on D key (map f rows) = true) by (rewrite (unique_map D EQ); [exact U|exact SF]). split; [exact UN|].
  intros x. specialize (H x). unfold put_in. destruct (m x) as [z|].
  - destruct H as (r & I & K & WH). destruct (key_eq D t y x) eqn:E.
    + exists (f r). split; [apply in_map, I|]. split; [apply HF, K|]. pose proof (key_eq_has r y x E K) as KY. intros c IC. unfold put_over. destruct (bmem (c_gopath c) _) eqn:M.
      * apply bmem_In in M. apply in_map_iff in M as (k & EP & IK). rewrite (proj1 (F2 r KY) c IC); [apply WH, IC|]. apply in_app_iff in IK as [IK|IK].
        -- left. rewrite <- (path_inj k c (key_in t W k IK) IC EP). exact IK.
        -- right. apply filter_In in IK as [IK L]. rewrite <- (path_inj k c IK IC EP). exact L.
      * apply bmem_not_In in M. apply (proj2 (F2 r KY)); [exact IC| |].
        -- intros IK. apply M, in_map, in_app_iff. left. exact IK.
        -- destruct (leaves o c) eqn:L; [|reflexivity]. exfalso. apply M, in_map, in_app_iff. right. apply filter_In. auto.
    + exists r. split; [|split; assumption]. rewrite <- (F1 r); [apply in_map, I|]. intros KY. assert (X : key_eq D t y x = true); [|congruence]. apply key_eq_iff. intros k IK. eapply (eq_trans D EQ); [apply (eq_sym D EQ), KY, IK|apply K, IK].
  - assert (N : forall r, In r (map f rows) -> ~ has r x) by (intros r I; apply in_map_iff in I as (r0 & <- & I); rewrite HF; apply H, I).
    destruct (key_eq D t y x) eqn:E; [|exact N]. exfalso. destruct EX as (r & I & K). apply (H r I). exact (has_trans D t EQ r y x K E).
Qed.

Section Puts.
Variables (defaults : row V) (sets tgt : list bytes).
Hypothesis SUB : sublist sets (map c_name (t_columns t)).
Hypothesis SETS : forall c, In c (t_columns t) -> (In (c_name c) sets <-> ~ is_key t c /\ leaves o c = false).
Notation row_for := (row_for D t defaults).
Notation conflict := (DoUpdate tgt (map (fun c => (c, c)) sets)).
Lemma key_of_is k : In k (key_of t) -> is_key t k.
Proof. unfold key_of, is_key. destruct (t_auto t) as [a|]; [intros [<-|[]]; right; reflexivity|intros I; left; exact I]. Qed.
Hypothesis KEYS : forall k, In k (t_columns t) -> is_key t k -> In k (key_of t).

Lemma put_step rows m y : stands rows m -> stands (put D key conflict rows (row_for y)) (fun x => put_in D t leaves o x (m x) y).
Proof.
  intros ST. unfold put. destruct (existsb (fun r => same r (row_for y)) rows) eqn:E.
  - apply merge_step; [exact ST| | |].
    + apply existsb_exists in E as (r & I & K). exists r. split; [exact I|]. apply (key_iff D t defaults W), K.
    + intros r N. apply (key_false D t defaults W) in N. rewrite N. reflexivity.
    + intros r K. apply (key_iff D t defaults W) in K. rewrite K. cbn [overlay]. split.
      * intros c I J. apply updated_other. rewrite map_map. cbn [fst]. rewrite map_id. intros X. apply (SETS c I) in X as (NK & L). destruct J as [J|J]; [apply NK, key_of_is, J|congruence].
      * intros c I NK L. rewrite updated_same; [apply (row_for_whole D t defaults W), I|]. apply (SETS c I). split; [|exact L]. intros K'. apply NK, KEYS; assumption.
  - pose proof ST as [UN H]. pose proof (row_for_whole D t defaults W y) as WH. eapply stands_same; [|exact (add_step D t W rows m y (row_for y) ST WH (unique_app D key rows _ UN E))].
    intros x. cbv beta. unfold put_in. destruct (key_eq D t y x) eqn:K; [|reflexivity]. specialize (H x). destruct (m x) as [z|]; [|reflexivity]. exfalso. destruct H as (r & I & KR & _).
    assert (X : existsb (fun r => same r (row_for y)) rows = true); [|congruence]. apply existsb_exists. exists r. split; [exact I|]. apply (key_iff D t defaults W). exact (key_eq_has r y x K KR).
Qed.
Lemma puts_step ys : forall rows m, stands rows m -> stands (puts D key conflict rows (map row_for ys)) (fun x => fold_left (put_in D t leaves o x) ys (m x)).
Proof.
  induction ys as [|y ys IH]; intros rows m ST; [exact ST|]. cbn [map puts fold_left]. exact (IH _ _ (put_step rows m y ST)).
Qed.
End Puts.

(** Many rows are added *)
Lemma adds_step defaults ys : forall rows m, stands rows m -> unique_on D key (rows ++ map (row_for D t defaults) ys) = true ->
  stands (rows ++ map (row_for D t defaults) ys) (fun x => fold_left (added D t x) ys (m x)) /\ all_new D t m ys.
Proof.
  induction ys as [|y ys IH]; intros rows m ST UN.
  - cbn [map] in *. rewrite app_nil_r. split; [exact ST|]. split; [constructor|intros y []].
  - cbn [map] in *. change (row_for D t defaults y :: map (row_for D t defaults) ys) with ([row_for D t defaults y] ++ map (row_for D t defaults) ys) in *. rewrite app_assoc in *.
    assert (U1 : unique_on D key (rows ++ [row_for D t defaults y]) = true).
    { apply unique_iff. apply unique_iff in UN. remember (rows ++ [row_for D t defaults y]) as l eqn:E. clear -UN. induction l as [|a l IH]; [constructor|]. cbn [app] in UN. inversion UN as [|a' l' F G]; subst. constructor; [|apply IH, G]. rewrite Forall_forall in *. intros x I. apply F, in_app_iff. left. exact I. }
    pose proof (row_for_whole D t defaults W y) as WH. pose proof (add_step D t W rows m y _ ST WH U1) as ST1. destruct (IH _ _ ST1 UN) as [ST2 [DK NEW]]. split; [exact ST2|].
    pose proof (add_free D t W rows m y _ ST WH) as FREE. rewrite U1 in FREE. split.
    + constructor; [|exact DK]. apply Forall_forall. intros z I. specialize (NEW z I). cbv beta in NEW. destruct (key_eq D t y z); [discriminate NEW|reflexivity].
    + intros z [<-|I]; [destruct (m y); [discriminate FREE|reflexivity]|]. specialize (NEW z I). cbv beta in NEW. destruct (key_eq D t y z); [discriminate NEW|exact NEW].
Qed.
Lemma adds_free defaults ys : forall rows m, stands rows m -> all_new D t m ys -> unique_on D key (rows ++ map (row_for D t defaults) ys) = true.
Proof.
  induction ys as [|y ys IH]; intros rows m ST [DK NEW].
  - cbn [map]. rewrite app_nil_r. apply ST.
  - cbn [map]. change (row_for D t defaults y :: map (row_for D t defaults) ys) with ([row_for D t defaults y] ++ map (row_for D t defaults) ys). rewrite app_assoc.
    pose proof (row_for_whole D t defaults W y) as WH. pose proof (add_free D t W rows m y _ ST WH) as FREE. rewrite (NEW y (or_introl eq_refl)) in FREE.
    pose proof (add_step D t W rows m y _ ST WH FREE) as ST1. apply (IH _ _ ST1). inversion DK as [|a l F DK']; subst. split; [exact DK'|]. rewrite Forall_forall in F. intros z I. cbv beta. rewrite (F z I). apply NEW. right. exact I.
Qed.
End Map.
