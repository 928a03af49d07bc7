(** Inserting rows one after the other, for C86. *)
From Coq Require Import List Bool.
From Verif Require Import Base SpecSql SpecDb SpecConflict LemmasBase LemmasStore.
Import ListNotations.

Section Conflict.
Context {V : Type}.
Variable D : semantics V.
Hypothesis EQ : equality D.
Variable key : list bytes.
Notation same := (same_on D key).
Definition alive (p : row V) : Prop := same p p = true.

Lemma same_iff a b : same a b = true <-> forall k, In k key -> cmp D (a k) (b k) = Some Eq.
Proof.
  unfold same_on. transitivity (equal_rows D (map a key) (map b key) = Some true); [destruct (equal_rows D _ _) as [[]|]; split; congruence|]. rewrite equal_true.
  induction key as [|k ks IH]; cbn [map]; [split; [intros _ k []|constructor]|]. split.
  - intros H. inversion H; subst. intros k' [<-|I]; [assumption|apply IH; assumption].
  - intros H. constructor; [apply H; left; reflexivity|]. apply IH. intros k' I. apply H. right. exact I.
Qed.
Lemma same_sym a b : same a b = same b a.
Proof. apply eq_true_iff_eq. rewrite !same_iff. split; intros H k I; apply (eq_sym D EQ), H, I. Qed.
Lemma same_trans a b c : same a b = true -> same b c = true -> same a c = true.
Proof. rewrite !same_iff. intros H G k I. eapply (eq_trans D EQ); [apply H, I|apply G, I]. Qed.
Lemma same_left a b c : same a b = true -> same a c = same b c.
Proof. intros H. apply eq_true_iff_eq. split; intros G; [eapply same_trans; [rewrite same_sym; exact H|exact G]|eapply same_trans; [exact H|exact G]]. Qed.
Lemma same_right a b c : same a b = true -> same c a = same c b.
Proof. intros H. rewrite (same_sym c a), (same_sym c b). apply same_left, H. Qed.
Lemma same_alive a b : same a b = true -> alive b.
Proof. intros H. unfold alive. rewrite <- (same_right a b b H). rewrite same_sym. exact H. Qed.

(** The new row for an old one *)
Definition overlay (c : on_conflict) (p old : row V) : row V := match c with DoUpdate _ sets => updated sets p old | _ => old end.
(** No assignment to the key *)
Definition keeps (c : on_conflict) : Prop := match c with DoUpdate _ sets => forall k, In k key -> ~ In k (map fst sets) | _ => True end.
Lemma assigned_other sets (r : row V) n : ~ In n (map fst sets) -> assigned sets r n = r n.
Proof.
  induction sets as [|[c v] sets IH]; intros H; [reflexivity|]. cbn [assigned]. destruct (bseq n c) eqn:E; [apply bseq_eq in E as ->; exfalso; apply H; left; reflexivity|]. apply IH. intros I. apply H. right. exact I.
Qed.
Lemma updated_other sets p (old : row V) n : ~ In n (map fst sets) -> updated sets p old n = old n.
Proof. intros H. apply assigned_other. rewrite map_map. cbn [fst]. rewrite <- map_map with (f := fun x => x) (g := fst). rewrite map_id. exact H. Qed.
Lemma updated_same l p (old : row V) n : In n l -> updated (map (fun c => (c, c)) l) p old n = p n.
Proof.
  unfold updated. rewrite map_map. cbn [fst snd]. induction l as [|c l IH]; [intros []|]. intros I. cbn [map assigned]. destruct (bseq n c) eqn:E; [apply bseq_eq in E as ->; reflexivity|]. apply IH. destruct I as [->|I]; [rewrite bseq_refl in E; discriminate|exact I].
Qed.
Lemma overlay_same c p old z : keeps c -> same (overlay c p old) z = same old z.
Proof.
  intros K. destruct c as [| |tgt sets]; try reflexivity. unfold same_on. replace (map (overlay (DoUpdate tgt sets) p old) key) with (map old key); [reflexivity|]. apply map_ext_in. intros k I. symmetry. apply updated_other, K, I.
Qed.

(** One row more *)
Definition put (c : on_conflict) (rows : list (row V)) (p : row V) : list (row V) :=
  if existsb (fun r => same r p) rows then map (fun r => if same r p then overlay c p r else r) rows else rows ++ [p].
Lemma unique_iff rows : unique_on D key rows = true <-> ForallOrdPairs (fun a b => same a b = false) rows.
Proof.
  induction rows as [|r rows IH]; cbn [unique_on]; [split; [constructor|reflexivity]|]. rewrite andb_true_iff, negb_true_iff, IH. split.
  - intros (A & C). constructor; [|exact C]. apply Forall_forall. intros x I. destruct (same r x) eqn:E; [|reflexivity]. exfalso. assert (X : existsb (fun x => same r x) rows = true) by (apply existsb_exists; eauto). congruence.
  - intros H. inversion H as [|x y F G]; subst. split; [|exact G]. destruct (existsb (fun x => same r x) rows) eqn:E; [|reflexivity]. apply existsb_exists in E as (x & I & S). rewrite Forall_forall in F. rewrite (F x I) in S. discriminate.
Qed.
Lemma unique_map f rows : (forall r z, same (f r) z = same r z) -> unique_on D key (map f rows) = unique_on D key rows.
Proof.
  intros H. induction rows as [|r rows IH]; [reflexivity|]. cbn [map unique_on]. rewrite IH. f_equal. f_equal. clear IH. induction rows as [|x rows IH]; [reflexivity|]. cbn [map existsb]. rewrite IH. f_equal. rewrite H, same_sym, H. apply same_sym.
Qed.
Lemma unique_app rows p : unique_on D key rows = true -> existsb (fun r => same r p) rows = false -> unique_on D key (rows ++ [p]) = true.
Proof.
  induction rows as [|r rows IH]; [reflexivity|]. cbn [app unique_on existsb]. intros U N. apply orb_false_iff in N as [N1 N2]. apply andb_true_iff in U as [U1 U2]. rewrite IH by assumption. rewrite andb_true_r, existsb_app. cbn [existsb]. rewrite N1, !orb_false_r. exact U1.
Qed.
Lemma put_unique c rows p : keeps c -> unique_on D key rows = true -> unique_on D key (put c rows p) = true.
Proof.
  intros K U. unfold put. destruct (existsb (fun r => same r p) rows) eqn:E; [|apply unique_app; assumption]. rewrite unique_map; [exact U|]. intros r z. destruct (same r p); [apply overlay_same, K|reflexivity].
Qed.
Definition look (z : row V) (rows : list (row V)) : option (row V) := find (fun r => same r z) rows.
Definition seen (c : on_conflict) (z : row V) (o : option (row V)) (p : row V) : option (row V) :=
  if same p z then Some (match o with Some old => overlay c p old | None => p end) else o.
Lemma look_map f z rows : (forall r, same (f r) z = same r z) -> look z (map f rows) = option_map f (look z rows).
Proof. intros H. induction rows as [|r rows IH]; [reflexivity|]. cbn [map look find]. rewrite H. destruct (same r z); [reflexivity|exact IH]. Qed.
Lemma look_app z a b : look z (a ++ b) = match look z a with Some x => Some x | None => look z b end.
Proof. induction a as [|r a IH]; [reflexivity|]. cbn [app look find]. destruct (same r z); [reflexivity|exact IH]. Qed.
Lemma look_none z rows : look z rows = None <-> existsb (fun r => same r z) rows = false.
Proof. induction rows as [|r rows IH]; [split; reflexivity|]. cbn [look find existsb]. destruct (same r z); [split; discriminate|exact IH]. Qed.
Lemma look_some z rows x : look z rows = Some x -> In x rows /\ same x z = true.
Proof. intros H. split; [exact (proj1 (find_some _ _ H))|exact (proj2 (find_some _ _ H))]. Qed.
Lemma look_only rows z x : unique_on D key rows = true -> In x rows -> same x z = true -> look z rows = Some x.
Proof.
  intros U I S. apply unique_iff in U. induction U as [|r rows F U IH]; [contradiction|]. cbn [look find]. destruct I as [->|I]; [rewrite S; reflexivity|]. rewrite Forall_forall in F. specialize (F x I).
  destruct (same r z) eqn:E; [|apply IH, I]. rewrite same_sym in S. rewrite (same_trans _ _ _ E S) in F. discriminate.
Qed.
Lemma put_look c rows p z : keeps c -> look z (put c rows p) = seen c z (look z rows) p.
Proof.
  intros K. unfold put, seen. destruct (existsb (fun r => same r p) rows) eqn:E.
  - rewrite look_map by (intros r; destruct (same r p); [apply overlay_same, K|reflexivity]). destruct (same p z) eqn:Z.
    + assert (X : look z rows = look p rows) by (unfold look; clear -EQ Z; induction rows as [|r rows IH]; [reflexivity|]; cbn [find]; rewrite IH, (same_right _ _ r Z); reflexivity). rewrite X.
      destruct (look p rows) as [x|] eqn:L; [|apply look_none in L; congruence]. cbn [option_map]. apply look_some in L as [_ L]. rewrite L. reflexivity.
    + destruct (look z rows) as [x|] eqn:L; [|reflexivity]. cbn [option_map]. apply look_some in L as [_ L]. destruct (same x p) eqn:X; [|reflexivity]. rewrite same_sym in X. rewrite (same_trans _ _ _ X L) in Z. discriminate.
  - rewrite look_app. cbn [look find]. destruct (same p z) eqn:Z; [|destruct (look z rows); reflexivity]. 
    assert (X : look z rows = None). { apply look_none. destruct (existsb (fun r => same r z) rows) eqn:X; [|reflexivity]. apply existsb_exists in X as (r & I & S). assert (Y : existsb (fun r => same r p) rows = true) by (apply existsb_exists; exists r; split; [exact I|]; rewrite same_sym in Z; exact (same_trans _ _ _ S Z)). congruence. }
    rewrite X. reflexivity.
Qed.
Lemma put_others c rows p (f : row V -> bool) : keeps c -> (forall r, same r p = true -> f r = false) -> alive p -> filter f (put c rows p) = filter f rows.
Proof.
  intros K F A. unfold put. destruct (existsb (fun r => same r p) rows).
  - induction rows as [|r rows IH]; [reflexivity|]. cbn [map filter]. rewrite IH. destruct (same r p) eqn:E; [|reflexivity]. rewrite (F r E), (F (overlay c p r)); [reflexivity|]. rewrite overlay_same by exact K. exact E.
  - rewrite filter_app. cbn [filter]. rewrite (F p A), app_nil_r. reflexivity.
Qed.
(** Many *)
Definition puts (c : on_conflict) (rows : list (row V)) (ps : list (row V)) : list (row V) := fold_left (put c) ps rows.
Lemma puts_unique c ps : keeps c -> forall rows, unique_on D key rows = true -> unique_on D key (puts c rows ps) = true.
Proof. intros K. induction ps as [|p ps IH]; intros rows U; [exact U|]. cbn [puts fold_left]. apply IH, put_unique; assumption. Qed.
Lemma puts_look c ps z : keeps c -> forall rows, look z (puts c rows ps) = fold_left (seen c z) ps (look z rows).
Proof. intros K. induction ps as [|p ps IH]; intros rows; [reflexivity|]. cbn [puts fold_left]. fold (puts c (put c rows p) ps). rewrite IH, put_look by exact K. reflexivity. Qed.
Lemma puts_others c ps : keeps c -> Forall alive ps -> forall rows, filter (fun r => negb (existsb (fun p => same r p) ps)) (puts c rows ps) = filter (fun r => negb (existsb (fun p => same r p) ps)) rows.
Proof.
  intros K A rows. assert (X : forall (f : row V -> bool) qs, Forall (fun p => alive p /\ forall r, same r p = true -> f r = false) qs -> forall rows, filter f (puts c rows qs) = filter f rows).
  { intros f qs. induction 1 as [|p qs (AP & F) G IH]; intros rows'; [reflexivity|]. cbn [puts fold_left]. fold (puts c (put c rows' p) qs). rewrite IH. apply put_others; assumption. }
  apply X. apply Forall_forall. intros p I. rewrite Forall_forall in A. split; [apply A, I|]. intros r S. apply negb_false_iff, existsb_exists. eauto.
Qed.
Lemma seen_others c z ps o : (forall p, In p ps -> same p z = false) -> fold_left (seen c z) ps o = o.
Proof. revert o. induction ps as [|p ps IH]; intros o H; [reflexivity|]. cbn [fold_left]. unfold seen at 2. rewrite (H p (or_introl eq_refl)). apply IH. intros q I. apply H. right. exact I. Qed.
(** A row that alone has its key *)
Lemma puts_alone c l1 p l2 rows : keeps c -> alive p -> (forall q, In q (l1 ++ l2) -> same q p = false) ->
  look p (puts c rows (l1 ++ p :: l2)) = Some (match look p rows with Some old => overlay c p old | None => p end).
Proof.
  intros K A N. rewrite puts_look by exact K. rewrite fold_left_app. cbn [fold_left]. rewrite !seen_others by (intros q I; apply N, in_app_iff; auto). unfold seen. rewrite A. reflexivity.
Qed.
(** The last row with its key *)
Lemma puts_last c l1 p l2 rows : keeps c -> alive p -> (forall q, In q l2 -> same q p = false) ->
  exists o, look p (puts c rows (l1 ++ p :: l2)) = Some (match o with Some old => overlay c p old | None => p end) /\ look p (puts c rows l1) = o.
Proof.
  intros K A N. exists (look p (puts c rows l1)). split; [|reflexivity]. rewrite !puts_look by exact K. rewrite fold_left_app. cbn [fold_left]. rewrite seen_others by exact N. unfold seen at 1. rewrite A. reflexivity.
Qed.
(** The first, when existing rows stay *)
Lemma puts_first c l1 p l2 rows : (forall tgt sets, c <> DoUpdate tgt sets) -> keeps c -> alive p -> (forall q, In q l1 -> same q p = false) ->
  look p (puts c rows (l1 ++ p :: l2)) = Some (match look p rows with Some old => old | None => p end).
Proof.
  intros ND K A N. rewrite puts_look by exact K. rewrite fold_left_app. cbn [fold_left]. rewrite (seen_others c p l1) by exact N. unfold seen at 2. rewrite A.
  assert (X : forall q o, overlay c q o = o) by (intros q o; destruct c; [reflexivity|reflexivity|exfalso; exact (ND _ _ eq_refl)]).
  assert (Y : forall x, fold_left (seen c p) l2 (Some x) = Some x) by (clear -X; induction l2 as [|q l2 IH]; intros x; [reflexivity|]; cbn [fold_left]; unfold seen at 2; destruct (same q p); [rewrite X|]; apply IH).
  rewrite Y. destruct (look p rows); [rewrite X|]; reflexivity.
Qed.

(** ** MySQL, one index *)
Lemma my_row_put c rows p : c <> Fail -> keeps c -> unique_on D key rows = true -> my_row D [key] c rows p = Some (put c rows p).
Proof.
  intros NF K U. unfold my_row, put. cbn [find]. destruct (existsb (fun r => same r p) rows) eqn:E; [|reflexivity]. destruct c as [|tgt|tgt sets]; [contradiction| |].
  - f_equal. rewrite <- (map_id rows) at 1. apply map_ext. intros r. cbn [overlay]. destruct (same r p); reflexivity.
  - cbn zeta. unfold uniques. cbn [forallb]. rewrite andb_true_r. change (map (fun r => if same r p then updated sets p r else r) rows) with (map (fun r => if same r p then overlay (DoUpdate tgt sets) p r else r) rows).
    rewrite unique_map; [rewrite U; reflexivity|]. intros r z. destruct (same r p); [apply overlay_same, K|reflexivity].
Qed.
Lemma my_rows_puts c ps : c <> Fail -> keeps c -> forall rows, unique_on D key rows = true -> my_rows D [key] c rows ps = Some (puts c rows ps).
Proof. intros NF K. induction ps as [|p ps IH]; intros rows U; [reflexivity|]. cbn [my_rows]. rewrite my_row_put by assumption. rewrite IH by (apply put_unique; assumption). reflexivity. Qed.

(** ** PostgreSQL *)
Definition at_key (c : on_conflict) : Prop := match c with Fail => False | DoNothing tgt | DoUpdate tgt _ => tgt = key end.
Lemma find_snd p (st : list (bool * row V)) : find (fun r => same r p) (map snd st) = option_map snd (find (fun x => same (snd x) p) st).
Proof. induction st as [|x st IH]; [reflexivity|]. cbn [map find]. destruct (same (snd x) p); [reflexivity|exact IH]. Qed.
Lemma existsb_snd p (st : list (bool * row V)) : existsb (fun r => same r p) (map snd st) = existsb (fun x => same (snd x) p) st.
Proof. induction st as [|x st IH]; [reflexivity|]. cbn [map existsb]. rewrite IH. reflexivity. Qed.
Lemma find_existsb {A} f (l : list A) : existsb f l = match find f l with Some _ => true | None => false end.
Proof. induction l as [|x l IH]; [reflexivity|]. cbn [existsb find]. destruct (f x); [reflexivity|exact IH]. Qed.
Lemma pg_row_put idxs c st p st' out : at_key c -> pg_row D idxs c st p = Some (st', out) ->
  map snd st' = put c (map snd st) p /\ uniques D idxs (map snd st') = true \/ st' = st /\ map snd st' = put c (map snd st) p.
Proof.
  intros T E. unfold put. rewrite existsb_snd. destruct c as [|tgt|tgt sets]; cbn [at_key] in T; [contradiction| |]; subst tgt; cbn [pg_row] in E; unfold checked in E.
  - destruct (existsb (fun x => same (snd x) p) st) eqn:X.
    + injection E as <- <-. right. split; [reflexivity|]. rewrite <- (map_id (map snd st)) at 1. apply map_ext. intros r. cbn [overlay]. destruct (same r p); reflexivity.
    + destruct (uniques D idxs (map snd (st ++ [(true, p)]))) eqn:U; [|discriminate]. injection E as <- <-. left. split; [rewrite map_app; reflexivity|exact U].
  - rewrite find_existsb. destruct (find (fun x => same (snd x) p) st) as [[[] old]|] eqn:X; [discriminate| |].
    + destruct (uniques D idxs (map snd (map _ st))) eqn:U; [|discriminate]. injection E as <- <-. left. split; [|exact U]. rewrite !map_map. apply map_ext. intros x. destruct (same (snd x) p); reflexivity.
    + destruct (uniques D idxs (map snd (st ++ [(true, p)]))) eqn:U; [|discriminate]. injection E as <- <-. left. split; [rewrite map_app; reflexivity|exact U].
Qed.
Lemma pg_rows_puts idxs c ps : at_key c -> forall st st' out, pg_rows D idxs c st ps = Some (st', out) -> map snd st' = puts c (map snd st) ps.
Proof.
  intros T. induction ps as [|p ps IH]; intros st st' out E; cbn [pg_rows] in E; [injection E as <- <-; reflexivity|].
  destruct (pg_row D idxs c st p) as [[st1 out1]|] eqn:P; [|discriminate]. destruct (pg_rows D idxs c st1 ps) as [[st2 out2]|] eqn:R; [|discriminate]. injection E as <- <-. rewrite (IH _ _ _ R). cbn [puts fold_left]. destruct (pg_row_put _ _ _ _ _ _ T P) as [(-> & _)|(_ & ->)]; reflexivity.
Qed.

(** Marked rows *)
Lemma state_eq (st : list (bool * row V)) x x' : unique_on D key (map snd st) = true -> In x st -> In x' st -> same (snd x) (snd x') = true -> x = x'.
Proof.
  intros U. apply unique_iff in U. induction st as [|y st IH]; [intros []|]. cbn [map] in U. inversion U as [|a b F G]; subst. rewrite Forall_forall in F. intros [->|I] [->|I'] H; [reflexivity| | |apply IH; assumption].
  - rewrite (F (snd x') (in_map snd _ _ I')) in H. discriminate.
  - rewrite same_sym in H. rewrite (F (snd x) (in_map snd _ _ I)) in H. discriminate.
Qed.
Lemma pg_state_unique idxs c st p st' out : at_key c -> keeps c -> unique_on D key (map snd st) = true -> pg_row D idxs c st p = Some (st', out) -> unique_on D key (map snd st') = true.
Proof. intros T K U E. destruct (pg_row_put _ _ _ _ _ _ T E) as [(-> & _)|(_ & ->)]; apply put_unique; assumption. Qed.
Lemma marks idxs sets st p st' out : keeps (DoUpdate key sets) -> alive p -> pg_row D idxs (DoUpdate key sets) st p = Some (st', out) -> exists y, In (true, y) st' /\ same y p = true /\ out = [y] .
Proof.
  intros K A E. cbn [pg_row] in E. unfold checked in E. destruct (find (fun x => same (snd x) p) st) as [[[] old]|] eqn:X; [discriminate| |].
  - destruct (uniques _ _ _); [|discriminate]. injection E as <- <-. apply find_some in X as [I S]. cbn [snd] in S. exists (updated sets p old). split; [|split; [|reflexivity]].
    + apply in_map_iff. exists (false, old). cbn [snd]. rewrite S. auto.
    + change (updated sets p old) with (overlay (DoUpdate key sets) p old). rewrite overlay_same by exact K. exact S.
  - destruct (uniques _ _ _); [|discriminate]. injection E as <- <-. exists p. split; [apply in_app_iff; right; left; reflexivity|]. split; [exact A|reflexivity].
Qed.
Lemma marked_stays idxs sets st q st' out y : unique_on D key (map snd st) = true -> In (true, y) st -> pg_row D idxs (DoUpdate key sets) st q = Some (st', out) -> same y q = false /\ In (true, y) st'.
Proof.
  intros U I E. cbn [pg_row] in E. unfold checked in E. destruct (find (fun x => same (snd x) q) st) as [[[] old]|] eqn:X; [discriminate| |].
  - destruct (uniques _ _ _); [|discriminate]. injection E as <- <-. apply find_some in X as [J S]. cbn [snd] in S. destruct (same y q) eqn:Y.
    + exfalso. assert (Z : (false, old) = (true, y)) by (apply (state_eq st); [exact U|exact J|exact I|]; cbn [snd]; rewrite same_sym in Y; exact (same_trans _ _ _ S Y)). discriminate.
    + split; [reflexivity|]. apply in_map_iff. exists (true, y). cbn [snd]. rewrite Y. auto.
  - destruct (uniques _ _ _); [|discriminate]. injection E as <- <-. split; [exact (find_none _ _ X (true, y) I)|apply in_app_iff; left; exact I].
Qed.
Lemma marked_all idxs sets ps : keeps (DoUpdate key sets) -> forall st st' out y, unique_on D key (map snd st) = true -> In (true, y) st -> pg_rows D idxs (DoUpdate key sets) st ps = Some (st', out) ->
  (forall q, In q ps -> same y q = false) /\ In (true, y) st'.
Proof.
  intros K. induction ps as [|q ps IH]; intros st st' out y U I E; cbn [pg_rows] in E; [injection E as <- <-; split; [intros q []|exact I]|].
  destruct (pg_row D idxs (DoUpdate key sets) st q) as [[st1 out1]|] eqn:P; [|discriminate]. destruct (pg_rows D idxs (DoUpdate key sets) st1 ps) as [[st2 out2]|] eqn:R; [|discriminate]. injection E as <- <-.
  destruct (marked_stays _ _ _ _ _ _ _ U I P) as (N & J). destruct (IH _ _ _ _ (pg_state_unique _ (DoUpdate key sets) _ _ _ _ eq_refl K U P) J R) as (N' & J'). split; [|exact J']. intros q' [<-|Q]; [exact N|apply N', Q].
Qed.
Lemma pg_distinct idxs sets ps : keeps (DoUpdate key sets) -> Forall alive ps -> forall st st' out, unique_on D key (map snd st) = true -> pg_rows D idxs (DoUpdate key sets) st ps = Some (st', out) ->
  ForallOrdPairs (fun a b => same a b = false) ps /\ Forall2 (fun p y => same y p = true /\ In y (map snd st')) ps out.
Proof.
  intros K F. induction F as [|p ps A F IH]; intros st st' out U E; cbn [pg_rows] in E; [injection E as <- <-; split; constructor|].
  destruct (pg_row D idxs (DoUpdate key sets) st p) as [[st1 out1]|] eqn:P; [|discriminate]. destruct (pg_rows D idxs (DoUpdate key sets) st1 ps) as [[st2 out2]|] eqn:R; [|discriminate]. injection E as <- <-.
  destruct (marks _ _ _ _ _ _ K A P) as (y & I & S & ->). pose proof (pg_state_unique _ (DoUpdate key sets) _ _ _ _ eq_refl K U P) as U1. destruct (marked_all _ _ _ K _ _ _ _ U1 I R) as (N & J). destruct (IH _ _ _ U1 R) as (O & T). split.
  - constructor; [|exact O]. apply Forall_forall. intros q Q. rewrite <- (same_left y p q S). apply N, Q.
  - constructor; [|exact T]. split; [exact S|]. apply (in_map snd) in J. exact J.
Qed.
(** With one index, a statement whose rows have different keys succeeds *)
Lemma pg_succeeds c ps : at_key c -> keeps c -> (forall tgt sets, c = DoUpdate tgt sets -> ForallOrdPairs (fun a b => same a b = false) ps) ->
  forall st, unique_on D key (map snd st) = true -> (forall tgt sets, c = DoUpdate tgt sets -> forall x p, In x st -> fst x = true -> In p ps -> same (snd x) p = false) -> exists r, pg_rows D [key] c st ps = Some r.
Proof.
  intros T K. induction ps as [|p ps IH]; intros O st U M; cbn [pg_rows]; [eexists; reflexivity|].
  assert (P : exists r, pg_row D [key] c st p = Some r).
  { destruct c as [|tgt|tgt sets]; cbn [at_key] in T; [contradiction| |]; subst tgt; cbn [pg_row]; unfold checked, uniques; cbn [forallb].
    - destruct (existsb (fun x => same (snd x) p) st) eqn:E; [eexists; reflexivity|]. rewrite map_app. cbn [map snd]. rewrite unique_app; [eexists; reflexivity|exact U|]. rewrite existsb_snd. exact E.
    - destruct (find (fun x => same (snd x) p) st) as [[[] old]|] eqn:X.
      + apply find_some in X as [I S]. pose proof (M _ _ eq_refl _ p I eq_refl (or_introl eq_refl)) as N. congruence.
      + rewrite map_map. rewrite (map_ext _ (fun x => if same (snd x) p then overlay (DoUpdate key sets) p (snd x) else snd x)) by (intros x; destruct (same (snd x) p); reflexivity).
        rewrite <- (map_map snd (fun r => if same r p then overlay (DoUpdate key sets) p r else r)). rewrite unique_map; [rewrite U; eexists; reflexivity|]. intros r z. destruct (same r p); [apply overlay_same, K|reflexivity].
      + rewrite map_app. cbn [map snd]. rewrite unique_app; [eexists; reflexivity|exact U|]. rewrite existsb_snd, find_existsb, X. reflexivity. }
  destruct P as ([st1 out1] & P). rewrite P. destruct (IH (fun tgt sets E => ltac:(specialize (O tgt sets E); inversion O; assumption)) st1 (pg_state_unique _ _ _ _ _ _ T K U P)) as ([st2 out2] & R); [|rewrite R; eexists; reflexivity].
  intros tgt sets -> x q I X Q. cbn [at_key] in T. subst tgt. specialize (O _ _ eq_refl). inversion O as [|a b F G]; subst. rewrite Forall_forall in F. specialize (F q Q).
  cbn [pg_row] in P. unfold checked in P. destruct (find (fun x => same (snd x) p) st) as [[[] old]|] eqn:Y; [discriminate| |].
  - destruct (uniques _ _ _); [|discriminate]. injection P as <- _. apply in_map_iff in I as (z & <- & I). destruct (same (snd z) p) eqn:Z.
    + cbn [snd]. change (updated sets p (snd z)) with (overlay (DoUpdate key sets) p (snd z)). rewrite overlay_same by exact K. rewrite (same_left _ _ q Z). exact F.
    + apply (M _ _ eq_refl z q I X). right. exact Q.
  - destruct (uniques _ _ _); [|discriminate]. injection P as <- _. apply in_app_iff in I as [I|[<-|[]]]; [apply (M _ _ eq_refl x q I X); right; exact Q|exact F].
Qed.
End Conflict.
