(** C49: migrations. *)
From Coq Require Import List Bool.
From Verif Require Import Base LemmasBase ModelMigration SpecMigration.
Import ListNotations.

Lemma has_iff n l : existsb (bseq n) l = true <-> In n l.
Proof. rewrite existsb_exists. split; [intros (x & I & E); apply bseq_eq in E as ->; exact I|intros I; exists n; split; [exact I|apply bseq_refl]]. Qed.
Lemma has_false n l : existsb (bseq n) l = false <-> ~ In n l.
Proof. rewrite <- has_iff, not_true_iff_false. reflexivity. Qed.
Lemma bseq_false a b : a <> b -> bseq a b = false.
Proof. intros N. destruct (bseq a b) eqn:E; [|reflexivity]. apply bseq_eq in E. contradiction. Qed.
Lemma take_some n l c r : NoDup (names l) -> take_col n l = Some (c, r) -> In c l /\ t_name c = n /\ r = filter (fun x => negb (bseq (t_name x) n)) l.
Proof.
  revert c r. induction l as [|x l IH]; intros c r ND E; [discriminate|]. cbn [take_col filter] in *. inversion ND as [|? ? NI ND']; subst. destruct (bseq (t_name x) n) eqn:EX; cbn [negb].
  - injection E as <- <-. apply bseq_eq in EX. split; [left; reflexivity|]. split; [exact EX|]. subst n. clear -NI. induction l as [|y l IH]; [reflexivity|]. cbn [filter names map] in *. rewrite bseq_false; [cbn [negb]; rewrite <- IH; [reflexivity|intros X; apply NI; right; exact X]|intros X; apply NI; left; exact X].
  - destruct (take_col n l) as [[y r']|] eqn:ET; [|discriminate]. injection E as <- <-. destruct (IH y r' ND' eq_refl) as (I & N & ->). split; [right; exact I|]. split; [exact N|reflexivity].
Qed.
Lemma take_none n l : take_col n l = None <-> ~ In n (names l).
Proof.
  induction l as [|x l IH]; [cbn; split; auto|]. cbn [take_col names map]. destruct (bseq (t_name x) n) eqn:EX.
  - apply bseq_eq in EX. split; [discriminate|]. intros X. exfalso. apply X. left. exact EX.
  - apply bseq_neq in EX. destruct (take_col n l) as [[y r]|]; split; try discriminate.
    + intros X. exfalso. destruct IH as [_ IH]. assert (~ In n (names l)) by (intros I; apply X; right; exact I). specialize (IH H). discriminate.
    + intros _ [E|I]; [contradiction|]. apply IH in I; [exact I|reflexivity].
    + reflexivity.
Qed.
Lemma names_filter f l n : In n (names (filter f l)) -> In n (names l).
Proof. intros I. apply in_map_iff in I as (c & <- & I). apply filter_In in I as [I _]. apply in_map. exact I. Qed.
Lemma nodup_filter f l : NoDup (names l) -> NoDup (names (filter f l)).
Proof.
  induction l as [|x l IH]; intros ND; [constructor|]. inversion ND as [|? ? NI ND']; subst. cbn [filter]. destruct (f x); [|auto]. cbn [names map]. constructor; [|auto]. intros I. apply NI. eapply names_filter. exact I.
Qed.
(** What the comparison finds *)
Lemma compare_spec model : forall ex u n d, NoDup (names ex) -> NoDup (map m_name model) -> compare_cols model ex = (u, n, d) ->
  (forall o m, In (o, m) u <-> In o ex /\ In m model /\ t_name o = m_name m /\ (m_type m <> t_type o \/ m_null m <> t_null o)) /\
  (forall m, In m n <-> In m model /\ ~ In (m_name m) (names ex)) /\
  d = filter (fun c => negb (existsb (bseq (t_name c)) (map m_name model))) ex /\
  NoDup (map (fun p : tcol * mcol => m_name (snd p)) u) /\ NoDup (map m_name n).
Proof.
  induction model as [|m model IH]; intros ex u n d NE NM E; cbn [compare_cols] in E.
  - injection E as <- <- <-. cbn. split; [intros; tauto|]. split; [intros; tauto|]. split; [symmetry; clear; induction ex; cbn; congruence|]. split; constructor.
  - inversion NM as [|? ? NIM NM']; subst. destruct (take_col (m_name m) ex) as [[c ex']|] eqn:ET.
    + destruct (take_some _ _ _ _ NE ET) as (Ic & Nc & ->). set (ex' := filter (fun x => negb (bseq (t_name x) (m_name m))) ex) in *.
      destruct (compare_cols model ex') as [[u' n'] d'] eqn:EC. destruct (IH ex' u' n' d' (nodup_filter _ _ NE) NM' EC) as (HU & HN & HD & DU & DN).
      assert (EXI : forall o, In o ex' <-> In o ex /\ t_name o <> m_name m).
      { intros o. unfold ex'. rewrite filter_In. split; intros [A Bq]; (split; [exact A|]); [intros X; rewrite X, bseq_refl in Bq; discriminate|rewrite bseq_false; [reflexivity|exact Bq]]. }
      assert (EXN : forall x, In x (names ex') <-> In x (names ex) /\ x <> m_name m).
      { intros x. unfold names. rewrite !in_map_iff. split; [intros (o & <- & I); apply EXI in I as [I N]; split; [eauto|exact N]|intros [(o & <- & I) N]; exists o; split; [reflexivity|apply EXI; split; assumption]]. }
      assert (UNI : forall o, In o ex -> t_name o = m_name m -> o = c).
      { intros o I N. clear -NE I Ic N Nc. rewrite <- Nc in N. induction ex as [|x ex IH]; [contradiction|]. inversion NE as [|? ? NI NE']; subst. destruct I as [->|I], Ic as [->|Ic]; [reflexivity| | |auto].
        - exfalso. apply NI. rewrite N. apply in_map. exact Ic.
        - exfalso. apply NI. rewrite <- N. apply in_map. exact I. }
      assert (HD' : d' = filter (fun c0 => negb (existsb (bseq (t_name c0)) (map m_name (m :: model)))) ex).
      { rewrite HD. unfold ex'. clear. induction ex as [|x ex IH]; [reflexivity|]. cbn [filter map existsb]. destruct (bseq (t_name x) (m_name m)) eqn:EX; cbn [negb orb]; [exact IH|]. cbn [filter]. destruct (existsb (bseq (t_name x)) (map m_name model)); cbn [negb]; [exact IH|]. f_equal. exact IH. }
      assert (HN' : forall m0, In m0 n' <-> In m0 (m :: model) /\ ~ In (m_name m0) (names ex)).
      { intros m0. rewrite HN. split.
        - intros [I N]. split; [right; exact I|]. intros X. apply N, EXN. split; [exact X|]. intros Y. apply NIM. rewrite <- Y. apply in_map. exact I.
        - intros [[->|I] N]; [exfalso; apply N; rewrite <- Nc; apply in_map; exact Ic|]. split; [exact I|]. intros X. apply EXN in X as [X _]. contradiction. }
      assert (HU' : forall o m0, In (o, m0) u' <-> In o ex /\ In m0 model /\ t_name o = m_name m0 /\ (m_type m0 <> t_type o \/ m_null m0 <> t_null o)).
      { intros o m0. rewrite HU, EXI. split; [tauto|]. intros (A & A1 & A2 & A3). repeat split; auto. intros X. apply NIM. rewrite <- X, A2. apply in_map. exact A1. }
      destruct (bseq (m_type m) (t_type c) && Bool.eqb (m_null m) (t_null c)) eqn:EQ; injection E as <- <- <-.
      * apply andb_true_iff in EQ as [E1 E2]. apply bseq_eq in E1. apply eqb_prop in E2. split; [|split; [exact HN'|split; [exact HD'|split; assumption]]].
        intros o m0. rewrite HU'. cbn [In]. split; [tauto|]. intros (A & [<-|A1] & A2 & A3); [|tauto]. rewrite (UNI o A A2) in A3. destruct A3 as [X|X]; contradiction.
      * split; [|split; [exact HN'|split; [exact HD'|split; [|exact DN]]]].
        -- intros o m0. cbn [In]. rewrite HU'. split.
           ++ intros [X|X]; [injection X as <- <-|tauto]. split; [exact Ic|]. split; [left; reflexivity|]. split; [exact Nc|]. destruct (bytes_eq_dec (m_type m) (t_type c)) as [T|T]; [|left; exact T]. right. intros X. rewrite T, X, bseq_refl, Bool.eqb_reflx in EQ. discriminate.
           ++ intros (A & [<-|A1] & A2 & A3); [left; rewrite (UNI o A A2); reflexivity|right; tauto].
        -- cbn [map snd]. constructor; [|exact DU]. intros I. apply in_map_iff in I as ([o m0] & X & I). cbn [snd] in X. apply HU' in I as (_ & I & _). apply NIM. rewrite <- X. apply in_map. exact I.
    + apply take_none in ET. destruct (compare_cols model ex) as [[u' n'] d'] eqn:EC. injection E as <- <- <-. destruct (IH ex u' n' d' NE NM' EC) as (HU & HN & HD & DU & DN). split; [|split; [|split; [|split]]].
      * intros o m0. rewrite HU. cbn [In]. split; [tauto|]. intros (A & [<-|A1] & A2 & A3); [|tauto]. exfalso. apply ET. rewrite <- A2. apply in_map. exact A.
      * intros m0. cbn [In]. rewrite HN. split; [intros [->|[I N]]; tauto|]. intros [[->|I] N]; tauto.
      * rewrite HD. apply filter_ext_in. intros c Ic. cbn [map existsb]. rewrite bseq_false; [reflexivity|]. intros X. apply ET. rewrite <- X. apply in_map. exact Ic.
      * exact DU.
      * cbn [map]. constructor; [|exact DN]. intros I. apply in_map_iff in I as (m0 & X & I). apply HN in I as [I _]. apply NIM. rewrite <- X. apply in_map. exact I.
Qed.
Section Exec.
Variable cast : bytes -> bytes -> bool.
Variable rows : bool.
Lemma do_app my t a b : do_actions cast rows my t (a ++ b) = match do_actions cast rows my t a with Some t' => do_actions cast rows my t' b | None => None end.
Proof. revert t. induction a as [|x a IH]; intros t; [reflexivity|]. cbn [app do_actions]. destruct (do_action cast rows my t x); [apply IH|reflexivity]. Qed.
(** The table after the type changes *)
Definition upd (u : list (tcol * mcol)) (c : tcol) : tcol :=
  match find (fun p => bseq (m_name (snd p)) (t_name c)) u with Some p => TCol (t_name c) (stored (m_type (snd p))) (t_null c) (t_default c) | None => c end.
Lemma upd_name u c : t_name (upd u c) = t_name c.
Proof. unfold upd. destruct (find _ u); reflexivity. Qed.
Lemma upd_none u c : ~ In (t_name c) (map (fun p : tcol * mcol => m_name (snd p)) u) -> upd u c = c.
Proof.
  intros N. unfold upd. destruct (find _ u) as [p|] eqn:E; [|reflexivity]. exfalso. apply find_some in E as [I E]. apply bseq_eq in E. apply N. rewrite <- E. apply (in_map (fun p : tcol * mcol => m_name (snd p))). exact I.
Qed.
Lemma names_upd u t : names (map (upd u) t) = names t.
Proof. unfold names. rewrite map_map. apply map_ext. intros c. apply upd_name. Qed.
Lemma sets_up t u : forall g : tcol -> tcol, NoDup (map (fun p : tcol * mcol => m_name (snd p)) u) -> (forall c, t_name (g c) = t_name c) ->
  (forall p, In p u -> In (m_name (snd p)) (names t) /\ pseudo (m_type (snd p)) = false /\ forall c, In c t -> t_name c = m_name (snd p) -> cast (t_type (g c)) (m_type (snd p)) = true) ->
  do_actions cast rows false (map g t) (flat_map up_updated u) = Some (map (fun c => upd u (g c)) t).
Proof.
  induction u as [|[o m] u IH]; intros g ND GN H; [cbn; f_equal; apply map_ext; reflexivity|]. cbn [flat_map up_updated snd app do_actions do_action]. inversion ND as [|? ? NI ND']; subst. cbn [snd] in *.
  destruct (H (o, m) (or_introl eq_refl)) as (H1 & H2 & H3). cbn [snd] in *.
  assert (NG : names (map g t) = names t) by (unfold names; rewrite map_map; apply map_ext; exact GN).
  rewrite NG, (proj2 (has_iff _ _) H1), H2. cbn [negb andb].
  rewrite (proj2 (forallb_forall _ _)); [|intros x I; apply in_map_iff in I as (c & <- & I); destruct (bseq (t_name (g c)) (m_name m)) eqn:E; [|reflexivity]; apply bseq_eq in E; rewrite GN in E; apply H3; assumption].
  unfold change, st. rewrite map_map. rewrite (IH (fun c => if bseq (t_name (g c)) (m_name m) then TCol (t_name (g c)) (stored (m_type m)) (t_null (g c)) (t_default (g c)) else g c)).
  - f_equal. apply map_ext. intros c. destruct (bseq (t_name (g c)) (m_name m)) eqn:E.
    + rewrite upd_none; [|cbn [t_name]; apply bseq_eq in E; rewrite E; exact NI]. unfold upd. cbn [find snd]. apply bseq_eq in E. rewrite E, bseq_refl. reflexivity.
    + unfold upd. cbn [find snd]. rewrite bseq_false; [reflexivity|]. intros X. rewrite X, bseq_refl in E. discriminate.
  - exact ND'.
  - intros c. destruct (bseq (t_name (g c)) (m_name m)); apply GN.
  - intros p I. destruct (H p (or_intror I)) as (A1 & A2 & A3). split; [exact A1|]. split; [exact A2|]. intros c Ic N. rewrite bseq_false; [apply A3; assumption|]. rewrite GN, N. intros X. apply NI. rewrite <- X. apply (in_map (fun p : tcol * mcol => m_name (snd p))). exact I.
Qed.
Definition newcol (m : mcol) : tcol := TCol (m_name m) (stored (m_type m)) (m_null m && negb (pseudo (m_type m))) (m_default m).
Definition addable (m : mcol) : Prop := rows = true -> m_null m = true \/ m_default m <> None \/ pseudo (m_type m) = true.
Lemma adds_up n : forall t, NoDup (map m_name n) -> (forall m, In m n -> ~ In (m_name m) (names t) /\ addable m) -> do_actions cast rows false t (flat_map up_new n) = Some (t ++ map newcol n).
Proof.
  induction n as [|m n IH]; intros t ND H; [cbn; rewrite app_nil_r; reflexivity|]. cbn [flat_map up_new app do_actions do_action]. inversion ND as [|? ? NI ND']; subst. destruct (H m (or_introl eq_refl)) as [A1 A2]. rewrite (proj2 (has_false _ _) A1). cbn [negb andb].
  replace (rows && negb (m_null m) && negb (pseudo (m_type m)) && match m_default m with None => true | Some _ => false end) with false.
  - cbn [negb]. unfold st. change (TCol (m_name m) (stored (m_type m)) (m_null m && negb (pseudo (m_type m))) (m_default m)) with (newcol m). rewrite IH; [rewrite <- app_assoc; reflexivity|exact ND'|].
    intros m' I. destruct (H m' (or_intror I)) as [B1 B2]. split; [|exact B2]. unfold names. rewrite map_app, in_app_iff. intros [X|[X|[]]]; [exact (B1 X)|]. apply NI. cbn in X. rewrite X. apply in_map. exact I.
  - symmetry. destruct rows eqn:ER; [|reflexivity]. destruct (A2 ER) as [->|[X| ->]]; cbn [negb andb]; [reflexivity| |rewrite andb_false_r; reflexivity]. destruct (m_default m); [rewrite andb_false_r; reflexivity|congruence].
Qed.
Lemma drops d : forall t, NoDup (names d) -> incl (names d) (names t) -> do_actions cast rows false t (flat_map up_left d) = Some (filter (fun c => negb (existsb (bseq (t_name c)) (names d))) t).
Proof.
  induction d as [|x d IH]; intros t ND I; [cbn; f_equal; symmetry; clear; induction t; cbn; congruence|]. cbn [flat_map up_left app do_actions do_action]. inversion ND as [|? ? NI ND']; subst. rewrite (proj2 (has_iff _ _) (I (t_name x) (or_introl eq_refl))).
  rewrite IH; [|exact ND'|].
  - f_equal. clear. induction t as [|c t IH]; [reflexivity|]. cbn [filter names map existsb]. destruct (bseq (t_name c) (t_name x)); cbn [negb orb]; [exact IH|]. cbn [filter]. destruct (existsb (bseq (t_name c)) (names d)) eqn:E; unfold names in E; rewrite E; cbn [negb]; [exact IH|f_equal; exact IH].
  - intros y Iy. pose proof (I y (or_intror Iy)) as J. apply in_map_iff in J as (c & <- & J). apply in_map_iff. exists c. split; [reflexivity|]. apply filter_In. split; [exact J|]. rewrite bseq_false; [reflexivity|]. intros X. apply NI. rewrite <- X. exact Iy.
Qed.
Lemma stored_twice ty : stored (stored ty) = stored ty.
Proof.
  unfold stored at 2 3. destruct (assoc ty catalogue) as [c|] eqn:E.
  - assert (F : Forall (fun p : bytes * bytes => stored (snd p) = snd p) catalogue) by (repeat constructor).
    assert (A : forall l, assoc ty l = Some c -> In c (map snd l)). { clear. induction l as [|[a b] l IH]; [discriminate|]. cbn [assoc]. destruct (bseq a ty); [intros X; injection X as ->; left; reflexivity|right; auto]. }
    apply A in E. apply in_map_iff in E as ([a b] & <- & I). rewrite Forall_forall in F. exact (F _ I).
  - unfold stored. rewrite E. reflexivity.
Qed.
Lemma stored_real ty : stored ty = ty -> pseudo ty = false.
Proof.
  intros E. unfold pseudo. apply has_false. intros I. assert (F : Forall (fun x => stored x <> x) [B "serial"; B "serial2"; B "serial4"; B "serial8"; B "bigserial"; B "smallserial"]) by (repeat constructor; vm_compute; discriminate).
  rewrite Forall_forall in F. exact (F _ I E).
Qed.
(** The down statements take the table back, pair by pair and column by column *)
Lemma sets_down u : forall t N, NoDup (names t) -> NoDup (map (fun p : tcol * mcol => m_name (snd p)) u) -> (forall x, In x (names N) -> ~ In x (names t)) ->
  (forall c, In c t -> stored (t_type c) = t_type c) -> (forall o m, In (o, m) u -> In o t /\ t_name o = m_name m /\ cast (stored (m_type m)) (t_type o) = true) ->
  do_actions cast rows false (map (upd u) t ++ N) (flat_map down_updated u) = Some (t ++ N).
Proof.
  induction u as [|[o m] u IH]; intros t N ND NU DIS ST H; [cbn [flat_map do_actions]; f_equal; f_equal; rewrite <- (map_id t) at 2; apply map_ext; reflexivity|].
  inversion NU as [|? ? NI NU']; subst. cbn [snd] in NI. destruct (H o m (or_introl eq_refl)) as (Io & No & Co). cbn [flat_map]. rewrite do_app.
  assert (UNI : forall c, In c t -> t_name c = t_name o -> c = o).
  { clear -ND Io. intros c Ic N. induction t as [|x t IH]; [contradiction|]. inversion ND as [|? ? NI ND']; subst. destruct Ic as [->|Ic], Io as [->|Io]; [reflexivity| | |auto]; exfalso; apply NI; [rewrite N|rewrite <- N]; apply in_map; assumption. }
  assert (NA : names (map (upd ((o, m) :: u)) t ++ N) = names t ++ names N) by (unfold names at 1; rewrite map_app; f_equal; apply names_upd).
  assert (IN : In (t_name o) (names t ++ names N)) by (apply in_or_app; left; apply in_map; exact Io).
  assert (NN : forall c, In c N -> bseq (t_name c) (t_name o) = false).
  { intros c Ic. apply bseq_false. intros X. apply (DIS (t_name c)); [apply in_map; exact Ic|]. rewrite X. apply in_map. exact Io. }
  (* the table with the column of o replaced *)
  set (R := fun c' => map (fun c => if bseq (t_name c) (t_name o) then c' else upd u c) t ++ N).
  assert (R0 : map (upd ((o, m) :: u)) t ++ N = R (TCol (t_name o) (stored (m_type m)) (t_null o) (t_default o))).
  { unfold R. f_equal. apply map_ext_in. intros c Ic. unfold upd at 1. cbn [find snd]. rewrite <- No. destruct (bseq (t_name o) (t_name c)) eqn:E.
    - apply bseq_eq in E. rewrite <- E, bseq_refl. rewrite (UNI c Ic (eq_sym E)). reflexivity.
    - apply bseq_neq in E. rewrite bseq_false; [reflexivity|congruence]. }
  assert (RN : forall c', t_name c' = t_name o -> names (R c') = names t ++ names N).
  { intros c' E. unfold R, names. rewrite map_app, map_map. f_equal. apply map_ext. intros c. destruct (bseq (t_name c) (t_name o)) eqn:X; [apply bseq_eq in X; congruence|apply upd_name]. }
  assert (RC : forall c' f, t_name c' = t_name o -> change (t_name o) f (R c') = R (f c')).
  { intros c' f E. unfold change, R. rewrite map_app, map_map. f_equal.
    - apply map_ext. intros c. destruct (bseq (t_name c) (t_name o)) eqn:X; [rewrite E, bseq_refl; reflexivity|]. rewrite upd_name, X. reflexivity.
    - rewrite <- (map_id N) at 2. apply map_ext_in. intros c Ic. rewrite (NN c Ic). reflexivity. }
  assert (RO : R o = map (upd u) t ++ N).
  { unfold R. f_equal. apply map_ext_in. intros c Ic. destruct (bseq (t_name c) (t_name o)) eqn:X; [|reflexivity]. apply bseq_eq in X. rewrite (UNI c Ic X). symmetry. apply upd_none. rewrite No. exact NI. }
  assert (G : do_actions cast rows false (map (upd ((o, m) :: u)) t ++ N) (down_updated (o, m)) = Some (map (upd u) t ++ N)).
  { rewrite R0. unfold down_updated. cbn [fst]. cbn [do_actions do_action]. rewrite RN by reflexivity. rewrite (proj2 (has_iff _ _) IN). rewrite (stored_real _ (ST o Io)). cbn [negb andb].
    rewrite (proj2 (forallb_forall _ _)); [|].
    - rewrite RC by reflexivity. cbn [t_name t_type t_null t_default]. unfold st. rewrite (ST o Io). rewrite do_app.
      assert (S1 : do_actions cast rows false (R (TCol (t_name o) (t_type o) (t_null o) (t_default o))) (if t_null o then [] else [SetNotNull (t_name o)]) = Some (R o)).
      { destruct o as [on ot onl od]. cbn [t_name t_type t_null t_default] in *. destruct onl; [reflexivity|]. cbn [do_actions do_action]. rewrite RN by reflexivity. rewrite (proj2 (has_iff _ _) IN). rewrite RC by reflexivity. reflexivity. }
      rewrite S1. rewrite <- RO. destruct (t_default o) as [d|] eqn:ED; [|reflexivity]. cbn [do_actions do_action]. rewrite RN by reflexivity. rewrite (proj2 (has_iff _ _) IN). rewrite RC by reflexivity. destruct o as [on ot onl od]. cbn [t_name t_type t_null t_default] in *. rewrite ED. reflexivity.
    - intros c Ic. unfold R in Ic. apply in_app_or in Ic as [Ic|Ic]; [|rewrite (NN c Ic); reflexivity]. apply in_map_iff in Ic as (c1 & E & Ic). destruct (bseq (t_name c1) (t_name o)) eqn:X.
      + rewrite <- E. cbn [t_name t_type]. rewrite bseq_refl. exact Co.
      + rewrite <- E, upd_name, X. reflexivity. }
  rewrite G. apply IH; [exact ND|exact NU'|exact DIS|exact ST|]. intros o' m' I. apply H. right. exact I.
Qed.
Lemma drop_new n : forall t, NoDup (map m_name n) -> (forall m, In m n -> ~ In (m_name m) (names t)) -> do_actions cast rows false (t ++ map newcol n) (flat_map down_new n) = Some t.
Proof.
  induction n as [|m n IH]; intros t ND H; [cbn; rewrite app_nil_r; reflexivity|]. cbn [flat_map down_new app do_actions do_action map]. inversion ND as [|? ? NI ND']; subst.
  rewrite (proj2 (has_iff _ _)); [|unfold names; rewrite map_app; apply in_or_app; right; left; reflexivity]. rewrite filter_app. cbn [filter]. unfold newcol at 1. cbn [t_name]. rewrite bseq_refl. cbn [negb].
  assert (K : forall l : list tcol, ~ In (m_name m) (names l) -> filter (fun c => negb (bseq (t_name c) (m_name m))) l = l).
  { clear. induction l as [|c l IH]; intros N; [reflexivity|]. cbn [filter names map] in *. rewrite bseq_false; [cbn [negb]; f_equal; apply IH; intros X; apply N; right; exact X|intros X; apply N; left; exact X]. }
  rewrite K; [|apply H; left; reflexivity]. rewrite K; [|intros I; apply NI; unfold names in I; rewrite map_map in I; exact I]. apply IH; [exact ND'|]. intros m' I. apply H. right. exact I.
Qed.
End Exec.
(** ** PostgreSQL *)
Lemma pg_up_run cast rows t model pk up down : NoDup (names t) -> NoDup (map m_name model) ->
  (forall c m, In c t -> In m model -> t_name c = m_name m -> cast (t_type c) (m_type m) = true /\ pseudo (m_type m) = false) ->
  (forall m, In m model -> ~ In (m_name m) (names t) -> addable rows m) -> pg_migrate model pk t = Some (up, down) ->
  exists u n d, compare_cols model t = (u, n, d) /\ (u <> [] \/ n <> []) /\
    do_stmts cast rows false (Some t) up = Some (Some (filter (fun c => negb (existsb (bseq (t_name c)) (names d))) (map (upd u) t ++ map newcol n))) /\
    down = [Alter (flat_map down_updated u ++ flat_map down_new n ++ flat_map down_left d)].
Proof.
  intros ND NM HC HA E. unfold pg_migrate in E. destruct (compare_cols model t) as [[u n] d] eqn:EC. destruct (compare_spec model t u n d ND NM EC) as (HU & HN & HD & DU & DN).
  assert (NE : u <> [] \/ n <> []) by (destruct u; [destruct n; [discriminate|right; discriminate]|left; discriminate]). exists u, n, d. split; [reflexivity|]. split; [exact NE|].
  assert (E' : Some ([Create model pk; Alter (flat_map up_updated u ++ flat_map up_new n ++ flat_map up_left d)], [Alter (flat_map down_updated u ++ flat_map down_new n ++ flat_map down_left d)]) = Some (up, down)).
  { rewrite <- E. destruct u; [destruct n|]; try reflexivity. destruct NE; contradiction. }
  clear E. injection E' as <- <-. split; [|reflexivity].
  assert (RUN : do_actions cast rows false t (flat_map up_updated u ++ flat_map up_new n ++ flat_map up_left d) = Some (filter (fun c => negb (existsb (bseq (t_name c)) (names d))) (map (upd u) t ++ map newcol n))).
  { rewrite do_app. rewrite <- (map_id t) at 1. rewrite (sets_up cast rows t u (fun c => c)); [|exact DU|reflexivity|].
    - rewrite do_app. rewrite (adds_up cast rows n); [|exact DN|].
      + apply drops; [rewrite HD; apply nodup_filter; exact ND|]. intros x I. unfold names. rewrite map_app. apply in_or_app. left. fold (names (map (upd u) t)). rewrite names_upd. rewrite HD in I. eapply names_filter. exact I.
      + intros m I. apply HN in I as [I N]. rewrite names_upd. split; [exact N|]. apply HA; assumption.
    - intros [o m] I. cbn [snd]. apply HU in I as (Io & Im & N & _). split; [rewrite <- N; apply in_map; exact Io|]. split; [exact (proj2 (HC o m Io Im N))|]. intros c Ic Nc. apply (HC c m Ic Im Nc). }
  cbn [do_stmts do_stmt]. rewrite RUN.
  set (l := flat_map up_updated u ++ flat_map up_new n ++ flat_map up_left d) in *. assert (L : l <> []). { unfold l. destruct u as [|p u]; [destruct n as [|m n]; [destruct NE; contradiction|discriminate]|discriminate]. }
  destruct l as [|a l]; [contradiction|]. match goal with |- context [filter ?f (map (upd u) t ++ ?y)] => destruct (filter f (map (upd u) t ++ y)) end; reflexivity.
Qed.
(** The up section runs; the columns are the model's, with the model's types. The columns that were there keep their nullability and default. *)
Theorem C49_pg_up_partial cast rows t model pk up down : NoDup (names t) -> NoDup (map m_name model) -> (forall c, In c t -> stored (t_type c) = t_type c) ->
  (forall c m, In c t -> In m model -> t_name c = m_name m -> cast (t_type c) (m_type m) = true /\ pseudo (m_type m) = false) ->
  (rows = true -> forall m, In m model -> ~ In (m_name m) (names t) -> m_null m = true \/ m_default m <> None \/ pseudo (m_type m) = true) ->
  pg_migrate model pk t = Some (up, down) ->
  exists t', do_stmts cast rows false (Some t) up = Some (Some t') /\ NoDup (names t') /\ (forall x, In x (names t') <-> In x (map m_name model)) /\
    forall c m, In c t' -> In m model -> t_name c = m_name m -> t_type c = stored (m_type m) /\
      (forall o, In o t -> t_name o = t_name c -> t_null c = t_null o /\ t_default c = t_default o) /\
      (~ In (t_name c) (names t) -> t_null c = m_null m && negb (pseudo (m_type m)) /\ t_default c = m_default m).
Proof.
  intros ND NM ST HC HA E. destruct (pg_up_run cast rows t model pk up down ND NM HC (fun m I N R => HA R m I N) E) as (u & n & d & EC & _ & RUN & _). destruct (compare_spec model t u n d ND NM EC) as (HU & HN & HD & DU & DN).
  eexists. split; [exact RUN|].
  assert (DI : forall x, In x (names d) <-> In x (names t) /\ ~ In x (map m_name model)).
  { intros x. rewrite HD. unfold names. rewrite !in_map_iff. split.
    - intros (c & <- & I). apply filter_In in I as [I F]. apply negb_true_iff, has_false in F. split; [eauto|]. intros X. apply F. apply in_map_iff. exact X.
    - intros [(c & <- & I) F]. exists c. split; [reflexivity|]. apply filter_In. split; [exact I|]. apply negb_true_iff, has_false. intros X. apply F. apply in_map_iff in X. exact X. }
  assert (NL : names (map (upd u) t ++ map newcol n) = names t ++ map m_name n) by (unfold names at 1; rewrite map_app; f_equal; [apply names_upd|rewrite map_map; reflexivity]).
  assert (MU : forall a b, In a model -> In b model -> m_name a = m_name b -> a = b).
  { clear -NM. intros a b Ia Ib N. induction model as [|x l IH]; [contradiction|]. inversion NM as [|? ? NI NM']; subst. destruct Ia as [->|Ia], Ib as [->|Ib]; [reflexivity| | |auto]; exfalso; apply NI; [rewrite N|rewrite <- N]; apply in_map; assumption. }
  assert (TU : forall a b, In a t -> In b t -> t_name a = t_name b -> a = b).
  { clear -ND. intros a b Ia Ib N. induction t as [|x l IH]; [contradiction|]. inversion ND as [|? ? NI ND']; subst. destruct Ia as [->|Ia], Ib as [->|Ib]; [reflexivity| | |auto]; exfalso; apply NI; [rewrite N|rewrite <- N]; apply in_map; assumption. }
  split; [|split].
  - apply nodup_filter. rewrite NL. clear -ND DN HN. assert (D : forall x, In x (names t) -> ~ In x (map m_name n)) by (intros x I J; apply in_map_iff in J as (m & <- & J); apply HN in J as [_ J]; contradiction). clear HN. revert ND D. induction (names t) as [|x l IH]; intros ND D; [exact DN|]. inversion ND as [|? ? NI ND']; subst. cbn [app]. constructor; [intros X; apply in_app_or in X as [X|X]; [exact (NI X)|exact (D x (or_introl eq_refl) X)]|]. apply IH; [exact ND'|intros y I; apply D; right; exact I].
  - intros x. split.
    + intros I. apply in_map_iff in I as (c & <- & I). apply filter_In in I as [I F]. apply negb_true_iff, has_false in F. assert (J : In (t_name c) (names t ++ map m_name n)) by (rewrite <- NL; apply in_map; exact I).
      destruct (in_dec bytes_eq_dec (t_name c) (map m_name model)) as [K|K]; [exact K|]. exfalso. apply in_app_or in J as [J|J]; [apply F, DI; split; assumption|]. apply in_map_iff in J as (m & X & J). apply HN in J as [J _]. apply K. rewrite <- X. apply in_map. exact J.
    + intros I. assert (J : In x (names t ++ map m_name n)). { destruct (in_dec bytes_eq_dec x (names t)) as [K|K]; [apply in_or_app; left; exact K|]. apply in_or_app. right. apply in_map_iff in I as (m & <- & I). apply in_map. apply HN. split; assumption. }
      rewrite <- NL in J. apply in_map_iff in J as (c & <- & J). apply in_map_iff. exists c. split; [reflexivity|]. apply filter_In. split; [exact J|]. apply negb_true_iff, has_false. intros X. apply DI in X as [_ X]. contradiction.
  - intros c m I Im N. apply filter_In in I as [I _]. apply in_app_or in I as [I|I].
    + apply in_map_iff in I as (o & <- & Io). rewrite upd_name in *. assert (G : t_type (upd u o) = stored (m_type m) /\ t_null (upd u o) = t_null o /\ t_default (upd u o) = t_default o).
      { unfold upd. destruct (find _ u) as [[o' m']|] eqn:EF.
        - apply find_some in EF as [If Ef]. cbn [snd] in *. apply bseq_eq in Ef. apply HU in If as (_ & If & _). rewrite (MU m' m If Im (eq_trans Ef N)). cbn. auto.
        - assert (NU : ~ In (o, m) u). { intros X. pose proof (find_none _ _ EF _ X) as Y. cbn [snd] in Y. rewrite N, bseq_refl in Y. discriminate. }
          assert (m_type m = t_type o). { destruct (bytes_eq_dec (m_type m) (t_type o)) as [Z|Z]; [exact Z|]. exfalso. apply NU, HU. tauto. }
          split; [|split; reflexivity]. rewrite H. symmetry. apply ST. exact Io. }
      destruct G as (G1 & G2 & G3). split; [exact G1|]. split.
      * intros o' Io' No'. rewrite (TU o' o Io' Io No'). split; assumption.
      * intros X. exfalso. apply X. apply in_map. exact Io.
    + apply in_map_iff in I as (m' & <- & I'). apply HN in I' as [I' N']. cbn [newcol t_name] in *. rewrite (MU m' m I' Im N) in *. cbn [newcol t_type t_null t_default]. split; [reflexivity|]. split.
      * intros o Io No. exfalso. apply N'. rewrite <- No. apply in_map. exact Io.
      * intros _. split; reflexivity.
Qed.
(** When no column disappears, the down section restores the table exactly. *)
Theorem C49_pg_down_partial cast rows t model pk up down s : NoDup (names t) -> NoDup (map m_name model) -> (forall c, In c t -> stored (t_type c) = t_type c) ->
  (forall c m, In c t -> In m model -> t_name c = m_name m -> cast (t_type c) (m_type m) = true /\ pseudo (m_type m) = false /\ cast (stored (m_type m)) (t_type c) = true) ->
  (rows = true -> forall m, In m model -> ~ In (m_name m) (names t) -> m_null m = true \/ m_default m <> None \/ pseudo (m_type m) = true) ->
  (forall c, In c t -> In (t_name c) (map m_name model)) ->
  pg_migrate model pk t = Some (up, down) -> do_stmts cast rows false (Some t) up = Some s -> do_stmts cast rows false s down = Some (Some t).
Proof.
  intros ND NM ST HC HA HK E ES. destruct (pg_up_run cast rows t model pk up down ND NM (fun c m A1 A2 A3 => conj (proj1 (HC c m A1 A2 A3)) (proj1 (proj2 (HC c m A1 A2 A3)))) (fun m I N R => HA R m I N) E) as (u & n & d & EC & NE & RUN & ->). destruct (compare_spec model t u n d ND NM EC) as (HU & HN & HD & DU & DN).
  assert (D0 : d = []). { rewrite HD. clear -HK. induction t as [|c t IH]; [reflexivity|]. cbn [filter]. rewrite (proj2 (has_iff _ _) (HK c (or_introl eq_refl))). cbn [negb]. apply IH. intros c' I. apply HK. right. exact I. }
  rewrite D0 in *. clear HD. rewrite RUN in ES. injection ES as <-. assert (FI : forall l : list tcol, filter (fun c => negb (existsb (bseq (t_name c)) (names []))) l = l) by (clear; induction l as [|x l IH]; [reflexivity|]; cbn [filter]; rewrite IH; reflexivity). rewrite FI.
  cbn [flat_map]. rewrite app_nil_r.
  assert (RD : do_actions cast rows false (map (upd u) t ++ map newcol n) (flat_map down_updated u ++ flat_map down_new n) = Some t).
  { rewrite do_app. rewrite (sets_down cast rows u t (map newcol n) ND DU).
    - apply drop_new; [exact DN|]. intros m I. apply HN in I as [_ I]. exact I.
    - intros x I. unfold names in I. rewrite map_map in I. cbn [newcol t_name] in I. apply in_map_iff in I as (m & <- & I). apply HN in I as [_ I]. exact I.
    - exact ST.
    - intros o m I. apply HU in I as (Io & Im & N & _). split; [exact Io|]. split; [exact N|]. exact (proj2 (proj2 (HC o m Io Im N))). }
  cbn [do_stmts do_stmt]. rewrite RD. set (l := flat_map down_updated u ++ flat_map down_new n) in *. assert (L : l <> []). { unfold l. destruct u as [|p u]; [destruct n as [|m n]; [destruct NE; contradiction|discriminate]|discriminate]. }
  destruct l as [|a l]; [contradiction|]. destruct t; reflexivity.
Qed.
(** The nullability of an existing column is never changed, so the table does not match the model afterwards *)
Definition yes (_ _ : bytes) : bool := true.
Theorem C49_pg_nullable_refuted : exists t model pk up down t' c m, NoDup (names t) /\ NoDup (map m_name model) /\ pg_migrate model pk t = Some (up, down) /\ do_stmts yes false false (Some t) up = Some (Some t') /\
  In c t' /\ In m model /\ t_name c = m_name m /\ t_null c <> m_null m.
Proof.
  exists [TCol (B "id") (B "int4") false None; TCol (B "note") (B "varchar(255)") true None], [MCol (B "id") (B "int4") false None; MCol (B "note") (B "varchar(255)") false None], [B "id"].
  do 4 eexists. exists (MCol (B "note") (B "varchar(255)") false None). split; [repeat constructor; cbn; intuition discriminate|]. split; [repeat constructor; cbn; intuition discriminate|].
  split; [vm_compute; reflexivity|]. split; [vm_compute; reflexivity|]. split; [right; left; reflexivity|]. split; [right; left; reflexivity|]. split; [reflexivity|discriminate].
Qed.
(** A model that only lost columns gets no migration at all *)
Theorem C49_pg_dropped_refuted model pk t : NoDup (names t) -> NoDup (map m_name model) -> (forall m, In m model -> exists c, In c t /\ t_name c = m_name m /\ t_type c = m_type m /\ t_null c = m_null m) -> pg_migrate model pk t = None.
Proof.
  intros ND NM H. unfold pg_migrate. destruct (compare_cols model t) as [[u n] d] eqn:EC. destruct (compare_spec model t u n d ND NM EC) as (HU & HN & _).
  destruct u as [|[o m] u].
  - destruct n as [|m n]; [reflexivity|]. exfalso. destruct (proj1 (HN m) (or_introl eq_refl)) as [I N]. destruct (H m I) as (c & Ic & Nc & _). apply N. rewrite <- Nc. apply in_map. exact Ic.
  - exfalso. destruct (proj1 (HU o m) (or_introl eq_refl)) as (Io & Im & N & D). destruct (H m Im) as (c & Ic & Nc & Tc & Uc). assert (c = o); [|subst c; destruct D; congruence].
    clear -ND Io Ic N Nc. assert (E : t_name c = t_name o) by congruence. clear N Nc. induction t as [|x l IH]; [contradiction|]. inversion ND as [|? ? NI ND']; subst. destruct Ic as [->|Ic], Io as [->|Io]; [reflexivity| | |auto]; exfalso; apply NI; [rewrite E|rewrite <- E]; apply in_map; assumption.
Qed.
(** Where the table does not exist yet, the first migration fails for every model: the columns CREATE TABLE made are added again *)
Theorem C49_pg_fresh_refuted cast rows model pk up down : model <> [] -> pg_migrate model pk [] = Some (up, down) -> do_stmts cast rows false None up = None.
Proof.
  intros NE E. destruct model as [|m model]; [contradiction|]. unfold pg_migrate in E. cbn [compare_cols take_col] in E.
  assert (CN : forall l, compare_cols l [] = ([], l, [])) by (induction l as [|x l IH]; [reflexivity|]; cbn [compare_cols take_col]; rewrite IH; reflexivity). rewrite CN in E.
  injection E as <- <-. cbn [do_stmts do_stmt]. match goal with |- match (if ?b then _ else _) with _ => _ end = _ => destruct b; [|reflexivity] end.
  cbn [flat_map up_new app do_stmts do_stmt]. cbn [do_actions do_action]. rewrite (proj2 (has_iff _ _)); [reflexivity|]. left. reflexivity.
Qed.
(** Once a column was dropped, the down section is rejected: the column is added without a type *)
Theorem C49_pg_restore_refuted cast rows t model pk up down s c : In c t -> ~ In (t_name c) (map m_name model) -> NoDup (names t) -> NoDup (map m_name model) -> pg_migrate model pk t = Some (up, down) -> do_stmts cast rows false s down = None.
Proof.
  intros Ic NI ND NM E. unfold pg_migrate in E. destruct (compare_cols model t) as [[u n] d] eqn:EC. destruct (compare_spec model t u n d ND NM EC) as (_ & _ & HD & _).
  assert (Id : In c d). { rewrite HD. apply filter_In. split; [exact Ic|]. apply negb_true_iff, has_false. exact NI. } clear HD.
  assert (ED : down = [Alter (flat_map down_updated u ++ flat_map down_new n ++ flat_map down_left d)]) by (destruct u; [destruct n; [discriminate|]|]; injection E as _ <-; reflexivity). subst down.
  assert (F : forall t0 a b, do_actions cast rows false t0 (a ++ flat_map down_left d ++ b) = None).
  { intros t0 a b. rewrite do_app. destruct (do_actions cast rows false t0 a) as [t1|]; [|reflexivity]. destruct d as [|x d]; [contradiction|]. reflexivity. }
  specialize (F (columns_of s) (flat_map down_updated u ++ flat_map down_new n) []). rewrite app_nil_r, <- app_assoc in F. set (l := flat_map down_updated u ++ flat_map down_new n ++ flat_map down_left d) in *.
  cbn [do_stmts do_stmt]. destruct s as [cols|]; [|reflexivity]. cbn [columns_of] in F. destruct l; [reflexivity|]. rewrite F. reflexivity.
Qed.
(** An auto-increment key that exists is altered to a serial type, which PostgreSQL refuses; a bigint column is migrated again and again *)
Theorem C49_pg_serial_refuted cast rows : exists t model pk up down, t = columns_of (Some [TCol (B "id") (stored (B "serial4")) false None]) /\ model = [MCol (B "id") (B "serial4") false None] /\
  pg_migrate model pk t = Some (up, down) /\ do_stmts cast rows false (Some t) up = None.
Proof. do 2 eexists. exists [B "id"]. do 2 eexists. split; [reflexivity|]. split; [reflexivity|]. split; vm_compute; reflexivity. Qed.
Theorem C49_pg_again_refuted : exists model pk t up down t', pg_migrate model pk t = Some (up, down) /\ do_stmts yes true false (Some t) up = Some (Some t') /\ pg_migrate model pk t' <> None /\
  (forall c m, In c t' -> In m model -> t_name c = m_name m -> t_type c = stored (m_type m) /\ t_null c = m_null m) /\ length t' = length model.
Proof.
  exists [MCol (B "id") (B "bigint") false None], [B "id"], [TCol (B "id") (B "int4") false None]. do 3 eexists. split; [vm_compute; reflexivity|]. split; [vm_compute; reflexivity|]. split; [vm_compute; discriminate|]. split; [|reflexivity].
  intros c m [<-|[]] [<-|[]] _. split; vm_compute; reflexivity.
Qed.
(** ** MySQL *)
(** A new table gets exactly the model's columns; columns of the primary key are never NULL *)
Lemma forall2_map {A C} (R : C -> A -> Prop) (f : A -> C) l : (forall x, In x l -> R (f x) x) -> Forall2 R (map f l) l.
Proof. induction l as [|x l IH]; intros H; [constructor|]. cbn [map]. constructor; [apply H; left; reflexivity|apply IH; intros y I; apply H; right; exact I]. Qed.
Theorem C49_mysql_fresh_partial cast rows model pk up down : model <> [] -> NoDup (map m_name model) -> incl pk (map m_name model) -> (forall m, In m model -> pseudo (m_type m) = false) -> my_migrate model pk [] = Some (up, down) ->
  exists t', do_stmts cast rows true None up = Some (Some t') /\ Forall2 (fun c m => t_name c = m_name m /\ t_type c = m_type m /\ t_default c = m_default m /\ (t_null c = true <-> m_null m = true /\ ~ In (m_name m) pk)) t' model.
Proof.
  intros NE NM IP HP E. injection E as <- <-. cbn [flat_map do_stmts do_stmt].
  assert (N1 : no_dup (map m_name model) = true). { clear -NM. induction NM as [|x l NI NM IH]; [reflexivity|]. cbn [no_dup]. rewrite (proj2 (has_false _ _) NI), IH. reflexivity. }
  rewrite N1. rewrite (proj2 (forallb_forall _ _)) by (intros k I; apply has_iff, IP, I).
  replace (match model with [] => true | _ => false end) with false by (destruct model; [contradiction|reflexivity]). cbn [andb negb do_actions].
  match goal with |- context [map ?f model] => exists (map f model); split; [destruct model; [contradiction|reflexivity]|apply forall2_map] end.
  intros m I. cbn [t_name t_type t_default t_null st]. split; [reflexivity|]. split; [reflexivity|]. split; [reflexivity|]. rewrite (HP m I). cbn [negb]. rewrite andb_true_r, andb_true_iff, negb_true_iff, has_false. tauto.
Qed.
(** Rolling back does not remove that table *)
Theorem C49_mysql_down_refuted cast rows model pk up down t' : my_migrate model pk [] = Some (up, down) -> do_stmts cast rows true None up = Some (Some t') -> do_stmts cast rows true (Some t') down = Some (Some t').
Proof. intros E R. injection E as <- <-. cbn [flat_map do_stmts do_stmt do_actions] in *. match type of R with match (if ?b then _ else _) with _ => _ end = _ => destruct b; [|discriminate] end. destruct t'; [|reflexivity]. destruct model; discriminate. Qed.
Lemma my_drops cast rows d : forall t, NoDup (names d) -> incl (names d) (names t) -> do_actions cast rows true t (flat_map up_left d) = Some (filter (fun c => negb (existsb (bseq (t_name c)) (names d))) t).
Proof.
  induction d as [|x d IH]; intros t ND I; [cbn; f_equal; symmetry; clear; induction t; cbn; congruence|]. cbn [flat_map up_left app do_actions do_action]. inversion ND as [|? ? NI ND']; subst. rewrite (proj2 (has_iff _ _) (I (t_name x) (or_introl eq_refl))).
  rewrite IH; [|exact ND'|].
  - f_equal. clear. induction t as [|c t IH]; [reflexivity|]. cbn [filter names map existsb]. destruct (bseq (t_name c) (t_name x)); cbn [negb orb]; [exact IH|]. cbn [filter]. destruct (existsb (bseq (t_name c)) (names d)) eqn:E; unfold names in E; rewrite E; cbn [negb]; [exact IH|f_equal; exact IH].
  - intros y Iy. pose proof (I y (or_intror Iy)) as J. apply in_map_iff in J as (c & <- & J). apply in_map_iff. exists c. split; [reflexivity|]. apply filter_In. split; [exact J|]. rewrite bseq_false; [reflexivity|]. intros X. apply NI. rewrite <- X. exact Iy.
Qed.
(** On a table that exists every migration fails: it drops all columns *)
Theorem C49_mysql_existing_refuted cast rows model pk t up down : t <> [] -> NoDup (names t) -> my_migrate model pk t = Some (up, down) -> do_stmts cast rows true (Some t) up = None.
Proof.
  intros NE ND E. injection E as <- <-. cbn [do_stmts do_stmt].
  assert (R : do_actions cast rows true t (flat_map up_left t) = Some []).
  { rewrite my_drops; [|exact ND|apply incl_refl]. f_equal. assert (G : forall l, incl (names l) (names t) -> filter (fun c => negb (existsb (bseq (t_name c)) (names t))) l = []). { induction l as [|c l IH]; intros I; [reflexivity|]. cbn [filter]. rewrite (proj2 (has_iff _ _) (I _ (or_introl eq_refl))). apply IH. intros x Ix. apply I. right. exact Ix. } apply G, incl_refl. }
  rewrite R. destruct (flat_map up_left t); reflexivity.
Qed.
(** ** SQLite: nothing is written, whatever the table *)
Theorem C49_sqlite_refuted cast rows model pk t up down : lite_migrate model pk (columns_of t) = Some (up, down) -> do_stmts cast rows false t up = Some t.
Proof. intros E. injection E as <- <-. reflexivity. Qed.
(** ** Cases *)
Definition case_table : list tcol := [TCol (B "id") (B "int4") false None; TCol (B "name") (B "varchar(64)") true (Some (B "'x'"))].
Definition case_model : list mcol := [MCol (B "id") (B "int4") false None; MCol (B "name") (B "varchar(255)") true None; MCol (B "age") (B "bigint") false (Some (B "0"))].
Example C49_pg_up_case : match pg_migrate case_model [B "id"] case_table with
  | Some (up, down) => up = [Create case_model [B "id"]; Alter [SetType (B "name") (B "varchar(255)"); Add (B "age") (Some (B "bigint")) false (Some (B "0"))]] /\
      do_stmts yes true false (Some case_table) up = Some (Some [TCol (B "id") (B "int4") false None; TCol (B "name") (B "varchar(255)") true (Some (B "'x'")); TCol (B "age") (B "int8") false (Some (B "0"))]) /\
      match do_stmts yes true false (Some case_table) up with Some s => do_stmts yes true false s down = Some (Some case_table) | None => False end
  | None => False
  end.
Proof. vm_compute. repeat split. Qed.
Example C49_pg_hyps : NoDup (names case_table) /\ NoDup (map m_name case_model) /\ (forall c, In c case_table -> stored (t_type c) = t_type c /\ In (t_name c) (map m_name case_model)) /\
  (forall c m, In c case_table -> In m case_model -> t_name c = m_name m -> yes (t_type c) (m_type m) = true /\ pseudo (m_type m) = false /\ yes (stored (m_type m)) (t_type c) = true) /\
  (forall m, In m case_model -> ~ In (m_name m) (names case_table) -> m_null m = true \/ m_default m <> None \/ pseudo (m_type m) = true).
Proof.
  split; [repeat constructor; cbn; intuition discriminate|]. split; [repeat constructor; cbn; intuition discriminate|]. split; [|split].
  - intros c [<-|[<-|[]]]; split; try (vm_compute; reflexivity); cbn; tauto.
  - intros c m [<-|[<-|[]]] [<-|[<-|[<-|[]]]] E; try discriminate; repeat split; vm_compute; reflexivity.
  - intros m [<-|[<-|[<-|[]]]] N; [exfalso; apply N; cbn; tauto|exfalso; apply N; cbn; tauto|right; left; discriminate].
Qed.
Example C49_pg_dropped_case : pg_migrate [MCol (B "id") (B "int4") false None] [B "id"] case_table = None.
Proof. vm_compute. reflexivity. Qed.
Example C49_pg_restore_case : In (TCol (B "name") (B "varchar(64)") true (Some (B "'x'"))) case_table /\ ~ In (B "name") (map m_name [MCol (B "id") (B "int8") false None]) /\ pg_migrate [MCol (B "id") (B "int8") false None] [B "id"] case_table <> None.
Proof. split; [cbn; tauto|]. split; [cbn; intuition discriminate|vm_compute; discriminate]. Qed.
Example C49_pg_fresh_case : pg_migrate case_model [B "id"] [] <> None.
Proof. discriminate. Qed.
Example C49_mysql_case : my_migrate case_model [B "id"] [] <> None /\ my_migrate case_model [B "id"] case_table <> None /\ incl [B "id"] (map m_name case_model) /\ (forall m, In m case_model -> pseudo (m_type m) = false).
Proof. split; [discriminate|]. split; [discriminate|]. split; [intros x [<-|[]]; cbn; tauto|]. intros m [<-|[<-|[<-|[]]]]; reflexivity. Qed.
Print Assumptions C49_pg_up_partial.
Print Assumptions C49_pg_down_partial.
Print Assumptions C49_pg_nullable_refuted.
Print Assumptions C49_pg_dropped_refuted.
Print Assumptions C49_pg_fresh_refuted.
Print Assumptions C49_pg_restore_refuted.
Print Assumptions C49_pg_serial_refuted.
Print Assumptions C49_pg_again_refuted.
Print Assumptions C49_mysql_fresh_partial.
Print Assumptions C49_mysql_down_refuted.
Print Assumptions C49_mysql_existing_refuted.
Print Assumptions C49_sqlite_refuted.
