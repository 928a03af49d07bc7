(** Proofs about JSON columns. *)
From Verif Require Import Base LemmasBase ModelStrconv ModelArray ModelUtf8 ModelEncoding SpecText SpecJson LemmasArray2 LemmasArray3 LemmasUtf8 LemmasJson LemmasEncoding ModelJson SpecJsonValue.

Section Ind.
Variable P : gtype -> Prop.
Hypothesis HAny : P GAny.
Hypothesis HBool : P GBool.
Hypothesis HInt : forall b, P (GInt b).
Hypothesis HString : P GString.
Hypothesis HSlice : forall t, P t -> P (GSlice t).
Hypothesis HMap : forall t, P t -> P (GMap t).
Hypothesis HStruct : forall fs, Forall (fun f : bytes * gtype => P (snd f)) fs -> P (GStruct fs).
Hypothesis HPtr : forall t, P t -> P (GPtr t).
Fixpoint gtype_rec' (t : gtype) : P t :=
  match t with
  | GAny => HAny | GBool => HBool | GInt b => HInt b | GString => HString
  | GSlice t => HSlice t (gtype_rec' t)
  | GMap t => HMap t (gtype_rec' t)
  | GStruct fs => HStruct fs ((fix go (fs : list (bytes * gtype)) : Forall (fun f : bytes * gtype => P (snd f)) fs :=
      match fs with [] => Forall_nil _ | f :: r => Forall_cons f (gtype_rec' (snd f)) (go r) end) fs)
  | GPtr t => HPtr t (gtype_rec' t)
  end.
End Ind.

Lemma zero_is_zero t : is_zero t (zero_of t).
Proof.
  induction t as [ | | | | | | fs IH | ] using gtype_rec'; try constructor.
  induction IH as [ | f r Hf Hr IH' ]; cbn [map]; constructor; [ split; [ reflexivity | exact Hf ] | exact IH' ].
Qed.
Lemma is_zero_unique t : forall x, is_zero t x -> x = zero_of t.
Proof.
  induction t as [ | | | | | | fs IH | ] using gtype_rec'; intros x H; inversion H as [ | | | | | | | fs' xs F ]; subst; try reflexivity.
  cbn [zero_of]. f_equal. clear H. induction F as [ | f p fs xs [E Z] F' IH' ]; [ reflexivity | ]. inversion IH as [ | a l Ha Hl ]; subst.
  cbn [map]. rewrite (IH' Hl). destruct p as [n x]. cbn in *. subst n. now rewrite <- (Ha _ Z).
Qed.

Lemma bseq_true_iff a b : bseq a b = true <-> a = b.
Proof.
  revert b; induction a as [ | x a IH ]; intros [ | y b ]; cbn; try (split; [ reflexivity || discriminate | reflexivity || discriminate ]).
  rewrite andb_true_iff, IH. unfold beq. rewrite Ascii.eqb_eq. split; [ intros [-> ->]; reflexivity | intros H; injection H; auto ].
Qed.
Lemma bseq_same a : bseq a a = true. Proof. now apply bseq_true_iff. Qed.
Lemma bseq_other a b : a <> b -> bseq a b = false.
Proof. intros H. destruct (bseq a b) eqn:E; [ apply bseq_true_iff in E; contradiction | reflexivity ]. Qed.

(** Closed forms of the loops. *)
Lemma elems_new d z l : decode_elems d z [] l = (map (fun j => fst (d z j)) l, forallb (fun j => snd (d z j)) l).
Proof. induction l as [ | j l IH ]; [ reflexivity | ]. cbn. rewrite IH. destruct (d z j). reflexivity. Qed.

Lemma update_absent k x m : ~ In k (map fst m) -> update k x m = m ++ [(k, x)].
Proof.
  induction m as [ | [n y] m IH ]; [ reflexivity | ]. cbn. intros H. rewrite bseq_other by tauto. rewrite IH by tauto. reflexivity.
Qed.
Lemma entries_new d z l : NoDup (map fst l) -> forall m, (forall k, In k (map fst l) -> ~ In k (map fst m)) ->
  decode_entries d z m l = (m ++ map (fun p : bytes * json => (fst p, fst (d z (snd p)))) l, forallb (fun p : bytes * json => snd (d z (snd p))) l).
Proof.
  induction l as [ | [k j] l IH ]; intros ND m H; [ cbn; now rewrite app_nil_r | ].
  inversion ND as [ | a b Hk ND' ]; subst. cbn. destruct (d z j) as [x ok] eqn:E.
  rewrite update_absent by (apply H; left; reflexivity). rewrite IH; [ | exact ND' | ].
  - cbn. rewrite <- app_assoc. reflexivity.
  - intros k' Hk'. rewrite map_app, in_app_iff. cbn. intros [ C | [ -> | [] ] ]; [ apply (H k'); [ now right | exact C ] | contradiction ].
Qed.

Section Members.
Variable ds : list (bytes * (gval -> json -> gval * bool)).
Definition new_val (l : list (bytes * json)) (p : bytes * gval) : bytes * gval :=
  (fst p, match find_field (fst p) ds, find_field (fst p) l with Some d, Some j => fst (d (snd p) j) | _, _ => snd p end).
Definition val_ok (l : list (bytes * json)) (p : bytes * gval) : bool :=
  match find_field (fst p) ds, find_field (fst p) l with Some d, Some j => snd (d (snd p) j) | _, _ => true end.

Lemma find_absent {A} k (l : list (bytes * A)) : ~ In k (map fst l) -> find_field k l = None.
Proof. induction l as [ | [n a] l IH ]; [ reflexivity | ]. cbn. intros H. rewrite bseq_other by tauto. apply IH. tauto. Qed.

Lemma skip_member k j r xs : find_field k ds = None \/ ~ In k (map fst xs) ->
  map (new_val ((k, j) :: r)) xs = map (new_val r) xs /\ forallb (val_ok ((k, j) :: r)) xs = forallb (val_ok r) xs.
Proof.
  intros H. induction xs as [ | [n x] xs IH ]; [ split; reflexivity | ].
  destruct IH as [IH1 IH2]; [ destruct H as [H | H]; [ now left | right; cbn in H; tauto ] | ].
  cbn [map forallb]. rewrite IH1, IH2. clear IH1 IH2.
  assert (E : new_val ((k, j) :: r) (n, x) = new_val r (n, x) /\ val_ok ((k, j) :: r) (n, x) = val_ok r (n, x)).
  { unfold new_val, val_ok. cbn [fst snd find_field]. destruct (bseq k n) eqn:Ek; [ | split; reflexivity ].
    apply bseq_true_iff in Ek. subst n. destruct H as [-> | H]; [ split; reflexivity | exfalso; apply H; left; reflexivity ]. }
  destruct E as [-> ->]. split; reflexivity.
Qed.
Lemma take_member k j r d : find_field k ds = Some d -> ~ In k (map fst r) -> forall xs x, NoDup (map fst xs) -> lookup k xs = Some x ->
  map (new_val r) (update k (fst (d x j)) xs) = map (new_val ((k, j) :: r)) xs /\
  snd (d x j) && forallb (val_ok r) (update k (fst (d x j)) xs) = forallb (val_ok ((k, j) :: r)) xs.
Proof.
  intros Hd Hr. induction xs as [ | [n y] xs IH ]; intros x ND L; [ discriminate | ]. inversion ND as [ | a b Hn ND' ]; subst.
  cbn [lookup] in L. cbn [update]. destruct (bseq n k) eqn:E.
  - apply bseq_true_iff in E. subst n. injection L as ->. cbn [map forallb].
    destruct (skip_member k j r xs (or_intror Hn)) as [-> ->].
    unfold new_val at 1 3, val_ok at 1 3. cbn [fst snd find_field]. rewrite Hd, bseq_same, (find_absent k r Hr). split; reflexivity.
  - destruct (IH x ND' L) as [I1 I2]. cbn [map forallb]. rewrite I1, <- I2.
    assert (K : new_val ((k, j) :: r) (n, y) = new_val r (n, y) /\ val_ok ((k, j) :: r) (n, y) = val_ok r (n, y)).
    { unfold new_val, val_ok. cbn [fst snd find_field]. rewrite (bseq_other k n) by (intros ->; rewrite bseq_same in E; discriminate). split; reflexivity. }
    destruct K as [-> ->]. split; [ reflexivity | ]. rewrite !andb_assoc, (andb_comm (snd (d x j))). reflexivity.
Qed.
Lemma lookup_in k xs : In k (map fst xs) <-> lookup k xs <> None.
Proof.
  induction xs as [ | [n y] xs IH ]; cbn; [ split; [ intros [] | congruence ] | ].
  destruct (bseq n k) eqn:E; [ apply bseq_true_iff in E; subst; split; [ discriminate | now left ] | ].
  rewrite <- IH. split; [ intros [-> | H]; [ rewrite bseq_same in E; discriminate | exact H ] | now right ].
Qed.
Lemma update_keys k x xs y : lookup k xs = Some y -> map fst (update k x xs) = map fst xs.
Proof.
  induction xs as [ | [n z] xs IH ]; [ discriminate | ]. cbn. destruct (bseq n k); [ reflexivity | ]. intros H. cbn. now rewrite IH.
Qed.
Lemma members_spec l : NoDup (map fst l) -> forall xs, NoDup (map fst xs) ->
  decode_members ds xs l = (map (new_val l) xs, forallb (val_ok l) xs).
Proof.
  induction l as [ | [k j] r IH ]; intros NDl xs NDx.
  - cbn. f_equal.
    + induction xs as [ | [n x] xs IHx ]; [ reflexivity | ]. inversion NDx; subst. cbn. rewrite <- IHx by assumption.
      unfold new_val. cbn. destruct (find_field n ds); reflexivity.
    + clear NDx. induction xs as [ | [n x] xs IHx ]; [ reflexivity | ]. cbn. rewrite <- IHx. unfold val_ok. cbn. destruct (find_field n ds); reflexivity.
  - inversion NDl as [ | a b Hk NDr ]; subst. cbn [decode_members].
    destruct (find_field k ds) as [ d | ] eqn:D.
    + destruct (lookup k xs) as [ x | ] eqn:L.
      * destruct (take_member k j r d D Hk xs x NDx L) as [<- <-]. destruct (d x j) as [y ok]. cbn [fst snd].
        rewrite IH; [ reflexivity | exact NDr | now rewrite (update_keys _ _ _ _ L) ].
      * assert (Hx : ~ In k (map fst xs)) by (rewrite lookup_in; intros C; apply C; exact L).
        destruct (skip_member k j r xs (or_intror Hx)) as [-> ->]. now apply IH.
    + destruct (skip_member k j r xs (or_introl D)) as [-> ->]. now apply IH.
Qed.
End Members.

Lemma find_in {A} k (l : list (bytes * A)) a : NoDup (map fst l) -> (find_field k l = Some a <-> In (k, a) l).
Proof.
  induction l as [ | [n b] l IH ]; intros ND; cbn; [ split; [ discriminate | intros [] ] | ]. inversion ND as [ | x y Hn ND' ]; subst.
  destruct (bseq n k) eqn:E.
  - apply bseq_true_iff in E. subst n. split; [ intros H; injection H as ->; now left | ].
    intros [ H | H ]; [ injection H as ->; reflexivity | ]. exfalso. apply Hn. apply in_map_iff. exists (k, a). auto.
  - rewrite (IH ND'). split; [ now right | ]. intros [ H | H ]; [ injection H as -> ->; rewrite bseq_same in E; discriminate | exact H ].
Qed.
Lemma find_none {A} k (l : list (bytes * A)) : find_field k l = None <-> ~ In k (map fst l).
Proof.
  split; [ | apply find_absent ]. induction l as [ | [n b] l IH ]; cbn; [ tauto | ].
  destruct (bseq n k) eqn:E; [ discriminate | ]. intros H [ -> | C ]; [ rewrite bseq_same in E; discriminate | exact (IH H C) ].
Qed.
Lemma find_map {A C} (f : bytes * A -> C) k (l : list (bytes * A)) :
  find_field k (map (fun p => (fst p, f p)) l) = match find_field k l with Some a => Some (f (k, a)) | None => None end.
Proof.
  induction l as [ | [n a] l IH ]; [ reflexivity | ]. cbn. destruct (bseq n k) eqn:E; [ apply bseq_true_iff in E; subst; reflexivity | exact IH ].
Qed.

Lemma fold_Forall {A} (Q : A -> Prop) l : fold_right (fun x P => Q x /\ P) True l <-> Forall Q l.
Proof.
  induction l as [ | a l IH ]; cbn; [ split; constructor | ]. rewrite IH. split; [ intros [? ?]; now constructor | intros H; inversion H; auto ].
Qed.

Lemma parse_int_accepts' bits s z : (0 < bits)%N -> denotes_int s z -> fits_signed bits z -> parse_int bits s = Some z.
Proof.
  intros Hb D F. unfold fits_signed in F.
  assert (P : Z.of_N (2 ^ (bits - 1)) = (2 ^ (Z.of_N bits - 1))%Z) by (rewrite N2Z.inj_pow; f_equal; lia).
  rewrite <- P in F. clear P Hb.
  destruct D as [ds D|ds D|ds D]; destruct (parse_digits_total ds D) as (n & E & V); unfold parse_int; rewrite <- V in *.
  - destruct ds as [|c d]; [destruct D; contradiction|]. destruct (decimal_digits_head c d D) as [H1 H2].
    rewrite (proj2 (beq_neq _ _) H1), (proj2 (beq_neq _ _) H2), E.
    destruct (N.ltb_spec n (2 ^ (bits - 1))); [congruence|]. exfalso. lia.
  - change (beq "+" "-") with false. change (beq "+" "+") with true. cbv iota. rewrite E.
    destruct (N.ltb_spec n (2 ^ (bits - 1))); [congruence|]. exfalso. lia.
  - change (beq "-" "-") with true. cbv iota. rewrite E.
    destruct (N.leb_spec n (2 ^ (bits - 1))); [congruence|]. exfalso. lia.
Qed.

(** Decoding into a zero value. *)
Lemma decode_null t : decode t (zero_of t) JNull = (zero_of t, true).
Proof. destruct t; reflexivity. Qed.
Lemma denotes_null t x : denotes t JNull x <-> x = zero_of t.
Proof.
  split; [ | intros ->; constructor; apply zero_is_zero ].
  intros H; inversion H; subst; try reflexivity; try contradiction. now apply is_zero_unique.
Qed.

Lemma forallb_map' {A C} (g : C -> bool) (h : A -> C) l : forallb g (map h l) = forallb (fun a => g (h a)) l.
Proof. induction l as [ | a l IH ]; [ reflexivity | cbn; now rewrite IH ]. Qed.

Lemma Forall2_map_r {A C} (R : A -> C -> Prop) (f : A -> C) (Q : A -> bool) l : 
  (forall a x, In a l -> (R a x <-> x = f a /\ Q a = true)) -> forall xs,
  (Forall2 R l xs <-> xs = map f l /\ forallb Q l = true).
Proof.
  induction l as [ | a l IH ]; intros H xs; cbn.
  - split; [ intros F; inversion F; subst; split; reflexivity | intros [-> _]; constructor ].
  - split.
    + intros F; inversion F as [ | ? x ? xs' Hr F' ]; subst. apply (H a x (or_introl eq_refl)) in Hr as [-> ->].
      apply (IH (fun b y Hb => H b y (or_intror Hb))) in F' as [-> ->]. auto.
    + intros [-> E]. apply andb_true_iff in E as [E1 E2]. constructor; [ apply (H a _ (or_introl eq_refl)); auto | apply (IH (fun b y Hb => H b y (or_intror Hb))); auto ].
Qed.

Lemma decode_zero t : forall j x, proper t -> unique_keys j -> (decode t (zero_of t) j = (x, true) <-> denotes t j x).
Proof.
  induction t as [ | | bits | | t IH | t IH | fs IH | t IH ] using gtype_rec'; intros j x Pt Uj;
    (destruct j as [ | b | s | s | js | js ]; [ rewrite decode_null, denotes_null; split; [ congruence | intros ->; reflexivity ] | .. ]).
  all: try (cbn; split; intros H; inversion H; subst; solve [ constructor | reflexivity | discriminate ]).
  - (* int *) cbn [decode]. cbn in Pt. destruct (parse_int bits s) as [ z | ] eqn:E.
    + destruct (parse_int_denotes bits s z Pt E) as [D F]. split.
      * intros H; injection H as <-. now constructor.
      * intros H; inversion H; subst. erewrite (parse_int_accepts' bits s) in E; [ injection E as <-; reflexivity | eassumption.. ].
    + split; [ discriminate | ]. intros H; inversion H; subst. erewrite (parse_int_accepts' bits s) in E; [ discriminate | eassumption.. ].
  - (* slice *) cbn [decode zero_of]. rewrite elems_new.
    assert (K := Forall2_map_r (denotes t) (fun j => fst (decode t (zero_of t) j)) (fun j => snd (decode t (zero_of t) j)) js).
    cbn [unique_keys] in Uj. apply (fold_Forall unique_keys) in Uj. rewrite Forall_forall in Uj.
    assert (H0 : forall a x, In a js -> (denotes t a x <-> x = fst (decode t (zero_of t) a) /\ snd (decode t (zero_of t) a) = true)).
    { intros a y Ha. rewrite <- (IH a y Pt (Uj a Ha)). destruct (decode t (zero_of t) a); cbn. split; [ intros H; injection H; auto | intros [-> ->]; reflexivity ]. }
    specialize (K H0). split.
    + intros H; injection H as <- E. constructor. apply K. auto.
    + intros H; inversion H as [ | | | | | | ? ? xs F | | ]; subst. apply K in F as [-> ->]. reflexivity.
  - (* map *) cbn [decode zero_of]. cbn [unique_keys] in Uj. destruct Uj as [ND Uj].
    rewrite entries_new by (cbn; auto). cbn [app].
    apply (fold_Forall (fun p : bytes * json => unique_keys (snd p))) in Uj. rewrite Forall_forall in Uj.
    assert (K := Forall2_map_r (fun (a : bytes * json) (b : bytes * gval) => fst a = fst b /\ denotes t (snd a) (snd b))
       (fun p : bytes * json => (fst p, fst (decode t (zero_of t) (snd p)))) (fun p : bytes * json => snd (decode t (zero_of t) (snd p))) js).
    assert (H0 : forall (a : bytes * json) (y : bytes * gval), In a js -> (fst a = fst y /\ denotes t (snd a) (snd y) <->
        y = (fst a, fst (decode t (zero_of t) (snd a))) /\ snd (decode t (zero_of t) (snd a)) = true)).
    { intros a [n y] Ha. rewrite <- (IH (snd a) y Pt (Uj a Ha)). cbn [fst snd]. destruct (decode t (zero_of t) (snd a)); cbn.
      split; [ intros [-> H]; injection H as -> ->; auto | intros [H ->]; injection H as -> ->; auto ]. }
    specialize (K H0). split.
    + intros H; injection H as <- E. constructor. apply K. auto.
    + intros H; inversion H as [ | | | | | | | ? ? xs F | ]; subst. apply K in F as [-> ->]. reflexivity.
  - (* struct *) cbn [decode zero_of]. cbn [unique_keys] in Uj. destruct Uj as [ND Uj].
    cbn [proper] in Pt. destruct Pt as [NDf Pt]. apply (fold_Forall (fun f : bytes * gtype => proper (snd f))) in Pt. rewrite Forall_forall in Pt.
    apply (fold_Forall (fun p : bytes * json => unique_keys (snd p))) in Uj. rewrite Forall_forall in Uj. rewrite Forall_forall in IH.
    assert (NDz : NoDup (map fst (map (fun f : bytes * gtype => (fst f, zero_of (snd f))) fs))) by (rewrite map_map; exact NDf).
    rewrite members_spec by assumption. rewrite map_map.
    set (ds := map (fun f : bytes * gtype => (fst f, decode (snd f))) fs).
    match goal with |- context [forallb ?g (map ?h fs)] => set (G := g); set (Z := h) end.
    rewrite forallb_map'.
    assert (K := Forall2_map_r (fun (f : bytes * gtype) (p : bytes * gval) => fst f = fst p /\
      ((exists j, In (fst f, j) js /\ denotes (snd f) j (snd p)) \/ (~ In (fst f) (map fst js) /\ is_zero (snd f) (snd p))))
      (fun f => new_val ds js (Z f)) (fun f => G (Z f)) fs).
    assert (H0 : forall (f : bytes * gtype) (p : bytes * gval), In f fs -> (fst f = fst p /\
      ((exists j, In (fst f, j) js /\ denotes (snd f) j (snd p)) \/ (~ In (fst f) (map fst js) /\ is_zero (snd f) (snd p))) <->
      p = new_val ds js (Z f) /\ G (Z f) = true)).
    { intros [n t] [m y] Hf. subst G Z. unfold new_val, val_ok. cbn [fst snd].
      assert (Fd : find_field n ds = Some (decode t)).
      { unfold ds. rewrite (find_map (fun f : bytes * gtype => decode (snd f))). rewrite (proj2 (find_in n fs t NDf) Hf). reflexivity. }
      rewrite Fd. destruct (find_field n js) as [ j | ] eqn:Fj.
      - pose proof (proj1 (find_in n js j ND) Fj) as Hj.
        assert (Eq := IH (n, t) Hf j y (Pt (n, t) Hf) (Uj (n, j) Hj)). cbn [snd] in Eq.
        destruct (decode t (zero_of t) j) as [y' ok]. cbn [fst snd]. split.
        + intros [<- [ (j' & Hj' & D) | [C _] ]].
          * apply (find_in n js j' ND) in Hj'. rewrite Fj in Hj'. injection Hj' as <-. apply Eq in D. injection D as -> ->. auto.
          * exfalso. apply C. apply in_map_iff. exists (n, j). auto.
        + intros [E ->]. injection E as -> ->. split; [ reflexivity | ]. left. exists j. split; [ exact Hj | ]. now apply Eq.
      - apply find_none in Fj. split.
        + intros [<- [ (j' & Hj' & D) | [_ Z0] ]].
          * exfalso. apply Fj. apply in_map_iff. exists (n, j'). auto.
          * apply is_zero_unique in Z0. subst y. auto.
        + intros [E _]. injection E as -> ->. split; [ reflexivity | ]. right. split; [ exact Fj | apply zero_is_zero ]. }
    specialize (K H0). split.
    + intros H; injection H as <- E. constructor. apply K. auto.
    + intros H; inversion H as [ | | | | | | | | ? ? xs F ]; subst. apply K in F as [-> ->]. reflexivity.
  - cbn [decode zero_of]. specialize (IH (JBool b) (match x with XPtr y => y | _ => XNil end) Pt Uj). destruct (decode t (zero_of t) (JBool b)) as [y ok]. split.
    + intros H; injection H as <- ->. constructor; [ discriminate | ]. now apply IH.
    + intros H; inversion H; subst. cbn in IH. apply IH in H2. injection H2 as -> ->. reflexivity.
  - cbn [decode zero_of]. specialize (IH (JNum s) (match x with XPtr y => y | _ => XNil end) Pt Uj). destruct (decode t (zero_of t) (JNum s)) as [y ok]. split.
    + intros H; injection H as <- ->. constructor; [ discriminate | ]. now apply IH.
    + intros H; inversion H; subst. cbn in IH. apply IH in H2. injection H2 as -> ->. reflexivity.
  - cbn [decode zero_of]. specialize (IH (JStr s) (match x with XPtr y => y | _ => XNil end) Pt Uj). destruct (decode t (zero_of t) (JStr s)) as [y ok]. split.
    + intros H; injection H as <- ->. constructor; [ discriminate | ]. now apply IH.
    + intros H; inversion H; subst. cbn in IH. apply IH in H2. injection H2 as -> ->. reflexivity.
  - cbn [decode zero_of]. specialize (IH (JArr js) (match x with XPtr y => y | _ => XNil end) Pt Uj). destruct (decode t (zero_of t) (JArr js)) as [y ok]. split.
    + intros H; injection H as <- ->. constructor; [ discriminate | ]. now apply IH.
    + intros H; inversion H; subst. cbn in IH. apply IH in H2. injection H2 as -> ->. reflexivity.
  - cbn [decode zero_of]. specialize (IH (JObj js) (match x with XPtr y => y | _ => XNil end) Pt Uj). destruct (decode t (zero_of t) (JObj js)) as [y ok]. split.
    + intros H; injection H as <- ->. constructor; [ discriminate | ]. now apply IH.
    + intros H; inversion H; subst. cbn in IH. apply IH in H2. injection H2 as -> ->. reflexivity.
Qed.

(** Writing. *)
Lemma encode_null x : encode x = JNull -> nullish x.
Proof.
  induction x; cbn; try discriminate; [ intros ->; constructor | intros H; constructor; auto | constructor ].
Qed.
Definition written t x := denotes t (encode x) x /\ unique_keys (encode x) /\ clean (encode x).
Lemma number_ok_int z : number_ok (format_int z) = true.
Proof. destruct z as [ | p | p ]; [ reflexivity | apply (number_ok_uint (Npos p)) | apply (number_ok_uint (Npos p)) ]. Qed.

Lemma encode_ok t : proper t -> forall x, typed t x -> storable x -> written t x.
Proof.
  induction t as [ | | bits | | t IH | t IH | fs IH | t IH ] using gtype_rec'; intros Pt x T St; inversion T; subst.
  - destruct St as (U & C & _). split; [ constructor | split; assumption ].
  - repeat split; constructor.
  - cbn in Pt. split; [ | split; [ exact I | apply number_ok_int ] ]. cbn [encode].
    match goal with F : fits_signed _ _ |- _ => pose proof (parse_int_format bits z Pt F) as E end.
    destruct (parse_int_denotes bits _ _ Pt E). now constructor.
  - cbn in St. split; [ constructor | split; [ exact I | exact St ] ].
  - cbn [storable] in St. apply (fold_Forall storable) in St.
    match goal with F : Forall (typed t) _ |- _ => rename F into FT end. clear T.
    assert (K : Forall (written t) xs) by (induction St; inversion FT; subst; constructor; auto).
    clear - K. unfold written. cbn [encode]. split; [ constructor; induction K as [ | y l (D & _) ]; constructor; assumption | ].
    split; cbn [unique_keys clean].
    + apply (fold_Forall unique_keys). induction K as [ | y l (D & U & C) ]; constructor; assumption.
    + apply (fold_Forall clean). induction K as [ | y l (D & U & C) ]; constructor; assumption.
  - split; [ constructor; constructor | split; exact I ].
  - cbn [storable] in St. apply (fold_Forall (fun p : bytes * gval => utf8_text (fst p) /\ storable (snd p))) in St.
    match goal with F : Forall _ xs, N : NoDup _ |- _ => rename F into FT; rename N into ND end. clear T.
    assert (K : Forall (fun p : bytes * gval => utf8_text (fst p) /\ written t (snd p)) xs).
    { clear ND. induction St as [ | p ps [H1 H2] ]; inversion FT; subst; constructor; auto. }
    clear - K ND. unfold written. cbn [encode]. split.
    + constructor. clear ND. induction K as [ | p ps [_ (D & _)] ]; [ constructor | ]. cbn [map]. constructor; [ split; [ reflexivity | exact D ] | assumption ].
    + split; cbn [unique_keys clean].
      * split; [ rewrite map_map; exact ND | ]. apply (fold_Forall (fun p : bytes * json => unique_keys (snd p))). clear ND.
        induction K as [ | p ps [_ (D & U & C)] ]; cbn [map]; constructor; assumption.
      * apply (fold_Forall (fun p : bytes * json => utf8_text (fst p) /\ clean (snd p))). clear ND.
        induction K as [ | p ps [T (D & U & C)] ]; cbn [map]; constructor; [ split; assumption | assumption ].
  - split; [ constructor; constructor | split; exact I ].
  - cbn [storable] in St. apply (fold_Forall (fun p : bytes * gval => utf8_text (fst p) /\ storable (snd p))) in St.
    cbn [proper] in Pt. destruct Pt as [NDf Pt]. apply (fold_Forall (fun f : bytes * gtype => proper (snd f))) in Pt.
    match goal with F : Forall2 _ fs xs |- _ => rename F into FT end. clear T.
    assert (N : map fst fs = map fst xs) by (clear - FT; induction FT as [ | f p fs xs [E _] F IHF ]; [ reflexivity | cbn; now rewrite E, IHF ]).
    assert (K : Forall2 (fun (f : bytes * gtype) (p : bytes * gval) => fst f = fst p /\ utf8_text (fst p) /\ written (snd f) (snd p)) fs xs).
    { clear NDf N. induction FT as [ | f p fs xs [E Tp] F IHF ]; [ constructor | ]. inversion IH; subst. inversion Pt; subst. inversion St as [ | ? ? [S1 S2] ]; subst.
      constructor; [ | now apply IHF ]. split; [ exact E | split; [ exact S1 | auto ] ]. }
    rewrite N in NDf. clear - K NDf. unfold written. cbn [encode]. split.
    + constructor. assert (Hin : forall p, In p xs -> In (fst p, encode (snd p)) (map (fun p : bytes * gval => (fst p, encode (snd p))) xs)).
      { intros p Hp. apply in_map_iff. exists p. auto. }
      revert Hin. generalize (map (fun p : bytes * gval => (fst p, encode (snd p))) xs). intros js Hin. clear NDf.
      induction K as [ | f p fs xs (E & _ & D & _) F IHF ]; [ constructor | ]. constructor; [ | apply IHF; intros q Hq; apply Hin; now right ].
      split; [ exact E | ]. left. exists (encode (snd p)). split; [ rewrite E; apply Hin; now left | exact D ].
    + split; cbn [unique_keys clean].
      * split; [ rewrite map_map; exact NDf | ]. apply (fold_Forall (fun p : bytes * json => unique_keys (snd p))). clear NDf.
        induction K as [ | f p fs xs (_ & _ & _ & U & _) F IHF ]; cbn [map]; constructor; assumption.
      * apply (fold_Forall (fun p : bytes * json => utf8_text (fst p) /\ clean (snd p))). clear NDf.
        induction K as [ | f p fs xs (_ & T & _ & _ & C) F IHF ]; cbn [map]; constructor; [ split; assumption | assumption ].
  - cbn [storable] in St. destruct St as [NN St]. cbn [encode proper] in *. match goal with Tx : typed t x0 |- _ => destruct (IH Pt _ Tx St) as (D & U & C) end.
    split; [ | split; assumption ]. cbn [encode]. constructor; [ | exact D ]. intros E. apply NN. now apply encode_null in E.
  - split; [ constructor; constructor | split; exact I ].
Qed.
Lemma depth_encode : forall x, depth (encode x) = nesting x.
Proof.
  fix IH 1. intros [ j | b | z | s | l | l | l | x | ]; cbn [encode nesting depth]; try reflexivity; [ | | | apply IH ].
  - f_equal. induction l as [ | y l IHl ]; [ reflexivity | ]. cbn. now rewrite IH, IHl.
  - f_equal. induction l as [ | y l IHl ]; [ reflexivity | ]. cbn. now rewrite IH, IHl.
  - f_equal. induction l as [ | y l IHl ]; [ reflexivity | ]. cbn. now rewrite IH, IHl.
Qed.

(** Printing and reading a string. *)
Lemma json_rune_read u : scalar u = true -> forall r,
  string_body (json_rune (u, encode_rune u, true) ++ r) = match string_body r with Some (v, rest) => Some (encode_rune u ++ v, rest) | None => None end.
Proof.
  intros Sc r. destruct (N.lt_ge_cases u 128) as [L|G].
  - assert (I : In u (map N.of_nat (seq 0 128))).
    { apply in_map_iff. exists (N.to_nat u). split; [lia|]. apply in_seq. lia. }
    rewrite encode_low by exact L. clear - I. cbn in I. repeat destruct I as [<-|I]; try reflexivity. destruct I.
  - pose proof (encode_high u Sc G) as EH. unfold json_rune. cbn [negb].
    destruct (N.eqb_spec u 34); [lia|]. destruct (N.eqb_spec u 92); [lia|]. cbn [orb].
    destruct (N.eqb_spec u 8); [lia|]. destruct (N.eqb_spec u 12); [lia|]. destruct (N.eqb_spec u 10); [lia|].
    destruct (N.eqb_spec u 13); [lia|]. destruct (N.eqb_spec u 9); [lia|]. destruct (N.ltb_spec u 32); [lia|].
    destruct (N.eqb_spec u 60); [lia|]. destruct (N.eqb_spec u 62); [lia|]. destruct (N.eqb_spec u 38); [lia|]. cbn [orb].
    destruct (N.eqb_spec u 8232) as [->|N1]; [reflexivity|]. destruct (N.eqb_spec u 8233) as [->|N2]; [reflexivity|]. cbn [orb].
    apply string_body_high, EH.
Qed.
Lemma print_string_read s rest : utf8_text s -> exists body, print_string s ++ rest = dquote :: body /\ string_body body = Some (s, rest).
Proof.
  intros (us & F & ->). assert (Sc : Forall (fun u => scalar u = true) us).
  { eapply Forall_impl; [ | exact F ]. intros u H. unfold scalar. destruct H as [H | [H1 H2]].
    - now rewrite (proj2 (N.ltb_lt _ _) H).
    - rewrite (proj2 (N.ltb_lt _ _) H1), (proj2 (N.ltb_lt _ _) H2). apply orb_true_r. }
  unfold print_string. change (concat (map utf8_of us)) with (utf8 us). rewrite runes_utf8 by exact Sc.
  exists (concat (map json_rune (map (fun u => (u, encode_rune u, true)) us)) ++ dquote :: rest).
  split; [ cbn [app]; rewrite <- app_assoc; reflexivity | ]. clear F. induction Sc as [ | u us Hu Hus IH ]; [ reflexivity | ]. cbn [map concat]. rewrite <- app_assoc, json_rune_read by exact Hu. rewrite IH. reflexivity.
Qed.
(** Printing and reading a tree. *)
Definition ends (rest : bytes) : Prop := match rest with [] => True | c :: _ => num_c c = false end.
Lemma members_S f s : members (S f) s =
    match skip_ws s with
    | [] => None
    | c :: r =>
      if Ascii.eqb c """" then
        match string_body r with
        | None => None
        | Some (k, r1) =>
          match skip_ws r1 with
          | [] => None
          | d :: r2 =>
            if Ascii.eqb d ":" then
              match value f r2 with
              | None => None
              | Some (v, r3) =>
                match skip_ws r3 with
                | [] => None
                | e :: r4 =>
                  if Ascii.eqb e "," then
                    match members f r4 with Some (l, rest) => Some ((k, v) :: l, rest) | None => None end
                  else if Ascii.eqb e "}" then Some ([(k, v)], r4) else None
                end
              end
            else None
          end
        end
      else None
    end.
Proof. reflexivity. Qed.
Lemma value_obj f r : value (S f) ("{"%char :: r) =
        match skip_ws r with
        | [] => None
        | d :: r' => if Ascii.eqb d "}" then Some (JObj [], r')
                     else match members f r with Some (l, rest) => Some (JObj l, rest) | None => None end
        end.
Proof. reflexivity. Qed.
Lemma number_num_c s : number_ok s = true -> forallb num_c s = true.
Proof.
  assert (D : forall s, forallb digit_c s = true -> forallb num_c s = true).
  { induction s0 as [ | c r IH ]; [ reflexivity | ]. cbn. intros H. apply andb_true_iff in H as [H1 H2]. unfold num_c at 1. now rewrite H1, IH. }
  assert (SP : forall s a b, span digit_c s = (a, b) -> s = a ++ b /\ forallb digit_c a = true).
  { induction s0 as [ | c r IH ]; intros a b H; cbn in H; [ injection H as <- <-; split; reflexivity | ].
    destruct (digit_c c) eqn:Ec; [ | injection H as <- <-; split; reflexivity ]. destruct (span digit_c r) as [x y]. injection H as <- <-.
    destruct (IH x y eq_refl) as [-> H2]. split; [ reflexivity | cbn; now rewrite Ec, H2 ]. }
  assert (A : forall s, all_dig s = true -> forallb num_c s = true).
  { intros [ | c r ] H; [ discriminate | ]. apply D. exact H. }
  assert (K : forall c, existsb (Ascii.eqb c) ["+"%char; "-"%char; "."%char; "e"%char; "E"%char] = true -> num_c c = true).
  { intros c H. unfold num_c. rewrite H. apply orb_true_r. }
  assert (X : forall s, exp_ok s = true -> forallb num_c s = true).
  { intros [ | c r ] H; [ reflexivity | ]. cbn in H. apply andb_true_iff in H as [H1 H2].
    assert (num_c c = true) as Hc. { apply K. cbn. apply orb_true_iff in H1 as [H1 | H1]; apply Ascii.eqb_eq in H1; subst; reflexivity. }
    cbn [forallb]. rewrite Hc. destruct r as [ | d r' ]; [ discriminate | ].
    destruct (Ascii.eqb d "+" || Ascii.eqb d "-") eqn:Ed; [ | now apply A ].
    cbn [forallb]. rewrite (A _ H2). apply orb_true_iff in Ed as [Ed | Ed]; apply Ascii.eqb_eq in Ed; subst; reflexivity. }
  assert (FR : forall s, frac_ok s = true -> forallb num_c s = true).
  { intros [ | c r ] H; [ reflexivity | ]. unfold frac_ok in H. destruct (Ascii.eqb c ".") eqn:Ec; [ | now apply X ].
    apply Ascii.eqb_eq in Ec. subst c. destruct (span digit_c r) as [d e] eqn:Sd. destruct (SP _ _ _ Sd) as [-> Hd]. apply andb_true_iff in H as [_ H2].
    cbn [forallb]. rewrite forallb_app, (D _ Hd), (X _ H2). reflexivity. }
  assert (U : forall u, match u with [] => false | c :: r => if Ascii.eqb c "0" then frac_ok r else digit_c c && let (_, f) := span digit_c r in frac_ok f end = true -> forallb num_c u = true).
  { intros [ | c r ] H; [ discriminate | ]. destruct (Ascii.eqb c "0") eqn:Ec.
    - apply Ascii.eqb_eq in Ec. subst c. cbn [forallb]. now rewrite (FR _ H).
    - apply andb_true_iff in H as [H1 H2]. destruct (span digit_c r) as [d e] eqn:Sd. destruct (SP _ _ _ Sd) as [-> Hd]. cbn [forallb].
      rewrite forallb_app, (D _ Hd), (FR _ H2). unfold num_c. now rewrite H1. }
  unfold number_ok. destruct s as [ | c r ]; [ discriminate | ]. destruct (Ascii.eqb c "-") eqn:Ec; [ | apply (U (c :: r)) ].
  apply Ascii.eqb_eq in Ec. subst c. intros H. cbn [forallb]. now rewrite (U _ H).
Qed.
Lemma number_head s : number_ok s = true -> match s with [] => False | c :: _ => plain_head c end.
Proof.
  unfold number_ok, plain_head. destruct s as [ | c r ]; [ discriminate | ]. destruct (Ascii.eqb c "-") eqn:Ec; [ apply Ascii.eqb_eq in Ec; auto | ].
  destruct (Ascii.eqb c "0") eqn:E0; [ apply Ascii.eqb_eq in E0; subst; auto | ]. intros H. apply andb_true_iff in H as [H _]. auto.
Qed.
Lemma literal_number s rest : number_ok s = true -> ends rest -> forall f, value (S f) (s ++ rest) = Some (JNum s, rest).
Proof.
  intros H E f. pose proof (number_head s H) as P. pose proof (number_num_c s H) as N. destruct s as [ | x t ]; [ contradiction | ].
  destruct (plain_head_facts x P) as (W & Q & Br & Cu & NB & n1 & n2 & n3).
  cbn [app value skip_ws]. rewrite W, Q, Br, Cu. unfold literal. cbn [B list_ascii_of_string strip]. rewrite n1, n2, n3.
  rewrite app_comm_cons. destruct rest as [ | c r ].
  - rewrite app_nil_r, span_all by exact N. now rewrite H.
  - rewrite span_stop by assumption. now rewrite H.
Qed.
Lemma print_head j : clean j -> exists c r, print_json j = c :: r /\ is_ws c = false /\ c <> "]"%char.
Proof.
  destruct j as [ | [] | s | s | l | l ]; cbn; intros C;
    try (eexists _, _; split; [ reflexivity | split; [ reflexivity | discriminate ] ]).
  pose proof (number_head s C) as P. destruct s as [ | c r ]; [ contradiction | ]. exists c, r. destruct (plain_head_facts c P) as (W & _ & _ & _ & N & _). auto.
Qed.

Definition readable (j : json) : Prop := forall f rest, (length (print_json j) <= f)%nat -> ends rest -> value f (print_json j ++ rest) = Some (j, rest).
Lemma elements_read l : Forall readable l -> l <> [] -> forall f rest, (S (length (join (B ",") (map print_json l))) <= f)%nat ->
  elements f (join (B ",") (map print_json l) ++ "]"%char :: rest) = Some (l, rest).
Proof.
  intros F. induction F as [ | j l Hj Hl IH ]; intros NE f rest L; [ contradiction | ]. destruct f as [ | f ]; [ lia | ]. rewrite elements_S.
  destruct l as [ | k l ].
  - cbn [map join] in *. rewrite Hj; [ reflexivity | lia | reflexivity ].
  - change (map print_json (j :: k :: l)) with (print_json j :: map print_json (k :: l)) in *.
    change (join (B ",") (print_json j :: map print_json (k :: l))) with (print_json j ++ B "," ++ join (B ",") (map print_json (k :: l))) in *.
    rewrite !app_length in L. change (length (B ",")) with 1 in L. rewrite <- !app_assoc. change (B "," ++ ?x) with (","%char :: x).
    rewrite Hj; [ | lia | reflexivity ]. cbn [skip_ws]. change (is_ws ",") with false. cbv iota. change (Ascii.eqb "," ",") with true. cbv iota.
    rewrite IH; [ reflexivity | discriminate | lia ].
Qed.
Definition print_member (p : bytes * json) : bytes := print_string (fst p) ++ B ":" ++ print_json (snd p).
Lemma member_head p t : utf8_text (fst p) -> exists body, print_member p ++ t = dquote :: body.
Proof. intros H. unfold print_member. rewrite <- !app_assoc. destruct (print_string_read (fst p) (B ":" ++ print_json (snd p) ++ t) H) as (b & E & _). exists b. exact E. Qed.
Lemma members_read l : Forall (fun p : bytes * json => utf8_text (fst p) /\ readable (snd p)) l -> l <> [] -> forall f rest,
  (S (length (join (B ",") (map print_member l))) <= f)%nat ->
  members f (join (B ",") (map print_member l) ++ "}"%char :: rest) = Some (l, rest).
Proof.
  intros F. induction F as [ | [k v] l [Hk Hv] Hl IH ]; intros NE f rest L; [ contradiction | ]. destruct f as [ | f ]; [ lia | ]. rewrite members_S. cbn [fst snd] in Hk, Hv.
  assert (M : forall t, ends t -> (length (print_json v) <= f)%nat -> exists body, print_member (k, v) ++ t = dquote :: body /\ exists r2, string_body body = Some (k, ":"%char :: r2) /\ value f r2 = Some (v, t)).
  { intros t Et Lt. unfold print_member. cbn [fst snd]. rewrite <- !app_assoc.
    destruct (print_string_read k (B ":" ++ print_json v ++ t) Hk) as (b & E & Sb). exists b. split; [ exact E | ].
    exists (print_json v ++ t). split; [ exact Sb | now apply Hv ]. }
  assert (LM : (length (print_json v) < length (print_member (k, v)))%nat).
  { unfold print_member. cbn [fst snd]. rewrite !app_length. change (length (B ":")) with 1. lia. }
  destruct l as [ | q l ].
  - cbn [map join] in *. destruct (M ("}"%char :: rest)) as (b & E & r2 & Sb & V); [ reflexivity | lia | ]. rewrite E. cbn [skip_ws].
    change (is_ws dquote) with false. cbv iota. change (Ascii.eqb dquote """") with true. cbv iota. rewrite Sb. cbn [skip_ws].
    change (is_ws ":") with false. cbv iota. change (Ascii.eqb ":" ":") with true. cbv iota. rewrite V. reflexivity.
  - change (map print_member ((k, v) :: q :: l)) with (print_member (k, v) :: map print_member (q :: l)) in *.
    change (join (B ",") (print_member (k, v) :: map print_member (q :: l))) with (print_member (k, v) ++ B "," ++ join (B ",") (map print_member (q :: l))) in *.
    rewrite !app_length in L. change (length (B ",")) with 1 in L. rewrite <- !app_assoc. change (B "," ++ ?x) with (","%char :: x).
    destruct (M (","%char :: join (B ",") (map print_member (q :: l)) ++ "}"%char :: rest)) as (b & E & r2 & Sb & V); [ reflexivity | lia | ]. rewrite E. cbn [skip_ws].
    change (is_ws dquote) with false. cbv iota. change (Ascii.eqb dquote """") with true. cbv iota. rewrite Sb. cbn [skip_ws].
    change (is_ws ":") with false. cbv iota. change (Ascii.eqb ":" ":") with true. cbv iota. rewrite V. cbn [skip_ws].
    change (is_ws ",") with false. cbv iota. change (Ascii.eqb "," ",") with true. cbv iota. rewrite IH; [ reflexivity | discriminate | lia ].
Qed.
Lemma print_read : forall j, clean j -> readable j.
Proof.
  fix IH 1. intros [ | [] | s | s | l | l ] C f rest L E.
  - destruct f as [ | f ]; [ cbn in L; lia | reflexivity ].
  - destruct f as [ | f ]; [ cbn in L; lia | reflexivity ].
  - destruct f as [ | f ]; [ cbn in L; lia | reflexivity ].
  - cbn [print_json] in *. destruct f as [ | f ]; [ pose proof (number_head s C); destruct s; [ contradiction | cbn in L; lia ] | ]. now apply literal_number.
  - cbn [print_json] in *. destruct f as [ | f ]; [ cbn in L; lia | ]. destruct (print_string_read s rest C) as (b & Eb & Sb). rewrite Eb. now apply value_string.
  - cbn [print_json] in *. destruct f as [ | f ]; [ cbn in L; lia | ].
    assert (K : Forall readable l).
    { cbn [clean] in C. clear - C IH. revert C. induction l as [ | j l IHl ]; intros C; constructor; destruct C as [C1 C2]; [ now apply IH | now apply IHl ]. }
    rewrite <- !app_assoc. change (B "[" ++ ?x) with ("["%char :: x). rewrite value_arr. change (B "]" ++ rest) with ("]"%char :: rest).
    destruct l as [ | j l ]; [ reflexivity | ].
    assert (H : exists c r, join (B ",") (map print_json (j :: l)) ++ "]"%char :: rest = c :: r /\ is_ws c = false /\ c <> "]"%char).
    { destruct (print_head j) as (c & r & Ej & W & N); [ exact (proj1 C) | ]. clear - Ej W N. destruct l as [ | k l ]; cbn [map join]; rewrite Ej; cbn [app]; eexists _, _; (split; [ reflexivity | auto ]). }
    rewrite !app_length in L. change (length (B "[")) with 1 in L. change (length (B "]")) with 1 in L.
    pose proof (elements_read (j :: l) K ltac:(discriminate) f rest ltac:(lia)) as R.
    destruct H as (c & r & Ec & W & N). rewrite Ec in *. cbn [skip_ws]. rewrite W, (eqb_neq _ _ N), R. reflexivity.
  - cbn [print_json] in *. destruct f as [ | f ]; [ cbn in L; lia | ].
    change (map (fun p : bytes * json => print_string (fst p) ++ B ":" ++ print_json (snd p)) l) with (map print_member l) in *.
    assert (K : Forall (fun p : bytes * json => utf8_text (fst p) /\ readable (snd p)) l).
    { cbn [clean] in C. clear - C IH. revert C. induction l as [ | p l IHl ]; intros C; constructor; destruct C as [[C0 C1] C2]; [ split; [ exact C0 | now apply IH ] | now apply IHl ]. }
    rewrite <- !app_assoc. change (B "{" ++ ?x) with ("{"%char :: x). rewrite value_obj. change (B "}" ++ rest) with ("}"%char :: rest).
    destruct l as [ | p l ]; [ reflexivity | ].
    assert (H : exists r, join (B ",") (map print_member (p :: l)) ++ "}"%char :: rest = dquote :: r).
    { inversion K as [ | ? ? [Hp _] ]; subst. clear - Hp. destruct l as [ | q l ]; cbn [map join]; [ now apply member_head | ]. rewrite <- app_assoc. now apply member_head. }
    rewrite !app_length in L. change (length (B "{")) with 1 in L. change (length (B "}")) with 1 in L.
    pose proof (members_read (p :: l) K ltac:(discriminate) f rest ltac:(lia)) as R.
    destruct H as (r & Ec). rewrite Ec in *. cbn [skip_ws]. change (is_ws dquote) with false. cbv iota. change (Ascii.eqb dquote "}") with false. cbv iota. rewrite R. reflexivity.
Qed.
Lemma print_read_json j : clean j -> read_json (print_json j ++ [LF]) = Some j.
Proof.
  intros C. unfold read_json. rewrite (print_read j C); [ reflexivity | rewrite app_length; lia | reflexivity ].
Qed.

(** Decoding over an old value. *)
Definition agree (r1 r2 : gval * bool) : Prop := snd r1 = snd r2 /\ (snd r1 = true -> fst r1 = fst r2).
Lemma elems_agree t : (forall old j, unique_keys j /\ covers t j -> typed t old -> agree (decode t old j) (decode t (zero_of t) j)) -> typed t (zero_of t) ->
  forall js olds, Forall (fun j => unique_keys j /\ covers t j) js -> Forall (typed t) olds ->
  snd (decode_elems (decode t) (zero_of t) olds js) = snd (decode_elems (decode t) (zero_of t) [] js) /\
  (snd (decode_elems (decode t) (zero_of t) olds js) = true -> fst (decode_elems (decode t) (zero_of t) olds js) = fst (decode_elems (decode t) (zero_of t) [] js)).
Proof.
  intros IH Tz js. induction js as [ | j js IHj ]; intros olds C To; [ split; reflexivity | ]. inversion C; subst. cbn [decode_elems].
  assert (A : agree (decode t (match olds with x :: _ => x | [] => zero_of t end) j) (decode t (zero_of t) j)) by (apply IH; [ assumption | destruct To; assumption ]).
  destruct (IHj (match olds with _ :: s => s | [] => [] end)) as [E1 E2]; [ assumption | destruct To; [ constructor | assumption ] | ].
  destruct (decode t (match olds with x :: _ => x | [] => zero_of t end) j) as [y1 o1]. destruct (decode t (zero_of t) j) as [y2 o2].
  destruct (decode_elems (decode t) (zero_of t) (match olds with _ :: s => s | [] => [] end) js) as [z1 p1].
  destruct (decode_elems (decode t) (zero_of t) [] js) as [z2 p2]. destruct A as [A1 A2]. cbn in *. subst.
  split; [ reflexivity | ]. intros H. apply andb_true_iff in H as [-> ->]. now rewrite A2, E2.
Qed.
Lemma zero_typed t : proper t -> typed t (zero_of t).
Proof.
  induction t as [ | | bits | | t IH | t IH | fs IH | t IH ] using gtype_rec'; intros Pt; cbn [zero_of]; try constructor.
  - unfold fits_signed. cbn in Pt. assert (0 < 2 ^ (Z.of_N bits - 1))%Z by (apply Z.pow_pos_nonneg; lia). lia.
  - cbn [proper] in Pt. destruct Pt as [_ Pt]. apply (fold_Forall (fun f : bytes * gtype => proper (snd f))) in Pt.
    induction IH as [ | f r Hf Hr IH' ]; cbn [map]; constructor; inversion Pt; subst; [ split; [ reflexivity | now apply Hf ] | now apply IH' ].
Qed.
Lemma decode_agree t : proper t -> forall old j, unique_keys j -> covers t j -> typed t old -> agree (decode t old j) (decode t (zero_of t) j).
Proof.
  induction t as [ | | bits | | t IH | t IH | fs IH | t IH ] using gtype_rec'; intros Pt old j U C To; inversion C; subst;
    try solve [ split; reflexivity ].
  - cbn. destruct (parse_int bits s); split; reflexivity || (cbn; discriminate).
  - cbn [unique_keys] in U. apply (fold_Forall unique_keys) in U. cbn [decode zero_of].
    destruct (elems_agree t) with (js := js) (olds := match old with XSlice xs => xs | _ => [] end) as [E1 E2].
    + intros o j [Uj Cj] Tj. now apply IH.
    + now apply zero_typed.
    + match goal with F : Forall (covers t) js |- _ => revert F end. clear - U. induction U; intros F; [ constructor | ]. inversion F; subst. constructor; auto.
    + inversion To; subst; [ assumption | constructor ].
    + destruct (decode_elems (decode t) (zero_of t) (match old with XSlice xs => xs | _ => [] end) js) as [x1 o1].
      destruct (decode_elems (decode t) (zero_of t) [] js) as [x2 o2]. cbn in *. split; [ exact E1 | ]. intros H. cbn in *. now rewrite E2.
  - inversion To as [ | | | | | | | | | | fs' xs FT ]; subst. clear To.
    cbn [unique_keys] in U. destruct U as [ND U]. apply (fold_Forall (fun p : bytes * json => unique_keys (snd p))) in U. rewrite Forall_forall in U.
    cbn [proper] in Pt. destruct Pt as [NDf Pt]. apply (fold_Forall (fun f : bytes * gtype => proper (snd f))) in Pt.
    assert (N : map fst fs = map fst xs) by (clear - FT; induction FT as [ | f p fs xs [E _] F IHF ]; [ reflexivity | cbn; now rewrite E, IHF ]).
    cbn [decode zero_of]. rewrite members_spec; [ | exact ND | now rewrite <- N ]. rewrite members_spec; [ | exact ND | rewrite map_map; exact NDf ].
    set (ds := map (fun f : bytes * gtype => (fst f, decode (snd f))) fs).
    match goal with F : Forall _ fs |- _ => match type of F with Forall (fun f => exists j, _) fs => rename F into CF end end.
    assert (Fd : forall f, In f fs -> find_field (fst f) ds = Some (decode (snd f))).
    { intros [n t] Hf. unfold ds. rewrite (find_map (fun f : bytes * gtype => decode (snd f))). cbn [fst snd]. rewrite (proj2 (find_in n fs t NDf) Hf). reflexivity. }
    clearbody ds. clear N NDf C.
    assert (K : forallb (val_ok ds js) xs = forallb (val_ok ds js) (map (fun f : bytes * gtype => (fst f, zero_of (snd f))) fs) /\
      (forallb (val_ok ds js) xs = true -> map (new_val ds js) xs = map (new_val ds js) (map (fun f : bytes * gtype => (fst f, zero_of (snd f))) fs))).
    { induction FT as [ | f p fs xs [E Tp] F IHF ]; [ split; reflexivity | ]. inversion IH as [ | ? ? IHf IHr ]; subst. inversion Pt as [ | ? ? Pf Pr ]; subst. inversion CF as [ | ? ? Cf Cr ]; subst.
      destruct IHF as [K1 K2]; [ assumption.. | intros g Hg; apply Fd; now right | ].
      destruct Cf as (j & Hj & Cj). specialize (Fd f (or_introl eq_refl)).
      assert (A := IHf Pf (snd p) j (U _ Hj) Cj Tp). destruct f as [n t], p as [m y]. cbn [fst snd] in *. subst m.
      apply (find_in n js j ND) in Hj.
      assert (V : val_ok ds js (n, y) = val_ok ds js (n, zero_of t) /\ (val_ok ds js (n, y) = true -> new_val ds js (n, y) = new_val ds js (n, zero_of t))).
      { unfold val_ok, new_val. cbn [fst snd]. rewrite Fd, Hj. destruct A as [A1 A2]. split; [ exact A1 | ]. intros H. now rewrite A2. }
      destruct V as [V1 V2]. cbn [map forallb fst snd]. rewrite K1, V1 in *. split; [ reflexivity | ]. intros H. apply andb_true_iff in H as [H1 H2]. now rewrite V2, K2. }
    destruct K as [K1 K2]. split; [ exact K1 | ]. cbn [fst snd]. intros H. f_equal. now apply K2.
  - assert (A : agree (decode t (match old with XPtr x => x | _ => zero_of t end) j) (decode t (zero_of t) j)).
    { apply IH; [ exact Pt | exact U | assumption | ]. inversion To; subst; [ assumption | now apply zero_typed ]. }
    cbn [decode zero_of]. destruct A as [A1 A2].
    destruct (decode t (match old with XPtr x => x | _ => zero_of t end) j) as [x1 o1], (decode t (zero_of t) j) as [x2 o2]. cbn [fst snd] in *. subst o2.
    destruct j; try contradiction; (split; [ reflexivity | ]; cbn [fst snd]; intros H; now rewrite A2).
Qed.
Lemma decode_covers t old j x : proper t -> unique_keys j -> covers t j -> typed t old -> (decode t old j = (x, true) <-> denotes t j x).
Proof.
  intros Pt U C To. rewrite <- decode_zero by assumption. destruct (decode_agree t Pt old j U C To) as [A1 A2].
  destruct (decode t old j) as [x1 o1], (decode t (zero_of t) j) as [x2 o2]. cbn in *. subst o2.
  split; intros H; injection H as -> ->; now rewrite A2.
Qed.

(** What stays. *)
Lemma update_keeps k y m k' : In k' (map fst m) -> In k' (map fst (update k y m)).
Proof.
  induction m as [ | [n z] m IH ]; [ intros [] | ]. cbn. destruct (bseq n k); cbn; [ tauto | ]. intros [H | H]; [ now left | right; now apply IH ].
Qed.
Lemma entries_keep d z l : forall m k, In k (map fst m) -> In k (map fst (fst (decode_entries d z m l))).
Proof.
  induction l as [ | [k j] l IH ]; intros m k' H; [ exact H | ]. cbn. destruct (d z j) as [x ok]. pose proof (IH (update k x m) k' (update_keeps k x m k' H)) as G.
  destruct (decode_entries d z (update k x m) l). exact G.
Qed.
Lemma update_other k y m k' x : k <> k' -> In (k', x) m -> In (k', x) (update k y m).
Proof.
  intros N. induction m as [ | [n z] m IH ]; [ intros [] | ]. cbn. destruct (bseq n k) eqn:E.
  - intros [H | H]; [ injection H as -> ->; apply bseq_true_iff in E; subst; contradiction | now right ].
  - intros [H | H]; [ now left | right; now apply IH ].
Qed.
Lemma entries_other d z l k x : ~ In k (map fst l) -> forall m, In (k, x) m -> In (k, x) (fst (decode_entries d z m l)).
Proof.
  induction l as [ | [k' j] l IH ]; intros H m Hm; [ exact Hm | ]. cbn in H |- *. destruct (d z j) as [y ok].
  pose proof (IH (fun C => H (or_intror C)) (update k' y m) (update_other k' y m k x (fun E => H (or_introl E)) Hm)) as G.
  destruct (decode_entries d z (update k' y m) l). exact G.
Qed.
Lemma members_other ds l k x : ~ In k (map fst l) -> forall m, In (k, x) m -> In (k, x) (fst (decode_members ds m l)).
Proof.
  induction l as [ | [k' j] l IH ]; intros H m Hm; [ exact Hm | ]. cbn in H |- *.
  destruct (find_field k' ds) as [ d | ]; [ | apply IH; tauto ]. destruct (lookup k' m) as [ y | ]; [ | apply IH; tauto ]. destruct (d y j) as [y' ok].
  pose proof (IH (fun C => H (or_intror C)) (update k' y' m) (update_other k' y' m k x (fun E => H (or_introl E)) Hm)) as G.
  destruct (decode_members ds (update k' y' m) l). exact G.
Qed.
