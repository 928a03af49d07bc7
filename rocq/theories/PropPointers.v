(** C51: nested pointers. *)
From Verif Require Import Base ModelPointers LemmasBase.

(** ** What may stand in memory for a type *)
Inductive typed : shape -> gval -> Prop :=
| t_leaf n : typed Leaf (VLeaf n)
| t_struct fs vs : typed_all fs vs -> typed (Struct fs) (VStruct vs)
with typed_all : list (bytes * bool * shape) -> list (bytes * gval) -> Prop :=
| t_none : typed_all [] []
| t_direct n s v fs vs : typed s v -> typed_all fs vs -> typed_all ((n, false, s) :: fs) ((n, v) :: vs)
| t_nil n s fs vs : typed_all fs vs -> typed_all ((n, true, s) :: fs) ((n, VNil) :: vs)
| t_ptr n s v fs vs : typed s v -> typed_all fs vs -> typed_all ((n, true, s) :: fs) ((n, VPtr v) :: vs).
(** Field names of a struct differ, at every level. *)
Inductive distinct : shape -> Prop :=
| d_leaf : distinct Leaf
| d_struct fs : NoDup (map (fun f => fst (fst f)) fs) -> (forall n p s, In (n, p, s) fs -> distinct s) -> distinct (Struct fs).
(** A column: a way down the struct. *)
Inductive way : shape -> column -> Prop :=
| way_one fs n p s : In (n, p, s) fs -> way (Struct fs) [(n, p, s)]
| way_down fs n p s c : In (n, p, s) fs -> way s c -> way (Struct fs) ((n, p, s) :: c).
(** [memory v p x]: at the path [p] stands [x]; the pointers before it are not nil. *)
Inductive memory : gval -> list bytes -> gval -> Prop :=
| m_here v : memory v [] v
| m_field vs n w p x : In (n, w) vs -> memory w p x -> memory (VStruct vs) (n :: p) x
| m_behind vs n w p x : In (n, w) vs -> memory w p x -> memory (VPtr (VStruct vs)) (n :: p) x.
Definition fits (p : bool) (s : shape) (v : gval) : Prop := if p then v = VNil \/ exists u, v = VPtr u /\ typed s u else typed s v.
Scheme typed_mut := Induction for typed Sort Prop with typed_all_mut := Induction for typed_all Sort Prop.
Lemma typed_names fs vs : typed_all fs vs -> map (fun f : bytes * bool * shape => fst (fst f)) fs = map fst vs.
Proof. induction 1; cbn [map fst]; [reflexivity| | |]; rewrite IHtyped_all; reflexivity. Qed.
Lemma typed_field fs vs n p s : typed_all fs vs -> In (n, p, s) fs -> exists w, In (n, w) vs /\ fits p s w.
Proof.
  induction 1 as [|m s0 v fs vs T A IH|m s0 fs vs A IH|m s0 v fs vs T A IH]; intros I; [contradiction| | |]; (destruct I as [E|I]; [injection E as -> <- ->; eexists; split; [left; reflexivity|]|destruct (IH I) as (w & Iw & F); exists w; split; [right; exact Iw|exact F]]).
  - exact T.
  - left. reflexivity.
  - right. eauto.
Qed.
Lemma field_typed fs vs n w : typed_all fs vs -> In (n, w) vs -> exists p s, In (n, p, s) fs /\ fits p s w.
Proof.
  induction 1 as [|m s0 v fs vs T A IH|m s0 fs vs A IH|m s0 v fs vs T A IH]; intros I; [contradiction| | |]; (destruct I as [E|I]; [injection E as -> <-; eexists _, s0; split; [left; reflexivity|]|destruct (IH I) as (p & s & Ip & F); exists p, s; split; [right; exact Ip|exact F]]).
  - exact T.
  - left. reflexivity.
  - right. eauto.
Qed.
Lemma get_in n w vs : NoDup (map fst vs) -> In (n, w) vs -> get n vs = Some w.
Proof.
  induction vs as [|[m v] vs IH]; intros ND I; [contradiction|]. inversion ND as [|? ? N ND']; subst. cbn [get]. destruct I as [E|I].
  - injection E as -> ->. rewrite bseq_refl. reflexivity.
  - destruct (bseq m n) eqn:E; [|exact (IH ND' I)]. apply bseq_eq in E as ->. exfalso. apply N. exact (in_map fst _ _ I).
Qed.
Lemma get_some n w vs : get n vs = Some w -> In (n, w) vs.
Proof. induction vs as [|[m v] vs IH]; cbn [get]; [discriminate|]. destruct (bseq m n) eqn:E; [apply bseq_eq in E as ->; intros H; injection H as ->; left; reflexivity|intros H; right; exact (IH H)]. Qed.
Lemma typed_nodup fs vs : distinct (Struct fs) -> typed_all fs vs -> NoDup (map fst vs).
Proof. intros D T. inversion D; subst. rewrite <- (typed_names fs vs T). assumption. Qed.
Lemma memory_select p s v : distinct s -> fits p s v -> forall path x, memory v path x <-> select v path = Ok x.
Proof.
  intros D F path x. split.
  - intros M. revert p s D F. induction M as [v|vs n w path x I M IH|vs n w path x I M IH]; intros p s D F; cbn [select]; [reflexivity| |].
    + assert (T : typed s (VStruct vs)) by (destruct p; [destruct F as [F|(u & E & _)]; discriminate|exact F]). inversion T as [|fs ? A]; subst. rewrite (get_in n w vs (typed_nodup fs vs D A) I).
      destruct (field_typed fs vs n w A I) as (p' & s' & Ip & F'). inversion D as [|? ? Df]; subst. exact (IH p' s' (Df n p' s' Ip) F').
    + destruct p; [destruct F as [F|(u & E & T)]; [discriminate|injection E as <-]|inversion F]. inversion T as [|fs ? A]; subst. rewrite (get_in n w vs (typed_nodup fs vs D A) I).
      destruct (field_typed fs vs n w A I) as (p' & s' & Ip & F'). inversion D as [|? ? Df]; subst. exact (IH p' s' (Df n p' s' Ip) F').
  - clear D F. revert v. induction path as [|n path IH]; intros v H; cbn [select] in H; [injection H as <-; constructor|].
    destruct v as [| |[| | |vs]|vs]; try discriminate; (destruct (get n vs) as [w|] eqn:G; [|discriminate]); econstructor; eauto using get_some.
Qed.
Lemma memory_det p s v path x y : distinct s -> fits p s v -> memory v path x -> memory v path y -> x = y.
Proof. intros D F M1 M2. apply (memory_select p s v D F) in M1, M2. congruence. Qed.
Lemma memory_behind vs n path x : memory (VStruct vs) (n :: path) x <-> memory (VPtr (VStruct vs)) (n :: path) x.
Proof. split; intros M; inversion M; subst; econstructor; eauto. Qed.

(** ** Growing *)
Inductive ext : gval -> gval -> Prop :=
| e_leaf n : ext (VLeaf n) (VLeaf n)
| e_nil : ext VNil VNil
| e_new u : ext VNil (VPtr u)
| e_ptr u u' : ext u u' -> ext (VPtr u) (VPtr u')
| e_struct vs vs' : ext_all vs vs' -> ext (VStruct vs) (VStruct vs')
with ext_all : list (bytes * gval) -> list (bytes * gval) -> Prop :=
| e_none : ext_all [] []
| e_field n v v' vs vs' : ext v v' -> ext_all vs vs' -> ext_all ((n, v) :: vs) ((n, v') :: vs').
Scheme ext_mut := Induction for ext Sort Prop with ext_all_mut := Induction for ext_all Sort Prop.
Lemma ext_refl v : ext v v.
Proof.
  revert v. fix IH 1. intros [n| |v|vs]; [constructor|constructor|constructor; apply IH|]. constructor. induction vs as [|[n v] vs IHvs]; constructor; [apply IH|exact IHvs].
Qed.
Lemma ext_all_refl vs : ext_all vs vs.
Proof. induction vs as [|[n v] vs IH]; constructor; [apply ext_refl|exact IH]. Qed.
Lemma ext_trans a b : ext a b -> forall c, ext b c -> ext a c.
Proof.
  intros H. refine (ext_mut (fun a b _ => forall c, ext b c -> ext a c) (fun a b _ => forall c, ext_all b c -> ext_all a c) _ _ _ _ _ _ _ a b H); clear a b H.
  - auto.
  - auto.
  - intros u c E. inversion E; subst. constructor.
  - intros u u' E IH c E2. inversion E2; subst. constructor. auto.
  - intros vs vs' E IH c E2. inversion E2; subst. constructor. auto.
  - auto.
  - intros n v v' vs vs' E IH A IHA c E2. inversion E2; subst. constructor; auto.
Qed.
Lemma ext_field vs vs' n w : ext_all vs vs' -> In (n, w) vs -> exists w', In (n, w') vs' /\ ext w w'.
Proof.
  induction 1 as [|m v v' vs vs' E A IH]; intros I; [contradiction|]. destruct I as [X|I]; [injection X as -> ->; exists v'; split; [left; reflexivity|exact E]|].
  destruct (IH I) as (w' & I' & E'). exists w'. split; [right; exact I'|exact E'].
Qed.
Lemma memory_ext v v' path x : memory v path x -> ext v v' -> exists x', memory v' path x' /\ ext x x'.
Proof.
  intros M. revert v'. induction M as [v|vs n w path x I M IH|vs n w path x I M IH]; intros v' E.
  - exists v'. split; [constructor|exact E].
  - inversion E as [| | | |? vs' A]; subst. destruct (ext_field vs vs' n w A I) as (w' & I' & E'). destruct (IH w' E') as (x' & M' & Ex). exists x'. split; [econstructor; eauto|exact Ex].
  - inversion E as [| | |? u' E1|]; subst. inversion E1 as [| | | |? vs' A]; subst. destruct (ext_field vs vs' n w A I) as (w' & I' & E'). destruct (IH w' E') as (x' & M' & Ex). exists x'. split; [econstructor; eauto|exact Ex].
Qed.

(** ** Storing a new value at a nil pointer *)
Lemma shape_ind' (P : shape -> Prop) : P Leaf -> (forall fs, (forall n p s, In (n, p, s) fs -> P s) -> P (Struct fs)) -> forall s, P s.
Proof.
  intros HL HS. fix IH 1. intros [|fs]; [exact HL|]. apply HS. induction fs as [|[[m q] t] fs IHfs]; intros n p s I; [contradiction|]. destruct I as [E|I]; [pose proof (IH t) as X; injection E as <- <- <-; exact X|exact (IHfs n p s I)].
Qed.
Lemma zero_typed s : typed s (zero s).
Proof.
  induction s as [|fs IH] using shape_ind'; [constructor|]. cbn [zero]. constructor. induction fs as [|[[n p] s] fs IHfs]; cbn [map]; [constructor|].
  assert (A : typed_all fs (map (fun f : bytes * bool * shape => match f with (n, p, s') => (n, if p then VNil else zero s') end) fs)) by (apply IHfs; intros n' p' s' I; apply (IH n' p' s'); right; exact I).
  destruct p; constructor; [exact A|apply (IH n false s); left; reflexivity|exact A].
Qed.
Lemma put_typed fs vs n p s w w' : typed_all fs vs -> NoDup (map fst vs) -> In (n, p, s) fs -> In (n, w) vs -> fits p s w' -> typed_all fs (put n w' vs).
Proof.
  intros A ND Ip Iw F. induction A as [|m s0 v fs vs T A IH|m s0 fs vs A IH|m s0 v fs vs T A IH]; [contradiction| | |].
  all: inversion ND as [|? ? N ND']; subst; cbn [put]; destruct (bseq m n) eqn:E.
  1,3,5: apply bseq_eq in E as ->; destruct Ip as [X|Ip]; [injection X as <- ->|exfalso; apply N; rewrite <- (typed_names _ _ A); exact (in_map (fun f : bytes * bool * shape => fst (fst f)) _ _ Ip)].
  1: constructor; [exact F|exact A].
  1,2: destruct F as [-> | (u & -> & T')]; constructor; assumption.
  all: apply bseq_neq in E; destruct Ip as [X|Ip]; [injection X as -> _ _; contradiction|]; destruct Iw as [X|Iw]; [injection X as -> _; contradiction|]; constructor; auto.
Qed.
Lemma put_ext vs n w w' : NoDup (map fst vs) -> In (n, w) vs -> ext w w' -> ext_all vs (put n w' vs).
Proof.
  induction vs as [|[m v] vs IH]; intros ND I E; [contradiction|]. inversion ND as [|? ? N ND']; subst. cbn [put]. destruct (bseq m n) eqn:Q.
  - apply bseq_eq in Q as ->. destruct I as [X|I]; [injection X as ->; constructor; [exact E|apply ext_all_refl]|exfalso; apply N; exact (in_map fst _ _ I)].
  - apply bseq_neq in Q. destruct I as [X|I]; [injection X as -> ->; contradiction|]. constructor; [apply ext_refl|auto].
Qed.
Lemma put_in vs n w : In n (map fst vs) -> In (n, w) (put n w vs).
Proof.
  induction vs as [|[m v] vs IH]; intros I; [contradiction|]. cbn [put]. destruct (bseq m n) eqn:Q; [apply bseq_eq in Q as ->; left; reflexivity|]. apply bseq_neq in Q. destruct I as [X|I]; [contradiction|right; exact (IH I)].
Qed.
Lemma put_other vs n w m v : m <> n -> In (m, v) vs -> In (m, v) (put n w vs).
Proof.
  intros NE. induction vs as [|[k u] vs IH]; intros I; [contradiction|]. cbn [put]. destruct (bseq k n) eqn:Q.
  - apply bseq_eq in Q as ->. destruct I as [X|I]; [injection X as -> _; contradiction|right; exact I].
  - destruct I as [X|I]; [left; exact X|right; exact (IH I)].
Qed.
(** the shape at a path *)
Inductive at_path : bool -> shape -> list bytes -> bool -> shape -> Prop :=
| a_here p s : at_path p s [] p s
| a_down p fs n q s path p' s' : In (n, q, s) fs -> at_path q s path p' s' -> at_path p (Struct fs) (n :: path) p' s'.
Lemma store_new p s v path t : distinct s -> fits p s v -> at_path p s path true t -> memory v path VNil ->
  exists v', store v path (VPtr (zero t)) = Ok v' /\ fits p s v' /\ ext v v' /\ memory v' path (VPtr (zero t)) /\ forall q, memory v q VNil -> q <> path -> memory v' q VNil.
Proof.
  intros D F AT M. remember VNil as x eqn:Ex in M. revert p s D F AT. induction M as [v|vs n w path x I M IH|vs n w path x I M IH]; intros p s D F AT; subst.
  - inversion AT; subst. exists (VPtr (zero t)). cbn [store]. split; [reflexivity|]. split; [right; eexists; split; [reflexivity|apply zero_typed]|]. split; [constructor|]. split; [constructor|]. intros q Mq NE. inversion Mq; subst. contradiction.
  - assert (T : typed s (VStruct vs)) by (destruct p; [destruct F as [F|(u & E & _)]; discriminate|exact F]). inversion T as [|fs ? A]; subst.
    inversion AT as [|? ? ? q0 s0 ? ? ? Iq AT']; subst. pose proof (typed_nodup fs vs D A) as ND. destruct (typed_field fs vs n q0 s0 A Iq) as (w0 & Iw0 & F0).
    assert (w0 = w) as -> by (pose proof (get_in n w0 vs ND Iw0); pose proof (get_in n w vs ND I); congruence).
    inversion D as [|? NDf Df]; subst. destruct (IH eq_refl q0 s0 (Df _ _ _ Iq) F0 AT') as (w' & ST & F' & E' & M' & O'). cbn [store]. rewrite (get_in n w vs ND I), ST. cbn [bind].
    eexists. split; [reflexivity|].
    assert (TA : typed_all fs (put n w' vs)) by (eapply put_typed; eauto).
    destruct p; [destruct F as [F|(u & E & _)]; discriminate|]. split; [constructor; exact TA|]. split; [constructor; eapply put_ext; eauto|]. split; [econstructor; [apply put_in; exact (in_map fst _ _ I)|exact M']|].
    intros q Mq NE. inversion Mq as [|? m u q' ? Iu Mu|]; subst. destruct (bytes_eq_dec m n) as [->|NM].
    + assert (u = w) as -> by (pose proof (get_in n u vs ND Iu); pose proof (get_in n w vs ND I); congruence). econstructor; [apply put_in; exact (in_map fst _ _ I)|]. apply O'; [exact Mu|congruence].
    + econstructor; [apply put_other; eauto|exact Mu].
  - destruct p; [destruct F as [F|(u & E & T)]; [discriminate|injection E as <-]|inversion F]. inversion T as [|fs ? A]; subst.
    inversion AT as [|? ? ? q0 s0 ? ? ? Iq AT']; subst. pose proof (typed_nodup fs vs D A) as ND. destruct (typed_field fs vs n q0 s0 A Iq) as (w0 & Iw0 & F0).
    assert (w0 = w) as -> by (pose proof (get_in n w0 vs ND Iw0); pose proof (get_in n w vs ND I); congruence).
    inversion D as [|? NDf Df]; subst. destruct (IH eq_refl q0 s0 (Df _ _ _ Iq) F0 AT') as (w' & ST & F' & E' & M' & O'). cbn [store]. rewrite (get_in n w vs ND I), ST. cbn [bind].
    eexists. split; [reflexivity|].
    assert (TA : typed_all fs (put n w' vs)) by (eapply put_typed; eauto).
    split; [right; eexists; split; [reflexivity|constructor; exact TA]|]. split; [constructor; constructor; eapply put_ext; eauto|]. split; [econstructor; [apply put_in; exact (in_map fst _ _ I)|exact M']|].
    intros q Mq NE. inversion Mq as [| |? m u q' ? Iu Mu]; subst. destruct (bytes_eq_dec m n) as [->|NM].
    + assert (u = w) as -> by (pose proof (get_in n u vs ND Iu); pose proof (get_in n w vs ND I); congruence). econstructor; [apply put_in; exact (in_map fst _ _ I)|]. apply O'; [exact Mu|congruence].
    + econstructor; [apply put_other; eauto|exact Mu].
Qed.

(** ** The statements of Addrs *)
Lemma way_prefix s a b : way s (a ++ b) -> a <> [] -> way s a.
Proof.
  revert s. induction a as [|[[n p] t] a IH]; intros s W NE; [contradiction|]. cbn [app] in W. destruct a as [|f a]; [inversion W; subst; constructor; assumption|].
  inversion W as [? ? ? ? I E|? ? ? ? ? I W']; subst. apply way_down; [exact I|]. apply IH; [exact W'|discriminate].
Qed.
Lemma way_at s c0 n p t p0 : way s (c0 ++ [(n, p, t)]) -> at_path p0 s (col_path (c0 ++ [(n, p, t)])) p t.
Proof.
  revert s p0. induction c0 as [|[[m q] u] c0 IH]; intros s p0 W; cbn [app col_path map fst] in *.
  - inversion W as [? ? ? ? I|? ? ? ? ? I W']; subst; [|inversion W']. econstructor; [exact I|constructor].
  - inversion W as [? ? ? ? I E|? ? ? ? ? I W']; subst; [destruct c0; discriminate|]. econstructor; [exact I|apply IH; exact W'].
Qed.
Lemma progress p s v c0 n q t : distinct s -> fits p s v -> v <> VNil -> way s (c0 ++ [(n, q, t)]) ->
  (forall pre m u rest, c0 = pre ++ (m, true, u) :: rest -> exists w, memory v (col_path (pre ++ [(m, true, u)])) (VPtr w)) ->
  exists x, memory v (col_path (c0 ++ [(n, q, t)])) x /\ fits q t x.
Proof.
  revert p s v. induction c0 as [|[[m b] u] c0 IH]; intros p s v D F NN W R.
  - cbn [app] in W. assert (G : exists fs vs, s = Struct fs /\ In (n, q, t) fs /\ typed_all fs vs /\ (v = VStruct vs \/ v = VPtr (VStruct vs))).
    { inversion W as [fs ? ? ? I|? ? ? ? ? I W']; subst; [|inversion W']. destruct p; [destruct F as [->|(w & -> & T)]; [contradiction|]; inversion T as [|? vs A]; subst; eauto 7|]. inversion F as [|? vs A]; subst. eauto 7. }
    destruct G as (fs & vs & -> & I & A & V). destruct (typed_field fs vs n q t A I) as (w & Iw & Fw). exists w. split; [|exact Fw]. cbn [app col_path map fst]. destruct V as [-> | ->]; econstructor; eauto; constructor.
  - cbn [app] in W. inversion W as [? ? ? ? I E|fs ? ? ? ? I W']; subst; [destruct c0; discriminate|].
    assert (G : exists vs, typed_all fs vs /\ (v = VStruct vs \/ v = VPtr (VStruct vs))).
    { destruct p; [destruct F as [->|(w & -> & T)]; [contradiction|]; inversion T as [|? vs A]; subst; eauto|]. inversion F as [|? vs A]; subst. eauto. }
    destruct G as (vs & A & V). pose proof (typed_nodup fs vs D A) as ND. destruct (typed_field fs vs m b u A I) as (w & Iw & Fw). inversion D as [|? ? Df]; subst.
    assert (MV : forall path x, memory v (m :: path) x <-> memory w path x).
    { intros path x. split.
      - intros M. destruct V as [-> | ->]; inversion M as [|? ? w' ? ? I' M'|? ? w' ? ? I' M']; subst; assert (w' = w) as -> by (pose proof (get_in m w' vs ND I'); pose proof (get_in m w vs ND Iw); congruence); exact M'.
      - intros M. destruct V as [-> | ->]; econstructor; eauto. }
    assert (WN : w <> VNil).
    { destruct b; [|cbn [fits] in Fw; inversion Fw; discriminate]. destruct (R [] m u c0 eq_refl) as (w' & M'). apply MV in M'. inversion M'; subst. discriminate. }
    destruct (IH b u w (Df _ _ _ I) Fw WN W') as (x & M & Fx).
    + intros pre m' u' rest E. destruct (R ((m, b, u) :: pre) m' u' rest ltac:(rewrite E; reflexivity)) as (w' & M'). exists w'. apply MV. exact M'.
    + exists x. split; [|exact Fx]. apply MV. exact M.
Qed.
Section Run.
Variable root : shape.
Variable v0 : gval.
Hypothesis D : distinct root.
Inductive ordered : list (list bytes) -> list (list bytes * shape) -> Prop :=
| o_nil done : ordered done []
| o_cons done c0 n t X : way root (c0 ++ [(n, true, t)]) -> (forall pre m u rest, c0 = pre ++ (m, true, u) :: rest -> In (col_path (pre ++ [(m, true, u)])) done) ->
    ordered (col_path (c0 ++ [(n, true, t)]) :: done) X -> ordered done ((col_path (c0 ++ [(n, true, t)]), t) :: X).
Lemma ordered_mono done done' X : incl done done' -> ordered done X -> ordered done' X.
Proof.
  intros I O. revert done' I. induction O as [done|done c0 n t X W R O IH]; intros done' I; [constructor|]. constructor; [exact W|intros; apply I; eauto|]. apply IH. intros x [<-|Ix]; [left; reflexivity|right; exact (I x Ix)].
Qed.
Lemma path_eqb_iff a b : path_eqb a b = true <-> a = b.
Proof. unfold path_eqb. destruct (list_eq_dec (list_eq_dec Ascii.ascii_dec) a b); split; congruence. Qed.
Lemma seen_iff q seen : existsb (path_eqb q) seen = true <-> In q seen.
Proof. rewrite existsb_exists. split; [intros (x & I & E); apply path_eqb_iff in E as ->; exact I|intros I; exists q; split; [exact I|apply path_eqb_iff; reflexivity]]. Qed.
Lemma fresh_ordered X : forall seen, ordered seen X -> ordered seen (fresh seen X).
Proof.
  induction X as [|[q t] X IH]; intros seen O; [constructor|]. cbn [fresh]. inversion O as [|? c0 n ? ? W R O']; subst. destruct (existsb (path_eqb (col_path (c0 ++ [(n, true, t)]))) seen) eqn:E.
  - apply seen_iff in E. apply IH. eapply ordered_mono; [|exact O']. intros x [<-|I]; assumption.
  - constructor; [exact W|exact R|]. apply IH. exact O'.
Qed.
Lemma fresh_covers X : forall seen q, In q (map fst X) -> In q seen \/ In q (map fst (fresh seen X)).
Proof.
  induction X as [|[q' t] X IH]; intros seen q I; [contradiction|]. cbn [fresh]. destruct (existsb (path_eqb q') seen) eqn:E.
  - apply seen_iff in E. destruct I as [<-|I]; [left; exact E|exact (IH seen q I)].
  - destruct I as [<-|I]; [right; left; reflexivity|]. destruct (IH (q' :: seen) q I) as [[<-|S1]|S1]; [right; left; reflexivity|left; exact S1|right; right; exact S1].
Qed.
Lemma fresh_sub X : forall seen, incl (map fst (fresh seen X)) (map fst X).
Proof.
  induction X as [|[q t] X IH]; intros seen x I; [contradiction|]. cbn [fresh] in I. destruct (existsb (path_eqb q) seen); [right; exact (IH seen x I)|]. destruct I as [<-|I]; [left; reflexivity|right; exact (IH _ x I)].
Qed.
Lemma ptr_paths_ordered c : forall pre done Y, way root (pre ++ c) -> (forall a m u b, pre = a ++ (m, true, u) :: b -> In (col_path (a ++ [(m, true, u)])) done) ->
  (forall done', incl done done' -> ordered done' Y) -> ordered done (ptr_paths (col_path pre) c ++ Y).
Proof.
  induction c as [|[[n p] t] c IH]; intros pre done Y W R HY; [apply HY, incl_refl|]. cbn [ptr_paths].
  replace (col_path pre ++ [n]) with (col_path (pre ++ [(n, p, t)])) by (unfold col_path; rewrite map_app; reflexivity).
  assert (W' : way root ((pre ++ [(n, p, t)]) ++ c)) by (rewrite <- app_assoc; exact W).
  assert (WP : way root (pre ++ [(n, p, t)])) by (eapply way_prefix; [exact W'|destruct pre; discriminate]).
  assert (SPL : forall a m u b, pre ++ [(n, p, t)] = a ++ (m, true, u) :: b -> (exists b', pre = a ++ (m, true, u) :: b') \/ a = pre /\ (m, true, u) = (n, p, t)).
  { intros a m u b E. destruct b as [|x b] using rev_ind; [apply app_inj_tail in E as [-> E]; right; auto|]. rewrite app_comm_cons, app_assoc in E. apply app_inj_tail in E as [-> _]. left. eauto. }
  destruct p.
  - cbn [app]. constructor; [exact WP|exact R|]. apply IH; [exact W'| |].
    + intros a m u b E. destruct (SPL a m u b E) as [[b' E']|[-> E']]; [right; eapply R; exact E'|injection E' as -> ->; left; reflexivity].
    + intros done' I. apply HY. intros x Ix. apply I. right. exact Ix.
  - apply IH; [exact W'| |exact HY]. intros a m u b E. destruct (SPL a m u b E) as [[b' E']|[-> E']]; [eapply R; exact E'|discriminate].
Qed.
Lemma all_ordered cols : Forall (way root) cols -> forall done, ordered done (flat_map (ptr_paths []) cols).
Proof.
  induction 1 as [|c cols W F IH]; intros done; [constructor|]. cbn [flat_map]. apply (ptr_paths_ordered c []); [exact W|intros [|? ?] m u b E; discriminate|intros; apply IH].
Qed.
Definition inv (v : gval) (done : list (list bytes)) : Prop :=
  typed root v /\ ext v0 v /\ (forall q, In q done -> exists u, memory v q (VPtr u)) /\ (forall q, memory v0 q VNil -> ~ In q done -> memory v q VNil).
Lemma typed_not_nil s v : typed s v -> v <> VNil.
Proof. inversion 1; discriminate. Qed.
Lemma run X : forall done v, ordered done X -> inv v done -> exists v', alloc_all v X = Ok v' /\ inv v' (map fst X ++ done).
Proof.
  induction X as [|[q t] X IH]; intros done v O I; [exists v; auto|]. inversion O as [|? c0 n ? ? W R O']; subst. destruct I as (T & E & DN & NL).
  destruct (progress false root v c0 n true t D T (typed_not_nil _ _ T) W) as (x & M & F).
  { intros pre m u rest Ec. apply DN. eapply R. exact Ec. }
  set (q := col_path (c0 ++ [(n, true, t)])) in *. cbn [alloc_all]. unfold alloc at 1. cbn [fst snd]. pose proof M as MS. apply (memory_select false root v D T) in MS. rewrite MS. cbn [bind].
  assert (STEP : exists v', (match x with VNil => store v q (VPtr (zero t)) | _ => Ok v end) = Ok v' /\ inv v' (q :: done)).
  { destruct F as [->|(u & -> & Tu)].
    - destruct (store_new false root v q t D T (way_at root c0 n true t false W) M) as (v' & ST & F' & E' & M' & O2). exists v'. split; [exact ST|]. split; [exact F'|]. split; [eapply ext_trans; eauto|]. split.
      + intros q' [<-|I]; [eauto|]. destruct (DN q' I) as (u & Mu). destruct (memory_ext v v' q' _ Mu E') as (y & My & Ey). inversion Ey; subst. eauto.
      + intros q' Mq NI. apply O2; [apply NL; [exact Mq|intros X0; apply NI; right; exact X0]|]. intros ->. apply NI. left. reflexivity.
    - exists v. split; [reflexivity|]. split; [exact T|]. split; [exact E|]. split; [intros q' [<-|I]; eauto|]. intros q' Mq NI. apply NL; [exact Mq|intros X0; apply NI; right; exact X0]. }
  destruct STEP as (v' & -> & I'). cbn [bind]. destruct (IH (q :: done) v' O' I') as (v2 & E2 & I2). exists v2. split; [exact E2|].
  cbn [map fst app]. destruct I2 as (A1 & A2 & A3 & A4). split; [exact A1|]. split; [exact A2|]. split.
  - intros q' [<-|I0]; [apply A3, in_or_app; right; left; reflexivity|]. apply A3. apply in_app_or in I0 as [I0|I0]; apply in_or_app; [left; exact I0|right; right; exact I0].
  - intros q' Mq NI. apply A4; [exact Mq|]. intros I0. apply NI. apply in_app_or in I0 as [I0|[<-|I0]]; [right; apply in_or_app; left; exact I0|left; reflexivity|right; apply in_or_app; right; exact I0].
Qed.
End Run.
Lemma ptr_paths_in c : forall pre q s, In (q, s) (ptr_paths pre c) <-> exists a m b, c = a ++ (m, true, s) :: b /\ q = pre ++ col_path (a ++ [(m, true, s)]).
Proof.
  induction c as [|[[n p] t] c IH]; intros pre q s; cbn [ptr_paths].
  - split; [intros []|intros ([|? ?] & m & b & E & _); discriminate].
  - assert (H : In (q, s) (ptr_paths (pre ++ [n]) c) <-> exists a m b, c = a ++ (m, true, s) :: b /\ q = pre ++ col_path (((n, p, t) :: a) ++ [(m, true, s)])).
    { rewrite IH. split; intros (a & m & b & E & Q); exists a, m, b; (split; [exact E|]); rewrite Q; cbn [app col_path map fst]; rewrite <- app_assoc; reflexivity. }
    destruct p.
    + split.
      * intros [E|I]; [injection E as <- <-; exists [], n, c; split; reflexivity|]. apply H in I as (a & m & b & -> & ->). exists ((n, true, t) :: a), m, b. split; reflexivity.
      * intros ([|f a] & m & b & E & Q); [injection E as -> -> ->; left; rewrite Q; reflexivity|]. injection E as <- E. right. apply H. eauto.
    + rewrite H. split; [intros (a & m & b & -> & ->); exists ((n, false, t) :: a), m, b; split; reflexivity|]. intros ([|f a] & m & b & E & Q); [discriminate|]. injection E as <- E. eauto.
Qed.
Lemma memory_prefix v a b x : memory v (a ++ b) x -> exists y, memory v a y /\ memory y b x.
Proof.
  revert v. induction a as [|n a IH]; intros v M; [exists v; split; [constructor|exact M]|]. cbn [app] in M. inversion M as [|vs ? w ? ? I M'|vs ? w ? ? I M']; subst; destruct (IH w M') as (y & M1 & M2); exists y; (split; [econstructor; eauto|exact M2]).
Qed.
(** Every way down to a column is open afterwards, the column's own pointer too; what could be read before is still there; no other pointer was touched. *)
Theorem C51_addrs_partial root v cols : distinct root -> typed root v -> Forall (way root) cols -> exists v', addrs v cols = Ok v' /\ typed root v' /\
  (forall c pre rest, In c cols -> col_path c = pre ++ rest -> exists x, memory v' pre x /\ x <> VNil) /\
  (forall path n, memory v path (VLeaf n) -> memory v' path (VLeaf n)) /\
  (forall path, memory v path VNil -> (forall c rest, In c cols -> col_path c <> path ++ rest) -> memory v' path VNil).
Proof.
  intros D T F. destruct (run root v D (table_ptr_paths cols) [] v) as (v' & E & T' & X & DN & NL).
  { apply fresh_ordered. apply all_ordered. exact F. }
  { split; [exact T|]. split; [apply ext_refl|]. split; [intros q []|auto]. }
  rewrite app_nil_r in *.
  assert (DONE : forall c a m s b, In c cols -> c = a ++ (m, true, s) :: b -> exists u, memory v' (col_path (a ++ [(m, true, s)])) (VPtr u)).
  { intros c a m s b Ic Ec. apply DN. unfold table_ptr_paths. destruct (fresh_covers (flat_map (ptr_paths []) cols) [] (col_path (a ++ [(m, true, s)]))) as [[]|G]; [|exact G].
    apply (in_map fst _ (col_path (a ++ [(m, true, s)]), s)). apply in_flat_map. exists c. split; [exact Ic|]. apply ptr_paths_in. eauto. }
  assert (OPEN : forall c, In c cols -> exists x, memory v' (col_path c) x /\ x <> VNil).
  { intros c Ic. rewrite Forall_forall in F. pose proof (F c Ic) as W. destruct (exists_last (l := c)) as (c0 & [[n p] t] & Ec); [intros ->; inversion W|]. subst c.
    destruct (progress false root v' c0 n p t D T' (typed_not_nil _ _ T') W) as (x & M & Fx).
    - intros pre m u rest E0. apply (DONE (c0 ++ [(n, p, t)]) pre m u (rest ++ [(n, p, t)])); [exact Ic|]. rewrite E0, <- app_assoc. reflexivity.
    - exists x. split; [exact M|]. destruct p; [|exact (typed_not_nil _ _ Fx)]. destruct (DONE (c0 ++ [(n, true, t)]) c0 n t [] Ic eq_refl) as (u & Mu).
      rewrite (memory_det false root v' _ x (VPtr u) D T' M Mu). discriminate. }
  exists v'. unfold addrs. rewrite E. cbn [bind].
  assert (AD : forall cs, incl cs cols -> address_all v' cs = Ok tt).
  { induction cs as [|c cs IH]; intros I; [reflexivity|]. cbn [address_all]. destruct (OPEN c (I c (or_introl eq_refl))) as (x & M & _). apply (memory_select false root v' D T') in M. rewrite M. cbn [bind]. apply IH. intros y Iy. apply I. right. exact Iy. }
  rewrite (AD cols (incl_refl _)). cbn [bind]. split; [reflexivity|]. split; [exact T'|]. split; [|split].
  - intros c pre rest Ic Ec. destruct (OPEN c Ic) as (x & M & NX). rewrite Ec in M. destruct (memory_prefix v' pre rest x M) as (y & M1 & M2). exists y. split; [exact M1|]. intros ->. inversion M2; subst. contradiction.
  - intros path n M. destruct (memory_ext v v' path _ M X) as (y & My & Ey). inversion Ey; subst. exact My.
  - intros path M NP. apply NL; [exact M|]. intros I. apply (fresh_sub _ []) in I. apply in_map_iff in I as ([q s] & <- & I). apply in_flat_map in I as (c & Ic & I). apply ptr_paths_in in I as (a & m & b & Ec & Q). cbn [fst] in *. cbn [app] in Q.
    apply (NP c (col_path b) Ic). subst q. rewrite Ec. unfold col_path. rewrite <- map_app, <- app_assoc. reflexivity.
Qed.
(** ** The getters *)
(** The value of the column: what is at its path, behind its own pointer when it has one *)
Definition holds_value (v : gval) (c : column) (y : gval) : Prop :=
  exists c0 n p t, c = c0 ++ [(n, p, t)] /\ memory v (col_path c) (if p then VPtr y else y).
(** A nil pointer on the way, the column's own pointer included *)
Definition cut_off (v : gval) (c : column) : Prop := exists pre rest, col_path c = pre ++ rest /\ memory v pre VNil.
Lemma guard_run root v body : distinct root -> typed root v -> forall ps done, ordered root done ps -> (forall q, In q done -> exists u, memory v q (VPtr u)) ->
  guarded v ps body = body /\ (forall q, In q (map fst ps) -> exists u, memory v q (VPtr u)) \/ guarded v ps body = Ok None /\ exists q, In q (map fst ps) /\ memory v q VNil.
Proof.
  intros D T. induction ps as [|[q t] ps IH]; intros done O DN; [left; split; [reflexivity|intros q []]|]. inversion O as [|? c0 n ? ? W R O']; subst.
  destruct (progress false root v c0 n true t D T (typed_not_nil _ _ T) W) as (x & M & F); [intros pre m u rest Ec; apply DN; eapply R; exact Ec|].
  set (q := col_path (c0 ++ [(n, true, t)])) in *. cbn [guarded fst]. pose proof M as MS. apply (memory_select false root v D T) in MS. rewrite MS. cbn [bind].
  destruct F as [->|(u & -> & _)]; [right; split; [reflexivity|]; exists q; split; [left; reflexivity|exact M]|].
  destruct (IH (q :: done) O') as [[E A]|[E (q' & I & N)]]; [intros q' [<-|I]; eauto| |].
  - left. split; [exact E|]. intros q' [<-|I]; eauto.
  - right. split; [exact E|]. exists q'. split; [right; exact I|exact N].
Qed.
Lemma cut_or_value root v c : distinct root -> typed root v -> way root c ->
  (exists r, get_or_value v c = Ok r /\ ((exists y, r = Some y /\ holds_value v c y) \/ r = None /\ cut_off v c)).
Proof.
  intros D T W. destruct (exists_last (l := c)) as (c0 & [[n p] t] & Ec); [intros ->; inversion W|].
  assert (O : ordered root [] (ptr_paths [] c)).
  { pose proof (ptr_paths_ordered root c [] [] [] W) as O. rewrite app_nil_r in O. apply O; [intros [|? ?] ? ? ? X; discriminate|intros; constructor]. }
  assert (PR : (forall q, In q (map fst (ptr_paths [] c)) -> exists u, memory v q (VPtr u)) -> exists x, memory v (col_path c) x /\ fits p t x).
  { intros A. subst c. apply (progress false root v c0 n p t D T (typed_not_nil _ _ T) W). intros pre m u rest E0. apply A. apply (in_map fst _ (col_path (pre ++ [(m, true, u)]), u)). apply ptr_paths_in.
    exists pre, m, (rest ++ [(n, p, t)]). split; [rewrite E0, <- app_assoc; reflexivity|reflexivity]. }
  assert (LP : last_is_ptr c = p) by (rewrite Ec; unfold last_is_ptr; rewrite rev_app_distr; reflexivity).
  unfold get_or_value. destruct (existsb (fun f => snd (fst f)) c) eqn:EX.
  - unfold value. rewrite LP. match goal with |- exists r, guarded _ _ ?b = _ /\ _ => destruct (guard_run root v b D T _ [] O) as [[E A]|[E (q & I & N)]]; [intros q []| |] end; rewrite E.
    + destruct (PR A) as (x & M & F). pose proof M as MS. apply (memory_select false root v D T) in MS. rewrite MS. cbn [bind]. destruct p.
      * assert (exists u, x = VPtr u) as (u & ->).
        { destruct (A (col_path c)) as (u & Mu); [|exists u; exact (memory_det false root v _ _ _ D T M Mu)]. apply (in_map fst _ (col_path c, t)). apply ptr_paths_in. exists c0, n, []. rewrite Ec. split; reflexivity. }
        eexists. split; [reflexivity|]. left. exists u. split; [reflexivity|]. exists c0, n, true, t. split; [exact Ec|exact M].
      * eexists. split; [reflexivity|]. left. exists x. split; [reflexivity|]. exists c0, n, false, t. split; [exact Ec|exact M].
    + exists None. split; [reflexivity|]. right. split; [reflexivity|]. apply in_map_iff in I as ([q' s] & <- & I). apply ptr_paths_in in I as (a & m & b & Ec' & Q). exists q', (col_path b). split; [|exact N]. cbn [app] in Q. subst q'. rewrite Ec'. unfold col_path. rewrite <- map_app, <- app_assoc. reflexivity.
  - assert (p = false) as ->. { rewrite Ec, existsb_app in EX. apply orb_false_iff in EX as [_ EX]. cbn in EX. rewrite orb_false_r in EX. exact EX. }
    destruct PR as (x & M & F).
    { intros q I. exfalso. apply in_map_iff in I as ([q' s] & _ & I). apply ptr_paths_in in I as (a & m & b & Ec' & _). rewrite Ec', existsb_app in EX. cbn in EX. rewrite orb_true_r in EX. discriminate. }
    pose proof M as MS. apply (memory_select false root v D T) in MS. rewrite MS. cbn [bind]. eexists. split; [reflexivity|]. left. exists x. split; [reflexivity|]. exists c0, n, false, t. split; [exact Ec|exact M].
Qed.
Lemma no_nil_at p s path p' s' : at_path p s path p' s' -> p' = false -> path <> [] -> forall v, distinct s -> fits p s v -> memory v path VNil -> False.
Proof.
  induction 1 as [p s|p fs m q u path p' s' I A IH]; intros E NE v D F M; [contradiction|]. inversion D as [|? ND Df]; subst.
  assert (G : exists vs w, typed_all fs vs /\ In (m, w) vs /\ memory w path VNil).
  { inversion M as [|vs ? w ? ? I' M'|vs ? w ? ? I' M']; subst.
    - destruct p; [destruct F as [F|(? & F & _)]; discriminate|]. inversion F; subst. eauto.
    - destruct p; [|inversion F]. destruct F as [F|(u0 & F & T)]; [discriminate|]. injection F as <-. inversion T; subst. eauto. }
  destruct G as (vs & w & TA & Iw & Mw). destruct (typed_field fs vs m q u TA I) as (w' & Iw' & Fw).
  assert (w' = w) as -> by (pose proof (get_in m w vs (typed_nodup fs vs D TA) Iw); pose proof (get_in m w' vs (typed_nodup fs vs D TA) Iw'); congruence).
  destruct path as [|k path]; [|eapply IH; eauto; discriminate]. inversion Mw; subst. inversion A; subst. inversion Fw.
Qed.
Lemma cut_not_value root v c y : distinct root -> typed root v -> way root c -> holds_value v c y -> cut_off v c -> False.
Proof.
  intros D T W (c0 & n & p & t & Ec & M) (pre & rest & Ep & N). pose proof M as M0. rewrite Ep in M. destruct (memory_prefix v pre rest _ M) as (z & M1 & M2). pose proof (memory_det false root v _ _ _ D T M1 N) as ->.
  destruct rest as [|k rest]; [|inversion M2]. rewrite app_nil_r in Ep. destruct p; [inversion M2|]. rewrite <- Ep, Ec in N. rewrite Ec in W. apply (no_nil_at false root _ false t (way_at root c0 n false t false W) eq_refl) with v; [destruct c0; discriminate|exact D|exact T|exact N].
Qed.
(** The getter of a column never panics; it gives the column's value exactly when there is one and NULL exactly when a pointer on the way is nil. *)
Theorem C51_value_partial root v c : distinct root -> typed root v -> way root c -> exists r, get_or_value v c = Ok r /\ (forall y, r = Some y <-> holds_value v c y) /\ (r = None <-> cut_off v c).
Proof.
  intros D T W. destruct (cut_or_value root v c D T W) as (r & E & [(y & -> & H)|[-> H]]); eexists; (split; [exact E|]); split.
  - intros y'. split; [intros X; injection X as <-; exact H|]. intros (c0 & n & p & t & Ec & M). destruct H as (c1 & n1 & p1 & t1 & Ec1 & M1). rewrite Ec in Ec1. apply app_inj_tail in Ec1 as [_ E1]. injection E1 as <- <- <-. pose proof (memory_det false root v _ _ _ D T M M1) as X. destruct p; congruence.
  - split; [discriminate|]. intros C. exfalso. exact (cut_not_value root v c y D T W H C).
  - intros y. split; [discriminate|]. intros H'. exfalso. exact (cut_not_value root v c y D T W H' H).
  - split; [intros _; exact H|reflexivity].
Qed.
(** ColumnX(), used in Set clauses and predicates, reads the field without the checks. *)
Definition cut_root : shape := Struct [(B "ID", false, Leaf); (B "Home", true, Struct [(B "City", false, Leaf); (B "Zip", true, Leaf)])].
Definition cut_city : column := [(B "Home", true, Struct [(B "City", false, Leaf); (B "Zip", true, Leaf)]); (B "City", false, Leaf)].
Definition cut_zip : column := [(B "Home", true, Struct [(B "City", false, Leaf); (B "Zip", true, Leaf)]); (B "Zip", true, Leaf)].
Lemma cut_root_distinct : distinct cut_root.
Proof.
  constructor; [repeat constructor; cbn; intuition discriminate|]. intros n p s [E|[E|[]]]; injection E as <- <- <-; [constructor|]. constructor; [repeat constructor; cbn; intuition discriminate|]. intros n p s [E|[E|[]]]; injection E as <- <- <-; constructor.
Qed.
Lemma cut_ways : way cut_root cut_city /\ way cut_root cut_zip /\ way cut_root [(B "ID", false, Leaf)].
Proof. repeat split; repeat (first [constructor; cbn; tauto | apply way_down; [cbn; tauto|]]). Qed.
Theorem C51_column_refuted : exists root v c, distinct root /\ typed root v /\ way root c /\ get_or_value v c = Ok None /\ column_clause v c = Panic.
Proof. exists cut_root, (zero cut_root), cut_city. split; [exact cut_root_distinct|]. split; [apply zero_typed|]. split; [apply cut_ways|]. split; reflexivity. Qed.
Example C51_addrs_case : addrs (zero cut_root) [[(B "ID", false, Leaf)]; cut_city; cut_zip] =
  Ok (VStruct [(B "ID", VLeaf 0); (B "Home", VPtr (VStruct [(B "City", VLeaf 0); (B "Zip", VPtr (VLeaf 0))]))]).
Proof. reflexivity. Qed.
Example C51_addrs_kept : addrs (VStruct [(B "ID", VLeaf 7); (B "Home", VPtr (VStruct [(B "City", VLeaf 3); (B "Zip", VNil)]))]) [[(B "ID", false, Leaf)]; cut_city] =
  Ok (VStruct [(B "ID", VLeaf 7); (B "Home", VPtr (VStruct [(B "City", VLeaf 3); (B "Zip", VNil)]))]).
Proof. reflexivity. Qed.
Example C51_addrs_hyps : distinct cut_root /\ typed cut_root (zero cut_root) /\ Forall (way cut_root) [cut_city; cut_zip].
Proof. split; [exact cut_root_distinct|]. split; [apply zero_typed|]. repeat constructor; apply cut_ways. Qed.
Example C51_value_case : let v := VStruct [(B "ID", VLeaf 7); (B "Home", VPtr (VStruct [(B "City", VLeaf 3); (B "Zip", VNil)]))] in get_or_value v cut_city = Ok (Some (VLeaf 3)) /\ get_or_value v cut_zip = Ok None.
Proof. split; reflexivity. Qed.
Lemma select_app a : forall v b, select v (a ++ b) = let* x := select v a in select x b.
Proof.
  induction a as [|n a IH]; intros v b; [reflexivity|]. cbn [app select]. destruct v as [k| |w|fs]; try reflexivity.
  2: destruct (get n fs) as [w|]; [apply IH|reflexivity].
  destruct w as [k| |w|fs]; try reflexivity. destruct (get n fs) as [w|]; [apply IH|reflexivity].
Qed.
(** ColumnX(), used in Set clauses and predicates, gives the column's value and NULL for a nil field, and panics when a pointer before the field is nil. *)
Theorem C51_column_partial root v c : distinct root -> typed root v -> way root c ->
  (forall y, holds_value v c y -> column_clause v c = Ok (Some y)) /\
  (memory v (col_path c) VNil -> column_clause v c = Ok None) /\
  (forall pre rest, col_path c = pre ++ rest -> rest <> [] -> memory v pre VNil -> column_clause v c = Panic).
Proof.
  intros D T W. split; [|split].
  - intros y (c0 & n & p & t & -> & M). apply (memory_select false root v D T) in M. unfold column_clause. rewrite M. cbn [bind].
    unfold last_is_ptr. rewrite rev_app_distr. cbn [rev app]. destruct p; reflexivity.
  - intros M. destruct (exists_last (l := c)) as (c0 & ((n & p) & t) & ->); [inversion W; discriminate|].
    destruct p.
    + apply (memory_select false root v D T) in M. unfold column_clause. rewrite M. cbn [bind]. unfold last_is_ptr. rewrite rev_app_distr. reflexivity.
    + exfalso. refine (no_nil_at false root _ false t (way_at root c0 n false t false W) eq_refl _ v D T M).
      unfold col_path. rewrite map_app. destruct (map _ c0); discriminate.
  - intros pre rest E N M. apply (memory_select false root v D T) in M. unfold column_clause. rewrite E, select_app, M. cbn [bind].
    destruct rest; [contradiction|reflexivity].
Qed.
Example C51_column_case : let v := VStruct [(B "ID", VLeaf 7); (B "Home", VPtr (VStruct [(B "City", VLeaf 3); (B "Zip", VNil)]))] in
  holds_value v cut_city (VLeaf 3) /\ memory v (col_path cut_zip) VNil /\ memory (zero cut_root) [B "Home"] VNil.
Proof.
  split; [exists [(B "Home", true, Struct [(B "City", false, Leaf); (B "Zip", true, Leaf)])], (B "City"), false, Leaf; split; [reflexivity|]|split].
  - apply (m_field _ _ (VPtr (VStruct [(B "City", VLeaf 3); (B "Zip", VNil)]))); [cbn; tauto|]. apply (m_behind _ _ (VLeaf 3)); [cbn; tauto|constructor].
  - apply (m_field _ _ (VPtr (VStruct [(B "City", VLeaf 3); (B "Zip", VNil)]))); [cbn; tauto|]. apply (m_behind _ _ VNil); [cbn; tauto|constructor].
  - apply (m_field _ _ VNil); [cbn; tauto|constructor].
Qed.
Print Assumptions C51_addrs_partial.
Print Assumptions C51_value_partial.
Print Assumptions C51_column_refuted.
Print Assumptions C51_column_partial.
