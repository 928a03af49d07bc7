(** Paths through pointers, and the order in which Addrs allocates. *)
From Verif Require Import Base ModelCompiler ModelParser ModelText SpecParser SpecSource SpecOutput LemmasBase LemmasSource LemmasOutput LemmasOutput2.

Lemma path_text_app a b : path_text (a ++ b) = path_text a ++ path_text b.
Proof. unfold path_text. now rewrite map_app, concat_app. Qed.
Lemma pointer_paths_text ps : forall before, pointer_paths (path_text before) ps = map path_text (pointers before ps).
Proof.
  induction ps as [|[n p] ps IH]; intros before; [ reflexivity | ]. cbn [pointer_paths pointers]. rewrite map_app.
  assert (E : path_text before ++ B "." ++ n = path_text (before ++ [n])) by (rewrite path_text_app; unfold path_text at 3; cbn [map concat]; now rewrite app_nil_r).
  rewrite E, IH. destruct p; reflexivity.
Qed.
(** ** Paths of identifiers are told apart by their text *)
Lemma identifier_no_dot s : go_identifier s -> Forall (fun c => c <> "."%char) s.
Proof.
  intros (c & r & -> & H & F). assert (W : forall c, word_char c = true -> c <> "."%char) by (intros x X ->; discriminate).
  constructor; [ apply W; unfold word_char; now rewrite H | ]. eapply Forall_impl; [ exact W | exact F ].
Qed.
Lemma path_head n ns s : go_identifier n -> path_text (n :: ns) = s -> s = B "." ++ n ++ path_text ns.
Proof. intros _ <-. unfold path_text. cbn [map concat]. now rewrite <- app_assoc. Qed.
Lemma split_at_dot (a b x y : bytes) : Forall (fun c => c <> "."%char) a -> Forall (fun c => c <> "."%char) b ->
  (x = [] \/ exists r, x = "."%char :: r) -> (y = [] \/ exists r, y = "."%char :: r) -> a ++ x = b ++ y -> a = b /\ x = y.
Proof.
  revert b. induction a as [|c a IH]; intros b A Bb X Y E.
  - destruct b as [|e b]; [ auto | ]. inversion Bb; subst. destruct X as [ -> | (r & ->) ]; cbn in E; [ discriminate | injection E as <- _; contradiction ].
  - destruct b as [|e b]; [ inversion A; subst; destruct Y as [ -> | (r & ->) ]; cbn in E; [ discriminate | injection E as -> _; contradiction ] | ].
    cbn in E. injection E as -> E. inversion A; subst. inversion Bb; subst. destruct (IH b H2 H4 X Y E) as [-> ->]. auto.
Qed.
Lemma path_starts ns : path_text ns = [] \/ exists r, path_text ns = "."%char :: r.
Proof. destruct ns as [|n ns]; [ now left | right; eexists; reflexivity ]. Qed.
Lemma path_injective a : forall b, Forall go_identifier a -> Forall go_identifier b -> path_text a = path_text b -> a = b.
Proof.
  induction a as [|n a IH]; intros [|m b] A Bb E; try reflexivity; try discriminate. inversion A; subst. inversion Bb; subst.
  rewrite (path_head n a _ H1 eq_refl), (path_head m b _ H3 eq_refl) in E. apply app_inv_head in E.
  destruct (split_at_dot n m (path_text a) (path_text b)) as [-> E2]; auto using identifier_no_dot, path_starts. f_equal. now apply IH.
Qed.
(** ** Pointers of a path *)
Lemma pointers_in ps : forall before p, In p (pointers before ps) <-> exists a n b, ps = a ++ (n, true) :: b /\ p = before ++ map fst a ++ [n].
Proof.
  induction ps as [|[n q] ps IH]; intros before p; cbn [pointers].
  - split; [ intros [] | intros (a & m & b & E & _); destruct a; discriminate ].
  - rewrite in_app_iff, IH. split.
    + intros [ I | (a & m & b & -> & ->) ].
      * destruct q; [ | destruct I ]. destruct I as [ <- | [] ]. exists [], n, ps. split; reflexivity.
      * exists ((n, q) :: a), m, b. split; [ reflexivity | ]. cbn [map fst]. now rewrite <- app_assoc.
    + intros (a & m & b & E & ->). destruct a as [|[x y] a]; cbn [app] in E.
      * injection E as -> -> ->. left. now left.
      * injection E as -> -> ->. right. exists a, m, b. split; [ reflexivity | ]. cbn [map fst]. now rewrite <- app_assoc.
Qed.
Lemma pointers_identifiers ps p : Forall go_identifier (map fst ps) -> In p (pointers [] ps) -> Forall go_identifier p.
Proof.
  intros F I. apply pointers_in in I as (a & n & b & -> & ->). rewrite map_app in F. apply Forall_app in F as [F1 F2]. cbn in F2. inversion F2; subst. cbn [app]. apply Forall_app. split; [ exact F1 | constructor; [ assumption | constructor ] ].
Qed.
Lemma pointers_nonempty ps : existsb snd ps = match pointers [] ps with [] => false | _ => true end.
Proof.
  assert (G : forall before, existsb snd ps = match pointers before ps with [] => false | _ => true end); [ | apply G ].
  induction ps as [|[n q] ps IH]; intros before; [ reflexivity | ]. cbn [existsb snd pointers]. destruct q; [ reflexivity | ]. cbn [orb app]. apply IH.
Qed.
(** A shorter pointer comes first. *)
Lemma pointers_order ps : forall before x q y p r, pointers before ps = x ++ q :: y -> q = p ++ r -> r <> [] -> In p (pointers before ps) -> In p x.
Proof.
  assert (L : forall ps before p, In p (pointers before ps) -> length before < length p).
  { intros ps0 b p I. apply pointers_in in I as (a & n & c & _ & ->). rewrite !app_length. cbn. lia. }
  induction ps as [|[n f] ps IH]; intros before x q y p r E Q R I; [ destruct x; discriminate | ]. cbn [pointers] in E, I. destruct f; cbn [app] in E, I; [ | eapply IH; eassumption ].
  destruct x as [|z x]; cbn [app] in E.
  - injection E as <- E. exfalso. assert (LP : length p < length (before ++ [n])) by (rewrite Q, app_length; destruct r; [ now destruct R | cbn; lia ]).
    destruct I as [ <- | I ]; [ lia | ]. apply L in I. lia.
  - injection E as <- E. destruct I as [ <- | I ]; [ now left | right ]. eapply IH; eassumption.
Qed.

(** ** Each once *)
Lemma distinct_in l : forall seen p, In p (distinct seen l) <-> In p l /\ ~ In p seen.
Proof.
  induction l as [|x l IH]; intros seen p; cbn [distinct In]; [ tauto | ]. destruct (bmem x seen) eqn:M.
  - rewrite IH. apply bmem_In in M. intuition. subst. contradiction.
  - apply bmem_not_In in M. cbn [In]. rewrite IH. cbn [In]. destruct (bytes_eq_dec x p) as [->|N]; intuition.
Qed.
Lemma distinct_nodup l : forall seen, NoDup (distinct seen l).
Proof.
  induction l as [|x l IH]; intros seen; cbn [distinct]; [ constructor | ]. destruct (bmem x seen); [ apply IH | ]. constructor; [ | apply IH ]. rewrite distinct_in. intros [_ H]. apply H. now left.
Qed.
Lemma distinct_app x : forall seen q y, ~ In q x -> ~ In q seen -> exists z, distinct seen (x ++ q :: y) = distinct seen x ++ q :: z.
Proof.
  induction x as [|a x IH]; intros seen q y N S0; cbn [app distinct].
  - apply bmem_not_In in S0. rewrite S0. eexists. reflexivity.
  - destruct (bmem a seen); [ apply IH; [ intros I; apply N; now right | exact S0 ] | ]. destruct (IH (a :: seen) q y) as [z E]; [ intros I; apply N; now right | intros [ -> | I ]; [ apply N; now left | contradiction ] | ].
    exists z. rewrite E. reflexivity.
Qed.

(** ** Paths of declared fields *)
Fixpoint decl_rec' (P : decl -> Prop) (HN : forall ns ty tag, P (Names ns ty tag)) (HE : forall n ex ty tag inner, Forall P inner -> P (Embeds n ex ty tag inner)) (HO : P Opaque) (x : decl) : P x :=
  match x with
  | Names ns ty tag => HN ns ty tag
  | Embeds n ex ty tag inner => HE n ex ty tag inner ((fix all (l : list decl) : Forall P l := match l with [] => Forall_nil P | t :: r => Forall_cons t (decl_rec' P HN HE HO t) (all r) end) inner)
  | Opaque => HO
  end.
Lemma decl_prefix x : forall prev f, In f (decl_fields prev x) -> exists rest, f_paths f = prev ++ rest /\ forall a b, rest = a ++ b -> a <> [] -> exists g, In g (decl_fields prev x) /\ f_paths g = prev ++ a.
Proof.
  induction x as [ns ty tag | n ex ty tag inner IH | ] using decl_rec'; intros prev f I; cbn [decl_fields] in *.
  - apply in_map_iff in I as (m & <- & I). eexists. split; [ reflexivity | ]. intros a b E N. destruct a as [|y a]; [ now destruct N | ]. cbn [app] in E. injection E as <- E. symmetry in E. apply app_eq_nil in E as [-> ->].
    eexists. split; [ apply in_map_iff; exists m; split; [ reflexivity | exact I ] | reflexivity ].
  - destruct I as [ <- | I ].
    + eexists. split; [ reflexivity | ]. intros a b E N. destruct a as [|y a]; [ now destruct N | ]. cbn [app] in E. injection E as <- E. symmetry in E. apply app_eq_nil in E as [-> ->]. eexists. split; [ now left | reflexivity ].
    + apply in_flat_map in I as (y & J & I). rewrite Forall_forall in IH. destruct (IH y J _ f I) as (rest & E & H). rewrite <- app_assoc in E. eexists. split; [ exact E | ].
      intros a b E2 N. destruct a as [|z a]; [ now destruct N | ]. cbn [app] in E2. injection E2 as <- E2. destruct a as [|z2 a]; [ eexists; split; [ now left | reflexivity ] | ].
      destruct (H (z2 :: a) b E2) as (g & G1 & G2); [ discriminate | ]. exists g. split; [ right; apply in_flat_map; eauto | ]. rewrite G2, <- app_assoc. reflexivity.
  - destruct I.
Qed.
Lemma declared_prefix ds f a b : In f (declared ds) -> f_paths f = a ++ b -> a <> [] -> exists g, In g (declared ds) /\ f_paths g = a.
Proof.
  intros I E N. apply in_flat_map in I as (x & J & I). destruct (decl_prefix x [] f I) as (rest & E1 & H). cbn [app] in E1. rewrite E1 in E. destruct (H a b E N) as (g & G1 & G2). exists g. split; [ apply in_flat_map; eauto | exact G2 ].
Qed.
Lemma nodup_map_eq {A C} (h : A -> C) l x y : NoDup (map h l) -> In x l -> In y l -> h x = h y -> x = y.
Proof.
  induction l as [|z l IH]; intros N I J E; [ destruct I | ]. cbn [map] in N. apply NoDup_cons_iff in N as [N1 N2].
  destruct I as [<-|I], J as [<-|J]; auto; [ exfalso; apply N1; rewrite E; now apply in_map | exfalso; apply N1; rewrite <- E; now apply in_map ].
Qed.
Lemma same_flag ds f g a n p b a' p' b' : distinct_paths ds -> In f (declared ds) -> In g (declared ds) -> f_paths f = a ++ (n, p) :: b -> f_paths g = a' ++ (n, p') :: b' -> map fst a = map fst a' -> p = p'.
Proof.
  intros D I J E E' M. destruct (declared_prefix ds f (a ++ [(n, p)]) b I) as (f1 & I1 & P1); [ now rewrite <- app_assoc | destruct a; discriminate | ].
  destruct (declared_prefix ds g (a' ++ [(n, p')]) b' J) as (g1 & J1 & Q1); [ now rewrite <- app_assoc | destruct a'; discriminate | ].
  assert (X : f1 = g1) by (eapply (nodup_map_eq (fun f => map fst (f_paths f))); [ exact D | exact I1 | exact J1 | ]; cbn beta; rewrite P1, Q1, !map_app, M; reflexivity).
  subst g1. rewrite P1 in Q1. apply app_inj_tail in Q1 as [_ Q]. now injection Q.
Qed.
(** A pointer on the way to a pointer is one for every field behind it. *)
Lemma pointers_shared ds f g q p r : distinct_paths ds -> In f (declared ds) -> In g (declared ds) -> In q (pointers [] (f_paths f)) -> q = p ++ r -> r <> [] -> In p (pointers [] (f_paths g)) -> In p (pointers [] (f_paths f)).
Proof.
  intros D I J IQ Q R IP. apply pointers_in in IQ as (a & n & b & E & EQ). apply pointers_in in IP as (a' & n' & b' & E' & EP). cbn [app] in EQ, EP.
  assert (W : exists a1 p1 b1, f_paths f = a1 ++ (n', p1) :: b1 /\ map fst a1 = map fst a').
  { assert (M : map fst (f_paths f) = map fst a' ++ [n'] ++ r ++ map fst b).
    { rewrite E, map_app. cbn [map fst]. change (n :: map fst b) with ([n] ++ map fst b). rewrite app_assoc, <- EQ, Q, EP, <- !app_assoc. reflexivity. }
    clear - M. set (l := f_paths f) in *. clearbody l. set (x := map fst a') in *. clearbody x. revert l M. induction x as [|y x IH]; intros [|[u v0] l] M; cbn [map fst app] in M; try discriminate.
    - injection M as -> M. exists [], v0, l. auto.
    - injection M as -> M. destruct (IH l M) as (a1 & p1 & b1 & -> & H). exists ((y, v0) :: a1), p1, b1. cbn [map fst app]. rewrite H. auto. }
  destruct W as (a1 & p1 & b1 & E1 & M1). pose proof (same_flag ds f g a1 n' p1 b1 a' true b' D I J E1 E' M1) as ->. apply pointers_in. exists a1, n', b1. split; [ exact E1 | ]. cbn [app]. now rewrite M1, EP.
Qed.

(** ** The order of Addrs *)
Lemma first_occurrence (l : list bytes) q : In q l -> exists x y, l = x ++ q :: y /\ ~ In q x.
Proof.
  induction l as [|a l IH]; intros I; [ destruct I | ]. destruct (bytes_eq_dec a q) as [->|N]; [ exists [], l; split; [ reflexivity | intros [] ] | ].
  destruct I as [ -> | I ]; [ now destruct N | ]. destruct (IH I) as (x & y & -> & H). exists (a :: x), y. split; [ reflexivity | ]. intros [ -> | J ]; contradiction.
Qed.
Lemma flat_map_split {A C} (h : A -> list C) l x q y : flat_map h l = x ++ q :: y -> exists l1 f l2 x1 y1, l = l1 ++ f :: l2 /\ h f = x1 ++ q :: y1 /\ x = flat_map h l1 ++ x1.
Proof.
  revert x. induction l as [|f l IH]; intros x E; [ destruct x; discriminate | ]. cbn [flat_map] in E.
  assert (G : (exists y1, h f = x ++ q :: y1) \/ exists x', x = h f ++ x' /\ flat_map h l = x' ++ q :: y).
  { clear IH. revert x E. induction (h f) as [|c hf IH]; intros x E; [ right; exists x; auto | ]. destruct x as [|d x]; cbn [app] in E.
    - injection E as -> E. left. exists hf. reflexivity.
    - injection E as -> E. destruct (IH x E) as [ [y1 H] | (x' & H1 & H2) ]; [ left; exists y1; cbn [app]; now rewrite H | right; exists x'; split; [ cbn [app]; now rewrite H1 | exact H2 ] ]. }
  destruct G as [ [y1 H] | (x' & -> & H) ]; [ exists [], f, l, x, y1; auto | ]. destruct (IH x' H) as (l1 & g & l2 & x1 & y1 & -> & H1 & ->). exists (f :: l1), g, l2, x1, y1. split; [ reflexivity | ]. split; [ exact H1 | ]. cbn [flat_map]. now rewrite app_assoc.
Qed.
Lemma map_inverse {A C} (h : A -> C) l : (forall x, In x l -> exists a, h a = x) -> exists m, l = map h m.
Proof.
  induction l as [|x l IH]; intros H; [ exists []; reflexivity | ]. destruct (H x (or_introl eq_refl)) as [a <-]. destruct IH as [m ->]; [ intros y I; apply H; now right | ]. exists (a :: m). reflexivity.
Qed.
Lemma nodup_split {A} (l1 : list A) q l2 : forall m1 m2, NoDup (l1 ++ q :: l2) -> l1 ++ q :: l2 = m1 ++ q :: m2 -> l1 = m1.
Proof.
  induction l1 as [|a l1 IH]; intros m1 m2 N E.
  - destruct m1 as [|b m1]; [ reflexivity | ]. cbn [app] in *. injection E as -> ->. apply NoDup_cons_iff in N as [N _]. exfalso. apply N. apply in_or_app. right. now left.
  - destruct m1 as [|b m1]; cbn [app] in *; [ injection E as -> <-; apply NoDup_cons_iff in N as [N _]; exfalso; apply N; apply in_or_app; right; now left | ].
    injection E as -> E. f_equal. eapply IH; [ apply NoDup_cons_iff in N; apply N | exact E ].
Qed.
Lemma allocation_order ds gs : distinct_paths ds -> (forall f, In f gs -> In f (declared ds) /\ Forall go_identifier (map fst (f_paths f))) ->
  exists ps, distinct [] (flat_map (fun f => map path_text (pointers [] (f_paths f))) gs) = map path_text ps /\ NoDup ps /\ Forall (Forall go_identifier) ps /\
  (forall p, In p ps <-> exists f, In f gs /\ In p (pointers [] (f_paths f))) /\
  (forall before q after p r, ps = before ++ q :: after -> q = p ++ r -> r <> [] -> In p ps -> In p before).
Proof.
  intros D H. set (L := flat_map (fun f => pointers [] (f_paths f)) gs).
  assert (EL : flat_map (fun f => map path_text (pointers [] (f_paths f))) gs = map path_text L).
  { subst L. clear. induction gs as [|f gs IH]; [ reflexivity | ]. cbn [flat_map]. now rewrite map_app, IH. }
  rewrite EL.
  assert (FL : forall p, In p L -> Forall go_identifier p) by (intros p I; apply in_flat_map in I as (f & J & I); eapply pointers_identifiers; [ apply (H f J) | exact I ]).
  assert (INV : exists ps, distinct [] (map path_text L) = map path_text ps /\ forall p, In p ps -> In p L).
  { assert (G : forall l, (forall x, In x l -> exists p, path_text p = x /\ In p L) -> exists ps, l = map path_text ps /\ forall p, In p ps -> In p L).
    { induction l as [|x l IH]; intros G; [ exists []; split; [ reflexivity | intros ? [] ] | ]. destruct (G x (or_introl eq_refl)) as (p & <- & I). destruct IH as (m & -> & M); [ intros y J; apply G; now right | ]. exists (p :: m). split; [ reflexivity | ]. intros q [<-|J]; auto. }
    apply G. intros x I. apply distinct_in in I as [I _]. apply in_map_iff in I as (p & E & I). eauto. }
  destruct INV as (ps & E & SUB). exists ps. split; [ exact E | ].
  assert (ND : NoDup (map path_text ps)) by (rewrite <- E; apply distinct_nodup). split; [ eapply NoDup_map_inv; exact ND | ]. split; [ apply Forall_forall; intros p I; apply FL, SUB, I | ].
  assert (IN : forall p, In p ps <-> In p L).
  { intros p. split; [ apply SUB | ]. intros I. assert (J : In (path_text p) (map path_text ps)) by (rewrite <- E; apply distinct_in; split; [ now apply in_map | intros [] ]).
    apply in_map_iff in J as (q & Q & J). rewrite <- (path_injective q p); [ exact J | apply FL, SUB, J | apply FL, I | exact Q ]. }
  split; [ intros p; rewrite IN; subst L; apply in_flat_map | ].
  intros before q after p r EP Q R IP.
  assert (IQ : In q ps) by (rewrite EP; apply in_or_app; right; now left). apply IN in IQ as IQL.
  destruct (first_occurrence (map path_text L) (path_text q)) as (x & y & EX & NX); [ now apply in_map | ].
  assert (SP : exists l1 l2, L = l1 ++ q :: l2 /\ x = map path_text l1).
  { clear - EX FL IQL. revert x EX. induction L as [|z L IH]; intros x EX; [ destruct x; discriminate | ]. cbn [map] in EX. destruct x as [|w x]; cbn [app] in EX.
    - injection EX as EZ EX. exists [], L. split; [ | reflexivity ]. cbn [app]. f_equal. apply path_injective; [ apply FL; now left | apply FL; exact IQL | exact EZ ].
    - injection EX as EZ EX. destruct (in_dec (list_eq_dec bytes_eq_dec) q L) as [I|N].
      + destruct (IH (fun p I => FL p (or_intror I)) I x EX) as (l1 & l2 & -> & ->). exists (z :: l1), l2. split; [ reflexivity | cbn [map]; now rewrite EZ ].
      + exfalso. assert (J : In (path_text q) (map path_text L)) by (rewrite EX; apply in_or_app; right; now left). apply in_map_iff in J as (u & U & J). apply N. rewrite <- (path_injective u q); [ exact J | apply FL; now right | apply FL; exact IQL | exact U ]. }
  destruct SP as (l1 & l2 & EL2 & ->). destruct (flat_map_split _ _ _ _ _ EL2) as (g1 & f & g2 & x1 & y1 & EG & EF & EX1).
  assert (IF : In f gs) by (rewrite EG; apply in_or_app; right; now left).
  assert (PF : In p (pointers [] (f_paths f))).
  { apply IN in IP. apply in_flat_map in IP as (g & JG & IP). eapply (pointers_shared ds f g q p r); try eassumption; [ apply (H f IF) | apply (H g JG) | rewrite EF; apply in_or_app; right; now left ]. }
  pose proof (pointers_order _ _ _ _ _ _ _ EF Q R PF) as PX.
  assert (PL : In (path_text p) (map path_text l1)) by (apply in_map; rewrite EX1; apply in_or_app; now right).
  destruct (distinct_app (map path_text l1) [] (path_text q) y NX (fun z => z)) as (z & EZ). rewrite <- EX, E, EP, map_app in EZ. cbn [map] in EZ.
  rewrite EP, map_app in ND. cbn [map] in ND. pose proof (nodup_split _ _ _ _ _ ND EZ) as EB.
  assert (PB : In (path_text p) (map path_text before)) by (rewrite EB; apply distinct_in; split; [ exact PL | intros [] ]).
  apply in_map_iff in PB as (u & U & PB). rewrite <- (path_injective u p); [ exact PB | apply FL, SUB; rewrite EP; apply in_or_app; now left | apply FL, SUB, IP | exact U ].
Qed.
