(** C73: the names of other packages in generated expressions. *)
From Verif Require Import Base ModelStrconv ModelPaths ModelTypes ModelConfig ModelExpr LemmasBase PropPaths PropConfig SpecExpr LemmasExpr.

Lemma import_cases self load l path name : distinct l -> ~ In self (map fst l) -> load path <> None ->
  (path = self /\ import self load l path name = Some (l, Skipped)) \/
  (path <> self /\ exists n l', import self load l path name = Some (l', Named_as n) /\ In (path, n) l' /\ distinct l' /\ incl l l' /\
     (l' = l \/ l' = (path, n) :: l /\ ~ In path (map fst l) /\ ~ In n (map snd l) /\ exists real, load path = Some real /\
        let wanted := match real with [] => name | _ => real end in n = wanted \/ In wanted (map snd l) /\ exists k, n = wanted ++ format_uint k)).
Proof.
  intros D NS L. destruct (load path) as [real | ] eqn:El; [ | contradiction ].
  destruct (name_of_path l path) as [n | ] eqn:En.
  - right. pose proof (proj1 (name_of_path_spec l path) n En) as I. split; [ intros ->; apply NS; exact (in_map fst _ _ I) | ]. exists n, l. unfold import. rewrite En. split; [ reflexivity | split; [ exact I | split; [ exact D | split; [ apply incl_refl | now left ] ] ] ].
  - pose proof (proj2 (name_of_path_spec l path) En) as NI. destruct (bytes_eq_dec path self) as [ -> | NE ].
    + left. split; [ reflexivity | ]. unfold import. rewrite En, El, bseq_refl. reflexivity.
    + right. split; [ exact NE | ]. destruct (C47_imported_partial self load l path name real D El NE NI) as (n & E & N & W). exists n, ((path, n) :: l). split; [ exact E | split; [ now left | split; [ | split ] ] ].
      * destruct D as [D1 D2]. split; constructor; assumption.
      * intros x Ix. now right.
      * right. split; [ reflexivity | ]. split; [ exact NI | split; [ exact N | ] ]. exists real. auto.
Qed.
Lemma distinct_same l p n m : distinct l -> In (p, n) l -> In (p, m) l -> n = m.
Proof.
  intros [D _]. induction l as [|[q x] l IH]; [ intros [] | ]. cbn [map fst] in D. apply NoDup_cons_iff in D. destruct D as [N D]. intros [ E | I ] [ E' | J ].
  - congruence.
  - injection E as -> ->. exfalso. apply N. exact (in_map fst _ _ J).
  - injection E' as -> ->. exfalso. apply N. exact (in_map fst _ _ I).
  - now apply IH.
Qed.

(** ** C73.  A type whose names are all of one package is written with the name of that package in the file, which is imported. *)
Theorem C73_type_partial self load l t s p :
  distinct l -> ~ In self (map fst l) -> go_type t s -> (forall q, mentions q t -> q = p) -> import_path p -> load p <> None ->
  exists out l', import_needed self load l s = Ok (out, l') /\ distinct l' /\ incl l l' /\ ~ In self (map fst l') /\
  (forall q n, In (q, n) l' -> In (q, n) l \/ mentions q t) /\
  (mentions p t -> p = self \/ exists n, In (p, n) l') /\
  ((mentions p t -> simple self l' p) -> written (by_name self l') t out).
Proof.
  intros D NS W M P L. pose proof (import_path_nonempty p P) as NEp. destruct (proj1 (located_type p) t s W M) as [ [NM DL] | [Mp Loc] ].
  - exists s, l. unfold import_needed. rewrite find_path_none by apply DL. split; [ reflexivity | ]. split; [ exact D | split; [ apply incl_refl | split; [ exact NS | split; [ auto | split; [ intros Mp; destruct (NM p Mp) | ] ] ] ] ].
    intros _. apply (proj1 (written_mono by_path (by_name self l)) t s W). intros r x Mr. destruct (NM r Mr).
  - assert (F : find_path s = Some p) by (destruct Loc as (a & n & z & -> & O & I & Cl); now apply find_path_at). unfold import_needed. rewrite F.
    destruct (import_cases self load l p (base p) D NS L) as [ [Ep E] | (Np & n & l' & E & I & D' & In' & Cs) ]; rewrite E.
    + eexists _, _. split; [ reflexivity | ]. split; [ exact D | split; [ apply incl_refl | split; [ exact NS | split; [ auto | split; [ auto | ] ] ] ] ]. intros _.
      apply (proj1 (renamed p (p ++ B ".") [] "."%char (by_name self l) [] ltac:(intros X; apply app_eq_nil in X as [_ X]; discriminate) ltac:(apply in_or_app; right; now left) (or_introl eq_refl)
        ltac:(intros c Ic; apply in_app_or in Ic as [Ic | [ <- | [] ]]; [ pose proof (import_path_chars p P) as Fc; rewrite Forall_forall in Fc; now apply Fc | left; right; now left ])
        ltac:(intros m Im; change (p ++ ["."%char]) with (p ++ B "."); rewrite rep_head by (intros X; apply app_eq_nil in X as [_ X]; discriminate); cbn [app]; apply (rep_absent _ _ "."%char); [ apply in_or_app; right; now left | apply (dotless_ident m Im) ])
        ltac:(left; auto)) t s W M).
    + eexists _, _. split; [ reflexivity | ]. split; [ exact D' | split; [ exact In' | split; [ | split; [ | split; [ right; now exists n | ] ] ] ] ].
      * destruct Cs as [ -> | [ -> _ ] ]; [ exact NS | ]. cbn. intros [ X | X ]; congruence.
      * intros q m Iq. destruct Cs as [ -> | [ -> _ ] ]; [ auto | ]. destruct Iq as [ [= <- <-] | Iq ]; auto.
      * intros Cd. destruct (Cd Mp) as [ X | [ Sl | Pp ] ]; [ contradiction | | ].
        -- apply (proj1 (renamed p p n "/"%char (by_name self l') (n ++ ["."%char]) NEp Sl (or_intror eq_refl)
             ltac:(intros c Ic; pose proof (import_path_chars p P) as Fc; rewrite Forall_forall in Fc; now apply Fc)
             ltac:(intros m Im; rewrite <- !app_assoc, rep_head by exact NEp; f_equal; apply (rep_absent _ _ "/"%char); [ exact Sl | cbn [app]; intros [ X | X ]; [ discriminate | now apply (dotless_ident m Im) ] ])
             ltac:(right; exists n; auto)) t s W M).
        -- assert (n = p) as -> by (eapply distinct_same; eassumption). rewrite rep_same by exact NEp. apply (proj1 (written_mono by_path (by_name self l')) t s W). intros r x Mr ->. apply M in Mr as ->. right. exists p. auto.
Qed.
Print Assumptions C73_type_partial.

(** ** Expressions *)
Lemma element_elem u t : element u t -> elem_type u = t. Proof. now intros []. Qed.
Lemma elem_element u : element u (elem_type u). Proof. destruct u; constructor. Qed.
Lemma stripped_base u t : stripped u t -> base_type u = t.
Proof. induction 1 as [ u v S' IH | u N ]; [ exact IH | ]. destruct u; try reflexivity. destruct (N u eq_refl). Qed.
Lemma base_stripped u : stripped u (base_type u).
Proof. induction u; cbn [base_type]; try (apply s_other; discriminate). now apply s_pointer. Qed.
Lemma variable_path a g : variable a g -> go_path a = g.
Proof.
  unfold go_path. intros [ -> | [ E N ] ]; [ reflexivity | ]. rewrite E. destruct g as [|c r]; [ reflexivity | ]. destruct (beq c "&") eqn:Ec; [ | reflexivity ]. apply beq_eq in Ec as ->. destruct (N r eq_refl).
Qed.
Lemma path_variable a : (forall r, p_path a <> "&"%char :: "&"%char :: r) -> variable a (go_path a).
Proof.
  unfold go_path, variable. destruct (p_path a) as [|c r] eqn:E; intros N; [ right; split; [ reflexivity | discriminate ] | ]. destruct (beq c "&") eqn:Ec; [ apply beq_eq in Ec as ->; now left | ].
  right. split; [ reflexivity | ]. intros r' [= -> _]. discriminate Ec.
Qed.
Lemma reads_mono (Q R : bytes -> bytes -> Prop) a ps s : reads Q a ps s -> (forall t r x, asks a ps t -> mentions r t -> Q r x -> R r x) -> reads R a ps s.
Proof.
  induction 1 as [ | p ps s r St Rd IH ]; intros H; [ constructor | ]. constructor.
  - inversion St; subst; try (now constructor).
    + eapply st_elem; try eassumption. apply (proj1 (written_mono Q R) u s); [ assumption | ]. intros y x My. apply (H u). { exists t. split; [ assumption | left; split; [ now left | assumption ] ]. } exact My.
    + eapply st_base; try eassumption. apply (proj1 (written_mono Q R) u s); [ assumption | ]. intros y x My. apply (H u). { exists t. split; [ assumption | right; split; [ now left | assumption ] ]. } exact My.
  - apply IH. intros t y x (u & E & A). apply H. exists u. split; [ exact E | ]. destruct A as [ [ I X ] | [ I X ] ]; [ left | right ]; (split; [ now right | exact X ]).
Qed.
Lemma import_names self load l p : distinct l -> ~ In self (map fst l) -> load p <> None -> names_only l -> finds_names load -> ~ In "/"%char (base p) ->
  forall l' r, import self load l p (base p) = Some (l', r) -> names_only l'.
Proof.
  intros D NS L NO FN NB l' r E. destruct (import_cases self load l p (base p) D NS L) as [ [_ E'] | (_ & n & l2 & E' & _ & _ & _ & Cs) ]; rewrite E in E'; injection E' as -> ->; [ exact NO | ].
  destruct Cs as [ -> | (-> & _ & _ & real & Lr & W) ]; [ exact NO | ]. intros q m [ [= <- <-] | I ]; [ | now apply (NO q m) ].
  assert (NW : ~ In "/"%char (match real with [] => base p | _ => real end)) by (destruct real; [ exact NB | exact (FN p _ Lr) ]).
  destruct W as [ -> | [ _ [ k -> ] ] ]; [ exact NW | ]. intros I. apply in_app_or in I as [ I | I ]; [ contradiction | ]. revert I. apply digits_no. unfold digit. cbn. lia.
Qed.
Lemma split_no sep s : Forall (fun x => ~ In sep x) (split_on sep s).
Proof.
  induction s as [|c s IH]; cbn [split_on]; [ repeat constructor; intros [] | ]. destruct (beq c sep) eqn:E; [ constructor; [ intros [] | exact IH ] | ]. apply beq_neq in E.
  destruct (split_on sep s) as [|x xs]; [ repeat constructor; intros [ X | [] ]; contradiction | ]. inversion IH; subst. constructor; [ intros [ X | X ]; contradiction | assumption ].
Qed.
Lemma base_no_slash p : ~ In "/"%char (base p).
Proof.
  unfold base. pose proof (split_no "/" p) as F. induction F as [|x xs N F IH]; [ intros [] | ]. destruct xs; [ exact N | exact IH ].
Qed.
Lemma type_needed self load l t s : distinct l -> ~ In self (map fst l) -> names_only l -> finds_names load -> go_type t s -> one_package load t ->
  exists out l', import_needed self load l (type_string t) = Ok (out, l') /\ distinct l' /\ incl l l' /\ ~ In self (map fst l') /\ names_only l' /\
  (forall q n, In (q, n) l' -> In (q, n) l \/ mentions q t) /\
  (forall q, mentions q t -> q = self \/ exists n, In (q, n) l') /\
  ((forall q, mentions q t -> simple self l' q) -> written (by_name self l') t out).
Proof.
  intros D NS NO FN W (p & M & P & L). rewrite (proj1 type_string_written t s W). destruct (C73_type_partial self load l t s p D NS W M P L) as (out & l' & E & D' & I' & NS' & Nw & Im & Wr).
  exists out, l'. split; [ exact E | ]. split; [ exact D' | split; [ exact I' | split; [ exact NS' | split; [ | split; [ exact Nw | split ] ] ] ] ].
  - unfold import_needed in E. destruct (find_path s) as [r | ] eqn:Ef; [ | injection E as _ <-; exact NO ]. destruct (proj1 (located_type p) t s W M) as [ [_ DL] | [_ Loc] ]; [ rewrite find_path_none in Ef by apply DL; discriminate | ].
    assert (r = p) as ->. { destruct Loc as (a & n & z & -> & O & I & Cl). rewrite find_path_at in Ef by assumption. congruence. }
    destruct (import self load l p (base p)) as [ [l2 r] | ] eqn:Ei; [ | discriminate E ]. assert (l2 = l') as <- by (destruct r; congruence). exact (import_names self load l p D NS L NO FN (base_no_slash p) _ _ Ei).
  - intros q Mq. pose proof (M q Mq) as ->. auto.
  - intros H. apply Wr. intros Mp. now apply H.
Qed.
Lemma execute_reads self load a : finds_names load -> forall ps s0 l, distinct l -> ~ In self (map fst l) -> names_only l -> reads by_path a ps s0 -> (forall t, asks a ps t -> one_package load t) ->
  exists s l', execute self load a l ps = Ok (s, l') /\ distinct l' /\ incl l l' /\ ~ In self (map fst l') /\ names_only l' /\
  (forall q n, In (q, n) l' -> In (q, n) l \/ exists t, asks a ps t /\ mentions q t) /\
  (forall t q, asks a ps t -> mentions q t -> q = self \/ exists n, In (q, n) l') /\
  ((forall t q, asks a ps t -> mentions q t -> simple self l' q) -> reads (by_name self l') a ps s).
Proof.
  intros FN. induction ps as [|p ps IH]; intros s0 l D NS NO Rd One; [ exists [], l; split; [ reflexivity | ]; split; [ exact D | split; [ apply incl_refl | split; [ exact NS | split; [ exact NO | split; [ auto | split; [ | constructor ] ] ] ] ] ]; intros t q (u & _ & [ [ [] _ ] | [ [] _ ] ]) | ].
  inversion Rd as [ | p0 ps0 s1 r St Rd' E1 E2 ]; subst.
  assert (AS : forall t, asks a ps t -> asks a (p :: ps) t) by (intros t (u & E & [ [ I X ] | [ I X ] ]); exists u; (split; [ exact E | ]); [ left | right ]; (split; [ now right | exact X ])).
  assert (H : exists s1 l1, fill self load a l p = Ok (s1, l1) /\ distinct l1 /\ incl l l1 /\ ~ In self (map fst l1) /\ names_only l1 /\ (forall q n, In (q, n) l1 -> In (q, n) l \/ exists t, asks a (p :: ps) t /\ mentions q t) /\ (forall u t q, p_type a = Some u -> (p = ElemType /\ element u t \/ p = BaseType /\ stripped u t) -> mentions q t -> q = self \/ exists n, In (q, n) l1) /\
    forall l', distinct l' -> incl l1 l' -> (forall t q, asks a (p :: ps) t -> mentions q t -> simple self l' q) -> stands (by_name self l') a p s1).
  { assert (Plain : forall x, p <> ElemType -> p <> BaseType -> (forall R, stands R a p x) -> fill self load a l p = Ok (x, l) -> exists s1 l1, fill self load a l p = Ok (s1, l1) /\ distinct l1 /\ incl l l1 /\ ~ In self (map fst l1) /\ names_only l1 /\ (forall q n, In (q, n) l1 -> In (q, n) l \/ exists t, asks a (p :: ps) t /\ mentions q t) /\ (forall u t q, p_type a = Some u -> (p = ElemType /\ element u t \/ p = BaseType /\ stripped u t) -> mentions q t -> q = self \/ exists n, In (q, n) l1) /\
      forall l', distinct l' -> incl l1 l' -> (forall t q, asks a (p :: ps) t -> mentions q t -> simple self l' q) -> stands (by_name self l') a p s1).
    { intros x N1 N2 Hx E. exists x, l. split; [ exact E | ]. split; [ exact D | split; [ apply incl_refl | split; [ exact NS | split; [ exact NO | split; [ auto | split; [ intros u t q _ [ [ X _ ] | [ X _ ] ]; contradiction | intros l' _ _ _; apply Hx ] ] ] ] ] ]. }
    assert (Ty : forall u t x, p_type a = Some u -> (p = ElemType /\ element u t \/ p = BaseType /\ stripped u t) -> fill self load a l p = import_needed self load l (type_string t) -> written by_path t x ->
      (forall R y, written R t y -> stands R a p y) -> exists s1 l1, fill self load a l p = Ok (s1, l1) /\ distinct l1 /\ incl l l1 /\ ~ In self (map fst l1) /\ names_only l1 /\ (forall q n, In (q, n) l1 -> In (q, n) l \/ exists t, asks a (p :: ps) t /\ mentions q t) /\ (forall u t q, p_type a = Some u -> (p = ElemType /\ element u t \/ p = BaseType /\ stripped u t) -> mentions q t -> q = self \/ exists n, In (q, n) l1) /\
      forall l', distinct l' -> incl l1 l' -> (forall t q, asks a (p :: ps) t -> mentions q t -> simple self l' q) -> stands (by_name self l') a p s1).
    { intros u t x Eu Pu Ef W Hs. assert (At : asks a (p :: ps) t) by (exists u; split; [ exact Eu | ]; destruct Pu as [ [ -> X ] | [ -> X ] ]; [ left | right ]; (split; [ now left | exact X ])).
      destruct (type_needed self load l t x D NS NO FN W (One t At)) as (out & l1 & E & D1 & I1 & NS1 & NO1 & Nw & Im & Wr). rewrite Ef. exists out, l1. split; [ exact E | ]. split; [ exact D1 | split; [ exact I1 | split; [ exact NS1 | split; [ exact NO1 | split; [ | split ] ] ] ] ].
      - intros q n I. destruct (Nw q n I) as [ X | X ]; [ now left | right; now exists t ].
      - intros u' t' q Eu' Pu'. rewrite Eu in Eu'. injection Eu' as <-. assert (t' = t) as ->; [ | apply Im ]. destruct Pu as [ [ -> X ] | [ -> X ] ], Pu' as [ [ Y Z ] | [ Y Z ] ]; try discriminate Y; [ apply element_elem in X, Z | apply stripped_base in X, Z ]; congruence.
      - intros l' D' I' Sm. apply Hs. apply (proj1 (written_mono (by_name self l1) (by_name self l')) t out).
        + apply Wr. intros q Mq. destruct (Sm t q At Mq) as [ X | [ X | X ] ]; [ now left | right; now left | ]. destruct (Im q Mq) as [ -> | [n In_] ]; [ now left | ]. right. right. assert (n = q) as -> by (eapply distinct_same; [ exact D' | apply I'; exact In_ | exact X ]). exact In_.
        + intros r0 y _ [ X | (n & In_ & Ey) ]; [ now left | right; exists n; split; [ now apply I' | exact Ey ] ]. }
    inversion St; subst.
    - apply (Plain s1); [ discriminate | discriminate | intros R; constructor | reflexivity ].
    - apply (Plain (p_path a)); [ discriminate | discriminate | intros R; constructor | reflexivity ].
    - apply (Plain s1); [ discriminate | discriminate | intros R; now constructor | cbn [fill]; now rewrite (variable_path a s1) ].
    - apply (Plain ("&"%char :: g)); [ discriminate | discriminate | intros R; now constructor | cbn [fill]; now rewrite (variable_path a g) ].
    - apply (Plain s1); [ discriminate | discriminate | intros R; now constructor | cbn [fill]; rewrite (variable_path a s1) by assumption; now rewrite H0 ].
    - apply (Plain ("&"%char :: g)); [ discriminate | discriminate | intros R; now apply st_addr_val | cbn [fill]; rewrite (variable_path a g) by assumption; now rewrite H0 ].
    - apply (Ty t u s1); auto; [ cbn [fill]; rewrite H; now rewrite (element_elem t u) | intros R y Wy; eapply st_elem; eassumption ].
    - apply (Ty t u s1); auto; [ cbn [fill]; rewrite H; now rewrite (stripped_base t u) | intros R y Wy; eapply st_base; eassumption ].
    - apply (Plain (format_uint (p_len a))); [ discriminate | discriminate | intros R; now constructor | cbn [fill]; destruct (N.eqb_spec (p_len a) 0); [ contradiction | reflexivity ] ]. }
  destruct H as (x & l1 & Ef & D1 & I1 & NS1 & NO1 & Nw1 & Im1 & St1). destruct (IH r l1 D1 NS1 NO1 Rd' (fun t A => One t (AS t A))) as (y & l2 & Ee & D2 & I2 & NS2 & NO2 & Nw2 & Im2 & Rd2).
  exists (x ++ y), l2. cbn [execute]. rewrite Ef, Ee. split; [ reflexivity | ]. split; [ exact D2 | split; [ intros z Iz; now apply I2, I1 | split; [ exact NS2 | split; [ exact NO2 | split; [ | split ] ] ] ] ].
  - intros q n I. destruct (Nw2 q n I) as [ X | (t & A & Mq) ]; [ now apply Nw1 | right; exists t; auto ].
  - intros t q (u & Eu & A) Mq. assert (J : (p = ElemType /\ element u t \/ p = BaseType /\ stripped u t) \/ asks a ps t).
    { destruct A as [ [ [ -> | I ] X ] | [ [ -> | I ] X ] ]; [ left; left; auto | right; exists u; auto | left; right; auto | right; exists u; auto ]. }
    destruct J as [ J | J ]; [ | exact (Im2 t q J Mq) ]. destruct (Im1 u t q Eu J Mq) as [ X | [n X] ]; [ now left | right; exists n; now apply I2 ].
  - intros Sm. constructor; [ now apply St1 | ]. apply Rd2. intros t q A. apply Sm. now apply AS.
Qed.
Lemma reads_no_slash self l a ps s : names_only l -> reads (by_name self l) a ps s -> (forall x, In (Text x) ps -> ~ In "/"%char x) -> ~ In "/"%char (p_path a) -> ~ In "/"%char s.
Proof.
  intros NO Rd. assert (WN : (forall t x, written (by_name self l) t x -> ~ In "/"%char x) /\ (forall ts x, written_list (by_name self l) ts x -> ~ In "/"%char x)).
  { assert (QN : forall p q, by_name self l p q -> ~ In "/"%char q). { intros p q [ [_ ->] | (n & I & ->) ]; [ intros [] | ]. intros J. apply in_app_or in J as [ J | [ J | [] ] ]; [ exact (NO p n I J) | discriminate ]. }
    assert (IdN : forall n, identifier n -> ~ In "/"%char n) by (intros n In_; apply dotless_ident in In_; apply In_).
    apply written_both; intros; rewrite ?in_app_iff; cbn; rewrite ?in_app_iff; cbn.
    - auto.
    - intros [ X | X ]; [ eapply QN; eassumption | eapply IdN; eassumption ].
    - pose proof (QN _ _ H0). pose proof (IdN _ H). intuition discriminate.
    - intuition discriminate.
    - intuition discriminate.
    - pose proof (proj2 (dotless_digits n)). intuition discriminate.
    - intuition discriminate.
    - auto.
    - intuition discriminate. }
  induction Rd as [ | p ps s r St Rd IH ]; intros HT HP; [ intros [] | ]. intros I. apply in_app_or in I as [ I | I ]; [ | revert I; apply IH; [ intros x Ix; apply HT; now right | exact HP ] ].
  assert (GN : forall g, variable a g -> ~ In "/"%char g) by (intros g [ E | [ E _ ] ] J; apply HP; rewrite E; [ now right | exact J ]).
  inversion St; subst.
  - apply (HT s); [ now left | exact I ].
  - contradiction.
  - eapply GN; eassumption.
  - destruct I as [ X | I ]; [ discriminate | eapply GN; eassumption ].
  - eapply GN; eassumption.
  - destruct I as [ X | I ]; [ discriminate | eapply GN; eassumption ].
  - eapply (proj1 WN); eassumption.
  - eapply (proj1 WN); eassumption.
  - revert I. apply dotless_digits.
Qed.
(** An expression that starts with a function or type of another package, as all built-in mappings that use one do: the name is qualified
    by the name of its package, which is imported, and the rest reads as the pieces say.  Missing part: everything refuted below. *)
Theorem C73_expression_partial self load l pre p name tail a s0 :
  distinct l -> ~ In self (map fst l) -> names_only l -> finds_names load ->
  import_path p -> p <> self -> load p <> None -> before pre -> identifier name -> after tail ->
  (forall x, In (Text x) tail -> ~ In "/"%char x) -> ~ In "/"%char (p_path a) ->
  reads by_path a tail s0 -> (forall t, asks a tail t -> one_package load t) ->
  exists out l', format self load l (Text (pre ++ p ++ "."%char :: name) :: tail) a = Ok (out, l') /\ distinct l' /\ incl l l' /\ ~ In self (map fst l') /\
  (forall q n, In (q, n) l' -> In (q, n) l \/ q = p \/ exists t, asks a tail t /\ mentions q t) /\
  (simple self l' p -> (forall t q, asks a tail t -> mentions q t -> simple self l' q) ->
   exists n s, In (p, n) l' /\ reads (by_name self l') a tail s /\ out = pre ++ n ++ "."%char :: name ++ s).
Proof.
  intros D NS NO FN P NP L Pre Id Af HT HP Rd One. destruct (execute_reads self load a FN tail s0 l D NS NO Rd One) as (s & l1 & E & D1 & I1 & NS1 & NO1 & Nw & Im & Rd1).
  unfold format. cbn [execute fill]. rewrite E.
  assert (Cl : closing s). { clear - Af E. destruct Af as [ -> | (c & r & ps' & -> & Br) ]; [ injection E as <- _; now left | ]. cbn [execute fill] in E. destruct (execute self load a l ps') as [ [s' l2] | | ]; try discriminate E. injection E as <- _. right. exists c, (r ++ s'). auto. }
  assert (F : find_path ((pre ++ p ++ "."%char :: name) ++ s) = Some p) by (rewrite <- !app_assoc; cbn [app]; now apply find_path_at).
  unfold import_needed. rewrite F. destruct (import_cases self load l1 p (base p) D1 NS1 L) as [ [Ep _] | (_ & n & l' & Ei & In_ & D' & I' & Cs) ]; [ contradiction | ]. rewrite Ei.
  eexists _, _. split; [ reflexivity | ]. split; [ exact D' | split; [ intros x Ix; now apply I', I1 | split; [ | split ] ] ].
  - destruct Cs as [ -> | [ -> _ ] ]; [ exact NS1 | ]. cbn. intros [ X | X ]; congruence.
  - intros q m Iq. destruct Cs as [ -> | [ -> _ ] ]; [ destruct (Nw q m Iq); auto | ]. destruct Iq as [ [= <- <-] | Iq ]; [ auto | ]. destruct (Nw q m Iq); auto.
  - intros Sp St. assert (Rd' : reads (by_name self l1) a tail s).
    { apply Rd1. intros t q A Mq. destruct (St t q A Mq) as [ X | [ X | X ] ]; [ now left | right; now left | ].
      destruct (Im t q A Mq) as [ Y | [m Y] ]; [ now left | ]. assert (m = q) as -> by (eapply distinct_same; [ exact D' | apply I'; exact Y | exact X ]). right. now right. }
    exists n, s. split; [ exact In_ | split ].
    + apply (reads_mono (by_name self l1)); [ exact Rd' | ]. intros t r x _ _ [ X | (m & Im_ & Ex) ]; [ now left | right; exists m; split; [ now apply I' | exact Ex ] ].
    + pose proof (import_path_nonempty p P) as NEp. pose proof (reads_no_slash self l1 a tail s NO1 Rd' HT HP) as NSs. rewrite <- !app_assoc. cbn [app].
      destruct Sp as [ X | [ Sl | Sp ] ]; [ contradiction | | ].
      * assert (Hd : replaced (p ++ "."%char :: name ++ s) p n = n ++ "."%char :: name ++ s).
        { rewrite rep_head by exact NEp. f_equal. apply (rep_absent _ _ "/"%char); [ exact Sl | ]. intros [ X | X ]; [ discriminate | ]. apply in_app_or in X as [ X | X ]; [ now apply (dotless_ident name Id) | contradiction ]. }
        destruct Pre as (Pd & Ps & [ -> | (b & c & -> & Br) ]); [ exact Hd | ]. rewrite <- !app_assoc. cbn [app]. rewrite rep_sep; [ rewrite Hd; f_equal; apply (rep_absent _ _ "/"%char); [ exact Sl | intros X; apply Ps; apply in_or_app; now left ] | exact NEp | ].
        intros Ic. pose proof (import_path_chars p P) as Fc. rewrite Forall_forall in Fc. destruct Br as [B1 B2]. destruct (Fc c Ic); contradiction.
      * assert (n = p) as -> by (eapply distinct_same; eassumption). now rewrite rep_same.
Qed.
Print Assumptions C73_expression_partial.

(** An expression over a field of the record alone, (int64)(v.Address.Number): the text is kept.  Missing part: it counts the variable as a
    package, refuted below. *)
Theorem C73_variable_partial self load l pre parent f post :
  distinct l -> ~ In self (map fst l) -> before pre -> post = [] \/ (exists c r, post = c :: r /\ bracket c) -> lettered parent -> identifier f ->
  parent <> self -> load parent = Some [] -> In (parent, parent) l \/ ~ In parent (map fst l) /\ ~ In parent (map snd l) ->
  exists l', format self load l [Text pre; GoPath; Text post] {| p_path := parent ++ "."%char :: f; p_ptr := false; p_len := 0; p_type := None |} = Ok (pre ++ parent ++ "."%char :: f ++ post, l') /\
  incl l l' /\ In (parent, parent) l' /\ forall x, In x l' -> In x l \/ x = (parent, parent).
Proof.
  intros D NS Pre Po Lt Id NSf L Cs. unfold format. cbn [execute fill].
  assert (G : go_path {| p_path := parent ++ "."%char :: f; p_ptr := false; p_len := 0; p_type := None |} = parent ++ "."%char :: f).
  { unfold go_path. cbn [p_path]. destruct Lt as (c & r & -> & Lc & _). cbn [app]. destruct (beq c "&") eqn:E; [ | reflexivity ]. apply beq_eq in E as ->. unfold letter in Lc. cbn in Lc. lia. }
  rewrite G, app_nil_r. unfold import_needed. replace (pre ++ (parent ++ "."%char :: f) ++ post) with (pre ++ parent ++ "."%char :: f ++ post) by (now rewrite <- app_assoc).
  rewrite find_path_at; [ | exact Pre | now constructor | exact Id | exact Po ].
  assert (Bp : base parent = parent) by (unfold base; rewrite split_on_whole by (now apply lettered_no_slash); reflexivity). rewrite Bp.
  assert (NEp : parent <> []) by (destruct Lt as (c & r & -> & _); discriminate).
  destruct (import_cases self load l parent parent D NS ltac:(congruence)) as [ [X _] | (_ & n & l' & E & I & D' & I' & Ca) ]; [ contradiction | ]. rewrite E.
  assert (n = parent) as ->.
  { destruct Cs as [ J | [ N1 N2 ] ]; [ eapply distinct_same; [ exact D' | exact I | apply I'; exact J ] | ]. destruct Ca as [ -> | (-> & _ & _ & real & Lr & W) ]; [ exfalso; apply N1; exact (in_map fst _ _ I) | ].
    rewrite L in Lr. injection Lr as <-. cbn in W. destruct W as [ W | [ W _ ] ]; [ exact W | contradiction ]. }
  exists l'. rewrite rep_same by exact NEp. split; [ reflexivity | ]. split; [ exact I' | split; [ exact I | ] ]. intros x Ix. destruct Ca as [ -> | (-> & _) ]; [ now left | ]. destruct Ix as [ <- | Ix ]; auto.
Qed.
Print Assumptions C73_variable_partial.

(** ** Refutations *)
Lemma rep_longer o n : o <> [] -> (length o <= length n)%nat -> forall s, (length s <= length (replaced s o n))%nat.
Proof.
  intros NE Le s. remember (length s) as k eqn:Ek. revert s Ek. induction k as [k IH] using (well_founded_induction lt_wf). intros s ->. destruct s as [|c s]; [ cbn; lia | ].
  destruct (has_prefix (c :: s) o) eqn:E.
  - apply has_prefix_spec in E as [r E]. rewrite E, rep_head by exact NE. rewrite !app_length. assert (Lt : (length r < length (c :: s))%nat) by (rewrite E, app_length; destruct o; [ contradiction | cbn; lia ]). pose proof (IH _ Lt r eq_refl). lia.
  - rewrite rep_cons by assumption. cbn [length]. pose proof (IH (length s) ltac:(cbn; lia) s eq_refl). lia.
Qed.
Lemma rep_grows o n a c r : o <> [] -> (length o < length n)%nat -> ~ In c o -> replaced (a ++ c :: o ++ r) o n <> a ++ c :: o ++ r.
Proof.
  intros NE Lt Nc E. apply (f_equal (@length _)) in E. rewrite rep_sep, rep_head in E by assumption. pose proof (rep_longer o n NE ltac:(lia) a). pose proof (rep_longer o n NE ltac:(lia) r).
  rewrite !app_length in E. cbn [length] in E. rewrite !app_length in E. lia.
Qed.
(** Two packages in one type: only the first is replaced, the other stays a path, which no Go file can contain; the package is not imported. *)
Theorem C73_two_packages_refuted self load l p q k v :
  distinct l -> ~ In self (map fst l) -> import_path p -> import_path q -> identifier k -> identifier v -> p <> self -> p <> q -> ~ In q (map fst l) -> load p <> None -> In "/"%char p -> In "/"%char q ->
  (forall a b, q ++ "."%char :: v <> a ++ p ++ b) ->
  exists n l', import_needed self load l (type_string (TMap (TNamed p k []) (TNamed q v []))) = Ok (B "map[" ++ n ++ "."%char :: k ++ "]"%char :: q ++ "."%char :: v, l') /\ In (p, n) l' /\ ~ In q (map fst l') /\
  forall l2, names_only l2 -> ~ written (by_name self l2) (TMap (TNamed p k []) (TNamed q v [])) (B "map[" ++ n ++ "."%char :: k ++ "]"%char :: q ++ "."%char :: v).
Proof.
  intros D NS P Q' Ik Iv Np Npq Nq L Sp Sq No. cbn [type_string]. rewrite !app_nil_r. pose proof (import_path_nonempty p P) as NEp. unfold import_needed.
  assert (F : find_path (B "map[" ++ (p ++ B "." ++ k) ++ B "]" ++ q ++ B "." ++ v) = Some p).
  { rewrite <- !app_assoc. cbn [B list_ascii_of_string app]. change ("m"%char :: "a"%char :: "p"%char :: "["%char :: ?x) with (B "map[" ++ x).
    apply (find_path_at (B "map[")); [ | exact P | exact Ik | ].
    - split; [ cbn; intuition discriminate | split; [ cbn; intuition discriminate | right; exists (B "map"), "["%char; split; [ reflexivity | stops ] ] ].
    - right. eexists _, _. split; [ reflexivity | stops ]. }
  rewrite F. destruct (import_cases self load l p (base p) D NS L) as [ [X _] | (_ & n & l' & E & I & D' & I' & Ca) ]; [ contradiction | ]. rewrite E. exists n, l'.
  assert (R : replaced (B "map[" ++ (p ++ B "." ++ k) ++ B "]" ++ q ++ B "." ++ v) p n = B "map[" ++ n ++ "."%char :: k ++ "]"%char :: q ++ "."%char :: v).
  { assert (Nst : forall c, stop c -> ~ In c p) by (intros c [S1 S2] Ic; pose proof (import_path_chars p P) as Fc; rewrite Forall_forall in Fc; destruct (Fc c Ic); contradiction).
    change (B "map[" ++ (p ++ B "." ++ k) ++ B "]" ++ q ++ B "." ++ v) with (B "map" ++ "["%char :: (p ++ "."%char :: k) ++ "]"%char :: (q ++ "."%char :: v)).
    rewrite rep_sep; [ | exact NEp | apply Nst; stops ]. rewrite rep_sep; [ | exact NEp | apply Nst; stops ]. rewrite rep_head by exact NEp.
    rewrite (rep_absent p n "/"%char (B "map")) by (auto; cbn; intuition discriminate). rewrite (rep_absent p n "/"%char ("."%char :: k)); [ | exact Sp | intros [ X | X ]; [ discriminate | now apply (dotless_ident k Ik) ] ].
    assert (RN : forall s, (forall a b, s <> a ++ p ++ b) -> replaced s p n = s).
    { clear - NEp. induction s as [|c s IH]; intros N; [ reflexivity | ]. rewrite rep_cons; [ f_equal; apply IH; intros a b ->; now apply (N (c :: a) b) | ].
      destruct (has_prefix (c :: s) p) eqn:Hp; [ | reflexivity ]. apply has_prefix_spec in Hp as [r Hr]. exfalso. now apply (N [] r). }
    rewrite RN by exact No. cbn [B list_ascii_of_string app]. rewrite <- app_assoc. reflexivity. }
  rewrite R. split; [ reflexivity | ]. split; [ exact I | split ].
  - destruct Ca as [ -> | (-> & _) ]; [ exact Nq | ]. cbn. intros [ X | X ]; congruence.
  - intros l2 NO W. assert (Rd : reads (by_name self l2) {| p_path := []; p_ptr := false; p_len := 0; p_type := Some (TMap (TNamed p k []) (TNamed q v [])) |} [ElemType] ((B "map[" ++ n ++ "."%char :: k ++ "]"%char :: q ++ "."%char :: v) ++ [])).
    { constructor; [ | constructor ]. eapply st_elem; [ reflexivity | constructor | exact W ]. }
    rewrite app_nil_r in Rd. apply (reads_no_slash self l2 _ _ _ NO Rd); [ intros x [ X | [] ]; discriminate | intros [] | ].
    apply in_or_app. right. apply in_or_app. right. right. apply in_or_app. right. right. apply in_or_app. now left.
Qed.
(** A path with a segment that starts with a digit (github.com/99designs/...): the part before the first point is taken for the package,
    which does not exist, the type keeps its path, and its package is not imported. *)
Theorem C73_digit_refuted self load l h t d rest name :
  distinct l -> ~ In self (map fst l) -> identifier h -> identifier t -> digit d -> h <> self -> load h = Some [] -> ~ In h (map fst l) -> ~ In h (map snd l) ->
  let p := h ++ "."%char :: t ++ "/"%char :: d :: rest in
  import_needed self load l (type_string (TNamed p name [])) = Ok (type_string (TNamed p name []), (h, h) :: l).
Proof.
  intros D NS Ih It Dd Nh L N1 N2 p. unfold import_needed.
  assert (Bh : base h = h) by (unfold base; rewrite split_on_whole by apply (dotless_ident h Ih); reflexivity).
  assert (Dt : dotless t) by now apply dotless_ident. assert (Dh : dotless h) by now apply dotless_ident.
  assert (F : find_path (type_string (TNamed p name [])) = Some h).
  { cbn [type_string]. rewrite app_nil_r. unfold p. rewrite <- app_assoc. cbn [app]. rewrite <- app_assoc. cbn [app]. rewrite find_path_eq.
    assert (PC : forall a b, Forall (fun c => path_byte c \/ c = "/"%char) a -> path_chars (a ++ b) = a ++ path_chars b).
    { clear. intros a b H. induction H as [|c a H F IH]; [ reflexivity | ]. cbn [app path_chars]. rewrite (proj2 (path_or_slash c) H). now rewrite IH. }
    assert (Wd : path_byte d) by (left; right; now left).
    replace (h ++ "."%char :: t ++ "/"%char :: d :: rest ++ B "." ++ name) with ((h ++ "."%char :: t ++ ["/"%char; d]) ++ rest ++ B "." ++ name) by (rewrite <- app_assoc; cbn [app]; rewrite <- app_assoc; reflexivity).
    rewrite PC; [ | apply Forall_app; split; [ eapply Forall_impl; [ | exact (ident_word h Ih) ]; cbn; intros c W; left; now left | constructor; [ left; right; now left | apply Forall_app; split; [ eapply Forall_impl; [ | exact (ident_word t It) ]; cbn; intros c W; left; now left | constructor; [ now right | constructor; [ now left | constructor ] ] ] ] ] ].
    set (r := path_chars (rest ++ B "." ++ name)). replace ((h ++ "."%char :: t ++ ["/"%char; d]) ++ r) with ((h ++ "."%char :: t) ++ "/"%char :: (d :: r)) by (rewrite <- !app_assoc; cbn [app]; rewrite <- !app_assoc; reflexivity).
    rewrite split_on_part by (intros X; apply in_app_or in X as [ X | [ X | X ] ]; [ now apply Dh | discriminate | now apply Dt ]).
    assert (M2 : match_segments (split_on "/" (d :: r)) = None).
    { cbn [split_on]. replace (beq d "/") with false by (symmetry; apply beq_neq; now apply path_not_slash).
      destruct (split_on "/" r); cbn [match_segments]; replace (is_alpha d) with false; try reflexivity; symmetry; apply not_true_iff_false; rewrite alpha_letter; unfold letter, digit in *; lia. }
    destruct Ih as (c & hr & -> & Lc & _). cbn [app match_segments]. rewrite (proj2 (alpha_letter c) Lc), M2. destruct It as (x & tr & -> & Lx & _). rewrite last_point_found; [ reflexivity | exact Lx | apply Dt ]. }
  rewrite F, Bh. destruct (import_cases self load l h h D NS ltac:(congruence)) as [ [X _] | (_ & n & l' & E & I & D' & I' & Ca) ]; [ contradiction | ]. rewrite E.
  destruct Ca as [ -> | (-> & _ & _ & real & Lr & W) ]; [ exfalso; apply N1; exact (in_map fst _ _ I) | ]. rewrite L in Lr. injection Lr as <-. cbn in W.
  destruct W as [ -> | [ W _ ] ]; [ | contradiction ]. rewrite rep_same by (destruct Ih as (c & r & -> & _); discriminate). reflexivity.
Qed.
Lemma alias_longer self load l path : distinct l -> ~ In self (map fst l) -> path <> self -> load path = Some [] -> ~ In path (map fst l) -> In path (map snd l) ->
  exists k, import self load l path path = Some ((path, path ++ format_uint k) :: l, Named_as (path ++ format_uint k)).
Proof.
  intros D NS N L N1 I2. destruct (import_cases self load l path path D NS ltac:(congruence)) as [ [X _] | (_ & n & l' & E & I & D' & I' & Ca) ]; [ contradiction | ].
  destruct Ca as [ -> | (-> & _ & N2 & real & Lr & W) ]; [ exfalso; apply N1; exact (in_map fst _ _ I) | ]. rewrite L in Lr. injection Lr as <-. cbn in W.
  destruct W as [ -> | (_ & k & ->) ]; [ contradiction | ]. exists k. exact E.
Qed.
(** A package that is called like the record (v) is imported: the variable is renamed too, and the expression names something else. *)
Theorem C73_variable_refuted self load l pre c v f post :
  distinct l -> ~ In self (map fst l) -> before (pre ++ [c]) -> bracket c -> post = [] \/ (exists d r, post = d :: r /\ bracket d) -> identifier v -> identifier f ->
  v <> self -> load v = Some [] -> ~ In v (map fst l) -> In v (map snd l) ->
  exists out l', format self load l [Text (pre ++ [c]); GoPath; Text post] {| p_path := v ++ "."%char :: f; p_ptr := false; p_len := 0; p_type := None |} = Ok (out, l') /\
  out <> (pre ++ [c]) ++ v ++ "."%char :: f ++ post.
Proof.
  intros D NS Pre Br Po Iv If Nv L N1 I2. unfold format. cbn [execute fill].
  assert (Lt : lettered v) by (destruct Iv as (x & r & -> & Lx & F); exists x, r; split; [ reflexivity | split; [ exact Lx | ] ]; eapply Forall_impl; [ | exact F ]; cbn; intros y W; now left).
  assert (G : go_path {| p_path := v ++ "."%char :: f; p_ptr := false; p_len := 0; p_type := None |} = v ++ "."%char :: f).
  { unfold go_path. cbn [p_path]. destruct Iv as (x & r & -> & Lx & _). cbn [app]. destruct (beq x "&") eqn:E; [ | reflexivity ]. apply beq_eq in E as ->. unfold letter in Lx. cbn in Lx. lia. }
  rewrite G, app_nil_r. unfold import_needed. replace ((pre ++ [c]) ++ (v ++ "."%char :: f) ++ post) with ((pre ++ [c]) ++ v ++ "."%char :: f ++ post) by (now rewrite <- (app_assoc v)).
  rewrite find_path_at; [ | exact Pre | now constructor | exact If | exact Po ].
  assert (Bv : base v = v) by (unfold base; rewrite split_on_whole by (now apply lettered_no_slash); reflexivity). rewrite Bv.
  destruct (alias_longer self load l v D NS Nv L N1 I2) as (k & ->). eexists _, _. split; [ reflexivity | ]. rewrite <- !app_assoc. cbn [app]. apply rep_grows.
  - destruct Iv as (x & r & -> & _). discriminate.
  - rewrite app_length. pose proof (format_uint_nonempty k). destruct (format_uint k); [ contradiction | cbn; lia ].
  - intros I. apply (proj1 Br). apply ident_word in Iv. rewrite Forall_forall in Iv. left. now apply Iv.
Qed.
Lemma base_last dir b : ~ In "/"%char b -> base (dir ++ "/"%char :: b) = b.
Proof.
  intros N. unfold base. assert (H : exists x xs, split_on "/" (dir ++ "/"%char :: b) = x :: xs ++ [b]).
  { induction dir as [|c dir (x & xs & IH)]; cbn [app split_on].
    - rewrite beq_refl, split_on_whole by exact N. now exists [], [].
    - rewrite IH. destruct (beq c "/"); [ now exists [], (x :: xs) | now exists (c :: x), xs ]. }
  destruct H as (x & xs & ->). rewrite app_comm_cons. apply last_last.
Qed.
(** An expression in which the type comes first, as a user may configure: the name that was put in is taken for a path again, and renamed. *)
Theorem C73_type_first_refuted self load dir b name pre c rest :
  import_path (dir ++ "/"%char :: b) -> dir ++ "/"%char :: b <> self -> identifier name -> identifier b -> b <> self -> load (dir ++ "/"%char :: b) = Some b -> load b = Some [] ->
  before (pre ++ [c]) -> bracket c -> rest = [] \/ (exists d r, rest = d :: r /\ bracket d) ->
  exists out l', format self load [] [Text (pre ++ [c]); ElemType; Text rest] {| p_path := []; p_ptr := false; p_len := 0; p_type := Some (TNamed (dir ++ "/"%char :: b) name []) |} = Ok (out, l') /\
  In (dir ++ "/"%char :: b, b) l' /\ out <> (pre ++ [c]) ++ b ++ "."%char :: name ++ rest.
Proof.
  set (p := dir ++ "/"%char :: b). intros P Np In_ Ib Nbs Lp Lb Pre Br Re. assert (Sl : In "/"%char p) by (apply in_or_app; right; now left).
  assert (Nb : b <> p) by (intros X; apply (dotless_ident b Ib); rewrite X; exact Sl).
  assert (Eb : base p = b) by (apply base_last; apply (dotless_ident b Ib)). rewrite <- Eb in *. clear Eb. clearbody p. unfold format. cbn [execute fill p_type elem_type].
  assert (D : distinct []) by (split; constructor).
  destruct (C73_type_partial self load [] (TNamed p name []) (p ++ ["."%char] ++ name) p D ltac:(intros []) ltac:(unfold go_type; rewrite app_assoc; constructor; [ exact In_ | reflexivity ]) ltac:(intros q M; inversion M; subst; [ reflexivity | contradiction ]) P ltac:(congruence))
    as (out & l' & E & D' & I' & NS' & Nw & Im & Wr).
  assert (H : import_needed self load [] (p ++ ["."%char] ++ name) = Ok (base p ++ "."%char :: name, [(p, base p)])).
  { unfold import_needed. rewrite <- (app_nil_r name). change (p ++ ["."%char] ++ name ++ []) with ([] ++ p ++ "."%char :: name ++ []). rewrite find_path_at; [ | split; [ intros [] | split; [ intros [] | now left ] ] | exact P | exact In_ | now left ].
    unfold import. cbn [name_of_path]. rewrite Lp. replace (bseq p self) with false by (symmetry; now apply bseq_neq). destruct (base p) as [|x b0] eqn:Eb; [ destruct Ib as (y & r & X & _); discriminate | ]. rewrite <- Eb.
    cbn [length new_alias map bmem]. rewrite app_nil_r. cbn [app]. rewrite rep_head by (now apply import_path_nonempty). rewrite (rep_absent p _ "/"%char); [ reflexivity | exact Sl | ]. intros [ X | X ]; [ discriminate | now apply (dotless_ident name In_) ]. }
  cbn [type_string]. rewrite app_nil_r. change (B "." ++ name) with (["."%char] ++ name). rewrite H. rewrite app_nil_r. unfold import_needed.
  rewrite <- (app_assoc (base p)). cbn [app]. 
  assert (Lt : lettered (base p)) by (destruct Ib as (x & r & -> & Lx & F); exists x, r; split; [ reflexivity | split; [ exact Lx | ] ]; eapply Forall_impl; [ | exact F ]; cbn; intros y W; now left).
  rewrite find_path_at; [ | exact Pre | now constructor | exact In_ | exact Re ].
  assert (Bb : base (base p) = base p) by (unfold base at 1; rewrite split_on_whole by (now apply lettered_no_slash); reflexivity). rewrite Bb.
  destruct (alias_longer self load [(p, base p)] (base p) ltac:(split; repeat constructor; intros []) ltac:(cbn; intuition congruence) Nbs Lb ltac:(cbn; intuition congruence) ltac:(now left)) as (k & ->).
  eexists _, _. split; [ reflexivity | ]. split; [ right; now left | ]. rewrite <- !app_assoc. cbn [app]. apply rep_grows.
  - destruct Ib as (x & r & -> & _). discriminate.
  - rewrite app_length. pose proof (format_uint_nonempty k). destruct (format_uint k); [ contradiction | cbn; lia ].
  - intros I. apply (proj1 Br). apply ident_word in Ib. rewrite Forall_forall in Ib. left. now apply Ib.
Qed.
(** The length is not passed to configured types: a mapping that uses it stops the generator with a panic or nothing at all. *)
Theorem C73_len_refuted self load l ps a : In Len ps -> p_len a = 0%N -> forall x, format self load l ps a <> Ok x.
Proof.
  intros I Z x. unfold format. assert (H : forall y, execute self load a l ps <> Ok y).
  { revert l I. induction ps as [|p ps IH]; intros l I y; [ destruct I | ]. destruct I as [ -> | I ]; cbn [execute fill]; [ now rewrite Z | ]. destruct (fill self load a l p) as [ [s l1] | | ]; try discriminate.
    destruct (execute self load a l1 ps) as [ [s' l2] | | ] eqn:E; try discriminate. now apply IH in E. }
  destruct (execute self load a l ps) as [ [s l1] | | ]; [ now specialize (H (s, l1)) | discriminate | discriminate ].
Qed.
Print Assumptions C73_two_packages_refuted.
Print Assumptions C73_digit_refuted.
Print Assumptions C73_variable_refuted.
Print Assumptions C73_type_first_refuted.
Print Assumptions C73_len_refuted.

(** ** Cases *)
Definition uuid_path : bytes := B "github.com/gofrs/uuid".
Definition enc_path : bytes := B "github.com/si3nloong/sqlgen/sequel/encoding".
Definition loads (p : bytes) : option bytes := if bseq p uuid_path then Some (B "uuid") else if bseq p enc_path then Some (B "encoding") else Some [].
Definition uuid_params : params := {| p_path := B "v.ID"; p_ptr := true; p_len := 0; p_type := Some (TPointer (TNamed uuid_path (B "UUID") [])) |}.
Example C73_case :
  distinct [] /\ import_path uuid_path /\ import_path enc_path /\
  format (B "app/model") loads [] [Text (enc_path ++ B ".TextScanner["); BaseType; Text (B "]("); Addr; Text (B ")")] uuid_params =
    Ok (B "encoding.TextScanner[uuid.UUID](&v.ID)", [(enc_path, B "encoding"); (uuid_path, B "uuid")]) /\
  format (B "app/model") loads [] [Text (B "(int64)("); GoPath; Text (B ")")] {| p_path := B "v.Address.Number"; p_ptr := false; p_len := 0; p_type := Some (TBasic (B "int64")) |} =
    Ok (B "(int64)(v.Address.Number)", [(B "v.Address", B "v.Address")]).
Proof.
  assert (Lt : forall s, match s with c :: r => is_alpha c && forallb path_char r | [] => false end = true -> lettered s).
  { intros [|c r]; [ discriminate | ]. intros H. apply andb_prop in H as [H1 H2]. exists c, r. split; [ reflexivity | ]. split; [ now apply alpha_letter | ]. apply Forall_forall. intros x I. apply path_char_byte. rewrite forallb_forall in H2. now apply H2. }
  split; [ split; constructor | ]. split; [ | split; [ | split; vm_compute; reflexivity ] ].
  - apply (path_more (B "github.com")); [ apply Lt; reflexivity | ]. apply (path_more (B "gofrs")); [ apply Lt; reflexivity | ]. apply path_one. apply Lt. reflexivity.
  - apply (path_more (B "github.com")); [ apply Lt; reflexivity | ]. apply (path_more (B "si3nloong")); [ apply Lt; reflexivity | ]. apply (path_more (B "sqlgen")); [ apply Lt; reflexivity | ]. apply (path_more (B "sequel")); [ apply Lt; reflexivity | ]. apply path_one. apply Lt. reflexivity.
Qed.
Example C73_wrong_cases :
  import_needed (B "app/model") loads [] (type_string (TMap (TNamed uuid_path (B "UUID") []) (TNamed enc_path (B "Value") []))) =
    Ok (B "map[uuid.UUID]github.com/si3nloong/sqlgen/sequel/encoding.Value", [(uuid_path, B "uuid")]) /\
  import_needed (B "app/model") loads [] (B "github.com/99designs/gqlgen/graphql.Upload") = Ok (B "github.com/99designs/gqlgen/graphql.Upload", [(B "github", B "github")]) /\
  format (B "app/model") loads [] [Text (B "(*"); ElemType; Text (B ")("); Addr; Text (B ")")] uuid_params = Ok (B "(*uuid1.UUID)(&v.ID)", [(B "uuid", B "uuid1"); (uuid_path, B "uuid")]) /\
  format (B "app/model") loads [(B "app/v", B "v")] [Text (B "(int64)("); GoPath; Text (B ")")] {| p_path := B "v.ID"; p_ptr := false; p_len := 0; p_type := None |} =
    Ok (B "(int64)(v1.ID)", [(B "v", B "v1"); (B "app/v", B "v")]).
Proof. repeat split; vm_compute; reflexivity. Qed.
