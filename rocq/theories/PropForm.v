(** C79: a column is read in the form in which it is written. *)
From Verif Require Import Base ModelStrconv ModelTypes ModelConfig ModelExpr ModelResolve ModelColumn LemmasBase PropConfig SpecSource LemmasSource SpecExpr LemmasExpr PropExpr PropResolve SpecTyping LemmasTyping LemmasTyping2 LemmasTyping3 LemmasTyping4 LemmasTyping5 LemmasTyping6 LemmasTyping7 LemmasTyping8 LemmasTyping9 SpecForm LemmasForm PropTyping.
Import ModelColumn.

(** The two texts are expressions of the file, and they agree on the form. *)
Definition same_form (P : program) (t : gtype) (l1 l2 : imports) (out1 out2 : bytes) : Prop := exists ex1 ty1 a1 ex2 ty2 a2 fm,
  expression out1 ex1 /\ typed P l1 ex1 ty1 a1 /\ sends P ex1 ty1 fm /\ expression out2 ex2 /\ typed P l2 ex2 ty2 a2 /\ takes P t ex2 ty2 fm.
Lemma combine P t c l1 l2 r1 r2 ok1 ok2 : compiles P l1 c r1 ok1 -> compiles P l2 c r2 ok2 -> (forall ex1 ty1 ex2 ty2, ok1 ex1 ty1 -> ok2 ex2 ty2 -> exists fm, sends P ex1 ty1 fm /\ takes P t ex2 ty2 fm) ->
  exists out1 m1 out2 m2, r1 = Ok (out1, m1) /\ r2 = Ok (out2, m2) /\ (usable P m1 c -> usable P m2 c -> same_form P t m1 m2 out1 out2).
Proof.
  intros (o1 & m1 & E1 & _ & H1) (o2 & m2 & E2 & _ & H2) F. exists o1, m1, o2, m2. split; [ exact E1 | ]. split; [ exact E2 | ]. intros U1 U2. destruct (H1 U1) as (x1 & y1 & a1 & X1 & T1 & K1). destruct (H2 U2) as (x2 & y2 & a2 & X2 & T2 & K2).
  destruct (F _ _ _ _ K1 K2) as (fm & S1 & S2). exists x1, y1, a1, x2, y2, a2, fm. auto 10.
Qed.
Theorem C79_form_partial P e load l1 l2 d custom fuel parent1 parent2 f c t ch1 ch2 : proper P -> agrees e P ->
  ready P load l1 -> column_field P load l1 parent1 f c -> ready P load l2 -> column_field P load l2 parent2 f c -> held c t ->
  method P t (B "Value") /\ (forall u, t <> TPointer u) \/ writes_well P d c t ->
  method P (TPointer t) (B "Scan") \/ reads_well P d c ->
  ~ In (type_string t) (map fst custom) -> ~ In (type_string c) (map fst custom) ->
  paired P t -> plain_pointer P c -> no_character P t ->
  getter_value d e custom fuel (parent1 ++ "."%char :: f) c = Some ch1 -> scan_destination d e custom fuel (parent2 ++ "."%char :: f) c = Some ch2 ->
  exists out1 m1 out2 m2, render (own_path P) load l1 ch1 = Ok (out1, m1) /\ render (own_path P) load l2 ch2 = Ok (out2, m2) /\
    (usable P m1 c -> usable P m2 c -> same_form P t m1 m2 out1 out2).
Proof.
  intros Pr Ag R1 F1 R2 F2 H Cw Cs N1 N2 Pa Pp Nr G1 G2.
  assert (Vt : valid P t) by (exact (valid_t P c t (cf_valid _ _ _ _ _ _ F1) H)).
  assert (Nt : forall u, t <> TPointer u) by (destruct Cw as [ [_ N] | W ]; [ exact N | intros u ->; apply (ww_pointer _ _ _ _ W u); constructor ]).
  assert (Cs' : (exists t, held c t /\ method P (TPointer t) (B "Scan")) \/ reads_well P d c) by (destruct Cs as [ M | R ]; [ left; eauto | now right ]).
  assert (Dm : method P t (B "Value") \/ ~ method P t (B "Value")) by (destruct (own_value e t) eqn:O; [ left; now apply (ag_value e P Ag t Vt) | right; intros M; apply (ag_value e P Ag t Vt) in M; congruence ]).
  destruct (value_chosen P e load l1 d custom fuel parent1 f c t ch1 Pr Ag R1 F1 H Cw N1 G1) as (v & Kv & Iv).
  destruct (scan_chosen P e load l2 d custom fuel parent2 f c ch2 Pr Ag R2 F2 Cs' N2 G2 t H) as [ (Is & Ks) | (Nb & s & Ks & Is) ].
  - (* the address of the field *)
    refine (combine P t c l1 l2 _ _ _ _ Kv Ks _). intros ex1 ty1 ex2 ty2 [A1 _] [A2 _]. subst ty2.
    assert (Ec : c = t) by (destruct Is as [ Ib | (_ & _ & E) ]; [ destruct H as [ -> | [E _] ]; [ discriminate Ib | exact E ] | exact E ]). subst c.
    destruct Dm as [ M | M ].
    + exists (Own t). destruct Iv as [ (_ & ->) | [ (_ & _ & ->) | (_ & X & _) ] ]; [ | | contradiction ]; cbn [fits] in A1; subst ty1; (split; [ now constructor | apply tk_own; now apply Pa ]).
    + assert (Ms : ~ method P (TPointer t) (B "Scan")) by (intros X; apply Pa in X; contradiction). destruct Is as [ Ib | (_ & X & _) ]; [ | contradiction ]. destruct Iv as [ (_ & ->) | [ (X & _) | (X & _) ] ]; [ | congruence | congruence ]. cbn [fits] in A1. subst ty1.
      destruct (basic_has_form P e Pr Ag t Vt Ib) as (fm & Bf). exists fm. split; [ now apply basic_sends | now apply basic_takes ].
  - refine (combine P t c l1 l2 _ _ _ _ Kv Ks _). intros ex1 ty1 ex2 ty2 [A1 _] [A2 _]. destruct Is as [ (Ms & -> & ->) | (Ms & Is) ].
    + (* PtrScanner *)
      exists (Own t). destruct A2 as (-> & m & es & ->). pose proof (proj2 (proj1 Pa) Ms) as M. destruct Iv as [ (_ & ->) | [ (_ & _ & ->) | (_ & X & _) ] ]; [ | | contradiction ]; cbn [fits] in A1; subst ty1; (split; [ now constructor | now apply tk_pointer ]).
    + assert (M : ~ method P t (B "Value")) by (intros X; apply Pa in X; contradiction). destruct Cw as [ [X _] | W ]; [ contradiction | ]. destruct Cs as [ X | R ]; [ contradiction | ]. change (scan_info P e d fuel c t s) in Is.
      destruct Iv as [ (Ib & ->) | [ (_ & X & _) | (Ibt & _ & Iv) ] ]; [ | contradiction | ].
      * cbn [fits] in A1. subst ty1. destruct H as [ -> | [ -> _ ] ]; [ | congruence ]. destruct (basic_has_form P e Pr Ag t Vt Ib) as (fm & Bf). exists fm. split; [ now apply basic_sends | ]. exact (basic_pointer P e d Ag fuel t fm s Bf Pp M Is ex2 ty2 A2).
      * change (value_info P e d fuel t v) in Iv. apply (one_form P c t v s ex1 ty1 ex2 ty2); [ | exact A1 | exact A2 ].
        assert (Ev : exists K, column_data_type fuel e (map fst (table d)) t = Some K) by (destruct Iv as [ (k & E & _) | (E & _) ]; eauto). destruct Ev as [K1 E1]. assert (Ev : exists K, column_data_type fuel e (map fst (table d)) c = Some K) by (destruct Is as [ (k & E & _) | (E & _) ]; eauto). destruct Ev as [K2 E2].
        assert (Same : (exists n, t = TBasic n /\ In n predeclared) \/ (exists p n args fs, t = TNamed p n args /\ declared P p n args /\ stands_for P p n args = UStruct fs) \/ c = t -> sends_takes P c t v s).
        { intros X. assert (K2 = K1). { destruct H as [ -> | [ -> _ ] ]; [ | congruence ]. symmetry. refine (pointer_word P e d Pr Ag fuel t _ K1 K2 E1 E2). destruct X as [ X | [ X | X ] ]; [ now left | now right | destruct (Nt t (eq_sym X)) ]. }
          subst K2. exact (same_choice P e d Pr Ag fuel c t K1 v s H Vt (ww_pointer _ _ _ _ W) Nr Pa M Ms E1 E2 Iv Is). }
        destruct H as [ -> | [ -> _ ] ]; [ | apply Same; auto ].
        destruct t as [ n | p n args | u | u | n u | k u ].
        -- apply Same. left. exists n. split; [ reflexivity | ]. now inversion Vt.
        -- apply Same. right. left. destruct (Pp p n args eq_refl) as [ X | (D & fs & U) ]; [ contradiction | ]. exists p, n, args, fs. auto.
        -- destruct (Nt u eq_refl).
        -- exact (composite_choice P e d Pr Ag fuel _ v s W R Vt I Iv Is).
        -- exact (composite_choice P e d Pr Ag fuel _ v s W R Vt I Iv Is).
        -- exact (composite_choice P e d Pr Ag fuel _ v s W R Vt I Iv Is).
Qed.
Print Assumptions C79_form_partial.

(** ** Columns that are written in one form and read in another *)
Lemma string_only l e ty a : typed P0 l (ECall (EName (B "string")) [e]) ty a -> ty = TBasic (B "string").
Proof.
  intros T. inversion T as [ | | | | | | | | | f t e' u a' D Te C | f p n es ts r R Ep | f p n as_ us es ts r R ]; subst.
  - inversion D as [ n' I | e' p' n' R V | | | | | ]; subst; [ reflexivity | ]. exfalso. inversion R; subst. inversion V as [ | p' n' args D' | | | | | ]; subst. apply declared0 in D' as [_ I]. apply bmem_In in I. discriminate I.
  - inversion R; subst; match goal with H : own_path P0 = _ |- _ => discriminate H | H : _ = encoding_path |- _ => discriminate H | H : encoding_path = _ |- _ => discriminate H end.
Qed.
Lemma string_letters ex fm : sends P0 ex (TBasic (B "string")) fm -> fm = Letters.
Proof.
  intros X. inversion X as [ ? ? M | | | ? ? (k & I & n & U & E) | ? ? (n & U & E) | | | | ]; subst; try reflexivity.
  - destruct M as [ [_ M] | (M & _) ]; discriminate M.
  - inversion U; subst. exfalso. clear - I E. assert (F : forallb (fun k => negb (bseq (match norm (TBasic k) with TBasic n => n | _ => [] end) (B "string"))) (signed ++ unsigned ++ floats) = true) by (vm_compute; reflexivity). rewrite forallb_forall in F. specialize (F _ I). change (TBasic (B "string") = norm (TBasic k)) in E. rewrite <- E in F. discriminate F.
  - inversion U; subst. discriminate E.
Qed.
Lemma json_only l m es ty a t fm : typed P0 l (ECall (ESel (EName m) (B "JSONScanner")) es) ty a -> takes P0 t (ECall (ESel (EName m) (B "JSONScanner")) es) ty fm -> fm = Json.
Proof.
  intros T X. assert (Ty : ty = scanner_type).
  { inversion T as [ | | | | | | | | | f t' e' u a' D Te C | f p n es' ts r R Ep Ta Ff | ]; subst.
    - exfalso. inversion D as [ | e1 p n R V | | | | | ]; subst. inversion R; subst. inversion V as [ | p' n' args D' | | | | | ]; subst. apply declared0 in D' as [_ I]. apply bmem_In in I. discriminate I.
    - inversion R; subst. inversion Ff; subst; reflexivity. }
  subst ty. inversion X as [ m' f es' fm' I | | | | | | | | | ]; subst. clear - I. cbn in I. repeat (destruct I as [ I | I ]; [ first [ discriminate I | now injection I as <- ] | ]). destruct I.
Qed.
(** For all dialects: a pointer to a named string is written as the string, but read as JSON; a character is written as a text of one
    character, but read as a number.  The methods, the dialect and the file meet the other hypotheses. *)
Definition other_form (d : dialect) (c t : gtype) (f : bytes) : Prop := In (f, c) fields0 /\ held c t /\ writes_well P0 d c t /\ reads_well P0 d c /\ paired P0 t /\
  exists out1 m1 out2 m2, value0 d c f = Some (Ok (out1, m1)) /\ scan0 d c f = Some (Ok (out2, m2)) /\ usable P0 m1 c /\ usable P0 m2 c /\
    good_expression P0 m1 out1 (argument P0) /\ good_expression P0 m2 out2 (destination P0) /\ ~ same_form P0 t m1 m2 out1 out2.
Lemma reads_mood : expression (B "(string)(*v.Mood)") (ECall (EName (B "string")) [EStar (dot "v" "Mood")]). Proof. reads. Qed.
Lemma reads_mood_scan : expression (B "encoding.JSONScanner(&v.Mood)") (ECall (dot "encoding" "JSONScanner") [EAmp (dot "v" "Mood")]). Proof. reads. Qed.
Lemma reads_initial : expression (B "(string)(v.Initial)") (ECall (EName (B "string")) [dot "v" "Initial"]). Proof. reads. Qed.
Lemma reads_initial_scan : expression (B "&v.Initial") (EAmp (dot "v" "Initial")). Proof. reads. Qed.
Lemma unlisted_paired t : PropTyping.listed t = false -> paired P0 t.
Proof.
  intros L. split; split; intros [ [E M] | (E & u & X & M) ]; try discriminate E; try congruence; try (subst t; discriminate); try (injection X as <-; congruence).
Qed.
Lemma status_under u : underlying P0 (own (B "Status")) u -> u = TBasic (B "string").
Proof. intros V. inversion V as [ p m args x D St | | | | | | ]; subst. now injection St as <-. Qed.
Lemma other_form_intro d c t f ch1 ch2 out1 m1 out2 m2 : In (f, c) fields0 -> held c t -> writes_well P0 d c t -> reads_well P0 d c -> PropTyping.listed t = false ->
  getter_value d e0 [] 9 (B "v." ++ f) c = Some ch1 -> render model_path loads0 [] ch1 = Ok (out1, m1) ->
  scan_destination d e0 [] 9 (B "v." ++ f) c = Some ch2 -> render model_path loads0 [] ch2 = Ok (out2, m2) ->
  usable P0 m1 c -> usable P0 m2 c -> ~ same_form P0 t m1 m2 out1 out2 -> other_form d c t f.
Proof.
  intros I H W R L G1 R1 G2 R2 U1 U2 N. split; [ exact I | ]. split; [ exact H | ]. split; [ exact W | ]. split; [ exact R | ]. split; [ now apply unlisted_paired | ].
  exists out1, m1, out2, m2. split; [ unfold value0; now rewrite G1, R1 | ]. split; [ unfold scan0; now rewrite G2, R2 | ]. split; [ exact U1 | ]. split; [ exact U2 | ].
  destruct (C78_value_partial P0 e0 loads0 [] d [] 9 (B "v") f c t ch1 proper0 agrees0 ready0 (column0 f c I) H (or_intror W) (fun X => X) G1) as (o1 & l1 & E1 & _ & K1).
  destruct (C78_scan_partial P0 e0 loads0 [] d [] 9 (B "v") f c ch2 proper0 agrees0 ready0 (column0 f c I) (or_intror R) (fun X => X) G2) as (o2 & l2 & E2 & _ & K2).
  cbn [own_path P0] in E1, E2. rewrite R1 in E1. rewrite R2 in E2. injection E1 as <- <-. injection E2 as <- <-. auto.
Qed.
Theorem C79_form_refuted d : proper P0 /\ agrees e0 P0 /\ ready P0 loads0 [] /\ (forall f c, In (f, c) fields0 -> column_field P0 loads0 [] (B "v") f c) /\
  other_form d (TPointer (own (B "Status"))) (own (B "Status")) (B "Mood") /\ other_form d (TBasic (B "rune")) (TBasic (B "rune")) (B "Initial").
Proof.
  split; [ exact proper0 | ]. split; [ exact agrees0 | ]. split; [ exact ready0 | ]. split; [ exact column0 | ]. split.
  - assert (G : exists ch1 m1 ch2 m2, getter_value d e0 [] 9 (B "v." ++ B "Mood") (TPointer (own (B "Status"))) = Some ch1 /\ render model_path loads0 [] ch1 = Ok (B "(string)(*v.Mood)", m1) /\
      scan_destination d e0 [] 9 (B "v." ++ B "Mood") (TPointer (own (B "Status"))) = Some ch2 /\ render model_path loads0 [] ch2 = Ok (B "encoding.JSONScanner(&v.Mood)", m2) /\
      usable P0 m1 (TPointer (own (B "Status"))) /\ usable P0 m2 (TPointer (own (B "Status")))).
    { destruct d; eexists _, _, _, _; (split; [ vm_compute; reflexivity | ]); (split; [ vm_compute; reflexivity | ]); (split; [ vm_compute; reflexivity | ]); (split; [ vm_compute; reflexivity | ]); split; apply usable0; vm_compute; reflexivity. }
    destruct G as (ch1 & m1 & ch2 & m2 & G1 & R1 & G2 & R2 & U1 & U2). eapply other_form_intro; try eassumption.
    + cbn [fields0 In]. do 14 right. now left.
    + now left.
    + constructor; try (intros u U); intros; repeat match goal with H : underlying P0 (own (B "Status")) _ |- _ => apply status_under in H; try discriminate H end; try discriminate. match goal with H : own _ = _ |- _ => injection H as <- <- <- end. discriminate.
    + constructor; intros.
      * inversion H.
      * inversion H; subst. split; [ reflexivity | ]. intros u U. apply status_under in U. discriminate U.
      * inversion H.
      * destruct H as [ H | H ]; [ discriminate H | ]. injection H as <- <- <-. discriminate H0.
    + reflexivity.
    + intros (ex1 & ty1 & a1 & ex2 & ty2 & a2 & fm & X1 & T1 & S1 & X2 & T2 & S2). rewrite (one_expression _ _ _ X1 reads_mood) in *. rewrite (one_expression _ _ _ X2 reads_mood_scan) in *. pose proof (json_only _ _ _ _ _ _ _ T2 S2) as Ej. apply string_only in T1. subst ty1 fm. apply string_letters in S1. discriminate S1.
  - assert (G : exists ch1 m1 ch2 m2, getter_value d e0 [] 9 (B "v." ++ B "Initial") (TBasic (B "rune")) = Some ch1 /\ render model_path loads0 [] ch1 = Ok (B "(string)(v.Initial)", m1) /\
      scan_destination d e0 [] 9 (B "v." ++ B "Initial") (TBasic (B "rune")) = Some ch2 /\ render model_path loads0 [] ch2 = Ok (B "&v.Initial", m2) /\ usable P0 m1 (TBasic (B "rune")) /\ usable P0 m2 (TBasic (B "rune"))).
    { destruct d; eexists _, _, _, _; (split; [ vm_compute; reflexivity | ]); (split; [ vm_compute; reflexivity | ]); (split; [ vm_compute; reflexivity | ]); (split; [ vm_compute; reflexivity | ]); split; apply usable0; vm_compute; reflexivity. }
    destruct G as (ch1 & m1 & ch2 & m2 & G1 & R1 & G2 & R2 & U1 & U2). eapply other_form_intro; try eassumption.
    + cbn [fields0 In]. do 15 right. now left.
    + right. split; [ reflexivity | discriminate ].
    + constructor; try (intros u U); intros; repeat match goal with H : underlying P0 (TBasic _) _ |- _ => inversion H; clear H end; try discriminate.
    + constructor; intros; repeat match goal with H : underlying P0 (TBasic _) _ |- _ => inversion H; clear H end; try discriminate. destruct H as [ H | H ]; discriminate H.
    + reflexivity.
    + intros (ex1 & ty1 & a1 & ex2 & ty2 & a2 & fm & X1 & T1 & S1 & X2 & T2 & S2). rewrite (one_expression _ _ _ X1 reads_initial) in *. rewrite (one_expression _ _ _ X2 reads_initial_scan) in *. apply string_only in T1. subst ty1. apply string_letters in S1. subst fm.
      inversion T2 as [ | | | | e t Te | | | | | | | ]; subst. apply v_field in Te. only_field Te. inversion S2 as [ | | | | | | | | ? ? (n & U & E) | ? ? ? U ]; subst; inversion U; subst. discriminate E.
Qed.
Print Assumptions C79_form_refuted.
(** Columns that meet the hypotheses: *)
Example C79_case d : (forall c t, In (c, t) [(TBasic (B "int64"), TBasic (B "int64")); (own (B "Status"), own (B "Status")); (TPointer (TBasic (B "string")), TBasic (B "string"))] ->
    held c t /\ writes_well P0 d c t /\ reads_well P0 d c /\ paired P0 t /\ plain_pointer P0 c /\ no_character P0 t) /\
  (held (TPointer (own (B "Point"))) (own (B "Point")) /\ method P0 (own (B "Point")) (B "Value") /\ method P0 (TPointer (own (B "Point"))) (B "Scan") /\ paired P0 (own (B "Point")) /\ plain_pointer P0 (TPointer (own (B "Point")))) /\
  text0 (value0 d (TPointer (TBasic (B "string"))) (B "Maybe")) = B "*v.Maybe" /\ text0 (scan0 d (TPointer (TBasic (B "string"))) (B "Maybe")) = B "encoding.StringScanner[string](&v.Maybe)".
Proof.
  split; [ | split ].
  - intros c t I. cbn [In] in I. destruct I as [ E | [ E | [ E | [] ] ] ]; apply pair_eq in E as [<- <-].
    + split; [ right; split; [ reflexivity | discriminate ] | ]. split; [ | split; [ | split; [ now apply unlisted_paired | split; [ intros p n args X; discriminate X | intros U; inversion U ] ] ] ].
      * constructor; try (intros u U); intros; repeat match goal with H : underlying P0 (TBasic _) _ |- _ => inversion H; clear H end; try discriminate.
      * constructor; intros; repeat match goal with H : underlying P0 (TBasic _) _ |- _ => inversion H; clear H end; try discriminate. destruct H as [ H | H ]; discriminate H.
    + split; [ right; split; [ reflexivity | discriminate ] | ]. split; [ | split; [ | split; [ now apply unlisted_paired | split; [ intros p n args X; discriminate X | intros U; apply status_under in U; discriminate U ] ] ] ].
      * constructor; try (intros u U); intros; repeat match goal with H : underlying P0 (own (B "Status")) _ |- _ => apply status_under in H; try discriminate H end; try discriminate. match goal with H : own _ = _ |- _ => injection H as <- <- <- end. discriminate.
      * constructor; intros; repeat match goal with H : underlying P0 (own (B "Status")) _ |- _ => apply status_under in H; try discriminate H end. destruct H as [ H | H ]; [ injection H as <- <- <-; discriminate H0 | discriminate H ].
    + split; [ now left | ]. split; [ | split; [ | split; [ now apply unlisted_paired | split; [ intros p n args X; discriminate X | intros U; inversion U ] ] ] ].
      * constructor; try (intros u U); intros; repeat match goal with H : underlying P0 (TBasic _) _ |- _ => inversion H; clear H end; try discriminate.
      * constructor; intros.
        -- inversion H.
        -- inversion H; subst. split; [ reflexivity | ]. intros u U. inversion U.
        -- inversion H.
        -- destruct H as [ H | H ]; discriminate H.
  - assert (M : method P0 (own (B "Point")) (B "Value") /\ method P0 (TPointer (own (B "Point"))) (B "Scan")) by (split; [ left; split; reflexivity | right; split; [ reflexivity | exists (own (B "Point")); split; reflexivity ] ]).
    split; [ now left | ]. split; [ apply M | ]. split; [ apply M | ]. split.
    + split; [ tauto | ]. split; intros [ [E _] | (E & _) ]; discriminate E.
    + intros p n args [= <- <- <-]. left. apply M.
  - destruct d; split; vm_compute; reflexivity.
Qed.
(** ** The choice of the expressions ends *)
(** A type whose definition ends: *)
Inductive bounded (P : program) : gtype -> Prop :=
| bd_basic n : bounded P (TBasic n)
| bd_struct p n args fs : declared P p n args -> stands_for P p n args = UStruct fs -> bounded P (TNamed p n args)
| bd_other p n args : declared P p n args -> stands_for P p n args = UOther -> bounded P (TNamed p n args)
| bd_name p n args u : declared P p n args -> stands_for P p n args = UOf u -> bounded P u -> bounded P (TNamed p n args)
| bd_library p n ks t : In (p, n, ks) library -> bounded P t -> bounded P (TNamed p n [t])
| bd_pointer t : bounded P t -> bounded P (TPointer t)
| bd_slice t : bounded P t -> bounded P (TSlice t)
| bd_array n t : bounded P t -> bounded P (TArray n t)
| bd_map k v : bounded P (TMap k v).
Lemma walk_ends P e keys c : agrees e P -> bounded P c -> exists n, forall fuel t s, n <= fuel -> walk_type fuel e keys c t s <> None.
Proof.
  intros Ag. induction 1 as [ n | p n args fs D U | p n args D U | p n args u D U Bu (m & IH) | p n ks u I Bu (m & IH) | u Bu (m & IH) | u Bu (m & IH) | k u Bu (m & IH) | k v ].
  1,2,3,9: exists 1; intros [|f] t s L; [ inversion L | ]; cbn [walk_type]; try discriminate; rewrite (ag_under e P Ag _ _ _ D), U; try discriminate; destruct (bmem s keys); discriminate.
  - exists (S m). intros [|f] t s L; [ inversion L | ]. cbn [walk_type]. rewrite (ag_under e P Ag _ _ _ D), U. destruct (bmem s keys); [ discriminate | ]. destruct (bseq _ _); [ discriminate | ]. apply IH. now apply le_S_n.
  - exists (S (S m)). intros [|[|f]] t s L; [ inversion L | apply le_S_n in L; inversion L | ]. cbn [walk_type]. rewrite (ag_library e P Ag _ _ _ _ I). destruct (bmem s keys); [ discriminate | ]. destruct (bseq _ _); [ discriminate | ]. cbn [walk_type]. apply IH. now do 2 apply le_S_n.
  - exists (S m). intros [|f] t s L; [ inversion L | ]. cbn [walk_type]. apply IH. now apply le_S_n.
  - exists (S m). intros [|f] t s L; [ inversion L | ]. cbn [walk_type]. apply IH. now apply le_S_n.
  - exists (S m). intros [|f] t s L; [ inversion L | ]. cbn [walk_type]. apply IH. now apply le_S_n.
Qed.
Lemma key_entry e d fuel t k : column_data_type fuel e (map fst (table d)) t = Some (Some k) -> entry (table d) k <> None.
Proof. intros K. destruct (key_says e d fuel t k K) as [I _]. destruct (value_entry d k I) as (v & s & E). rewrite E. discriminate. Qed.
Lemma chosen_some P e d custom path c : agrees e P -> bounded P c -> exists n, forall fuel, n <= fuel -> valuer d e custom fuel path c <> None /\ scanner d e custom fuel path c <> None.
Proof.
  intros Ag Bc. destruct (walk_ends P e (map fst (table d)) c Ag Bc) as (n & W). exists n. intros fuel L.
  assert (K : column_data_type fuel e (map fst (table d)) c <> None) by (unfold column_data_type; specialize (W fuel c [] L); destruct (walk_type _ _ _ _ _ _) as [ [k|k] | ]; congruence).
  assert (Kn : entry (table d) (B "*") <> None) by (destruct d; vm_compute; discriminate).
  unfold valuer, scanner. split; (destruct (is_basic_type c); [ discriminate | ]); cbv zeta.
  - assert (F : forall (o : option chosen), o <> None -> match entry custom (type_string c) with Some (v, _) => if bseq v [] then o else Some (filled v {| p_path := path; p_ptr := is_pointer c; p_len := 0%N; p_type := Some c |}) | None => o end <> None) by (intros o O; destruct (entry custom _) as [ [v s] | ]; [ destruct (bseq v []); [ exact O | discriminate ] | exact O ]).
    apply F. destruct (own_value e (base_type c)); [ discriminate | ]. destruct (column_data_type _ _ _ _) as [ [k|] | ] eqn:E; [ | | contradiction ].
    + apply key_entry in E. destruct (entry (table d) k) as [ [v s] | ]; [ discriminate | contradiction ].
    + destruct (text_value e _); [ discriminate | ]. destruct (entry (table d) (B "*")) as [ [v s] | ]; [ discriminate | contradiction ].
  - assert (F : forall (o : option chosen), o <> None -> match entry custom (type_string c) with Some (_, v) => if bseq v [] then o else Some (filled v {| p_path := path; p_ptr := is_pointer c; p_len := 0%N; p_type := Some c |}) | None => o end <> None) by (intros o O; destruct (entry custom _) as [ [v s] | ]; [ destruct (bseq s []); [ exact O | discriminate ] | exact O ]).
    apply F. destruct (own_scan e (elem_pointer c)); [ discriminate | ]. destruct (column_data_type _ _ _ _) as [ [k|] | ] eqn:E; [ | | contradiction ].
    + apply key_entry in E. destruct (entry (table d) k) as [ [v s] | ]; [ discriminate | contradiction ].
    + destruct (text_scan e _); [ discriminate | ]. destruct (entry (table d) (B "*")) as [ [v s] | ]; [ discriminate | contradiction ].
Qed.
(** For such types both expressions are found, whatever the configuration says. *)
Theorem C66_expression_partial P e d custom path1 path2 c : agrees e P -> bounded P c ->
  exists n, forall fuel, n <= fuel -> exists ch1 ch2, getter_value d e custom fuel path1 c = Some ch1 /\ scan_destination d e custom fuel path2 c = Some ch2.
Proof.
  intros Ag Bc. assert (V : exists n, forall fuel, n <= fuel -> getter_value d e custom fuel path1 c <> None).
  { destruct c as [ | | t | | | ]; try (destruct (chosen_some P e d custom path1 _ Ag Bc) as (n0 & H); exists n0; intros fuel L; exact (proj1 (H fuel L))).
    assert (Bt : bounded P t) by (inversion Bc; assumption). destruct (chosen_some P e d custom (B "*" ++ path1) t Ag Bt) as (n & H). exists n. intros fuel L. exact (proj1 (H fuel L)). }
  destruct V as (n1 & V). destruct (chosen_some P e d custom (B "&" ++ path2) c Ag Bc) as (n2 & S2). exists (n1 + n2). intros fuel L.
  assert (A1 := V fuel (Nat.le_trans _ _ _ (Nat.le_add_r n1 n2) L)). destruct (S2 fuel (Nat.le_trans _ _ _ (Nat.le_add_l n2 n1) L)) as [_ A2]. unfold scan_destination. destruct (getter_value _ _ _ _ _ _); [ | contradiction ]. destruct (scanner _ _ _ _ _ _); [ | contradiction ]. eauto.
Qed.
Print Assumptions C66_expression_partial.
(** Types that are defined by each other, type A []B and type B []A, which the compiler accepts: no expression is ever found *)
Definition pair_env : env := Env (fun _ n _ => if bseq n (B "A") then UOf (TSlice (own (B "B"))) else UOf (TSlice (own (B "A")))) (fun _ => false) (fun _ => false) (fun _ => false) (fun _ => false).
Lemma pair_runs d fuel : forall n t s, In n [B "A"; B "B"] -> (s = [] \/ exists r, s = r ++ B "[]") -> type_string t <> B "[]" ++ type_string (own (if bseq n (B "A") then B "B" else B "A")) ->
  walk_type fuel pair_env (map fst (table d)) (own n) t s = None.
Proof.
  induction fuel as [fuel IH] using (well_founded_induction PeanoNat.Nat.lt_wf_0). intros n t s I Hs Nt. destruct fuel as [|fuel]; [ reflexivity | ]. unfold own at 1. cbn [walk_type]. assert (U : under pair_env model_path n [] = UOf (TSlice (own (if bseq n (B "A") then B "B" else B "A")))) by (cbn [under pair_env]; destruct (bseq n (B "A")); reflexivity). rewrite U. clear U.
  assert (M : bmem s (map fst (table d)) = false).
  { apply bmem_not_In. intros J. assert (Bs : bare s) by (destruct Hs as [ -> | (r & ->) ]; [ now left | right; exists (r ++ B "["), "]"%char; split; [ now rewrite <- app_assoc | now right ] ]). apply (bare_keys d s J) in Bs. destruct Hs as [ -> | (r & ->) ]; [ discriminate Bs | ]. destruct r as [|a [|b r]]; discriminate Bs. }
  rewrite M. destruct (bseq _ (type_string t)) eqn:E; [ apply bseq_eq in E; destruct Nt; now rewrite <- E | ]. destruct fuel as [|fuel]; [ reflexivity | ]. cbn [walk_type].
  apply IH; [ lia | destruct (bseq n (B "A")); cbn [In]; auto | right; now exists s | ]. destruct I as [ <- | [ <- | [] ] ]; vm_compute; discriminate.
Qed.
Theorem C66_expression_refuted d fuel path n : In n [B "A"; B "B"] -> getter_value d pair_env [] fuel path (own n) = None /\ scan_destination d pair_env [] fuel path (own n) = None.
Proof.
  intros I. assert (K : column_data_type fuel pair_env (map fst (table d)) (own n) = None).
  { unfold column_data_type. rewrite pair_runs; [ reflexivity | exact I | now left | destruct I as [ <- | [ <- | [] ] ]; vm_compute; discriminate ]. }
  assert (Ib : is_basic_type (own n) = false) by (destruct I as [ <- | [ <- | [] ] ]; vm_compute; reflexivity).
  unfold getter_value, own, scan_destination, valuer, scanner. fold (own n). rewrite Ib. cbv zeta. cbn [entry]. cbn [own_value own_scan pair_env]. fold pair_env. rewrite K. auto.
Qed.
Print Assumptions C66_expression_refuted.
Example C66_expression_case : bounded P0 (own (B "Tags")) /\ bounded P0 (TPointer time_type) /\ exists ch1 ch2, getter_value MySQL e0 [] 9 (B "v.Tags") (own (B "Tags")) = Some ch1 /\ scan_destination MySQL e0 [] 9 (B "v.Tags") (own (B "Tags")) = Some ch2.
Proof.
  split; [ | split ].
  - eapply bd_name; [ split; [ reflexivity | left; split; [ reflexivity | right; now left ] ] | reflexivity | repeat constructor ].
  - constructor. eapply bd_struct; [ split; [ reflexivity | right; split; reflexivity ] | reflexivity ].
  - eexists _, _. split; vm_compute; reflexivity.
Qed.
