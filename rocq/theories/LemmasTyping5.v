(** The expressions that write a column. *)
From Verif Require Import Base ModelStrconv ModelTypes ModelConfig ModelExpr ModelResolve ModelColumn LemmasBase PropConfig SpecSource LemmasSource SpecExpr LemmasExpr PropExpr SpecTyping LemmasTyping LemmasTyping2 LemmasTyping3 LemmasTyping4.
Import ModelColumn.

Definition beforeb (s : bytes) : bool :=
  negb (existsb (beq ".") s) && negb (existsb (beq "/") s) && match rev s with [] => true | c :: _ => negb (path_char c) && negb (beq c "/") end.
Lemma path_byte_char c : path_byte c -> path_char c = true.
Proof.
  unfold path_byte, word_byte, letter, digit, path_char, is_alnum, is_alpha, is_upper, is_lower, is_digit, in_range. intros H. rewrite !orb_true_iff, !andb_true_iff, !N.leb_le, !beq_eq. tauto.
Qed.
Lemma bracket_char c : path_char c = false -> beq c "/" = false -> bracket c.
Proof. intros H1 H2. split; [ intros Pc; apply path_byte_char in Pc; congruence | now apply beq_neq ]. Qed.
Lemma before_dec s : beforeb s = true -> before s.
Proof.
  unfold beforeb. rewrite !andb_true_iff, !negb_true_iff. intros [ [H1 H2] H3 ]. assert (N : forall c, existsb (beq c) s = false -> ~ In c s) by (intros c E I; assert (X : existsb (beq c) s = true) by (apply existsb_exists; exists c; split; [ exact I | now apply beq_eq ]); congruence).
  split; [ now apply N | ]. split; [ now apply N | ]. destruct (rev s) as [|c r] eqn:E; [ left; rewrite <- (rev_involutive s), E; reflexivity | right ]. exists (rev r), c. split; [ rewrite <- (rev_involutive s), E; reflexivity | ].
  apply andb_true_iff in H3 as [H3 H4]. rewrite negb_true_iff in H3, H4. now apply bracket_char.
Qed.
Lemma predeclared_word k : In k predeclared -> identifier k /\ ~ In k keywords.
Proof.
  intros I. assert (H : forallb (fun k => match k with c :: r => is_alpha c && forallb is_alnum r | [] => false end && negb (bmem k keywords)) predeclared = true) by (vm_compute; reflexivity).
  rewrite forallb_forall in H. specialize (H k I). apply andb_true_iff in H as [H1 H2]. split; [ | intros J; apply bmem_In in J; rewrite J in H2; discriminate ]. destruct k as [|c r]; [ discriminate | ]. apply andb_true_iff in H1 as [H0 H1]. exists c, r. split; [ reflexivity | ]. split.
  - unfold is_alpha, is_upper, is_lower, in_range in H0. unfold letter. rewrite orb_true_iff, !andb_true_iff, !N.leb_le in H0. exact H0.
  - rewrite forallb_forall in H1. apply Forall_forall. intros b Ib. specialize (H1 b Ib). unfold is_alnum, is_alpha, is_upper, is_lower, is_digit, in_range in H1. unfold word_byte, letter, digit. rewrite !orb_true_iff, !andb_true_iff, !N.leb_le in H1. tauto.
Qed.
Lemma ascii_word n : match n with c :: r => is_alpha c && forallb is_alnum r | [] => false end = true -> identifier n.
Proof.
  destruct n as [|c r]; [ discriminate | ]. intros H1. apply andb_true_iff in H1 as [H0 H1]. exists c, r. split; [ reflexivity | ]. split.
  - unfold is_alpha, is_upper, is_lower, in_range in H0. unfold letter. rewrite orb_true_iff, !andb_true_iff, !N.leb_le in H0. exact H0.
  - rewrite forallb_forall in H1. apply Forall_forall. intros b Ib. specialize (H1 b Ib). unfold is_alnum, is_alpha, is_upper, is_lower, is_digit, in_range in H1. unfold word_byte, letter, digit. rewrite !orb_true_iff, !andb_true_iff, !N.leb_le in H1. tauto.
Qed.
Lemma library_names p n ks : In (p, n, ks) library -> identifier n /\ ~ In n keywords /\ In p [encoding_path; sqltype_path; pgtype_path].
Proof.
  intros I. split; [ | split; [ exact (library_words p n ks I) | ] ].
  - assert (H : forallb (fun x => match snd (fst x) with c :: r => is_alpha c && forallb is_alnum r | [] => false end) library = true) by (vm_compute; reflexivity). rewrite forallb_forall in H. exact (ascii_word n (H _ I)).
  - assert (H : forallb (fun x => bmem (fst (fst x)) [encoding_path; sqltype_path; pgtype_path]) library = true) by (vm_compute; reflexivity). rewrite forallb_forall in H. apply bmem_In. exact (H _ I).
Qed.
Lemma norm_refl t : same t t. Proof. reflexivity. Qed.

Lemma no_self t : t <> TPointer t.
Proof. induction t; try discriminate. intros [= E]. congruence. Qed.

Ltac as_text s := match goal with |- expression ?o _ => replace o with s by (cbn [app]; rewrite <- ?app_assoc; cbn [app]; rewrite <- ?app_assoc; rewrite ?app_nil_r; reflexivity) end.
(** What the expression of a shape is, and its type *)
Definition fits (P : program) (t : gtype) (sh : vshape) (ex : expr) (ty : gtype) : Prop :=
  match sh with
  | VConv k => ty = TBasic k
  | VPlain => ty = t
  | VText => ty = TBasic (B "string")
  | VSlice => exists u, ty = TSlice u /\ kind P u (B "byte")
  | VList p n | VCall p n | VCallSlice p n => exists ks u, In (p, n, ks) library /\ ty = TNamed p n [u]
  | VFun f => ty = valuer_type /\ exists m es, ex = ECall (ESel (EName m) f) es
  | _ => False
  end.
Section Values.
Variables (P : program) (load : bytes -> option bytes) (l : imports).
Hypothesis Pr : proper P.
Hypothesis Rd : ready P load l.
Variables (parent f : bytes) (tp c t : gtype).
Notation path := (parent ++ "."%char :: f).
Hypothesis Rp : reaches P parent tp.
Hypothesis Fl : field P tp f c.
Hypothesis If : identifier f.
Hypothesis Kf : ~ In f keywords.
Hypothesis Vc : valid P c.
Hypothesis Sp : spelled P load c.
Hypothesis Np : parent <> own_path P.
Hypothesis Lp : load parent = Some [].
Hypothesis Fp : In (parent, parent) l \/ ~ In parent (map fst l) /\ ~ In parent (map snd l).
Definition compiles (r : res (bytes * imports)) (ok : expr -> gtype -> Prop) : Prop := exists out l', r = Ok (out, l') /\ incl l l' /\
  (usable P l' c -> exists ex ty a, expression out ex /\ typed P l' ex ty a /\ ok ex ty).
Lemma path_reaches : reaches P path c. Proof. eapply re_field; eassumption. Qed.
Lemma path_slash : ~ In "/"%char path.
Proof. apply lettered_no_slash, (reaches_lettered P path c), path_reaches. Qed.
Lemma path_head : exists b r, path = b :: r /\ letter b.
Proof. destruct (reaches_lettered P path c path_reaches) as (b & r & -> & L & _). eauto. Qed.
Hypothesis H : held c t.
Definition st : bytes := match c with TPointer _ => B "*" | _ => [] end.
Definition x : bytes := st ++ path.
Lemma x_plain : (forall u, c <> TPointer u) -> x = path.
Proof. unfold x, st. intros N. destruct c as [ n | q n args | u | u | n u | k v ]; try reflexivity. destruct (N u eq_refl). Qed.
Lemma operand l' : exists ex, readable x ex /\ typed P l' ex t true.
Proof.
  destruct (path_prim P l' path c path_reaches) as (e & Pe & Te). destruct H as [ Ec | [ Ec N ] ].
  - exists (EStar e). split; [ unfold x, st; rewrite Ec; exact (star_readable path e (prim_readable path e Pe)) | ]. rewrite Ec in Te. eapply ty_deref; [ exact Te | constructor ].
  - exists e. rewrite x_plain by exact N. split; [ now apply prim_readable | now rewrite <- Ec ].
Qed.
Lemma operand_slice l' : c = t -> exists ex, prim x ex /\ typed P l' ex t true.
Proof.
  intros E. destruct H as [ E' | [ _ N ] ]; [ exfalso; rewrite E in E'; now apply (no_self t) | ].
  rewrite x_plain by exact N. destruct (path_prim P l' path c path_reaches) as (e & Pe & Te). exists e. split; [ exact Pe | now rewrite <- E ].
Qed.
Lemma st_cases : st = [] \/ st = B "*". Proof. unfold st. destruct c; auto. Qed.
Lemma x_slash : ~ In "/"%char x.
Proof. unfold x. intros I. apply in_app_or in I as [ I | I ]; [ destruct st_cases as [ E | E ]; rewrite E in I; [ destruct I | destruct I as [ I | [] ]; discriminate ] | now apply path_slash ]. Qed.
Lemma x_path n p : go_path {| p_path := x; p_ptr := p; p_len := n; p_type := Some t |} = x.
Proof. unfold go_path. cbn [p_path]. unfold x. destruct path_head as (b & r & E & L). rewrite E. destruct st_cases as [ -> | -> ]; [ | reflexivity ]. cbn [app]. destruct (beq b "&") eqn:Eb; [ | reflexivity ]. apply beq_eq in Eb as ->. unfold letter in L. cbn in L. lia. Qed.
Lemma x_variable n p : SpecExpr.variable {| p_path := x; p_ptr := p; p_len := n; p_type := Some t |} x.
Proof. right. split; [ reflexivity | ]. intros r E. unfold x in E. destruct path_head as (b & q & Ep & L). rewrite Ep in E. destruct st_cases as [ X | X ]; rewrite X in E; [ injection E as -> _; unfold letter in L; cbn in L; lia | discriminate ]. Qed.
Lemma valid_t : valid P t.
Proof. destruct H as [ E | [ E _ ] ]; [ rewrite E in Vc; now inversion Vc | now rewrite <- E ]. Qed.
Notation a n := {| p_path := x; p_ptr := is_pointer t; p_len := n; p_type := Some t |}.
Notation good sh ch := (compiles (render (own_path P) load l ch) (fun ex ty => fits P t sh ex ty /\ argument P ty)).
(** The field as it is *)
Lemma as_is_good : argument P t -> good VPlain (AsIs x).
Proof.
  intros A. exists x, l. split; [ reflexivity | ]. split; [ apply incl_refl | ]. intros _. destruct (operand l) as (ex & Rx & Tx). exists ex, t, true. split; [ now apply readable_expression | split; [ exact Tx | now split ] ].
Qed.
Lemma field_text ps n pre post : execute (own_path P) load (a n) l ps = Ok (pre ++ x ++ post, l) -> beforeb (pre ++ st) = true -> match post with [] => true | b :: _ => negb (path_char b) && negb (beq b "/") end = true ->
  exists l', format (own_path P) load l ps (a n) = Ok (pre ++ x ++ post, l') /\ incl l l'.
Proof.
  intros E Hb Hp. assert (Ex : pre ++ x ++ post = (pre ++ st) ++ parent ++ "."%char :: f ++ post) by (unfold x; rewrite <- !app_assoc; reflexivity). rewrite Ex in *.
  apply (render_field P load l Rd); try assumption; [ now apply before_dec | | exact (reaches_lettered P _ _ Rp) ]. destruct post as [|b q]; [ now left | right ]. exists b, q. split; [ reflexivity | ]. apply andb_true_iff in Hp as [H1 H2]. rewrite negb_true_iff in H1, H2. now apply bracket_char.
Qed.
Lemma plain_good n : argument P t -> good VPlain (Filled (vpieces VPlain) (a n)).
Proof.
  intros A. destruct (field_text (vpieces VPlain) n [] []) as (l' & E & I).
  - cbn [vpieces execute fill]. now rewrite x_path.
  - destruct st_cases as [ -> | -> ]; reflexivity.
  - reflexivity.
  - exists ([] ++ x ++ []), l'. split; [ exact E | ]. split; [ exact I | ]. intros _. rewrite app_nil_r. cbn [app]. destruct (operand l') as (ex & Rx & Tx). exists ex, t, true. split; [ now apply readable_expression | split; [ exact Tx | now split ] ].
Qed.
Lemma basic_denotes l' k : In k predeclared -> denotes P l' (EName k) (TBasic k).
Proof. intros I. constructor; [ exact I | exact (pr_basic P Pr k I) | ]. intros args D. exact (proj2 (pr_own P Pr _ _ D) I). Qed.
(** A conversion to a basic type *)
Lemma conv_good n k : In k [B "string"; B "bool"; B "int64"; B "float64"] -> convertible P t (TBasic k) -> good (VConv k) (Filled (vpieces (VConv k)) (a n)).
Proof.
  intros Ik Cv. assert (Ip : In k predeclared) by (repeat (destruct Ik as [<-|Ik]; [ vm_compute; tauto | ]); destruct Ik). destruct (predeclared_word k Ip) as [Wk Nk].
  destruct (field_text (vpieces (VConv k)) n ("("%char :: k ++ B ")(") (B ")")) as (l' & E & I).
  - cbn [vpieces execute fill]. now rewrite x_path, app_nil_r.
  - repeat (destruct Ik as [<-|Ik]; [ destruct st_cases as [ -> | -> ]; reflexivity | ]). destruct Ik.
  - reflexivity.
  - eexists _, l'. split; [ exact E | ]. split; [ exact I | ]. intros _. destruct (operand l') as (ex & Rx & Tx). exists (ECall (EName k) [ex]), (TBasic k), false. split; [ | split ].
    + replace (("("%char :: k ++ B ")(") ++ x ++ B ")") with (("("%char :: k ++ [")"%char]) ++ "("%char :: x ++ [")"%char]) by (cbn [app]; rewrite <- !app_assoc; reflexivity).
      apply readable_expression, prim_readable, prim_call; [ apply prim_paren, prim_readable; now apply prim_word | now apply args_readable ].
    + eapply ty_conversion; [ now apply basic_denotes | exact Tx | exact Cv ].
    + split; [ reflexivity | ]. do 4 right. left. exists k. split; [ repeat (destruct Ik as [<-|Ik]; [ vm_compute; tauto | ]); destruct Ik | exists k; split; [ constructor | reflexivity ] ].
Qed.
(** string(v.F[:]) and v.F[:] *)
Lemma text_good n u : c = t -> (exists m, underlying P t (TArray m u)) \/ underlying P t (TSlice u) -> kind P u (B "rune") -> good VText (Filled (vpieces VText) (a n)).
Proof.
  intros Ec U K. destruct (field_text (vpieces VText) n (B "string(") (B "[:])")) as (l' & E & I).
  - cbn [vpieces execute fill]. now rewrite x_path, app_nil_r.
  - destruct st_cases as [ -> | -> ]; reflexivity.
  - reflexivity.
  - eexists _, l'. split; [ exact E | ]. split; [ exact I | ]. intros _. destruct (operand_slice l' Ec) as (ex & Rx & Tx). assert (Ip : In (B "string") predeclared) by (vm_compute; tauto). destruct (predeclared_word _ Ip) as [Wk Nk].
    exists (ECall (EName (B "string")) [ESliceAll ex]), (TBasic (B "string")), false. split; [ | split ].
    + replace (B "string(" ++ x ++ B "[:])") with (B "string" ++ "("%char :: (x ++ B "[:]") ++ [")"%char]) by (rewrite <- app_assoc; reflexivity).
      apply readable_expression, prim_readable, prim_call; [ now apply prim_word | apply args_readable, prim_readable; now apply prim_slice ].
    + assert (O : one_of P u [B "byte"; B "rune"]) by (exists (B "rune"); split; [ right; now left | exact K ]). destruct U as [ [m U] | U ]; (eapply ty_conversion; [ now apply basic_denotes | | ]).
      * eapply ty_slice_array; eassumption.
      * eapply cv_to_text; [ constructor | exact O | exists (B "string"); split; [ constructor | reflexivity ] ].
      * eapply ty_slice_slice; eassumption.
      * eapply cv_to_text; [ exact U | exact O | exists (B "string"); split; [ constructor | reflexivity ] ].
    + split; [ reflexivity | ]. do 4 right. left. exists (B "string"). split; [ vm_compute; tauto | exists (B "string"); split; [ constructor | reflexivity ] ].
Qed.
Lemma slice_good n m u : c = t -> underlying P t (TArray m u) -> kind P u (B "byte") -> good VSlice (Filled (vpieces VSlice) (a n)).
Proof.
  intros Ec U K. destruct (field_text (vpieces VSlice) n [] (B "[:]")) as (l' & E & I).
  - cbn [vpieces execute fill]. now rewrite x_path, app_nil_r.
  - destruct st_cases as [ -> | -> ]; reflexivity.
  - reflexivity.
  - eexists _, l'. split; [ exact E | ]. split; [ exact I | ]. intros _. destruct (operand_slice l' Ec) as (ex & Rx & Tx). exists (ESliceAll ex), (TSlice u), false. split; [ | split ].
    + cbn [app]. apply readable_expression, prim_readable. now apply prim_slice.
    + eapply ty_slice_array; eassumption.
    + split; [ exists u; now split | ]. do 5 right. exists u. split; [ constructor | exact K ].
Qed.
(** Functions of the encoding package *)
Lemma variable_x n g : SpecExpr.variable (a n) g -> g = x.
Proof. intros V. apply variable_path in V. now rewrite x_path in V. Qed.
Lemma fun_good n fn : identifier fn -> ~ In fn keywords -> function P fn [] [t] valuer_type -> good (VFun fn) (Filled (vpieces (VFun fn)) (a n)).
Proof.
  intros Wf Kf' Ff. destruct (render_lib P load l Rd [] encoding_path fn (B "(") [GoPath; Text (B ")")] (a n) (x ++ B ")" ++ []) c) as (out & l' & E & I & R).
  - now left.
  - now apply before_dec.
  - exact Wf.
  - exists "("%char, []. split; [ reflexivity | now apply bracket_char ].
  - intros [ X | [] ]. discriminate.
  - intros y [ X | [ [= <-] | [] ] ]; [ discriminate | ]. intros [ X | [] ]. discriminate.
  - exact x_slash.
  - constructor; [ constructor; apply x_variable | ]. constructor; constructor.
  - intros u (v & _ & [ [ [ X | [ X | [] ] ] _ ] | [ [ X | [ X | [] ] ] _ ] ]); discriminate.
  - exists out, l'. split; [ exact E | ]. split; [ exact I | ]. intros U. destruct (R U) as (m & s & Im & Fm & Rs & ->). destruct (Fm m Im) as (Wm & Km & Vm).
    inversion Rs as [ | ? ? s1 s2 St1 Rs1 ]; subst. inversion St1 as [ | | g Vg | | | | | | ]; subst. apply variable_x in Vg as ->. inversion Rs1 as [ | ? ? s3 s4 St2 Rs2 ]; subst. inversion St2; subst. inversion Rs2; subst.
    destruct (operand l') as (ex & Rx & Tx). exists (ECall (ESel (EName m) fn) [ex]), valuer_type, false. split; [ | split ].
    + as_text ((m ++ "."%char :: fn) ++ "("%char :: x ++ [")"%char]).
      apply readable_expression, prim_readable, prim_call; [ now apply prim_qualified | now apply args_readable ].
    + eapply ty_call; [ constructor; [ exact Vm | exact Im ] | reflexivity | econstructor; [ exact Tx | constructor ] | exact Ff ].
    + split; [ split; [ reflexivity | eauto ] | ]. right. now left.
Qed.
(** Lists of the library *)
Lemma element_spelled u : element t u -> (exists m, t = TArray m u) \/ t = TSlice u -> basic P u -> one_package load u /\ (exists s, go_type u s) /\ (forall q, mentions q u -> mentions q c) /\ valid P u.
Proof.
  intros El Et Bu. assert (Pt : element c u \/ stripped c u \/ (exists t0, c = TPointer t0 /\ element t0 u)) by (destruct H as [ Ec | [ Ec _ ] ]; [ right; right; exists t; now split | left; now rewrite Ec ]).
  destruct (Sp u Pt (or_introl Bu)) as [O G]. split; [ exact O | ]. split; [ exact G | ].
  assert (Mt : forall q, mentions q u -> mentions q t) by (intros q M; destruct Et as [ [m ->] | -> ]; now constructor). split.
  - intros q M. destruct H as [ -> | [ -> _ ] ]; [ constructor | ]; now apply Mt.
  - pose proof valid_t as Vt. destruct Et as [ [m Et] | Et ]; rewrite Et in Vt; now inversion Vt.
Qed.
Definition list_template (pre p n mid post : bytes) : list piece := [lib pre p n (B "["); ElemType; Text mid; GoPath; Text post].
Lemma list_text k pre p n ks mid post u : before pre -> In (p, n, ks) library -> ~ In "/"%char mid -> ~ In "/"%char post -> element t u -> (exists m, t = TArray m u) \/ t = TSlice u -> basic P u ->
  exists out l', format (own_path P) load l (list_template pre p n mid post) (a k) = Ok (out, l') /\ incl l l' /\
  (usable P l' c -> exists m s eu, In (p, m) l' /\ identifier m /\ ~ In m keywords /\ variables P m = None /\ readable s eu /\ denotes P l' eu u /\ out = pre ++ (m ++ "."%char :: n) ++ "["%char :: s ++ mid ++ x ++ post).
Proof.
  intros Pre Il N1 N2 El Et Bu. destruct (library_names p n ks Il) as (Wn & Kn & Ip). destruct (element_spelled u El Et Bu) as (O & [su G] & Mc & Vu).
  destruct (render_lib P load l Rd pre p n (B "[") [ElemType; Text mid; GoPath; Text post] (a k) (su ++ mid ++ x ++ post ++ []) c) as (out & l' & E & I & R).
  - exact Ip.
  - exact Pre.
  - exact Wn.
  - exists "["%char, []. split; [ reflexivity | now apply bracket_char ].
  - intros [ X | [] ]. discriminate.
  - intros y [ X | [ [= <-] | [ X | [ [= <-] | [] ] ] ] ]; try discriminate; assumption.
  - exact x_slash.
  - constructor; [ eapply st_elem; [ reflexivity | exact El | exact G ] | ]. constructor; [ constructor | ]. constructor; [ constructor; apply x_variable | ]. constructor; constructor.
  - intros v (w & [= <-] & [ [ _ Ev ] | [ [ X | [ X | [ X | [ X | [] ] ] ] ] _ ] ]); try discriminate. assert (v = u) as -> by (rewrite <- (element_elem _ _ Ev); now apply element_elem). split; [ exact O | exact Mc ].
  - exists out, l'. split; [ exact E | ]. split; [ exact I | ]. intros U. destruct (R U) as (m & s & Im & Fm & Rs & ->). destruct (Fm m Im) as (Wm & Km & Vm).
    inversion Rs as [ | ? ? s1 r1 St1 Rs1 ]; subst. inversion St1 as [ | | | | | | v w ? Ev1 Ev2 W | | ]; subst. cbn [p_type] in Ev1. injection Ev1 as <-. assert (w = u) as -> by (rewrite <- (element_elem _ _ Ev2); now apply element_elem).
    inversion Rs1 as [ | ? ? s2 r2 St2 Rs2 ]; subst. inversion St2; subst. inversion Rs2 as [ | ? ? s3 r3 St3 Rs3 ]; subst. inversion St3 as [ | | g Vg | | | | | | ]; subst. apply variable_x in Vg as ->. inversion Rs3 as [ | ? ? s4 r4 St4 Rs4 ]; subst. inversion St4; subst. inversion Rs4; subst.
    destruct (type_readable P l' Pr u s1 W Vu) as (eu & Ru & Du). { intros q M. apply (U q). left. now apply Mc. }
    exists m, s1, eu. repeat (split; [ assumption | ]). rewrite app_nil_r. rewrite <- app_assoc. reflexivity.
Qed.
Lemma list_typed l' p n ks m eu u ex y : In (p, n, ks) library -> one_of P u ks -> In (p, m) l' -> variables P m = None -> denotes P l' eu u -> typed P l' ex y false \/ typed P l' ex y true -> underlying P y (TSlice u) -> valid P u ->
  typed P l' (ECall (EIndex (ESel (EName m) n) [eu]) [ex]) (TNamed p n [u]) false /\ (exists ks v, In (p, n, ks) library /\ TNamed p n [u] = TNamed p n [v]) /\ argument P (TNamed p n [u]).
Proof.
  intros Il Ou Im Vm Du Tx Uy Vu. split.
  - assert (D : denotes P l' (EIndex (ESel (EName m) n) [eu]) (TNamed p n [u])) by (apply d_generic; [ now constructor | repeat constructor; exact Du | eapply v_library; eassumption ]).
    assert (Cv : convertible P y (TNamed p n [u])) by (eapply cv_same; [ exact Uy | eapply u_library; exact Il | reflexivity ]). destruct Tx as [ Tx | Tx ]; (eapply ty_conversion; [ exact D | exact Tx | exact Cv ]).
  - split; [ eauto | ]. right. right. left. exists p, n, ks, u. now split.
Qed.
Lemma one_basic u ks : one_of P u ks -> basic P u. Proof. intros (k & _ & n & U & _). now exists n. Qed.
Lemma list_good k p n ks u : t = TSlice u -> In (p, n, ks) library -> one_of P u ks -> good (VList p n) (Filled (vpieces (VList p n)) (a k)).
Proof.
  intros Et Il Ou. assert (El : element t u) by (rewrite Et; constructor). destruct (list_text k (B "(") p n ks (B "])(") (B ")") u) as (out & l' & E & I & R); try assumption.
  - now apply before_dec.
  - intros X. cbn in X. intuition discriminate.
  - intros X. cbn in X. intuition discriminate.
  - now right.
  - exact (one_basic u ks Ou).
  - exists out, l'. split; [ exact E | ]. split; [ exact I | ]. intros U. destruct (R U) as (m & s & eu & Im & Wm & Km & Vm & Ru & Du & ->). destruct (operand l') as (ex & Rx & Tx). destruct (library_names p n ks Il) as (Wn & Kn & Ip).
    exists (ECall (EIndex (ESel (EName m) n) [eu]) [ex]), (TNamed p n [u]), false. split.
    + replace (B "(" ++ (m ++ "."%char :: n) ++ "["%char :: s ++ B "])(" ++ x ++ B ")") with (("("%char :: ((m ++ "."%char :: n) ++ "["%char :: s ++ ["]"%char]) ++ [")"%char]) ++ "("%char :: x ++ [")"%char]) by (cbn [app]; rewrite <- !app_assoc; cbn [app]; rewrite <- !app_assoc; reflexivity).
      apply readable_expression, prim_readable, prim_call; [ | now apply args_readable ]. apply prim_paren, prim_readable, prim_index; [ now apply prim_qualified | now apply args_readable ].
    + eapply list_typed; try eassumption; [ right; exact Tx | rewrite Et; constructor | ]. pose proof valid_t as Vt. rewrite Et in Vt. now inversion Vt.
Qed.
Lemma call_good k p n ks u : t = TSlice u -> In (p, n, ks) library -> one_of P u ks -> good (VCall p n) (Filled (vpieces (VCall p n)) (a k)).
Proof.
  intros Et Il Ou. assert (El : element t u) by (rewrite Et; constructor). destruct (list_text k [] p n ks (B "](") (B ")") u) as (out & l' & E & I & R); try assumption.
  - now apply before_dec.
  - intros X. cbn in X. intuition discriminate.
  - intros X. cbn in X. intuition discriminate.
  - now right.
  - exact (one_basic u ks Ou).
  - exists out, l'. split; [ exact E | ]. split; [ exact I | ]. intros U. destruct (R U) as (m & s & eu & Im & Wm & Km & Vm & Ru & Du & ->). destruct (operand l') as (ex & Rx & Tx). destruct (library_names p n ks Il) as (Wn & Kn & Ip).
    exists (ECall (EIndex (ESel (EName m) n) [eu]) [ex]), (TNamed p n [u]), false. split.
    + replace ([] ++ (m ++ "."%char :: n) ++ "["%char :: s ++ B "](" ++ x ++ B ")") with (((m ++ "."%char :: n) ++ "["%char :: s ++ ["]"%char]) ++ "("%char :: x ++ [")"%char]) by (cbn [app]; rewrite <- !app_assoc; cbn [app]; rewrite <- !app_assoc; reflexivity).
      apply readable_expression, prim_readable, prim_call; [ | now apply args_readable ]. apply prim_index; [ now apply prim_qualified | now apply args_readable ].
    + eapply list_typed; try eassumption; [ right; exact Tx | rewrite Et; constructor | ]. pose proof valid_t as Vt. rewrite Et in Vt. now inversion Vt.
Qed.
Lemma call_slice_good k p n ks m0 u : c = t -> t = TArray m0 u -> In (p, n, ks) library -> one_of P u ks -> good (VCallSlice p n) (Filled (vpieces (VCallSlice p n)) (a k)).
Proof.
  intros Ec Et Il Ou. assert (El : element t u) by (rewrite Et; constructor). destruct (list_text k [] p n ks (B "](") (B "[:])") u) as (out & l' & E & I & R); try assumption.
  - now apply before_dec.
  - intros X. cbn in X. intuition discriminate.
  - intros X. cbn in X. intuition discriminate.
  - left. now exists m0.
  - exact (one_basic u ks Ou).
  - exists out, l'. split; [ exact E | ]. split; [ exact I | ]. intros U. destruct (R U) as (m & s & eu & Im & Wm & Km & Vm & Ru & Du & ->). destruct (operand_slice l' Ec) as (ex & Rx & Tx). destruct (library_names p n ks Il) as (Wn & Kn & Ip).
    exists (ECall (EIndex (ESel (EName m) n) [eu]) [ESliceAll ex]), (TNamed p n [u]), false. split.
    + replace ([] ++ (m ++ "."%char :: n) ++ "["%char :: s ++ B "](" ++ x ++ B "[:])") with (((m ++ "."%char :: n) ++ "["%char :: s ++ ["]"%char]) ++ "("%char :: (x ++ B "[:]") ++ [")"%char]) by (cbn [app]; rewrite <- !app_assoc; cbn [app]; rewrite <- !app_assoc; reflexivity).
      apply readable_expression, prim_readable, prim_call; [ | apply args_readable, prim_readable; now apply prim_slice ]. apply prim_index; [ now apply prim_qualified | now apply args_readable ].
    + eapply (list_typed l' p n ks m eu u (ESliceAll ex) (TSlice u)); try eassumption; [ left; eapply ty_slice_array; [ exact Tx | rewrite Et; constructor ] | constructor | ]. pose proof valid_t as Vt. rewrite Et in Vt. now inversion Vt.
Qed.
End Values.
