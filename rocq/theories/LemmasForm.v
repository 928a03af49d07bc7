(** The form in which a column is written and read. *)
From Verif Require Import Base ModelStrconv ModelTypes ModelConfig ModelExpr ModelResolve ModelColumn LemmasBase PropConfig SpecSource LemmasSource SpecExpr LemmasExpr PropExpr PropResolve SpecTyping LemmasTyping LemmasTyping2 LemmasTyping3 LemmasTyping4 LemmasTyping5 LemmasTyping6 LemmasTyping7 LemmasTyping8 LemmasTyping9 SpecForm.
Import ModelColumn.

(** ** The tables, row by row *)
Definition eq_form (a b : form) : bool :=
  match a, b with
  | Number, Number | Truth, Truth | Letters, Letters | Moment, Moment | Json, Json | Marshalled, Marshalled => true
  | Listed p n, Listed q m => bseq p q && bseq n m
  | _, _ => false
  end.
Lemma eq_form_eq a b : eq_form a b = true -> a = b.
Proof. destruct a, b; try discriminate; try reflexivity. cbn. rewrite andb_true_iff, !bseq_eq. intros [-> ->]. reflexivity. Qed.
Definition vform (k : bytes) (sh : vshape) : option form :=
  match sh with
  | VConv x => if bseq x (B "string") then Some Letters else if bseq x (B "bool") then Some Truth else if bmem x (signed ++ unsigned ++ floats) then Some Number else None
  | VPlain => if bmem k [B "byte"; B "uint64"] then Some Number else if bseq k (B "[]byte") then Some Letters else None
  | VText | VSlice => Some Letters
  | VList p n | VCall p n | VCallSlice p n => Some (Listed p n)
  | VFun f => if bseq f (B "JSONValue") then Some Json else None
  | _ => None
  end.
Fixpoint find_form (f : bytes) (l : list (bytes * form)) : option form := match l with [] => None | (g, fm) :: r => if bseq g f then Some fm else find_form f r end.
Lemma find_form_in f l fm : find_form f l = Some fm -> In (f, fm) l.
Proof. induction l as [|[g x] l IH]; [ discriminate | ]. cbn [find_form]. destruct (bseq g f) eqn:E; [ apply bseq_eq in E as ->; intros [= ->]; now left | intros H; right; now apply IH ]. Qed.
Definition sform (k : bytes) (sh : sshape) : option form :=
  match sh with
  | SAddrOf => if bseq k (B "byte") then Some Number else if bseq k (B "[]byte") then Some Letters else None
  | SGeneric f | SBase f | SFun f | SArray f => find_form f scanner_forms
  | SList p n => Some (Listed p n)
  | _ => None
  end.
Definition dead_value (sh : vshape) : bool := match sh with VTime | VRaw | VRawJSON | VBytea => true | _ => false end.
Definition dead_scan (sh : sshape) : bool := match sh with SRaw | SRawJSON | SCallSlice _ _ | SBoolArray | SRunes | SBytea => true | _ => false end.
Definition row_agrees (k : bytes) (v : vshape) (s : sshape) : bool :=
  bseq k (B "rune") || dead_value v || dead_scan s || match vform k v, sform k s with Some a, Some b => eq_form a b | _, _ => false end.
Lemma rows_agree d : forallb (fun x => forallb (fun y => negb (bseq (fst x) (fst y)) || row_agrees (fst x) (snd x) (snd y)) (scans_of d)) (values d) = true.
Proof. destruct d; vm_compute; reflexivity. Qed.
Lemma rows_same d k v s : In (k, v) (values d) -> In (k, s) (scans_of d) -> k <> B "rune" -> dead_value v = true \/ dead_scan s = true \/ exists fm, vform k v = Some fm /\ sform k s = Some fm.
Proof.
  intros Iv Is N. pose proof (rows_agree d) as R. rewrite forallb_forall in R. specialize (R _ Iv). rewrite forallb_forall in R. specialize (R _ Is). cbn [fst snd] in R. rewrite (proj2 (bseq_eq k k) eq_refl) in R. cbn [negb orb] in R.
  unfold row_agrees in R. rewrite !orb_true_iff in R. destruct R as [ [ [ R | R ] | R ] | R ]; [ apply bseq_eq in R; contradiction | now left | right; now left | right; right ].
  destruct (vform k v) as [a|]; [ | discriminate ]. destruct (sform k s) as [b|]; [ | discriminate ]. apply eq_form_eq in R as ->. eauto.
Qed.
Section Forms.
Variables (P : program) (e : env) (d : dialect).
Hypothesis Pr : proper P.
Hypothesis Ag : agrees e P.
(** What the keys of plain values say *)
Definition plain_key (k : bytes) (t : gtype) : Prop :=
  (k = B "byte" -> kind P t (B "byte")) /\ (k = B "uint64" -> kind P t (B "uint64")) /\ (k = B "[]byte" -> exists b, underlying P t (TSlice b) /\ kind P b (B "byte")).
Lemma basic_method n m : ~ method P (TBasic n) m.
Proof. intros M. destruct (pr_method P Pr _ _ M) as (p & q & args & [ E | E ]); discriminate E. Qed.
Lemma slice_method u m : ~ method P (TSlice u) m.
Proof. intros M. destruct (pr_method P Pr _ _ M) as (p & q & args & [ E | E ]); discriminate E. Qed.
Lemma kind_basic n : kind P (TBasic n) n. Proof. exists n. split; [ constructor | reflexivity ]. Qed.
Lemma vform_sends k v t ex ty fm : plain_key k t -> ~ method P t (B "Value") -> vform k v = Some fm -> fits P t v ex ty -> sends P ex ty fm.
Proof.
  intros (K1 & K2 & K3) N. destruct v; cbn [vform fits]; try discriminate.
  - intros F ->. destruct (bseq k0 (B "string")) eqn:E1; [ apply bseq_eq in E1 as ->; injection F as <-; apply sd_letters; [ apply kind_basic | apply basic_method ] | ].
    destruct (bseq k0 (B "bool")) eqn:E2; [ apply bseq_eq in E2 as ->; injection F as <-; apply sd_truth; [ apply kind_basic | apply basic_method ] | ].
    destruct (bmem k0 _) eqn:E3; [ | discriminate ]. apply bmem_In in E3. injection F as <-. apply sd_number; [ exists k0; split; [ exact E3 | apply kind_basic ] | apply basic_method ].
  - intros F ->. destruct (bmem k _) eqn:E1.
    + injection F as <-. apply bmem_In in E1. apply sd_number; [ | exact N ]. destruct E1 as [ <- | [ <- | [] ] ]; eexists; (split; [ | first [ now apply K1 | now apply K2 ] ]); mem.
    + destruct (bseq k (B "[]byte")) eqn:E2; [ | discriminate ]. apply bseq_eq in E2. injection F as <-. destruct (K3 E2) as (b & U & Kb). now apply (sd_bytes P _ _ b).
  - intros [= <-] ->. apply sd_letters; [ apply kind_basic | apply basic_method ].
  - intros [= <-] (u & -> & Ku). apply (sd_bytes P _ _ u); [ constructor | exact Ku | apply slice_method ].
  - intros [= <-] (ks & u & I & ->). now apply sd_listed with ks.
  - intros [= <-] (ks & u & I & ->). now apply sd_listed with ks.
  - intros [= <-] (ks & u & I & ->). now apply sd_listed with ks.
  - destruct (bseq f (B "JSONValue")) eqn:E1; [ | discriminate ]. apply bseq_eq in E1 as ->. intros [= <-] (-> & m & es & ->). constructor.
Qed.
Lemma sform_takes k s c t ex ty fm : held c t -> plain_key k t -> ~ method P (TPointer t) (B "Scan") -> sform k s = Some fm -> sfits c s ex ty -> takes P t ex ty fm.
Proof.
  intros H (K1 & K2 & K3) N. assert (Ec : (if is_pointer c then c else TPointer c) = TPointer t) by (destruct H as [ -> | [ -> N' ] ]; [ reflexivity | destruct t; try reflexivity; destruct (N' _ eq_refl) ]).
  destruct s; cbn [sform sfits]; try discriminate.
  - rewrite Ec. intros F ->. destruct (bseq k (B "byte")) eqn:E1; [ apply bseq_eq in E1; injection F as <-; apply tk_number; [ eexists; split; [ | now apply K1 ]; mem | exact N ] | ].
    destruct (bseq k (B "[]byte")) eqn:E2; [ | discriminate ]. apply bseq_eq in E2. injection F as <-. destruct (K3 E2) as (b & U & Kb). now apply (tk_bytes P t _ _ b).
  - intros F (-> & m & us & es & ->). apply find_form_in in F. now constructor.
  - intros F (-> & m & us & es & ->). apply find_form_in in F. now constructor.
  - intros F (-> & m & es & ->). apply find_form_in in F. now constructor.
  - intros F (-> & m & es & ->). apply find_form_in in F. now constructor.
  - intros [= <-] (ks & u & I & ->). now apply tk_listed with ks.
Qed.
Definition sends_takes (c t : gtype) (v : vshape) (s : sshape) : Prop :=
  (forall ex ty, ~ fits P t v ex ty) \/ (forall ex ty, ~ sfits c s ex ty) \/ exists fm, (forall ex ty, fits P t v ex ty -> sends P ex ty fm) /\ (forall ex ty, sfits c s ex ty -> takes P t ex ty fm).
Lemma same_key k v s c t : held c t -> In (k, v) (values d) -> In (k, s) (scans_of d) -> k <> B "rune" -> plain_key k t -> ~ method P t (B "Value") -> ~ method P (TPointer t) (B "Scan") -> sends_takes c t v s.
Proof.
  intros H Iv Is N K Nv Ns. destruct (rows_same d k v s Iv Is N) as [ D | [ D | (fm & Fv & Fs) ] ].
  - left. intros ex ty. destruct v; try discriminate D; intros [].
  - right. left. intros ex ty. destruct s; try discriminate D; intros [].
  - right. right. exists fm. split; intros ex ty F; [ exact (vform_sends k v t ex ty fm K Nv Fv F) | exact (sform_takes k s c t ex ty fm H K Ns Fs F) ].
Qed.
Lemma one_form c t v s ex1 ty1 ex2 ty2 : sends_takes c t v s -> fits P t v ex1 ty1 -> sfits c s ex2 ty2 -> exists fm, sends P ex1 ty1 fm /\ takes P t ex2 ty2 fm.
Proof. intros [ A | [ A | (fm & A & A') ] ] F G; [ now destruct (A ex1 ty1) | now destruct (A ex2 ty2) | ]. exists fm. auto. Qed.
(** The key of a value: *)
Lemma key_plain f t k : valid P t -> (forall u, ~ underlying P t (TPointer u)) -> no_character P t -> column_data_type f e (map fst (table d)) t = Some (Some k) -> plain_key k t /\ k <> B "rune".
Proof.
  intros V Np Nr K. destruct (key_says e d f t k K) as (_ & [ -> | (y & Sy & [ -> | [ -> | (n & x & _ & _ & -> & _) ] ]) ]).
  - split; [ | discriminate ]. split; [ discriminate | ]. split; discriminate.
  - split; [ split; [ | split ] | ].
    + intros ->. exists (B "byte"). split; [ | reflexivity ]. apply (says_scalar P e Pr Ag); [ exact Sy | mem | exact V ].
    + intros ->. exists (B "uint64"). split; [ | reflexivity ]. apply (says_scalar P e Pr Ag); [ exact Sy | mem | exact V ].
    + intros ->. destruct (says_list P e Pr Ag t (B "byte") Sy V) as (u & U & Su & Vu). exists u. split; [ exact U | ]. exists (B "byte"). split; [ | reflexivity ]. apply (says_scalar P e Pr Ag); [ exact Su | mem | exact Vu ].
    + intros ->. apply Nr. apply (says_scalar P e Pr Ag); [ exact Sy | mem | exact V ].
  - destruct (says_star P e Pr Ag t k Sy V) as (u & U & _). destruct (Np u U).
  - split; [ | discriminate ]. split; [ discriminate | ]. split; discriminate.
Qed.
(** Behind a pointer *)
Lemma finish_star s : s <> [] -> (forall r, s <> "*"%char :: r) -> (forall r, s <> "["%char :: r) -> finish (map fst (table d)) ("*"%char :: s) = finish (map fst (table d)) s.
Proof.
  intros N1 N2 N3. unfold finish. destruct (bmem ("*"%char :: s) (map fst (table d))) eqn:M.
  - apply bmem_In in M. exfalso. assert (E : "*"%char :: s = B "*"); [ | injection E as ->; contradiction ]. assert (H : forallb (fun x => bseq x (B "*") || match x with c :: _ => negb (beq c "*") | [] => true end) (map fst (table d)) = true) by (destruct d; vm_compute; reflexivity). rewrite forallb_forall in H. specialize (H _ M). rewrite orb_true_iff in H. destruct H as [ H | H ]; [ now apply bseq_eq in H | discriminate H ].
  - change (beq "*" "*") with true. cbn [andb]. destruct (bmem s (map fst (table d))) eqn:M'; [ reflexivity | ]. destruct s as [|c r]; [ contradiction | ].
    assert (E1 : beq c "*" = false) by (apply beq_neq; intros ->; now apply (N2 r)). assert (E2 : beq c "[" = false) by (apply beq_neq; intros ->; now apply (N3 r)). rewrite E1. cbn [andb]. unfold fixed_array. destruct r as [|b r]; change (beq "*" "[") with false; cbn [andb]; [ reflexivity | ]. now rewrite E2.
Qed.
Lemma letter_start s c r : s = c :: r -> letter c -> s <> [] /\ (forall r, s <> "*"%char :: r) /\ forall r, s <> "["%char :: r.
Proof. intros -> L. destruct (letter_other c L) as [A C]. split; [ discriminate | ]. split; intros q [= -> _]; contradiction. Qed.
Lemma pointer_word f t : (exists n, t = TBasic n /\ In n predeclared) \/ (exists p n args fs, t = TNamed p n args /\ declared P p n args /\ stands_for P p n args = UStruct fs) ->
  forall k1 k2, column_data_type f e (map fst (table d)) t = Some k1 -> column_data_type f e (map fst (table d)) (TPointer t) = Some k2 -> k1 = k2.
Proof.
  intros H k1 k2. unfold column_data_type. destruct f as [|[|f]]; [ discriminate | cbn [walk_type]; discriminate | ].
  destruct H as [ (n & -> & I) | (p & n & args & fs & -> & D & U) ]; cbn [walk_type].
  - destruct (predeclared_head n I) as (c & r & E & L). destruct (letter_start n c r E L) as (A1 & A2 & A3). change (([] ++ B "*") ++ n) with ("*"%char :: n). cbn [app]. rewrite (finish_star n A1 A2 A3). congruence.
  - rewrite (ag_under e P Ag _ _ _ D), U. destruct (struct_head P Pr _ _ _ D) as (c & r & E & L). destruct (letter_start _ c r E L) as (A1 & A2 & A3). change (([] ++ B "*") ++ type_string (TNamed p n args)) with ("*"%char :: type_string (TNamed p n args)). cbn [app]. rewrite (finish_star _ A1 A2 A3). congruence.
Qed.
(** Types without a name *)
Definition composite (t : gtype) : Prop := match t with TSlice _ | TArray _ _ | TMap _ _ => True | _ => False end.
Lemma bracket_keys k r : In k (map fst (table d)) -> k = "["%char :: r -> (exists z, r = "]"%char :: z /\ (In z predeclared \/ d = Postgres /\ z = B "[]byte")) \/ exists z, r = "."%char :: z.
Proof.
  intros I ->. assert (H : forallb (fun x => match x with a :: b :: z => negb (beq a "[") || beq b "." || beq b "]" && (bmem z predeclared || (match d with Postgres => true | _ => false end && bseq z (B "[]byte"))) | [a] => negb (beq a "[") | [] => true end) (map fst (table d)) = true) by (destruct d; vm_compute; reflexivity).
  rewrite forallb_forall in H. specialize (H _ I). cbv beta iota in H. change (beq "[" "[") with true in H. cbn [negb] in H. destruct r as [|b z]; [ discriminate H | ]. cbn [orb] in H. rewrite orb_true_iff, andb_true_iff, orb_true_iff, andb_true_iff, !beq_eq, bmem_In, bseq_eq in H.
  destruct H as [ -> | [ -> H ] ]; [ right; eauto | left ]. exists z. split; [ reflexivity | ]. destruct H as [ H | [D ->] ]; [ now left | right ]. split; [ now destruct d | reflexivity ].
Qed.
Lemma composite_key t y k : valid P t -> composite t -> says e t y -> In k (map fst (table d)) ->
  y = k \/ (exists n x, In x [B "rune"; B "string"; B "byte"] /\ y = "["%char :: n ++ "]"%char :: x /\ n <> [] /\ Forall (fun b => is_digit b = true) n) ->
  (exists u, t = TSlice u /\ basic P u) \/ (exists n u, t = TArray n u /\ basic P u) \/ (d = Postgres /\ exists u b, t = TSlice u /\ underlying P u (TSlice b) /\ underlying P b (TBasic (B "byte"))).
Proof.
  intros V C Sy I [ E | (n & x & Ix & E & Nn & F) ]; subst y.
  - assert (Hb : exists r, k = "["%char :: r) by (inversion Sy; subst; destruct C; eauto). destruct Hb as (r & Ek). destruct (bracket_keys k r I Ek) as [ (z & -> & Z) | (z & ->) ]; rewrite Ek in Sy; [ | destruct (says_points P e Pr Ag t z Sy V) ].
    destruct (says_list P e Pr Ag t z Sy V) as (u & U & Su & Vu). assert (Et : t = TSlice u) by (destruct t; try destruct C; inversion U; reflexivity). destruct Z as [ Z | [Ed ->] ].
    + left. exists u. split; [ exact Et | ]. exists z. now apply (says_scalar P e Pr Ag).
    + right. right. split; [ exact Ed | ]. destruct (says_list P e Pr Ag u (B "byte") Su Vu) as (b & Ub & Sb & Vb). exists u, b. split; [ exact Et | ]. split; [ exact Ub | ]. apply (says_scalar P e Pr Ag); [ exact Sb | mem | exact Vb ].
  - destruct (says_fixed P e Pr Ag t n x Sy Nn F V) as (m & u & U & Su & Vu). right. left. exists m, u. split; [ destruct t; try destruct C; inversion U; reflexivity | ]. exists x. apply (says_scalar P e Pr Ag); [ exact Su | | exact Vu ]. destruct Ix as [ <- | [ <- | [ <- | [] ] ] ]; mem.
Qed.
Lemma composite_pointer f t : writes_well P d (TPointer t) t -> reads_well P d (TPointer t) -> valid P t -> composite t -> t <> TSlice (TBasic (B "byte")) ->
  (forall k, column_data_type f e (map fst (table d)) t = Some (Some k) -> k = B "*") /\ (forall k, column_data_type f e (map fst (table d)) (TPointer t) = Some (Some k) -> k = B "*").
Proof.
  intros W R V C N.
  assert (K : forall y k, says e t y -> In k (map fst (table d)) -> y = k \/ (exists n x, In x [B "rune"; B "string"; B "byte"] /\ y = "["%char :: n ++ "]"%char :: x /\ n <> [] /\ Forall (fun b => is_digit b = true) n) -> False).
  { intros y k Sy I Y. destruct (composite_key t y k V C Sy I Y) as [ (u & -> & Bu) | [ (n & u & -> & Bu) | (Ed & u & b & -> & Ub & Bb) ] ].
    - destruct (proj2 (rw_pointer P d _ R (TSlice u) (u_pointer P _)) u (u_slice P u)) as [A _]. apply N. now rewrite (A Bu).
    - destruct (ww_array P d _ _ W n u (u_array P n u) Bu) as [E _]. discriminate E.
    - exact (ww_bytes P d _ _ W Ed u b (u_slice P u) Ub Bb). }
  split; intros k Ck; destruct (key_says e d f _ k Ck) as (I & [ -> | (y & Sy & Y) ]); try reflexivity; exfalso.
  - destruct Y as [ -> | [ -> | (n & x & Ix & E & _ & Nn & F) ] ]; [ apply (K k k Sy I); now left | inversion Sy; subst; destruct C | apply (K y k Sy I); right; exists n, x; auto ].
  - inversion Sy as [ | | | u s Su | | ]; subst. destruct Y as [ E | [ E | (n & x & Ix & E & _) ] ].
    + assert (X : k = B "*"). { assert (H : forallb (fun x => bseq x (B "*") || match x with c :: _ => negb (beq c "*") | [] => true end) (map fst (table d)) = true) by (destruct d; vm_compute; reflexivity). rewrite forallb_forall in H. specialize (H _ I). rewrite <- E in H. rewrite orb_true_iff in H. destruct H as [ H | H ]; [ apply bseq_eq in H; now rewrite <- E | discriminate H ]. }
      rewrite X in E. injection E as ->. inversion Su; subst; destruct C.
    + injection E as ->. apply (K k k Su I). now left.
    + discriminate E.
Qed.
(** ** The two choices *)
Definition value_info (f : nat) (t : gtype) (v : vshape) : Prop :=
  (exists k, column_data_type f e (map fst (table d)) t = Some (Some k) /\ In (k, v) (values d)) \/
  column_data_type f e (map fst (table d)) t = Some None /\ (method P t (B "MarshalText") /\ v = VFun (B "TextValue") \/ ~ method P t (B "MarshalText") /\ v = VFun (B "JSONValue")).
Definition scan_info (f : nat) (c t : gtype) (s : sshape) : Prop :=
  (exists k, column_data_type f e (map fst (table d)) c = Some (Some k) /\ In (k, s) (scans_of d)) \/
  column_data_type f e (map fst (table d)) c = Some None /\ (method P (TPointer t) (B "UnmarshalText") /\ s = SGeneric (B "TextScanner") \/ ~ method P (TPointer t) (B "UnmarshalText") /\ s = SFun (B "JSONScanner")).
Lemma json_both c t : sends_takes c t (VFun (B "JSONValue")) (SFun (B "JSONScanner")).
Proof. right. right. exists Json. split; intros ex ty (-> & m & es & ->); constructor. apply find_form_in. vm_compute. reflexivity. Qed.
Lemma text_both c t : sends_takes c t (VFun (B "TextValue")) (SGeneric (B "TextScanner")).
Proof. right. right. exists Marshalled. split; [ intros ex ty (-> & m & es & ->); constructor | intros ex ty (-> & m & us & es & ->); constructor; apply find_form_in; vm_compute; reflexivity ]. Qed.
Lemma same_choice f c t K v s : held c t -> valid P t -> (forall u, ~ underlying P t (TPointer u)) -> no_character P t -> paired P t -> ~ method P t (B "Value") -> ~ method P (TPointer t) (B "Scan") ->
  column_data_type f e (map fst (table d)) t = Some K -> column_data_type f e (map fst (table d)) c = Some K -> value_info f t v -> scan_info f c t s -> sends_takes c t v s.
Proof.
  intros H V Np Nr Pa Nv Ns Kt Kc [ (k & K1 & I1) | (K1 & T1) ] [ (k' & K2 & I2) | (K2 & T2) ]; try congruence.
  - assert (k' = k) as -> by congruence. destruct (key_plain f t k V Np Nr K1) as [Pk Nk]. exact (same_key k v s c t H I1 I2 Nk Pk Nv Ns).
  - destruct Pa as [_ Pt]. destruct T1 as [ [M1 ->] | [M1 ->] ], T2 as [ [M2 ->] | [M2 ->] ]; try tauto; [ apply text_both | apply json_both ].
Qed.
Lemma star_value v : In (B "*", v) (values d) -> v = VFun (B "JSONValue").
Proof. intros I. destruct (values_cases d) as [ E | [_ E] ]; rewrite E in I; clear - I; cbn in I; repeat (destruct I as [ I | I ]; [ first [ discriminate I | now injection I as <- ] | ]); destruct I. Qed.
Lemma star_scan s : In (B "*", s) (scans_of d) -> s = SFun (B "JSONScanner").
Proof. intros I. destruct (scans_cases d) as [ E | [_ E] ]; rewrite E in I; clear - I; cbn in I; repeat (destruct I as [ I | I ]; [ first [ discriminate I | now injection I as <- ] | ]); destruct I. Qed.
Lemma composite_methods t m : composite t -> ~ method P t m /\ ~ method P (TPointer t) m.
Proof. intros C. split; intros M; destruct (pr_method P Pr _ _ M) as (p & n & args & [ E | E ]); try discriminate E; [ subst t; destruct C | subst t; destruct C | injection E as ->; destruct C ]. Qed.
Lemma composite_choice f t v s : writes_well P d (TPointer t) t -> reads_well P d (TPointer t) -> valid P t -> composite t -> value_info f t v -> scan_info f (TPointer t) t s -> sends_takes (TPointer t) t v s.
Proof.
  intros W R V C Iv Is. destruct (composite_methods t (B "MarshalText") C) as [Nm _]. destruct (composite_methods t (B "UnmarshalText") C) as [_ Nu]. destruct (composite_methods t (B "Value") C) as [Nv _]. destruct (composite_methods t (B "Scan") C) as [_ Ns].
  assert (D : t = TSlice (TBasic (B "byte")) \/ t <> TSlice (TBasic (B "byte"))) by (destruct t as [ | | | u | | ]; try (right; discriminate); destruct u as [ n | | | | | ]; try (right; discriminate); destruct (bseq n (B "byte")) eqn:E; [ apply bseq_eq in E as ->; now left | right; intros [= ->]; discriminate E ]).
  destruct D as [ -> | N ].
  - assert (Kv : forall r, column_data_type f e (map fst (table d)) (TSlice (TBasic (B "byte"))) = Some r -> r = Some (B "[]byte")) by (unfold column_data_type; destruct f as [|[|f]]; try discriminate; cbn [walk_type app]; intros r [= <-]; destruct d; reflexivity).
    assert (Ks : forall r, column_data_type f e (map fst (table d)) (TPointer (TSlice (TBasic (B "byte")))) = Some r -> r = Some (B "[]byte")) by (unfold column_data_type; destruct f as [|[|[|f]]]; try discriminate; cbn [walk_type app]; intros r [= <-]; destruct d; reflexivity).
    destruct Iv as [ (k & K1 & I1) | (K1 & _) ]; apply Kv in K1; [ | discriminate K1 ]. destruct Is as [ (k' & K2 & I2) | (K2 & _) ]; apply Ks in K2; [ | discriminate K2 ]. injection K1 as ->. injection K2 as ->.
    apply (same_key (B "[]byte")); [ left; reflexivity | exact I1 | exact I2 | discriminate | | exact Nv | exact Ns ]. split; [ discriminate | ]. split; [ discriminate | ]. intros _. exists (TBasic (B "byte")). split; [ constructor | apply kind_basic ].
  - destruct (composite_pointer f t W R V C N) as [A1 A2].
    assert (Ev : v = VFun (B "JSONValue")). { destruct Iv as [ (k & K1 & I1) | (K1 & [ [M _] | [_ E] ]) ]; [ rewrite (A1 k K1) in I1; now apply star_value | contradiction | exact E ]. }
    assert (Es : s = SFun (B "JSONScanner")). { destruct Is as [ (k & K1 & I1) | (K1 & [ [M _] | [_ E] ]) ]; [ rewrite (A2 k K1) in I1; now apply star_scan | contradiction | exact E ]. }
    subst v s. apply json_both.
Qed.
(** Basic types *)
Definition basic_form (t : gtype) (fm : form) : Prop :=
  t = TBasic (B "string") /\ fm = Letters \/ t = TBasic (B "bool") /\ fm = Truth \/ t = TBasic (B "int64") /\ fm = Number \/ t = TBasic (B "float64") /\ fm = Number \/ t = time_type /\ fm = Moment.
Lemma basic_has_form t : valid P t -> is_basic_type t = true -> exists fm, basic_form t fm.
Proof.
  intros V Ib. destruct t as [ n | p n args | | | | ]; try discriminate Ib.
  - cbn [is_basic_type] in Ib. apply bmem_In in Ib. unfold basic_form. destruct Ib as [ <- | [ <- | [ <- | [ <- | [] ] ] ] ]; eauto 10.
  - destruct (basic_argument P e Pr Ag _ V Ib) as [ (k & I & n' & U & Sk) | -> ]; [ | exists Moment; unfold basic_form; auto 10 ]. cbn [is_basic_type] in Ib. apply bseq_eq in Ib. exists Moment. unfold basic_form. do 4 right. split; [ | reflexivity ].
    inversion V as [ | ? ? ? D | ? ? ? ? I' | | | | ]; subst; [ | exfalso; inversion U; subst ].
    + destruct (type_string_name P Pr p n args (B "time") (B "Time") D Ib) as (-> & -> & ->); [ intros X; cbn in X; repeat destruct X as [ X | X ]; try discriminate X; destruct X .. | reflexivity ].
    + match goal with X : stands_for P ?p ?n [?t] = UOf ?u |- _ => pose proof (ag_library e P Ag p n _ t I') as L end. rewrite (ag_under e P Ag) in L by assumption. congruence.
Qed.
Lemma basic_sends t fm ex : basic_form t fm -> ~ method P t (B "Value") -> sends P ex t fm.
Proof.
  intros [ [-> ->] | [ [-> ->] | [ [-> ->] | [ [-> ->] | [-> ->] ] ] ] ] N.
  - apply sd_letters; [ apply kind_basic | exact N ].
  - apply sd_truth; [ apply kind_basic | exact N ].
  - apply sd_number; [ eexists; split; [ | apply kind_basic ]; mem | exact N ].
  - apply sd_number; [ eexists; split; [ | apply kind_basic ]; mem | exact N ].
  - now apply sd_moment.
Qed.
Lemma basic_takes t fm ex : basic_form t fm -> ~ method P (TPointer t) (B "Scan") -> takes P t ex (TPointer t) fm.
Proof.
  intros [ [-> ->] | [ [-> ->] | [ [-> ->] | [ [-> ->] | [-> ->] ] ] ] ] N.
  - apply tk_letters; [ apply kind_basic | exact N ].
  - apply tk_truth; [ apply kind_basic | exact N ].
  - apply tk_number; [ eexists; split; [ | apply kind_basic ]; mem | exact N ].
  - apply tk_number; [ eexists; split; [ | apply kind_basic ]; mem | exact N ].
  - now apply tk_moment.
Qed.
(** A pointer to a basic type *)
Lemma basic_pointer f t fm s : basic_form t fm -> plain_pointer P (TPointer t) -> ~ method P t (B "Value") -> scan_info f (TPointer t) t s -> forall ex ty, sfits (TPointer t) s ex ty -> takes P t ex ty fm.
Proof.
  intros Bf Pp Nv Is.
  assert (K : exists k, (forall r, column_data_type f e (map fst (table d)) (TPointer t) = Some r -> r = Some k) /\ forall s, In (k, s) (scans_of d) -> sform k s = Some fm /\ s <> SAddrOf).
  { assert (T : forall k, forallb (fun x => negb (bseq (fst x) k) || match sform k (snd x) with Some b => eq_form b fm | None => false end && match snd x with SAddrOf => false | _ => true end) (scans_of d) = true -> forall s, In (k, s) (scans_of d) -> sform k s = Some fm /\ s <> SAddrOf).
    { intros k F s' I. rewrite forallb_forall in F. specialize (F _ I). cbn [fst snd] in F. rewrite (proj2 (bseq_eq k k) eq_refl) in F. cbn [negb orb] in F. apply andb_true_iff in F as [F G]. destruct (sform k s') as [b|]; [ | discriminate F ]. apply eq_form_eq in F as ->. split; [ reflexivity | ]. intros ->. discriminate G. }
    destruct Bf as [ [-> ->] | [ [-> ->] | [ [-> ->] | [ [-> ->] | [-> ->] ] ] ] ].
    1-4: eexists; split; [ unfold column_data_type; destruct f as [|[|f]]; try discriminate; cbn [walk_type app]; intros r [= <-]; destruct d; vm_compute; reflexivity | apply T; destruct d; vm_compute; reflexivity ].
    exists (B "time.Time"). split; [ | apply T; destruct d; vm_compute; reflexivity ]. destruct (Pp _ _ _ eq_refl) as [ M | (D & fs & U) ]; [ contradiction | ].
    unfold column_data_type. destruct f as [|[|f]]; try discriminate. unfold time_type. cbn [walk_type]. rewrite (ag_under e P Ag _ _ _ D), U. intros r [= <-]. destruct d; vm_compute; reflexivity. }
  destruct K as (k & K1 & K2). destruct Is as [ (k' & Ck & I) | (Ck & _) ]; apply K1 in Ck; [ injection Ck as -> | discriminate Ck ]. destruct (K2 s I) as [Fs Na]. intros ex ty F.
  destruct s; cbn [sform sfits] in *; try discriminate Fs; try contradiction.
  - destruct F as (-> & m & us & es & ->). apply find_form_in in Fs. now constructor.
  - destruct F as (-> & m & us & es & ->). apply find_form_in in Fs. now constructor.
  - destruct F as (-> & m & es & ->). apply find_form_in in Fs. now constructor.
  - destruct F as (-> & m & es & ->). apply find_form_in in Fs. now constructor.
  - injection Fs as <-. destruct F as (ks & u & Il & ->). now apply tk_listed with ks.
Qed.
End Forms.
