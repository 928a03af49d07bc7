(** The expressions that read a column. *)
From Verif Require Import Base ModelStrconv ModelTypes ModelConfig ModelExpr ModelResolve ModelColumn LemmasBase PropConfig SpecSource LemmasSource SpecExpr LemmasExpr PropExpr SpecTyping LemmasTyping LemmasTyping2 LemmasTyping3 LemmasTyping4 LemmasTyping5 LemmasTyping6.
Import ModelColumn.

(** What the expression of a shape is, and its type *)
Definition sfits (c : gtype) (sh : sshape) (ex : expr) (ty : gtype) : Prop :=
  match sh with
  | SAddrOf => ty = if is_pointer c then c else TPointer c
  | SGeneric f | SBase f => ty = scanner_type /\ exists m us es, ex = ECall (EIndex (ESel (EName m) f) us) es
  | SFun f | SArray f => ty = scanner_type /\ exists m es, ex = ECall (ESel (EName m) f) es
  | SList p n => exists ks u, In (p, n, ks) library /\ ty = TPointer (TNamed p n [u])
  | _ => False
  end.
Section Scans.
Variables (P : program) (e : env) (load : bytes -> option bytes) (l : imports).
Hypothesis Pr : proper P.
Hypothesis Ag : agrees e P.
Hypothesis Rd : ready P load l.
Variables (parent f : bytes) (tp c : gtype) (d : dialect).
Notation path := (parent ++ "."%char :: f).
Hypothesis Rp : reaches P parent tp.
Hypothesis Fl : field P tp f c.
Hypothesis If : identifier f.
Hypothesis Kf : ~ In f keywords.
Hypothesis Vc : valid P c.
Hypothesis Sp : spelled P load c.
Hypothesis Np : parent <> own_path P.
Hypothesis Lp : load parent = Some [].
Hypothesis Fp : In (parent, parent) l \/ ~ In parent (map fst l) /\ ~ In parent (map snd l).
Notation a n := {| p_path := "&"%char :: path; p_ptr := is_pointer c; p_len := n; p_type := Some c |}.
Notation good sh ch := (compiles P l c (render (own_path P) load l ch) (fun ex ty => sfits c sh ex ty /\ destination P ty)).
Lemma pr : reaches P path c. Proof. eapply re_field; eassumption. Qed.
Lemma address l' : exists ex, readable path ex /\ prim path ex /\ typed P l' ex c true /\ typed P l' (EAmp ex) (TPointer c) false.
Proof. destruct (path_prim P l' path c pr) as (ex & Pe & Te). exists ex. split; [ now apply prim_readable | ]. split; [ exact Pe | ]. split; [ exact Te | now constructor ]. Qed.
Lemma path_of n : go_path (a n) = path. Proof. reflexivity. Qed.
Lemma variable_of n : SpecExpr.variable (a n) path. Proof. now left. Qed.
Lemma variable_is n g : SpecExpr.variable (a n) g -> g = path. Proof. intros V. apply variable_path in V. now rewrite path_of in V. Qed.
Lemma slash_of : ~ In "/"%char ("&"%char :: path). Proof. intros [ X | X ]; [ discriminate | ]. revert X. apply lettered_no_slash, (reaches_lettered P path c), pr. Qed.
Lemma address_good : destination P (TPointer c) -> compiles P l c (render (own_path P) load l (AsIs ("&"%char :: path))) (fun ex ty => ty = TPointer c /\ destination P ty).
Proof.
  intros D. eexists _, l. split; [ reflexivity | ]. split; [ apply incl_refl | ]. intros _. destruct (address l) as (ex & Rx & _ & _ & Tx). exists (EAmp ex), (TPointer c), false. split; [ now apply amp_expression | split; [ exact Tx | split; [ reflexivity | exact D ] ] ].
Qed.
Lemma only_field ps n pre post : execute (own_path P) load (a n) l ps = Ok (pre ++ path ++ post, l) -> beforeb pre = true -> match post with [] => true | b :: _ => negb (path_char b) && negb (beq b "/") end = true ->
  exists l', format (own_path P) load l ps (a n) = Ok (pre ++ path ++ post, l') /\ incl l l'.
Proof.
  intros E Hb Hp. assert (Ex : pre ++ path ++ post = pre ++ parent ++ "."%char :: f ++ post) by (rewrite <- !app_assoc; reflexivity). rewrite Ex in *.
  apply (render_field P load l Rd); try assumption; [ now apply before_dec | | exact (reaches_lettered P _ _ Rp) ]. destruct post as [|b q]; [ now left | right ]. exists b, q. split; [ reflexivity | ]. apply andb_true_iff in Hp as [H1 H2]. rewrite negb_true_iff in H1, H2. now apply bracket_char.
Qed.
Lemma addr_of_good n : (is_pointer c = true -> destination P c) -> (is_pointer c = false -> destination P (TPointer c)) -> good SAddrOf (Filled (spieces SAddrOf) (a n)).
Proof.
  intros D1 D2. destruct (is_pointer c) eqn:Ip.
  - destruct (only_field (spieces SAddrOf) n [] []) as (l' & E & I); try reflexivity.
    + cbn [spieces execute fill]. rewrite Ip. reflexivity.
    + rewrite Ip in E. exists ([] ++ path ++ []), l'. split; [ exact E | ]. split; [ exact I | ]. intros _. rewrite app_nil_r. cbn [app]. destruct (address l') as (ex & Rx & _ & Tx & _). exists ex, c, true. split; [ now apply readable_expression | split; [ exact Tx | split; [ unfold sfits; now rewrite Ip | auto ] ] ].
  - destruct (only_field (spieces SAddrOf) n (B "&") []) as (l' & E & I); try reflexivity.
    + cbn [spieces execute fill]. rewrite Ip. reflexivity.
    + rewrite Ip in E. eexists _, l'. split; [ exact E | ]. split; [ exact I | ]. intros _. rewrite app_nil_r. destruct (address l') as (ex & Rx & _ & _ & Tx). exists (EAmp ex), (TPointer c), false. split; [ exact (amp_expression path ex Rx) | split; [ exact Tx | split; [ unfold sfits; now rewrite Ip | auto ] ] ].
Qed.
(** Functions without type arguments *)
Lemma call_text n p fn (mid : piece) (m : bytes) : In p [encoding_path; sqltype_path; pgtype_path] -> identifier fn -> (forall Q s, stands Q (a n) mid s <-> s = m) -> mid <> ElemType -> mid <> BaseType -> (forall x, mid <> Text x) ->
  exists out l', format (own_path P) load l [lib [] p fn (B "("); mid; Text (B ")")] (a n) = Ok (out, l') /\ incl l l' /\
  (usable P l' c -> exists i, In (p, i) l' /\ identifier i /\ ~ In i keywords /\ variables P i = None /\ out = (i ++ "."%char :: fn) ++ "("%char :: m ++ [")"%char]).
Proof.
  intros Ip Wf St N1 N2 N3. destruct (render_lib P load l Rd [] p fn (B "(") [mid; Text (B ")")] (a n) (m ++ B ")" ++ []) c) as (out & l' & E & I & R).
  - exact Ip.
  - now apply before_dec.
  - exact Wf.
  - exists "("%char, []. split; [ reflexivity | now apply bracket_char ].
  - intros [ X | [] ]. discriminate.
  - intros y [ X | [ [= <-] | [] ] ]; [ destruct (N3 y X) | ]. intros [ X | [] ]. discriminate.
  - exact slash_of.
  - constructor; [ now apply St | ]. constructor; constructor.
  - intros u (v & _ & [ [ [ X | [ X | [] ] ] _ ] | [ [ X | [ X | [] ] ] _ ] ]); try discriminate; contradiction.
  - exists out, l'. split; [ exact E | ]. split; [ exact I | ]. intros U. destruct (R U) as (i & s & Im & Fm & Rs & Eo). destruct (Fm i Im) as (Wm & Km & Vm). exists i. repeat (split; [ assumption | ]). rewrite Eo. clear Eo E R.
    inversion Rs as [ | ? ? s1 s2 St1 Rs1 ]; subst. apply St in St1 as ->. inversion Rs1 as [ | ? ? s3 s4 St2 Rs2 ]; subst. inversion St2; subst. inversion Rs2; subst. cbn [app]. rewrite <- !app_assoc. cbn [app]. reflexivity.
Qed.
Lemma stands_addr n Q s : stands Q (a n) Addr s <-> s = "&"%char :: path.
Proof. split; [ intros X; inversion X as [ | | | g Vg | | | | | ]; subst; now apply variable_is in Vg as -> | intros ->; constructor; apply variable_of ]. Qed.
Lemma fun_reads n fn : identifier fn -> ~ In fn keywords -> function P fn [] [TPointer c] scanner_type -> good (SFun fn) (Filled (spieces (SFun fn)) (a n)).
Proof.
  intros Wf Kf' Ff. destruct (call_text n encoding_path fn Addr ("&"%char :: path)) as (out & l' & E & I & R); try discriminate; [ now left | exact Wf | apply stands_addr | ].
  exists out, l'. split; [ exact E | ]. split; [ exact I | ]. intros U. destruct (R U) as (i & Ii & Wi & Ki & Vi & ->). destruct (address l') as (ex & Rx & _ & _ & Tx). exists (ECall (ESel (EName i) fn) [EAmp ex]), scanner_type, false. split; [ | split ].
  - apply readable_expression, prim_readable, prim_call; [ now apply prim_qualified | now apply args_amp ].
  - eapply ty_call; [ constructor; [ exact Vi | exact Ii ] | reflexivity | econstructor; [ exact Tx | constructor ] | exact Ff ].
  - split; [ split; [ reflexivity | eauto ] | ]. right. now left.
Qed.
(** Fixed arrays *)
Lemma array_reads n fn m u : identifier fn -> ~ In fn keywords -> underlying P c (TArray m u) -> n <> 0%N -> function P fn [] [TSlice u; TBasic (B "int")] scanner_type -> good (SArray fn) (Filled (spieces (SArray fn)) (a n)).
Proof.
  intros Wf Kf' Ec Nn Ff. destruct (render_lib P load l Rd [] encoding_path fn (B "(") [GoPath; Text (B "[:],"); Len; Text (B ")")] (a n) (path ++ B "[:]," ++ format_uint n ++ B ")" ++ []) c) as (out & l' & E & I & R).
  - now left.
  - now apply before_dec.
  - exact Wf.
  - exists "("%char, []. split; [ reflexivity | now apply bracket_char ].
  - intros [ X | [] ]. discriminate.
  - intros y [ X | [ [= <-] | [ X | [ [= <-] | [] ] ] ] ]; try discriminate; intros X; cbn in X; intuition discriminate.
  - exact slash_of.
  - constructor; [ constructor; apply variable_of | ]. constructor; [ constructor | ]. constructor; [ now constructor | ]. constructor; constructor.
  - intros w (v & _ & [ [ [ X | [ X | [ X | [ X | [] ] ] ] ] _ ] | [ [ X | [ X | [ X | [ X | [] ] ] ] ] _ ] ]); discriminate.
  - exists out, l'. split; [ exact E | ]. split; [ exact I | ]. intros U. destruct (R U) as (i & s & Ii & Fm & Rs & Eo). destruct (Fm i Ii) as (Wi & Ki & Vi). clear E R.
    inversion Rs as [ | ? ? s1 r1 St1 Rs1 ]; subst. inversion St1 as [ | | g Vg | | | | | | ]; subst. apply variable_is in Vg as ->. inversion Rs1 as [ | ? ? s2 r2 St2 Rs2 ]; subst. inversion St2; subst. inversion Rs2 as [ | ? ? s3 r3 St3 Rs3 ]; subst. inversion St3; subst. inversion Rs3 as [ | ? ? s4 r4 St4 Rs4 ]; subst. inversion St4; subst. inversion Rs4; subst.
    destruct (address l') as (ex & _ & Px & Tx & _). exists (ECall (ESel (EName i) fn) [ESliceAll ex; ENum (format_uint n)]), scanner_type, false. split; [ | split ].
    + as_text ((i ++ "."%char :: fn) ++ "("%char :: ((path ++ B "[:]") ++ ","%char :: format_uint n) ++ [")"%char]).
      apply readable_expression, prim_readable, prim_call; [ now apply prim_qualified | apply args_two, prim_readable; now apply prim_slice ].
    + eapply ty_call; [ constructor; [ exact Vi | exact Ii ] | reflexivity | econstructor; [ eapply ty_slice_array; [ exact Tx | exact Ec ] | econstructor; [ constructor | constructor ] ] | exact Ff ].
    + split; [ split; [ reflexivity | eauto ] | ]. right. now left.
Qed.
Lemma stands_addr_of n : is_pointer c = false -> forall Q s, stands Q (a n) AddrOfGoPath s <-> s = "&"%char :: path.
Proof. intros Ip Q s. split; [ intros X; inversion X as [ | | | | g Vg Pg | g Vg Pg | | | ]; subst; cbn [p_ptr] in Pg; [ congruence | now apply variable_is in Vg as -> ] | intros ->; apply st_addr_val; [ apply variable_of | exact Ip ] ]. Qed.
(** Functions and types with a type argument *)
Lemma typed_text n pre p nm (ty ad : piece) mid post u y : before pre -> In p [encoding_path; sqltype_path; pgtype_path] -> identifier nm -> ~ In "/"%char mid -> ~ In "/"%char post ->
  (ty = ElemType /\ element c u \/ ty = BaseType /\ stripped c u) -> one_package load u -> (exists s, go_type u s) -> (forall q, mentions q u -> mentions q c) -> valid P u ->
  (forall Q s, stands Q (a n) ad s <-> s = y) -> ad = Addr \/ ad = AddrOfGoPath ->
  exists out l', format (own_path P) load l [lib pre p nm (B "["); ty; Text mid; ad; Text post] (a n) = Ok (out, l') /\ incl l l' /\
  (usable P l' c -> exists m s eu, In (p, m) l' /\ identifier m /\ ~ In m keywords /\ variables P m = None /\ readable s eu /\ denotes P l' eu u /\ out = pre ++ (m ++ "."%char :: nm) ++ "["%char :: s ++ mid ++ y ++ post).
Proof.
  intros Pre Ip Wn N1 N2 Ty O [su G] Mc Vu Sa Ca.
  assert (Sty : forall Q s, stands Q (a n) ty s <-> written Q u s).
  { intros Q s. destruct Ty as [ [-> El] | [-> Sr] ]; split.
    - intros X. inversion X as [ | | | | | | v w ? Ev1 Ev2 W | | ]; subst. cbn [p_type] in Ev1. injection Ev1 as <-. now assert (u = w) as -> by (rewrite <- (element_elem _ _ Ev2); symmetry; now apply element_elem).
    - intros W. eapply st_elem; [ reflexivity | exact El | exact W ].
    - intros X. inversion X as [ | | | | | | | v w ? Ev1 Ev2 W | ]; subst. cbn [p_type] in Ev1. injection Ev1 as <-. now assert (u = w) as -> by (rewrite <- (stripped_base _ _ Ev2); symmetry; now apply stripped_base).
    - intros W. eapply st_base; [ reflexivity | exact Sr | exact W ]. }
  destruct (render_lib P load l Rd pre p nm (B "[") [ty; Text mid; ad; Text post] (a n) (su ++ mid ++ y ++ post ++ []) c) as (out & l' & E & I & R).
  - exact Ip.
  - exact Pre.
  - exact Wn.
  - exists "["%char, []. split; [ reflexivity | now apply bracket_char ].
  - intros [ X | [] ]. discriminate.
  - intros z [ X | [ [= <-] | [ X | [ [= <-] | [] ] ] ] ]; try assumption; [ destruct Ty as [ [-> _] | [-> _] ]; discriminate | destruct Ca as [-> | ->]; discriminate ].
  - exact slash_of.
  - constructor; [ now apply Sty | ]. constructor; [ constructor | ]. constructor; [ now apply Sa | ]. constructor; constructor.
  - assert (One : forall v, element c v /\ ty = ElemType \/ stripped c v /\ ty = BaseType -> v = u).
    { intros v [ [Ev Et] | [Ev Et] ]; destruct Ty as [ [Et' El] | [Et' El] ]; try congruence; [ rewrite <- (element_elem _ _ Ev); now apply element_elem | rewrite <- (stripped_base _ _ Ev); now apply stripped_base ]. }
    intros v (w & [= <-] & [ [ Im Ev ] | [ Im Ev ] ]).
    + assert (v = u) as -> by (apply One; left; split; [ exact Ev | destruct Im as [ X | [ X | [ X | [ X | [] ] ] ] ]; try discriminate; [ exact X | destruct Ca as [-> | ->]; discriminate ] ]). now split.
    + assert (v = u) as -> by (apply One; right; split; [ exact Ev | destruct Im as [ X | [ X | [ X | [ X | [] ] ] ] ]; try discriminate; [ exact X | destruct Ca as [-> | ->]; discriminate ] ]). now split.
  - exists out, l'. split; [ exact E | ]. split; [ exact I | ]. intros U. destruct (R U) as (m & s & Im & Fm & Rs & Eo). destruct (Fm m Im) as (Wm & Km & Vm). clear E R.
    inversion Rs as [ | ? ? s1 r1 St1 Rs1 ]; subst. apply Sty in St1. inversion Rs1 as [ | ? ? s2 r2 St2 Rs2 ]; subst. inversion St2; subst. inversion Rs2 as [ | ? ? s3 r3 St3 Rs3 ]; subst. apply Sa in St3 as ->. inversion Rs3 as [ | ? ? s4 r4 St4 Rs4 ]; subst. inversion St4; subst. inversion Rs4; subst.
    destruct (type_readable P l' Pr u s1 St1 Vu) as (eu & Ru & Du). { intros q M. apply (U q). left. now apply Mc. }
    exists m, s1, eu. repeat (split; [ assumption | ]). rewrite app_nil_r. rewrite <- app_assoc. reflexivity.
Qed.
Lemma generic_reads n fn (ty : piece) u : (ty = ElemType /\ element c u \/ ty = BaseType /\ stripped c u) -> identifier fn -> ~ In fn keywords -> one_package load u -> (exists s, go_type u s) -> (forall q, mentions q u -> mentions q c) -> valid P u ->
  function P fn [u] [TPointer c] scanner_type -> good (SGeneric fn) (Filled [lib [] encoding_path fn (B "["); ty; Text (B "]("); Addr; Text (B ")")] (a n)).
Proof.
  intros Ty Wf Kf' O G Mc Vu Ff. destruct (typed_text n [] encoding_path fn ty Addr (B "](") (B ")") u ("&"%char :: path)) as (out & l' & E & I & R); try assumption.
  - now apply before_dec.
  - now left.
  - intros X; cbn in X; intuition discriminate.
  - intros X; cbn in X; intuition discriminate.
  - apply stands_addr.
  - now left.
  - exists out, l'. split; [ exact E | ]. split; [ exact I | ]. intros U. destruct (R U) as (m & s & eu & Im & Wm & Km & Vm & Ru & Du & ->). destruct (address l') as (ex & Rx & _ & _ & Tx).
    exists (ECall (EIndex (ESel (EName m) fn) [eu]) [EAmp ex]), scanner_type, false. split; [ | split ].
    + as_text (((m ++ "."%char :: fn) ++ "["%char :: s ++ ["]"%char]) ++ "("%char :: ("&"%char :: path) ++ [")"%char]).
      apply readable_expression, prim_readable, prim_call; [ | now apply args_amp ]. apply prim_index; [ now apply prim_qualified | now apply args_readable ].
    + eapply ty_call_generic; [ constructor; [ exact Vm | exact Im ] | reflexivity | constructor; [ exact Du | constructor ] | econstructor; [ exact Tx | constructor ] | exact Ff ].
    + split; [ split; [ reflexivity | eauto ] | ]. right. now left.
Qed.
(** Lists of the library *)
Lemma list_reads_good n p nm ks u : c = TSlice u -> In (p, nm, ks) library -> one_of P u ks -> good (SList p nm) (Filled (spieces (SList p nm)) (a n)).
Proof.
  intros Ec Il Ou. assert (El : element c u) by (rewrite Ec; constructor). destruct (library_names p nm ks Il) as (Wn & Kn & Ip). assert (Vu : valid P u) by (rewrite Ec in Vc; now inversion Vc).
  destruct (Sp u (or_introl El) (or_introl (one_basic P u ks Ou))) as [O G].
  destruct (typed_text n (B "(*") p nm ElemType AddrOfGoPath (B "])(") (B ")") u ("&"%char :: path)) as (out & l' & E & I & R); try assumption.
  - now apply before_dec.
  - intros X; cbn in X; intuition discriminate.
  - intros X; cbn in X; intuition discriminate.
  - left; now split.
  - intros q M. rewrite Ec. now constructor.
  - apply stands_addr_of. now rewrite Ec.
  - now right.
  - exists out, l'. split; [ exact E | ]. split; [ exact I | ]. intros U. destruct (R U) as (m & s & eu & Im & Wm & Km & Vm & Ru & Du & ->). destruct (address l') as (ex & Rx & _ & _ & Tx).
    exists (ECall (EStar (EIndex (ESel (EName m) nm) [eu])) [EAmp ex]), (TPointer (TNamed p nm [u])), false. split; [ | split ].
    + as_text (("("%char :: ("*"%char :: ((m ++ "."%char :: nm) ++ "["%char :: s ++ ["]"%char])) ++ [")"%char]) ++ "("%char :: ("&"%char :: path) ++ [")"%char]).
      apply readable_expression, prim_readable, prim_call; [ | now apply args_amp ]. apply prim_paren, star_readable, prim_readable, prim_index; [ now apply prim_qualified | now apply args_readable ].
    + assert (D : denotes P l' (EIndex (ESel (EName m) nm) [eu]) (TNamed p nm [u])) by (apply d_generic; [ now constructor | repeat constructor; exact Du | eapply v_library; eassumption ]).
      eapply ty_conversion; [ constructor; exact D | exact Tx | ]. apply (cv_pointers P c (TNamed p nm [u]) (TSlice u) (TSlice u)); [ rewrite Ec; constructor | eapply u_library; exact Il | reflexivity ].
    + split; [ exists ks, u; now split | ]. right. right. exists (TNamed p nm [u]). split; [ reflexivity | ]. left. exists p, nm, ks, u. now split.
Qed.
End Scans.
