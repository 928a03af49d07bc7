(** The choice of the expressions. *)
From Verif Require Import Base ModelStrconv ModelTypes ModelConfig ModelExpr ModelResolve ModelColumn LemmasBase PropConfig SpecSource LemmasSource SpecExpr LemmasExpr PropExpr SpecTyping LemmasTyping LemmasTyping2 LemmasTyping3 LemmasTyping4 LemmasTyping5 LemmasTyping6 LemmasTyping7 LemmasTyping8.
Import ModelColumn.

Lemma custom_none (custom : list row) s : ~ In s (map fst custom) -> entry custom s = None.
Proof. intros Nc. induction custom as [|[k r] cs IH]; [ reflexivity | ]. cbn [entry map fst In] in *. destruct (bseq k s) eqn:E; [ apply bseq_eq in E; tauto | apply IH; tauto ]. Qed.
Lemma compiles_more P l c r (ok ok' : expr -> gtype -> Prop) : (forall ex ty, ok ex ty -> ok' ex ty) -> compiles P l c r ok -> compiles P l c r ok'.
Proof. intros W (out & l' & E & I & H). exists out, l'. split; [ exact E | ]. split; [ exact I | ]. intros U. destruct (H U) as (ex & ty & a & Ex & Ty & O). exists ex, ty, a. auto. Qed.
Lemma value_chosen P e load l d custom fuel parent f c t ch : proper P -> agrees e P -> ready P load l -> column_field P load l parent f c -> held c t ->
  method P t (B "Value") /\ (forall u, t <> TPointer u) \/ writes_well P d c t ->
  ~ In (type_string t) (map fst custom) ->
  getter_value d e custom fuel (parent ++ "."%char :: f) c = Some ch ->
  exists sh, compiles P l c (render (own_path P) load l ch) (fun ex ty => fits P t sh ex ty /\ argument P ty) /\
    (is_basic_type t = true /\ sh = VPlain \/ is_basic_type t = false /\ method P t (B "Value") /\ sh = VPlain \/
     is_basic_type t = false /\ ~ method P t (B "Value") /\
     ((exists k, column_data_type fuel e (map fst (table d)) t = Some (Some k) /\ In (k, sh) (values d)) \/
      column_data_type fuel e (map fst (table d)) t = Some None /\ (method P t (B "MarshalText") /\ sh = VFun (B "TextValue") \/ ~ method P t (B "MarshalText") /\ sh = VFun (B "JSONValue")))).
Proof.
  intros Pr Ag Rd [ (tp & Rp & Fl) [If Kf] Vc Sp (Np & Lp & Fp) ] H Cw Nc G.
  assert (Vt : valid P t) by (now apply (valid_t P c t)).
  assert (Nt : forall u, t <> TPointer u) by (destruct Cw as [ [_ N] | W ]; [ exact N | intros u ->; apply (ww_pointer _ _ _ _ W u); constructor ]).
  assert (Ev : valuer d e custom fuel (x parent f c) t = Some ch).
  { destruct H as [ Ec | [Ec N] ]; rewrite Ec in G |- *; [ exact G | ]. unfold x, st. destruct t; first [ exact G | destruct (Nt _ eq_refl) ]. }
  assert (Bt : base_type t = t) by (destruct t; try reflexivity; destruct (Nt _ eq_refl)).
  assert (Ip : is_pointer t = false) by (destruct t; try reflexivity; destruct (Nt _ eq_refl)).
  unfold valuer in Ev. destruct (is_basic_type t) eqn:Ib.
  - injection Ev as <-. exists VPlain. split; [ | left; auto ]. eapply as_is_good; try eassumption. destruct (basic_argument P e Pr Ag t Vt Ib) as [ O | -> ]; unfold argument; [ do 4 right; now left | do 3 right; now left ].
  - cbv zeta in Ev. rewrite (custom_none custom _ Nc), Bt in Ev. destruct (own_value e t) eqn:Ov.
    + rewrite Ip in Ev. injection Ev as <-. apply (ag_value _ _ Ag t Vt) in Ov. exists VPlain. split; [ | right; left; auto ]. eapply as_is_good; try eassumption. now left.
    + assert (Nm : ~ method P t (B "Value")) by (intros M; apply (ag_value _ _ Ag t Vt) in M; congruence).
      destruct Cw as [ [M _] | W ]; [ contradiction | ].
      destruct (value_fall P e load l Pr Ag Rd parent f tp c t d Rp Fl If Kf Vc Sp Np Lp Fp H W Ib fuel (array_size t) ch) as (sh & K & Info); [ rewrite Bt; exact Ev | ].
      exists sh. split; [ exact K | ]. right. right. split; [ reflexivity | ]. split; [ exact Nm | ]. rewrite Bt in Info. destruct Info as [ Ik | (Cn & Tx) ]; [ now left | right ]. split; [ exact Cn | ]. pose proof (ag_marshal _ _ Ag t Vt) as A. destruct Tx as [ [Tx Es] | [Tx Es] ]; [ left; split; [ now apply A | exact Es ] | right; split; [ intros M; apply A in M; congruence | exact Es ] ].
Qed.
Lemma scan_chosen P e load l d custom fuel parent f c ch : proper P -> agrees e P -> ready P load l -> column_field P load l parent f c ->
  (exists t, held c t /\ method P (TPointer t) (B "Scan")) \/ reads_well P d c ->
  ~ In (type_string c) (map fst custom) ->
  scan_destination d e custom fuel (parent ++ "."%char :: f) c = Some ch -> forall t, held c t ->
  ((is_basic_type c = true \/ is_basic_type c = false /\ method P (TPointer t) (B "Scan") /\ c = t) /\ compiles P l c (render (own_path P) load l ch) (fun ex ty => ty = TPointer c /\ destination P ty)) \/
  is_basic_type c = false /\ exists sh, compiles P l c (render (own_path P) load l ch) (fun ex ty => sfits c sh ex ty /\ destination P ty) /\
    (method P (TPointer t) (B "Scan") /\ c = TPointer t /\ sh = SFun (B "PtrScanner") \/
     ~ method P (TPointer t) (B "Scan") /\
     ((exists k, column_data_type fuel e (map fst (table d)) c = Some (Some k) /\ In (k, sh) (scans_of d)) \/
      column_data_type fuel e (map fst (table d)) c = Some None /\ (method P (TPointer t) (B "UnmarshalText") /\ sh = SGeneric (B "TextScanner") \/ ~ method P (TPointer t) (B "UnmarshalText") /\ sh = SFun (B "JSONScanner")))).
Proof.
  intros Pr Ag Rd [ (tp & Rp & Fl) [If Kf] Vc Sp (Np & Lp & Fp) ] Cw Nc G t H.
  assert (Et : elem_pointer c = t) by (destruct H as [ -> | [ -> N ] ]; [ reflexivity | destruct t; try reflexivity; destruct (N _ eq_refl) ]).
  assert (Vt : valid P t) by (now apply (valid_t P c t)).
  unfold scan_destination, scanner in G. destruct (is_basic_type c) eqn:Ib.
  - injection G as <-. left. split; [ now left | ]. eapply address_good; try eassumption. right. right. exists c. split; [ reflexivity | ]. destruct (basic_argument P e Pr Ag c Vc Ib) as [ O | -> ]; auto.
  - cbv zeta in G. rewrite (custom_none custom _ Nc), Et in G. destruct (own_scan e t) eqn:Ov.
    + apply (ag_scan _ _ Ag _ Vt) in Ov. destruct (is_pointer c) eqn:Ip.
      * right. split; [ reflexivity | ]. injection G as <-. assert (Ec : c = TPointer t) by (destruct H as [ E | [ _ N ] ]; [ exact E | destruct c; try discriminate; destruct (N _ eq_refl) ]). exists (SFun (B "PtrScanner")). split; [ | left; auto ].
        assert (K : compiles P l c (render (own_path P) load l (Filled (spieces (SFun (B "PtrScanner"))) {| p_path := B "&" ++ parent ++ "."%char :: f; p_ptr := is_pointer c; p_len := 0%N; p_type := Some c |})) (fun ex ty => sfits c (SFun (B "PtrScanner")) ex ty /\ destination P ty)); [ | rewrite Ip in K; exact K ].
        eapply fun_reads; try eassumption; [ now apply ascii_word | intros J; apply bmem_In in J; discriminate J | ]. rewrite Ec. now constructor.
      * left. injection G as <-. assert (Ec : c = t) by (destruct H as [ E | [ E _ ] ]; [ rewrite E in Ip; discriminate | exact E ]). split; [ right; auto | ]. eapply address_good; try eassumption. left. now rewrite Ec.
    + right. split; [ reflexivity | ]. assert (Nm : ~ method P (TPointer t) (B "Scan")) by (intros M; apply (ag_scan _ _ Ag t Vt) in M; congruence).
      destruct Cw as [ (t' & Ht & M) | W ].
      * exfalso. assert (t' = t) as -> by (destruct H as [ -> | [ -> N ] ], Ht as [ E | [ E N' ] ]; [ now injection E | now destruct (N' t) | now destruct (N t') | now symmetry ]). contradiction.
      * destruct (scan_fall P e load l Pr Ag Rd parent f tp c d Rp Fl If Kf Vc Sp Np Lp Fp W Ib fuel ch) as (sh & K & Info); [ rewrite Et; exact G | ]. exists sh. split; [ exact K | ]. right. split; [ exact Nm | ]. rewrite Et in Info. destruct Info as [ Ik | (Cn & Tx) ]; [ now left | right ]. split; [ exact Cn | ].
        pose proof (ag_unmarshal _ _ Ag t Vt) as A. destruct Tx as [ [Tx Es] | [Tx Es] ]; [ left; split; [ now apply A | exact Es ] | right; split; [ intros M; apply A in M; congruence | exact Es ] ].
Qed.
