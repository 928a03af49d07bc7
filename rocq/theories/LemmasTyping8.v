(** Every row of the tables, for the destinations. *)
From Verif Require Import Base ModelStrconv ModelTypes ModelConfig ModelExpr ModelResolve ModelColumn LemmasBase PropConfig SpecSource LemmasSource SpecExpr LemmasExpr PropExpr SpecTyping LemmasTyping LemmasTyping2 LemmasTyping3 LemmasTyping4 LemmasTyping5 LemmasTyping6 LemmasTyping7.
Import ModelColumn.

Lemma scans_cases d : scans_of d = mysql_scans \/ d = Postgres /\ scans_of d = pg_scans. Proof. destruct d; auto. Qed.
Lemma numbers_scanners x : In x numbers -> In (snd x ++ B "Scanner", fst x) scanners /\ In (fst x) predeclared /\ identifier (snd x ++ B "Scanner") /\ ~ In (snd x ++ B "Scanner") keywords.
Proof.
  intros I. assert (F : forallb (fun x => existsb (fun y => bseq (fst y) (snd x ++ B "Scanner") && bseq (snd y) (fst x)) scanners && bmem (fst x) predeclared &&
    match snd x ++ B "Scanner" with c :: r => is_alpha c && forallb is_alnum r | [] => false end && negb (bmem (snd x ++ B "Scanner") keywords)) numbers = true) by (vm_compute; reflexivity).
  rewrite forallb_forall in F. specialize (F x I). rewrite !andb_true_iff in F. destruct F as [ [ [F1 F2] F3 ] F4 ]. split; [ | split; [ now apply bmem_In | split; [ now apply ascii_word | intros J; apply bmem_In in J; rewrite J in F4; discriminate ] ] ].
  apply existsb_exists in F1. destruct F1 as ([g k] & Ig & E). cbn [fst snd] in E. apply andb_true_iff in E as [E1 E2]. apply bseq_eq in E1 as ->. apply bseq_eq in E2 as ->. exact Ig.
Qed.
Section Rows.
Variables (P : program) (e : env) (load : bytes -> option bytes) (l : imports).
Hypothesis Pr : proper P.
Hypothesis Ag : agrees e P.
Hypothesis Rd : ready P load l.
Variables (parent f : bytes) (tp c : gtype) (d : dialect).
Notation path := (parent ++ "."%char :: f).
Hypothesis Rp : reaches P parent tp.
Hypothesis Fl : field P tp f c.
Hypothesis If : identifier f.
Hypothesis Kf : ~ In f keywords.
Hypothesis Vc : valid P c.
Hypothesis Sp : spelled P load c.
Hypothesis Np : parent <> own_path P.
Hypothesis Lp : load parent = Some [].
Hypothesis Fp : In (parent, parent) l \/ ~ In parent (map fst l) /\ ~ In parent (map snd l).
Notation a n := {| p_path := "&"%char :: path; p_ptr := is_pointer c; p_len := n; p_type := Some c |}.
Notation good sh ch := (compiles P l c (render (own_path P) load l ch) (fun ex ty => sfits c sh ex ty /\ destination P ty)).
Section Pointee.
Variable t : gtype.
Hypothesis Vt : valid P t.
Hypothesis Ct : c = t /\ (forall u, c <> TPointer u) \/ c = TPointer t.
Hypothesis Fs : forall u, underlying P t (TSlice u) -> (basic P u -> u = TBasic (B "byte") \/ c = TSlice u /\ ~ underlying P u (TBasic (B "byte")) /\ (d = Postgres -> ~ underlying P u (TBasic (B "rune")))) /\
  (d = Postgres -> forall b, underlying P u (TSlice b) -> ~ underlying P b (TBasic (B "byte"))).
Hypothesis Fr : forall p n args fs, t = TNamed p n args -> stands_for P p n args = UStruct fs -> (p, n) <> (B "sql", B "RawBytes") /\ (p, n) <> (B "encoding/json", B "RawMessage").
Hypothesis Nb : c = t -> is_basic_type t = false.
Lemma not_pointer : c = t -> is_pointer c = false.
Proof. intros E. destruct Ct as [ [_ N] | E' ]; [ destruct (is_pointer c) eqn:Ip; [ | reflexivity ]; destruct c; try discriminate; exfalso; eapply N; reflexivity | rewrite E in E'; now apply no_self in E' ]. Qed.
Lemma addressed : addr_or_ptr t (TPointer c). Proof. destruct Ct as [ [-> _] | -> ]; [ left | right ]; reflexivity. Qed.
Lemma parts u : mentions u t -> mentions u c. Proof. destruct Ct as [ [-> _] | -> ]; [ auto | now constructor ]. Qed.
Lemma basic_element k : underlying P t (TBasic k) -> element c t.
Proof. intros U. destruct Ct as [ [-> _] | -> ]; [ inversion U; subst; constructor | constructor ]. Qed.
Lemma scalar_reads n fn k : says e t k -> In k predeclared -> identifier fn -> ~ In fn keywords -> (forall b, kind P t k -> addr_or_ptr t b -> function P fn [t] [b] scanner_type) -> good (SGeneric fn) (Filled (spieces (SGeneric fn)) (a n)).
Proof.
  intros Sy Ik Wf Kf' Ff. pose proof (says_scalar P e Pr Ag t k Sy Ik Vt) as U. pose proof (basic_element k U) as El. destruct (Sp t (or_introl El) (or_introl (ex_intro _ k U))) as [O G].
  eapply generic_reads with (u := t); try eassumption; [ left; now split | exact parts | apply Ff; [ now apply kind_of | exact addressed ] ].
Qed.
Lemma plain_reads n k : says e t k -> In k predeclared -> In k ([B "bool"; B "string"] ++ signed ++ unsigned ++ floats) -> good SAddrOf (Filled (spieces SAddrOf) (a n)).
Proof.
  intros Sy Ik Io. pose proof (says_scalar P e Pr Ag t k Sy Ik Vt) as U. assert (O : one_of P t ([B "bool"; B "string"] ++ signed ++ unsigned ++ floats)) by (eapply one_kind; eassumption). assert (D : destination P (TPointer t)) by (right; right; exists t; split; [ reflexivity | auto ]).
  eapply addr_of_good; try eassumption; intros Hp.
  - destruct Ct as [ [E _] | -> ]; [ rewrite (not_pointer E) in Hp; discriminate | exact D ].
  - destruct Ct as [ [-> _] | E ]; [ exact D | rewrite E in Hp; discriminate ].
Qed.
Lemma struct_reads s q m : says e t s -> s = q ++ "."%char :: m -> ~ In s predeclared -> (exists b r, s = b :: r /\ letter b) -> ~ In "."%char m -> ~ In "["%char m -> ~ In "["%char q -> exists fs, t = TNamed q m [] /\ stands_for P q m [] = UStruct fs.
Proof.
  intros Sy Es Ns (b & r & Eb & Lb) N1 N2 N3. rewrite Eb in Sy. destruct (says_word P e Pr Ag t b r Sy Lb Vt) as [ [_ I] | (p & nm & args & fs & Et & D & St & Ets) ]; [ destruct Ns; now rewrite Eb | ].
  rewrite Et in Ets. rewrite <- Eb, Es in Ets. symmetry in Ets. destruct (type_string_name P Pr p nm args q m D Ets N1 N2 N3) as (-> & -> & ->). now exists fs.
Qed.
Lemma lists_read n x p nm ks : says e t (B "[]" ++ x) -> In x predeclared -> x <> B "byte" -> In (p, nm, ks) library -> In x ks -> good (SList p nm) (Filled (spieces (SList p nm)) (a n)).
Proof.
  intros Sy Ix Nx Il Ik. destruct (says_list P e Pr Ag t x Sy Vt) as (u & U & Su & Vu). pose proof (says_scalar P e Pr Ag u x Su Ix Vu) as Ub.
  destruct (proj1 (Fs u U) (ex_intro _ x Ub)) as [ -> | (Ec & _) ]; [ inversion Ub as [ | | m Em | | | | ]; subst; now destruct Nx | ]. eapply list_reads_good; try eassumption. eapply one_kind; eassumption.
Qed.
Lemma byte_list : says e t (B "[]byte") -> underlying P t (TSlice (TBasic (B "byte"))).
Proof.
  intros Sy. destruct (says_list P e Pr Ag t (B "byte") Sy Vt) as (u & U & Su & Vu). assert (Ub : underlying P u (TBasic (B "byte"))) by (eapply says_scalar; try eassumption; mem).
  destruct (proj1 (Fs u U) (ex_intro _ _ Ub)) as [ -> | (_ & X & _) ]; [ exact U | contradiction ].
Qed.
Lemma bytes_base n : says e t (B "[]byte") -> good (SBase (B "StringScanner")) (Filled (spieces (SBase (B "StringScanner"))) (a n)).
Proof.
  intros Sy. pose proof (byte_list Sy) as U. assert (Sr : stripped c t).
  { destruct Ct as [ [-> N] | -> ]; [ now apply s_other | ]. apply s_pointer, s_other. intros u ->. inversion U. }
  destruct (Sp t (or_intror (or_introl Sr))) as [O G]; [ right; right; exists (TBasic (B "byte")); split; [ exact U | exists (B "byte"); constructor ] | ].
  eapply generic_reads with (u := t); try eassumption; [ right; now split | now apply ascii_word | intros J; apply bmem_In in J; discriminate J | exact parts | ].
  apply f_string; [ right; exists (TBasic (B "byte")); split; [ exact U | reflexivity ] | exact addressed ].
Qed.
Lemma bytes_addr n : says e t (B "[]byte") -> good SAddrOf (Filled (spieces SAddrOf) (a n)).
Proof.
  intros Sy. pose proof (byte_list Sy) as U. assert (D : destination P (TPointer t)) by (right; right; exists t; split; [ reflexivity | ]; do 3 right; exists (TBasic (B "byte")); split; [ exact U | reflexivity ]).
  eapply addr_of_good; try eassumption; intros Hp.
  - destruct Ct as [ [E _] | -> ]; [ rewrite (not_pointer E) in Hp; discriminate | exact D ].
  - destruct Ct as [ [-> _] | E ]; [ exact D | rewrite E in Hp; discriminate ].
Qed.
Lemma json_reads n : good (SFun (B "JSONScanner")) (Filled (spieces (SFun (B "JSONScanner"))) (a n)).
Proof. eapply fun_reads; try eassumption; [ now apply ascii_word | intros I; apply bmem_In in I; discriminate I | constructor ]. Qed.
Lemma time_reads n : says e t (B "time.Time") -> good (SFun (B "TimeScanner")) (Filled (spieces (SFun (B "TimeScanner"))) (a n)).
Proof.
  intros Sy. destruct (struct_reads (B "time.Time") (B "time") (B "Time") Sy) as (fs & Et & _); [ reflexivity | intros J; apply bmem_In in J; discriminate J | eexists _, _; split; [ reflexivity | unfold letter; cbn; lia ] | intros J; cbn in J; intuition discriminate.. | ].
  eapply fun_reads; try eassumption; [ now apply ascii_word | intros I; apply bmem_In in I; discriminate I | ]. constructor. pose proof addressed as A. rewrite Et in A. exact A.
Qed.
Lemma scan_row_of k sh n : says e t k -> In (k, sh) (scans_of d) -> good sh (Filled (spieces sh) (a n)).
Proof.
  intros Sy I.
  assert (Sc : In (k, sh) scalar_scans -> good sh (Filled (spieces sh) (a n))).
  { clear I. intros I. unfold scalar_scans in I. rewrite !in_app_iff in I. destruct I as [ I | [ I | I ] ].
    - each I.
      + apply (plain_reads n _ Sy); mem.
      + apply (plain_reads n _ Sy); mem.
      + apply (scalar_reads n _ _ Sy); [ mem | now apply ascii_word | intros J; apply bmem_In in J; discriminate J | ]. intros b Kb Ab. apply f_string; [ now left | exact Ab ].
      + apply (scalar_reads n _ _ Sy); [ mem | now apply ascii_word | intros J; apply bmem_In in J; discriminate J | ]. intros b Kb Ab. eapply f_scanner; [ | exact Kb | exact Ab ]. now left.
    - apply in_map_iff in I. destruct I as (q & Eq & Iq). apply pair_eq in Eq as [<- <-]. destruct (numbers_scanners q Iq) as (I1 & I2 & I3 & I4). apply (scalar_reads n _ _ Sy I2 I3 I4). intros b Kb Ab. eapply f_scanner; [ exact I1 | exact Kb | exact Ab ].
    - each I; [ now apply time_reads | exfalso | exfalso ].
      + destruct (struct_reads _ (B "sql") (B "RawBytes") Sy) as (fs & Et & St); [ reflexivity | intros J; apply bmem_In in J; discriminate J | eexists _, _; split; [ reflexivity | unfold letter; cbn; lia ] | intros J; cbn in J; intuition discriminate.. | ]. now apply (proj1 (Fr _ _ _ _ Et St)).
      + destruct (struct_reads _ (B "encoding/json") (B "RawMessage") Sy) as (fs & Et & St); [ reflexivity | intros J; apply bmem_In in J; discriminate J | eexists _, _; split; [ reflexivity | unfold letter; cbn; lia ] | intros J; cbn in J; intuition discriminate.. | ]. now apply (proj2 (Fr _ _ _ _ Et St)). }
  assert (Pt : forall x, says e t (B "[...]" ++ x) -> False) by (intros x S1; exact (says_points P e Pr Ag t _ S1 Vt)).
  destruct (scans_cases d) as [ Ev | [Ed Ev] ]; rewrite Ev in I.
  - unfold mysql_scans in I. rewrite !in_app_iff in I. destruct I as [ I | [ I | [ I | I ] ] ].
    + exact (Sc I).
    + each I.
      * destruct (Pt _ Sy).
      * destruct (Pt _ Sy).
      * apply (lists_read n (B "string") _ _ [B "string"] Sy); [ mem | discriminate | now left | now left ].
      * exact (bytes_base n Sy).
      * apply (lists_read n (B "bool") _ _ [B "bool"] Sy); [ mem | discriminate | right; now left | now left ].
    + apply in_map_iff in I. destruct I as (q & Eq & Iq). apply pair_eq in Eq as [<- <-]. destruct (numbers_listed sqltype_path (B "Slice") q Iq (or_introl eq_refl)) as (I1 & I2 & ks & I3 & I4). exact (lists_read n (fst q) _ _ ks Sy I1 I2 I3 I4).
    + each I. apply json_reads.
  - unfold pg_scans in I. rewrite !in_app_iff in I. destruct I as [ I | [ I | [ I | I ] ] ].
    + exact (Sc I).
    + each I.
      * destruct (Pt _ Sy).
      * destruct (Pt _ Sy).
      * destruct (Pt _ Sy).
      * destruct (Pt _ Sy).
      * apply (lists_read n (B "string") _ _ [B "string"] Sy); [ mem | discriminate | do 14 right; now left | now left ].
      * exfalso. destruct (says_list P e Pr Ag t (B "rune") Sy Vt) as (u & U & Su & Vu). assert (Ub : underlying P u (TBasic (B "rune"))) by (eapply says_scalar; try eassumption; mem).
        destruct (proj1 (Fs u U) (ex_intro _ _ Ub)) as [ -> | (_ & _ & X) ]; [ inversion Ub | now apply (X Ed) ].
      * exact (bytes_addr n Sy).
      * apply (lists_read n (B "bool") _ _ [B "bool"] Sy); [ mem | discriminate | do 15 right; now left | now left ].
      * exfalso. destruct (says_list P e Pr Ag t (B "[]byte") Sy Vt) as (u & U & Su & Vu). destruct (says_list P e Pr Ag u (B "byte") Su Vu) as (b & Ub & Sb & Vb). apply (proj2 (Fs u U) Ed b Ub). eapply says_scalar; try eassumption. mem.
    + apply in_map_iff in I. destruct I as (q & Eq & Iq). apply pair_eq in Eq as [<- <-]. destruct (numbers_listed pgtype_path (B "Array") q Iq (or_intror eq_refl)) as (I1 & I2 & ks & I3 & I4). exact (lists_read n (fst q) _ _ ks Sy I1 I2 I3 I4).
    + each I. apply json_reads.
Qed.
End Pointee.
Hypothesis Rw : reads_well P d c.
Hypothesis Nb : is_basic_type c = false.
Lemma scan_row fuel k sh : column_data_type fuel e (map fst (table d)) c = Some (Some k) -> In (k, sh) (scans_of d) -> good sh (Filled (spieces sh) (a (array_size c))).
Proof.
  intros Ck I. destruct (key_says e d fuel c k Ck) as [_ [ -> | (y & Sy & [ -> | [ -> | (m & x & Ix & -> & -> & Nm & Dm) ] ]) ]].
  - assert (sh = SFun (B "JSONScanner")) as -> by (clear - I; destruct d; cbn in I; repeat (destruct I as [I|I]; [ first [ discriminate I | now injection I as <- ] | ]); destruct I). apply json_reads.
  - destruct k as [|b r]; [ exfalso; clear - I; destruct d; cbn in I; repeat (destruct I as [I|I]; [ discriminate I | ]); destruct I | ]. destruct (beq b "*") eqn:Eb.
    + apply beq_eq in Eb as ->. assert (sh = SFun (B "JSONScanner")) as -> by (clear - I; destruct d; cbn in I; repeat (destruct I as [I|I]; [ first [ discriminate I | now injection I as <- ] | ]); destruct I). apply json_reads.
    + eapply scan_row_of with (t := c); try eassumption.
      * left. split; [ reflexivity | ]. intros u Ec. rewrite Ec in Sy. inversion Sy; subst. cbn in Eb. discriminate.
      * apply (rw_slice _ _ _ Rw).
      * intros p n args fs E. apply (rw_struct _ _ _ Rw p n args fs). now left.
      * auto.
  - destruct (says_star P e Pr Ag c k Sy Vc) as (t & U & St & Vt). destruct (rw_pointer _ _ _ Rw t U) as [Ec Fs].
    eapply scan_row_of with (t := t); try eassumption.
    + now right.
    + intros u Uu. destruct (Fs u Uu) as [F1 F2]. split; [ intros Bu; left; exact (F1 Bu) | exact (proj2 F2) ].
    + intros p n args fs E. apply (rw_struct _ _ _ Rw p n args fs). right. now rewrite <- E.
    + intros E. rewrite Ec in E. symmetry in E. now apply no_self in E.
  - destruct (says_fixed P e Pr Ag c m x Sy Nm Dm Vc) as (z & u & U & Su & Vu).
    assert (Px : In x predeclared) by (cbn [In] in Ix; destruct Ix as [ <- | [ <- | [ <- | [] ] ] ]; mem).
    pose proof (says_scalar P e Pr Ag u x Su Px Vu) as Ub. destruct (rw_array _ _ _ Rw z u U (ex_intro _ x Ub)) as (Ec & Nz & Ns). assert (Sz : array_size c = z) by (rewrite Ec; reflexivity). rewrite Sz.
    pose proof (kind_of P u x Ub) as Kx.
    cbn [In] in Ix. destruct Ix as [ <- | [ <- | [ <- | [] ] ] ].
    + assert (sh = SArray (B "RuneArrayScanner")) as -> by (clear - I; destruct d; cbn in I; repeat (destruct I as [I|I]; [ first [ discriminate I | now injection I as <- ] | ]); destruct I). eapply array_reads; try eassumption; [ now apply ascii_word | intros J; apply bmem_In in J; discriminate J | now constructor ].
    + exfalso. destruct (scans_cases d) as [ Ev | [Ed Ev] ]; [ rewrite Ev in I; clear - I; cbn in I; repeat (destruct I as [I|I]; [ discriminate I | ]); destruct I | now apply (Ns Ed) ].
    + assert (sh = SArray (B "ByteArrayScanner")) as -> by (clear - I; destruct d; cbn in I; repeat (destruct I as [I|I]; [ first [ discriminate I | now injection I as <- ] | ]); destruct I). eapply array_reads; try eassumption; [ now apply ascii_word | intros J; apply bmem_In in J; discriminate J | now constructor ].
Qed.
Lemma scan_fall fuel ch :
  match column_data_type fuel e (map fst (table d)) c with
  | None => None
  | Some (Some k) => match entry (table d) k with Some (_, s) => Some (filled s (a (array_size c))) | None => None end
  | Some None => if text_scan e (elem_pointer c) then Some (filled (generic_func_name (B "TextScanner") (B "{{elemType}}") [B "{{addr}}"]) (a 0%N)) else match entry (table d) (B "*") with Some (_, s) => Some (filled s (a 0%N)) | None => None end
  end = Some ch -> exists sh, good sh ch /\
    ((exists k, column_data_type fuel e (map fst (table d)) c = Some (Some k) /\ In (k, sh) (scans_of d)) \/
     column_data_type fuel e (map fst (table d)) c = Some None /\ (text_scan e (elem_pointer c) = true /\ sh = SGeneric (B "TextScanner") \/ text_scan e (elem_pointer c) = false /\ sh = SFun (B "JSONScanner"))).
Proof.
  destruct (column_data_type fuel e (map fst (table d)) c) as [ [k|] | ] eqn:Ck; [ | | discriminate ].
  - destruct (entry (table d) k) as [ [v s] | ] eqn:Ee; [ | discriminate ]. destruct (scan_shape d k v s Ee) as (sh & Ish & Ps). intros [= <-]. unfold filled. rewrite Ps. exists sh. split; [ eapply scan_row; eassumption | left; eauto ].
  - destruct (text_scan e (elem_pointer c)) eqn:Tv.
    + intros [= <-]. exists (SGeneric (B "TextScanner")). split; [ | right; auto ]. change (filled (generic_func_name (B "TextScanner") (B "{{elemType}}") [B "{{addr}}"]) (a 0%N)) with (Filled (spieces (SGeneric (B "TextScanner"))) (a 0%N)).
      assert (Ve : valid P (elem_pointer c)) by (clear - Vc; destruct c; cbn; try assumption; now inversion Vc).
      apply (ag_unmarshal _ _ Ag _ Ve) in Tv.
      assert (El : element c (elem_pointer c) /\ addr_or_ptr (elem_pointer c) (TPointer c) /\ forall q, mentions q (elem_pointer c) -> mentions q c).
      { destruct (pr_method _ Pr _ _ Tv) as (p & m & args & [ E | E ]); [ discriminate | injection E as E ].
        clear - E. destruct c; cbn [elem_pointer] in *; try discriminate; (split; [ constructor | split; [ first [ left; reflexivity | right; reflexivity ] | ] ]); [ auto | now constructor ]. }
      destruct El as (El & Ad & Me). destruct (Sp _ (or_introl El) (or_intror (or_introl Tv))) as [O G].
      eapply generic_reads with (u := elem_pointer c); try eassumption; [ left; now split | now apply ascii_word | intros J; apply bmem_In in J; discriminate J | now constructor ].
    + destruct (entry (table d) (B "*")) as [ [v s] | ] eqn:Ee; [ | discriminate ]. intros [= <-]. destruct (scan_shape d _ v s Ee) as (sh & Ish & Ps). unfold filled. rewrite Ps.
      assert (sh = SFun (B "JSONScanner")) as -> by (clear - Ish; destruct d; cbn in Ish; repeat (destruct Ish as [I|Ish]; [ first [ discriminate I | now injection I as <- ] | ]); destruct Ish). exists (SFun (B "JSONScanner")). split; [ apply json_reads | right; auto ].
Qed.
End Rows.
(** Types that are taken as they are *)
Lemma basic_argument P e : proper P -> agrees e P -> forall t, valid P t -> is_basic_type t = true -> one_of P t ([B "bool"; B "string"] ++ signed ++ unsigned ++ floats) \/ t = time_type.
Proof.
  intros Pr Ag t V Ib. destruct t as [ n | p n args | | | | ]; try discriminate; cbn [is_basic_type] in Ib.
  - left. exists n. split; [ | now apply kind_of; constructor ]. apply bmem_In in Ib. cbn [In] in Ib. destruct Ib as [ <- | [ <- | [ <- | [ <- | [] ] ] ] ]; mem.
  - right. apply bseq_eq in Ib. inversion V as [ | p' n' args' D Fa | p' n' ks u Il Vu Ou | | | | ]; subst.
    + destruct (type_string_name P Pr p n args (B "time") (B "Time") D Ib) as (-> & -> & ->); [ intros J; cbn in J; intuition discriminate.. | reflexivity ].
    + exfalso. assert (X : In "["%char (type_string (TNamed p n [u]))) by (cbn [type_string]; rewrite !in_app_iff; do 3 right; left; left; reflexivity). rewrite Ib in X. cbn in X. intuition discriminate.
Qed.
