(** Every row of the tables, for the values. *)
From Verif Require Import Base ModelStrconv ModelTypes ModelConfig ModelExpr ModelResolve ModelColumn LemmasBase PropConfig SpecSource LemmasSource SpecExpr LemmasExpr PropExpr SpecTyping LemmasTyping LemmasTyping2 LemmasTyping3 LemmasTyping4 LemmasTyping5.
Import ModelColumn.

Lemma pair_eq {A C} (a a' : A) (b b' : C) : (a, b) = (a', b') -> a = a' /\ b = b'. Proof. now intros [= -> ->]. Qed.
Ltac mem := apply bmem_In; vm_compute; reflexivity.
Ltac each I := repeat (destruct I as [I|I]; [ apply pair_eq in I; destruct I as [<- <-] | ]); [ .. | destruct I ].
(** The numbers *)
Lemma ints_basic k : In k ints -> In k predeclared /\ In k (signed ++ unsigned ++ floats).
Proof.
  intros I. assert (F : forallb (fun k => bmem k predeclared && bmem k (signed ++ unsigned ++ floats)) ints = true) by (vm_compute; reflexivity). rewrite forallb_forall in F. specialize (F k I). apply andb_true_iff in F as [F1 F2]. split; now apply bmem_In.
Qed.
Definition listed_in (p suffix : bytes) (x : bytes * bytes) : bool := existsb (fun y => bseq (fst (fst y)) p && bseq (snd (fst y)) (snd x ++ suffix) && bmem (fst x) (snd y)) library.
Lemma numbers_listed p suffix x : In x numbers -> (p, suffix) = (sqltype_path, B "Slice") \/ (p, suffix) = (pgtype_path, B "Array") -> In (fst x) predeclared /\ fst x <> B "byte" /\ exists ks, In (p, snd x ++ suffix, ks) library /\ In (fst x) ks.
Proof.
  intros I Cs. assert (F : forallb (fun x => bmem (fst x) predeclared && negb (bseq (fst x) (B "byte")) && listed_in sqltype_path (B "Slice") x && listed_in pgtype_path (B "Array") x) numbers = true) by (vm_compute; reflexivity).
  rewrite forallb_forall in F. specialize (F x I). rewrite !andb_true_iff in F. destruct F as [ [ [F1 F2] F3 ] F4 ]. split; [ now apply bmem_In | ]. split; [ apply bseq_neq; now apply negb_true_iff | ].
  assert (L : listed_in p suffix x = true) by (destruct Cs as [ C | C ]; apply pair_eq in C as [-> ->]; assumption). unfold listed_in in L. apply existsb_exists in L. destruct L as ([ [q n] ks ] & Iy & L). cbn [fst snd] in L. rewrite !andb_true_iff in L. destruct L as [ [L1 L2] L3 ]. apply bseq_eq in L1 as ->. apply bseq_eq in L2 as ->. exists ks. split; [ exact Iy | now apply bmem_In ].
Qed.
Lemma values_cases d : values d = mysql_values \/ d = Postgres /\ values d = pg_values. Proof. destruct d; auto. Qed.
Section Rows.
Variables (P : program) (e : env) (load : bytes -> option bytes) (l : imports).
Hypothesis Pr : proper P.
Hypothesis Ag : agrees e P.
Hypothesis Rd : ready P load l.
Variables (parent f : bytes) (tp c t : gtype) (d : dialect).
Notation path := (parent ++ "."%char :: f).
Hypothesis Rp : reaches P parent tp.
Hypothesis Fl : field P tp f c.
Hypothesis If : identifier f.
Hypothesis Kf : ~ In f keywords.
Hypothesis Vc : valid P c.
Hypothesis Sp : spelled P load c.
Hypothesis Np : parent <> own_path P.
Hypothesis Lp : load parent = Some [].
Hypothesis Fp : In (parent, parent) l \/ ~ In parent (map fst l) /\ ~ In parent (map snd l).
Hypothesis H : held c t.
Notation a n := {| p_path := x parent f c; p_ptr := is_pointer t; p_len := n; p_type := Some t |}.
Notation good sh ch := (compiles P l c (render (own_path P) load l ch) (fun ex ty => fits P t sh ex ty /\ argument P ty)).
Hypothesis Ww : writes_well P d c t.
Hypothesis Nb : is_basic_type t = false.
Lemma vt : valid P t. Proof. now apply (valid_t P c t). Qed.
Lemma kind_of u k : underlying P u (TBasic k) -> kind P u k. Proof. intros U. exists k. split; [ exact U | reflexivity ]. Qed.
Lemma one_kind u k ks : underlying P u (TBasic k) -> In k ks -> one_of P u ks. Proof. intros U I. exists k. split; [ exact I | now apply kind_of ]. Qed.
(** Lists of basic elements *)
Lemma row_list k n x p nm ks : says e t (B "[]" ++ x) -> k = B "[]" ++ x -> In x predeclared -> x <> B "byte" -> In (p, nm, ks) library -> In x ks -> good (VList p nm) (Filled (vpieces (VList p nm)) (a n)) /\ good (VCall p nm) (Filled (vpieces (VCall p nm)) (a n)).
Proof.
  intros Sy -> Ix Nx Il Ik. destruct (says_list P e Pr Ag t x Sy vt) as (u & U & Su & Vu). pose proof (says_scalar P e Pr Ag u x Su Ix Vu) as Ub.
  destruct (ww_slice P d c t Ww u U (ex_intro _ x Ub)) as [ Et | X ]; [ | pose proof (underlying_one P e Ag _ _ _ Ub X) as [= Y]; contradiction ].
  split; [ eapply list_good | eapply call_good ]; try eassumption; eapply one_kind; eassumption.
Qed.
Lemma row_conv k K n : says e t k -> In k predeclared -> In K [B "string"; B "bool"; B "int64"; B "float64"] ->
  (k = K \/ In k (signed ++ unsigned ++ floats) /\ In K (signed ++ unsigned ++ floats) \/ In k (signed ++ unsigned) /\ K = B "string") -> good (VConv K) (Filled (vpieces (VConv K)) (a n)).
Proof.
  intros Sy Ik IK Cs. pose proof (says_scalar P e Pr Ag t k Sy Ik vt) as Ub. eapply conv_good; try eassumption.
  destruct Cs as [ -> | [ [I1 I2] | [I1 ->] ] ].
  - eapply cv_same; [ exact Ub | constructor | reflexivity ].
  - apply cv_numbers; [ eapply one_kind; eassumption | exists K; split; [ exact I2 | exists K; split; [ constructor | reflexivity ] ] ].
  - apply cv_character; [ eapply one_kind; eassumption | exists (B "string"); split; [ constructor | reflexivity ] ].
Qed.
Lemma row_plain k n : says e t k -> In k predeclared -> In k ([B "bool"; B "string"] ++ signed ++ unsigned ++ floats) -> good VPlain (Filled (vpieces VPlain) (a n)).
Proof.
  intros Sy Ik Io. pose proof (says_scalar P e Pr Ag t k Sy Ik vt) as Ub. eapply plain_good; try eassumption. do 4 right. left. eapply one_kind; eassumption.
Qed.
Lemma row_struct s sh n q m : says e t s -> s = q ++ "."%char :: m -> ~ In s predeclared -> (exists b r, s = b :: r /\ letter b) -> ~ In "."%char m -> ~ In "["%char m -> ~ In "["%char q -> (q, m) = (B "time", B "Time") \/ (q, m) = (B "sql", B "RawBytes") \/ (q, m) = (B "encoding/json", B "RawMessage") ->
  good sh (Filled (vpieces sh) (a n)).
Proof.
  intros Sy Es Ns (b & r & Eb & Lb) N1 N2 N3 Cs. exfalso. rewrite Eb in Sy. destruct (says_word P e Pr Ag t b r Sy Lb vt) as [ [_ I] | (p & nm & args & fs & Et & D & St & Ets) ]; [ apply Ns; now rewrite Eb | ].
  rewrite Et in Ets. rewrite <- Eb, Es in Ets. symmetry in Ets. destruct (type_string_name P Pr p nm args q m D Ets N1 N2 N3) as (-> & -> & ->).
  destruct Cs as [ C | Cs ].
  - apply pair_eq in C as [-> ->]. rewrite Et in Nb. discriminate Nb.
  - destruct (ww_struct P d c t Ww _ _ _ _ Et St) as [W1 W2]. destruct Cs; contradiction.
Qed.
Lemma not_points x : says e t (B "[...]" ++ x) -> False. Proof. intros Sy. exact (says_points P e Pr Ag t _ Sy vt). Qed.
Lemma row_bytes n : says e t (B "[]byte") -> good VPlain (Filled (vpieces VPlain) (a n)).
Proof.
  intros Sy. destruct (says_list P e Pr Ag t (B "byte") Sy vt) as (u & U & Su & Vu). assert (Ub : underlying P u (TBasic (B "byte"))) by (eapply says_scalar; try eassumption; mem).
  eapply plain_good; try eassumption. do 5 right. exists u. split; [ exact U | now apply kind_of ].
Qed.
Lemma row_runes n : d = Postgres -> says e t (B "[]rune") -> good VText (Filled (vpieces VText) (a n)).
Proof.
  intros Ed Sy. destruct (says_list P e Pr Ag t (B "rune") Sy vt) as (u & U & Su & Vu). assert (Ub : underlying P u (TBasic (B "rune"))) by (eapply says_scalar; try eassumption; mem).
  eapply text_good; try eassumption; [ exact (ww_runes P d c t Ww Ed u U Ub) | right; exact U | now apply kind_of ].
Qed.
Lemma row_bytea n : d = Postgres -> says e t (B "[][]byte") -> good VBytea (Filled (vpieces VBytea) (a n)).
Proof.
  intros Ed Sy. exfalso. destruct (says_list P e Pr Ag t (B "[]byte") Sy vt) as (u & U & Su & Vu). destruct (says_list P e Pr Ag u (B "byte") Su Vu) as (b & Ub & Sb & Vb).
  apply (ww_bytes P d c t Ww Ed u b U Ub). eapply says_scalar; try eassumption. mem.
Qed.
Lemma row_array n m x sh : says e t ("["%char :: m ++ "]"%char :: x) -> m <> [] -> Forall (fun b => is_digit b = true) m ->
  (x = B "rune" /\ sh = VText) \/ (x = B "byte" /\ sh = VSlice) \/ (x = B "string" /\ sh = VCallSlice pgtype_path (B "StringArray") /\ d = Postgres) -> good sh (Filled (vpieces sh) (a n)).
Proof.
  intros Sy Nm Dm Cs. destruct (says_fixed P e Pr Ag t m x Sy Nm Dm vt) as (k & u & U & Su & Vu). assert (Ix : In x predeclared) by (destruct Cs as [ [-> _] | [ [-> _] | [-> _] ] ]; mem).
  pose proof (says_scalar P e Pr Ag u x Su Ix Vu) as Ub. destruct (ww_array P d c t Ww k u U (ex_intro _ x Ub)) as [Ec Epg]. destruct Cs as [ [-> ->] | [ [-> ->] | (-> & -> & Ed) ] ].
  - eapply text_good; try eassumption; [ left; eauto | now apply kind_of ].
  - eapply slice_good; try eassumption. now apply kind_of.
  - eapply (call_slice_good P load l Pr Rd parent f tp c t); try eassumption; [ exact (Epg Ed) | do 14 right; now left | eapply one_kind; [ exact Ub | now left ] ].
Qed.
Lemma row_json n : good (VFun (B "JSONValue")) (Filled (vpieces (VFun (B "JSONValue"))) (a n)).
Proof. eapply fun_good; try eassumption; [ now apply ascii_word | intros I; apply bmem_In in I; discriminate I | constructor ]. Qed.
Lemma row_text n : text_value e (base_type t) = true -> good (VFun (B "TextValue")) (Filled (vpieces (VFun (B "TextValue"))) (a n)).
Proof.
  intros Tv. assert (Eb : base_type t = t) by (destruct t as [ | | u | | | ]; try reflexivity; destruct (ww_pointer P d c (TPointer u) Ww u); constructor). rewrite Eb in Tv.
  eapply fun_good; try eassumption; [ now apply ascii_word | intros I; apply bmem_In in I; discriminate I | ]. constructor. now apply (ag_marshal e P Ag t vt).
Qed.
Lemma value_row fuel k sh n : column_data_type fuel e (map fst (table d)) t = Some (Some k) -> In (k, sh) (values d) -> good sh (Filled (vpieces sh) (a n)).
Proof.
  intros Ck I. destruct (key_says e d fuel t k Ck) as [_ [ -> | (y & Sy & [ -> | [ -> | (m & x & Ix & -> & -> & Nm & Dm) ] ]) ]].
  - assert (sh = VFun (B "JSONValue")) as -> by (destruct d; cbn in I; repeat (destruct I as [I|I]; [ first [ discriminate I | now injection I as <- ] | ]); destruct I). apply row_json.
  - assert (Sc : forall last_, In (k, sh) (scalar_values last_) -> (k = B "uint64" /\ sh = last_ -> good sh (Filled (vpieces sh) (a n))) -> good sh (Filled (vpieces sh) (a n))).
    { clear I. intros la I Ku. unfold scalar_values in I. rewrite !in_app_iff in I. destruct I as [ I | [ I | I ] ].
      - each I; [ | apply (row_plain _ n Sy); mem | | ]; (eapply row_conv; [ exact Sy | mem | mem | ]); [ right; right; split; [ mem | reflexivity ] | now left | now left ].
      - apply in_map_iff in I. destruct I as (q & Eq & Iq). apply pair_eq in Eq as [-> <-]. destruct (ints_basic k Iq) as [I1 I2]. eapply row_conv; [ exact Sy | exact I1 | mem | right; left; split; [ exact I2 | mem ] ].
      - each I.
        + apply Ku. now split.
        + eapply row_conv; [ exact Sy | mem | mem | right; left; split; mem ].
        + eapply row_conv; [ exact Sy | mem | mem | now left ].
        + eapply (row_struct _ _ n (B "time") (B "Time") Sy); [ reflexivity | intros J; apply bmem_In in J; discriminate J | eexists _, _; split; [ reflexivity | unfold letter; cbn; lia ] | | | | now left ]; intros J; cbn in J; intuition discriminate.
        + eapply (row_struct _ _ n (B "sql") (B "RawBytes") Sy); [ reflexivity | intros J; apply bmem_In in J; discriminate J | eexists _, _; split; [ reflexivity | unfold letter; cbn; lia ] | | | | right; now left ]; intros J; cbn in J; intuition discriminate.
        + eapply (row_struct _ _ n (B "encoding/json") (B "RawMessage") Sy); [ reflexivity | intros J; apply bmem_In in J; discriminate J | eexists _, _; split; [ reflexivity | unfold letter; cbn; lia ] | | | | right; now right ]; intros J; cbn in J; intuition discriminate. }
    assert (My : In (k, sh) mysql_values -> good sh (Filled (vpieces sh) (a n))).
    { clear I. intros I. unfold mysql_values in I. rewrite !in_app_iff in I. destruct I as [ I | [ I | [ I | I ] ] ].
      - apply (Sc VPlain I). intros [-> ->]. apply (row_plain _ n Sy); mem.
      - each I.
        + destruct (not_points _ Sy).
        + destruct (not_points _ Sy).
        + apply (row_list _ n (B "string") _ _ [B "string"] Sy eq_refl); [ mem | discriminate | now left | now left ].
        + exact (row_bytes n Sy).
        + apply (row_list _ n (B "bool") _ _ [B "bool"] Sy eq_refl); [ mem | discriminate | right; now left | now left ].
      - apply in_map_iff in I. destruct I as (q & Eq & Iq). apply pair_eq in Eq as [<- <-]. destruct (numbers_listed sqltype_path (B "Slice") q Iq (or_introl eq_refl)) as (I1 & I2 & ks & I3 & I4). exact (proj1 (row_list _ n (fst q) _ _ ks Sy eq_refl I1 I2 I3 I4)).
      - each I. apply row_json. }
    destruct (values_cases d) as [ Ev | [Ed Ev] ]; rewrite Ev in I; [ exact (My I) | ]. clear My. unfold pg_values in I. rewrite !in_app_iff in I. destruct I as [ I | [ I | [ I | I ] ] ].
    + apply (Sc (VConv (B "int64")) I). intros [-> ->]. eapply row_conv; [ exact Sy | mem | mem | right; left; split; mem ].
    + each I.
      * destruct (not_points _ Sy).
      * destruct (not_points _ Sy).
      * destruct (not_points _ Sy).
      * destruct (not_points _ Sy).
      * apply (row_list _ n (B "string") _ _ [B "string"] Sy eq_refl); [ mem | discriminate | do 14 right; now left | now left ].
      * exact (row_runes n Ed Sy).
      * exact (row_bytes n Sy).
      * apply (row_list _ n (B "bool") _ _ [B "bool"] Sy eq_refl); [ mem | discriminate | do 15 right; now left | now left ].
      * exact (row_bytea n Ed Sy).
    + apply in_map_iff in I. destruct I as (q & Eq & Iq). apply pair_eq in Eq as [<- <-]. destruct (numbers_listed pgtype_path (B "Array") q Iq (or_intror eq_refl)) as (I1 & I2 & ks & I3 & I4). exact (proj1 (row_list _ n (fst q) _ _ ks Sy eq_refl I1 I2 I3 I4)).
    + each I. apply row_json.
  - destruct (says_star P e Pr Ag t k Sy vt) as (u & U & _). destruct (ww_pointer P d c t Ww u U).
  - apply (row_array n m x sh Sy Nm Dm).
    assert (F : forallb (fun r => negb (has_prefix (fst r) (B "[...]")) || match bseq (fst r) (B "[...]rune"), snd r with true, VText => true | _, _ => false end || match bseq (fst r) (B "[...]byte"), snd r with true, VSlice => true | _, _ => false end
        || match bseq (fst r) (B "[...]string"), snd r, d with true, VCallSlice p q, Postgres => bseq p pgtype_path && bseq q (B "StringArray") | _, _, _ => false end || bseq (fst r) (B "[...]bool")) (values d) = true) by (clear; destruct d; vm_compute; reflexivity).
    rewrite forallb_forall in F. specialize (F _ I). cbn [fst snd] in F. destruct Ix as [ <- | [ <- | [ <- | [] ] ] ].
    + left. destruct sh; try discriminate F. auto.
    + right. right. destruct sh; try discriminate F. assert (d = Postgres) as Ed by (clear - F; destruct d; [ discriminate F | reflexivity | discriminate F ]). split; [ reflexivity | ]. split; [ | exact Ed ]. rewrite Ed in F.
      change (bseq p pgtype_path && bseq n0 (B "StringArray") || false = true) in F. rewrite orb_false_r in F. apply andb_true_iff in F as [F1 F2]. apply bseq_eq in F1 as ->. apply bseq_eq in F2 as ->. reflexivity.
    + right. left. destruct sh; try discriminate F. auto.
Qed.
(** The value of the column *)
Lemma value_fall fuel n ch :
  match column_data_type fuel e (map fst (table d)) t with
  | None => None
  | Some (Some k) => match entry (table d) k with Some (v, _) => Some (filled v (a n)) | None => None end
  | Some None => if text_value e (base_type t) then Some (filled (generic_func (B "TextValue") [B "{{goPath}}"]) (a 0%N)) else match entry (table d) (B "*") with Some (v, _) => Some (filled v (a 0%N)) | None => None end
  end = Some ch -> exists sh, good sh ch /\
    ((exists k, column_data_type fuel e (map fst (table d)) t = Some (Some k) /\ In (k, sh) (values d)) \/
     column_data_type fuel e (map fst (table d)) t = Some None /\ (text_value e (base_type t) = true /\ sh = VFun (B "TextValue") \/ text_value e (base_type t) = false /\ sh = VFun (B "JSONValue"))).
Proof.
  destruct (column_data_type fuel e (map fst (table d)) t) as [ [k|] | ] eqn:Ck; [ | | discriminate ].
  - destruct (entry (table d) k) as [ [v s] | ] eqn:Ee; [ | discriminate ]. destruct (value_shape d k v s Ee) as (sh & Ish & Ps). intros [= <-]. unfold filled. rewrite Ps. exists sh. split; [ eapply value_row; eassumption | left; eauto ].
  - destruct (text_value e (base_type t)) eqn:Tv.
    + intros [= <-]. exists (VFun (B "TextValue")). split; [ | right; auto ]. change (filled (generic_func (B "TextValue") [B "{{goPath}}"]) (a 0%N)) with (Filled (vpieces (VFun (B "TextValue"))) (a 0%N)). now apply row_text.
    + destruct (entry (table d) (B "*")) as [ [v s] | ] eqn:Ee; [ | discriminate ]. intros [= <-]. destruct (value_shape d _ v s Ee) as (sh & Ish & Ps). unfold filled. rewrite Ps.
      assert (sh = VFun (B "JSONValue")) as -> by (clear - Ish; destruct d; cbn in Ish; repeat (destruct Ish as [I|Ish]; [ first [ discriminate I | now injection I as <- ] | ]); destruct Ish). exists (VFun (B "JSONValue")). split; [ apply row_json | right; auto ].
Qed.
End Rows.
