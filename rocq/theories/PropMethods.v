(** C74: the methods that are generated for a model, and what the runtime functions ask for. *)
From Coq Require Import Permutation Sorted.
From Verif Require Import Base ModelStrconv ModelCompiler ModelNaming ModelParser ModelGen ModelMethods SpecSql SpecGo SpecGen SpecParser SpecEnd SpecMethods
  LemmasBase LemmasCompiler LemmasParser LemmasTag LemmasGen LemmasGen2 PropParser PropEnd.

(** ** Lists *)
Inductive part {A} : list A -> list A -> Prop :=
| part_nil : part [] []
| part_skip x l m : part l m -> part l (x :: m)
| part_keep x l m : part l m -> part (x :: l) (x :: m).
Lemma part_none {A} (m : list A) : part [] m.
Proof. induction m; constructor; assumption. Qed.
Lemma part_all {A} (m : list A) : part m m.
Proof. induction m; constructor; assumption. Qed.
Lemma part_app {A} (a b c d : list A) : part a b -> part c d -> part (a ++ c) (b ++ d).
Proof. induction 1; intros H'; cbn [app]; [ exact H' | apply part_skip; auto | apply part_keep; auto ]. Qed.
Lemma part_in {A} (l m : list A) x : part l m -> In x l -> In x m.
Proof. induction 1; cbn [In]; tauto. Qed.
Lemma part_nodup {A} (l m : list A) : part l m -> NoDup m -> NoDup l.
Proof.
  induction 1 as [ | x l m H IH | x l m H IH ]; intros D; [ constructor | inversion D; auto | ]. inversion D; subst. constructor; [ | auto ]. intros I. eapply part_in in I; [ | exact H ]. contradiction.
Qed.
Lemma nodup_map_inj {A C} (f : A -> C) l : (forall x y, f x = f y -> x = y) -> NoDup (map f l) <-> NoDup l.
Proof.
  intros J. split; [ apply NoDup_map_inv | ]. induction 1 as [ | x l N D IH ]; cbn [map]; constructor; [ | exact IH ]. rewrite in_map_iff. intros (y & E & I). apply J in E. subst y. contradiction.
Qed.
Lemma nodup_app {A} (l m : list A) : NoDup (l ++ m) <-> NoDup l /\ NoDup m /\ forall x, In x l -> ~ In x m.
Proof.
  induction l as [|x l IH]; cbn [app].
  - split; [ intros H; split; [ constructor | split; [ exact H | intros x [] ] ] | tauto ].
  - rewrite !NoDup_cons_iff, IH, in_app_iff. split.
    + intros (N & D1 & D2 & H). repeat split; auto. intros y [<-|I]; auto.
    + intros ((N & D1) & D2 & H). split; [ intros [I|I]; [ auto | exact (H x (or_introl eq_refl) I) ] | ]. split; [ exact D1 | split; [ exact D2 | intros y I; apply H; now right ] ].
Qed.
Lemma filter_length_all {A} (p : A -> bool) l : length (filter p l) = length l <-> forall x, In x l -> p x = true.
Proof.
  assert (LE : forall l, length (filter p l) <= length l) by (clear; induction l as [|x l IH]; cbn; [ lia | ]; destruct (p x); cbn; lia).
  induction l as [|x l IH]; cbn [filter length In]; [ split; [ intros _ x [] | reflexivity ] | ]. destruct (p x) eqn:E.
  - cbn [length]. split; [ intros H y [<-|I]; [ exact E | apply IH; [ lia | exact I ] ] | intros H; f_equal; apply IH; auto ].
  - split; [ intros H; pose proof (LE l); lia | intros H; rewrite (H x (or_introl eq_refl)) in E; discriminate ].
Qed.

Definition fixed_names : list bytes :=
  [B "TableName"] ++ [B "HasPK"; B "IsAutoIncr"; B "ScanAutoIncr"; B "PK"; B "CompositeKey"] ++ [B "SQLColumns"] ++ [B "Columns"] ++ [B "Values"] ++ [B "Addrs"] ++
  [B "InsertColumns"; B "InsertPlaceholders"; B "InsertOneStmt"] ++ [B "FindOneByPKStmt"; B "UpdateOneByPKStmt"].
Lemma fixed_nodup : NoDup fixed_names.
Proof. unfold fixed_names. cbn [app]. repeat (apply NoDup_cons; [ cbn [In]; intros H; repeat (destruct H as [H|H]; [ discriminate | ]); exact H | ]). constructor. Qed.
Lemma fixed_not_value x : ~ In (x ++ B "Value") fixed_names.
Proof.
  unfold fixed_names. cbn [app In]. intros H. repeat (destruct H as [H|H]; [ apply (f_equal (@rev _)) in H; rewrite rev_app_distr in H; cbn in H; discriminate | ]). exact H.
Qed.
Lemma fixed_not_column x : capitalised x -> ~ In (B "Column" ++ x) fixed_names.
Proof.
  intros (c & r & -> & C). unfold fixed_names. cbn [app In]. intros H. repeat (destruct H as [H|H]; [ try (cbn in H; discriminate) | ]); try exact H.
  cbn in H. injection H as H1 H2. subst c. cbn in C. lia.
Qed.

Section Methods.
Variables (conv : bytes) (wrap unwrap : gotype -> bytes * bytes) (sort : list (list nat * sfield) -> list (list nat * sfield)).
Variables (name : bytes) (doc : option bytes) (ds : list decl) (t : table).
Notation rename := (rename_func conv).
Hypothesis SORT : sorts sort.
Hypothesis ASCII : ascii_source name ds.
Hypothesis PARSED : parse_struct sort rename wrap unwrap name doc ds = Ok (Some t).
Variables (prefix : bytes) (strict : bool) (user : bytes -> own).

(** ** The table and the declarations *)
Lemma column_name_unique f n m : column_name rename f n -> column_name rename f m -> n = m.
Proof. unfold column_name. rewrite !tag_name_iff. intros [ [A B] | [A B] ] [ [C D] | [C D] ]; congruence. Qed.
Lemma combine_has {A C} (R : A -> C -> Prop) gs cs : Forall2 R gs cs -> (forall f, In f gs -> exists c, In (f, c) (combine gs cs)) /\ (forall c, In c cs -> exists f, In (f, c) (combine gs cs)).
Proof.
  induction 1 as [ | f c gs cs H F [I1 I2] ]; [ split; intros ? [] | ]. cbn [combine In]. split.
  - intros g [<-|I]; [ eauto | ]. destruct (I1 g I); eauto.
  - intros g [<-|I]; [ eauto | ]. destruct (I2 g I); eauto.
Qed.
Lemma view : exists gs, column_fields rename ds gs (map c_name (t_columns t)) /\ Forall2 (column_for rename) gs (t_columns t) /\ wf t /\
  (forall f, In f (declared ds) /\ has_column f <-> exists c, In (f, c) (combine gs (t_columns t))) /\
  (forall c, In c (t_columns t) -> exists f, In (f, c) (combine gs (t_columns t))) /\
  (forall f c, In (f, c) (combine gs (t_columns t)) -> In c (t_columns t) /\ column_for rename f c /\ c_unwrap c = unwrap (f_type f) /\
     (c_readonly c = true <-> readonly_field f) /\ (t_auto t = Some c <-> auto_field f) /\ (In c (t_keys t) <-> key_field f)).
Proof.
  destruct (parsed_view conv wrap unwrap sort name doc ds t SORT ASCII PARSED) as (gs & fs & ro & _ & CO & F2 & WF & _ & PC & RO).
  destruct (combine_has _ _ _ F2) as [C1 C2]. exists gs. split; [ exact CO | ]. split; [ exact F2 | ]. split; [ exact WF | ]. split; [ | split; [ exact C2 | ] ].
  - intros f. destruct CO as [CO _]. rewrite <- CO. split; [ apply C1 | intros [c I]; eapply in_combine_l; exact I ].
  - intros f c I. pose proof (in_combine_r _ _ _ _ I) as Ic. pose proof (forall2_in _ _ _ f c F2 I) as CF. split; [ exact Ic | ]. split; [ exact CF | ]. split; [ | apply RO, I ].
    destruct (PC c Ic) as (_ & _ & U). rewrite U. f_equal. apply CF.
Qed.
Notation fields_with P := (exists f, In f (declared ds) /\ has_column f /\ P f).

Lemma auto_iff : (exists a, t_auto t = Some a) <-> fields_with auto_field.
Proof.
  destruct view as (gs & _ & _ & WF & V1 & V2 & V3). split.
  - intros [a A]. destruct (wf_auto t WF a A) as (I & _). destruct (V2 a I) as [f J]. exists f. destruct (proj2 (V1 f) (ex_intro _ a J)) as [D H]. split; [ exact D | split; [ exact H | ] ]. apply (V3 f a J). exact A.
  - intros (f & D & H & A). destruct (proj1 (V1 f) (conj D H)) as [c J]. exists c. now apply (V3 f c J).
Qed.
Lemma pk_iff : has_pk t = true <-> keyed ds.
Proof.
  destruct view as (gs & _ & _ & WF & V1 & V2 & V3). unfold has_pk, keyed. split.
  - destruct (t_auto t) as [a|] eqn:A.
    + intros _. destruct (proj1 auto_iff (ex_intro _ a A)) as (f & D & H & X). exists f. auto.
    + destruct (t_keys t) as [|k ks] eqn:K; [ discriminate | ]. intros _. assert (Ik : In k (t_keys t)) by (rewrite K; now left). destruct (wf_keys t WF k Ik) as [I _]. destruct (V2 k I) as [f J].
      exists f. destruct (proj2 (V1 f) (ex_intro _ k J)) as [D H]. split; [ exact D | split; [ exact H | ] ]. left. apply (V3 f k J). now left.
  - intros (f & D & H & X). destruct (proj1 (V1 f) (conj D H)) as [c J]. destruct X as [X|X].
    + apply (V3 f c J) in X. destruct (t_auto t); [ reflexivity | ]. destruct (t_keys t); [ contradiction | reflexivity ].
    + destruct (V3 f c J) as (_ & _ & _ & _ & XA & _). rewrite (proj2 XA X). reflexivity.
Qed.
Lemma inserted_iff c f gs : wf t -> (forall f c, In (f, c) (combine gs (t_columns t)) -> In c (t_columns t) /\ column_for rename f c /\ c_unwrap c = unwrap (f_type f) /\
     (c_readonly c = true <-> readonly_field f) /\ (t_auto t = Some c <-> auto_field f) /\ (In c (t_keys t) <-> key_field f)) ->
  In (f, c) (combine gs (t_columns t)) -> negb (c_readonly c) && negb (is_auto t c) = true <-> insert_field f.
Proof.
  intros WF V3 I. destruct (V3 f c I) as (Ic & _ & _ & H1 & H2 & _). pose proof (is_auto_spec t c WF Ic) as H3. unfold insert_field. rewrite <- H1, <- H2, <- H3. destruct (c_readonly c), (is_auto t c); cbn; intuition congruence.
Qed.
Lemma insert_iff : insert_columns t <> [] <-> fields_with insert_field.
Proof.
  destruct view as (gs & _ & _ & WF & V1 & V2 & V3). split.
  - destruct (insert_columns t) as [|c l] eqn:E; [ contradiction | ]. intros _. assert (I : In c (insert_columns t)) by (rewrite E; now left). unfold insert_columns in I. apply filter_In in I as [I P].
    destruct (V2 c I) as [f J]. exists f. destruct (proj2 (V1 f) (ex_intro _ c J)) as [D H]. split; [ exact D | split; [ exact H | ] ]. eapply inserted_iff; eassumption.
  - intros (f & D & H & X). destruct (proj1 (V1 f) (conj D H)) as [c J]. intros E. assert (I : In c (insert_columns t)); [ | rewrite E in I; exact I ].
    apply filter_In. split; [ apply (V3 f c J) | ]. eapply inserted_iff; eassumption.
Qed.
Lemma all_inserted_iff : length (insert_columns t) <> length (t_columns t) <-> fields_with (fun f => ~ insert_field f).
Proof.
  destruct view as (gs & _ & _ & WF & V1 & V2 & V3). unfold insert_columns. rewrite filter_length_all. split.
  - intros N. assert (X : exists c, In c (t_columns t) /\ negb (c_readonly c) && negb (is_auto t c) = false).
    { clear - N. induction (t_columns t) as [|c l IH]; [ exfalso; apply N; intros ? [] | ]. destruct (negb (c_readonly c) && negb (is_auto t c)) eqn:E; [ | exists c; split; [ now left | exact E ] ].
      destruct IH as (x & I & H); [ intros A; apply N; intros y [<-|I]; auto | ]. exists x. split; [ now right | exact H ]. }
    destruct X as (c & I & E). destruct (V2 c I) as [f J]. exists f. destruct (proj2 (V1 f) (ex_intro _ c J)) as [D H]. split; [ exact D | split; [ exact H | ] ].
    intros X. eapply inserted_iff in X; [ | eassumption.. ]. congruence.
  - intros (f & D & H & X) A. destruct (proj1 (V1 f) (conj D H)) as [c J]. apply X. eapply inserted_iff; [ eassumption.. | ]. apply A. apply (V3 f c J).
Qed.
Lemma update_iff : columns_without_pk t <> [] <-> fields_with update_field.
Proof.
  destruct view as (gs & _ & _ & WF & V1 & V2 & V3).
  assert (E : forall f c, In (f, c) (combine gs (t_columns t)) -> In c (columns_without_pk t) <-> update_field f).
  { intros f c J. rewrite (columns_without_pk_spec t c WF). destruct (V3 f c J) as (I & _ & _ & H1 & H2 & H3). unfold updatable, is_key, update_field. rewrite <- H1, <- H2, <- H3. destruct (c_readonly c); intuition congruence. }
  split.
  - destruct (columns_without_pk t) as [|c l] eqn:EC; [ contradiction | ]. intros _. assert (I : In c (columns_without_pk t)) by (rewrite EC; now left). destruct (V2 c (without_pk_incl t c I)) as [f J].
    exists f. destruct (proj2 (V1 f) (ex_intro _ c J)) as [D H]. split; [ exact D | split; [ exact H | ] ]. apply (E f c J). now left.
  - intros (f & D & H & X). destruct (proj1 (V1 f) (conj D H)) as [c J]. apply (E f c J) in X. intros N. rewrite N in X. exact X.
Qed.
Lemma scanner_iff : existsb has_scanner (t_columns t) = true <-> fields_with (fun f => unwrap (f_type f) <> ([], [])).
Proof.
  destruct view as (gs & _ & _ & WF & V1 & V2 & V3). rewrite existsb_exists.
  assert (E : forall c, has_scanner c = true <-> c_unwrap c <> ([], [])) by (intros c; unfold has_scanner; destruct (c_unwrap c) as [ [|x a] [|y b] ]; split; try discriminate; try reflexivity; intros H; now destruct H).
  split.
  - intros (c & I & H). apply E in H. destruct (V2 c I) as [f J]. exists f. destruct (proj2 (V1 f) (ex_intro _ c J)) as [D HC]. split; [ exact D | split; [ exact HC | ] ]. destruct (V3 f c J) as (_ & _ & U & _). now rewrite <- U.
  - intros (f & D & H & X). destruct (proj1 (V1 f) (conj D H)) as [c J]. exists c. destruct (V3 f c J) as (I & _ & U & _). split; [ exact I | ]. apply E. now rewrite U.
Qed.
Lemma several_iff : 2 <= length (t_keys t) <-> several_keys ds.
Proof.
  destruct view as (gs & _ & _ & WF & V1 & V2 & V3). unfold several_keys. split.
  - destruct (t_keys t) as [|k1 [|k2 ks]] eqn:K; cbn [length]; [ lia | lia | ]. intros _.
    assert (I1 : In k1 (t_keys t)) by (rewrite K; now left). assert (I2 : In k2 (t_keys t)) by (rewrite K; right; now left).
    destruct (V2 k1 (proj1 (wf_keys t WF k1 I1))) as [f J1]. destruct (V2 k2 (proj1 (wf_keys t WF k2 I2))) as [g J2]. exists f, g.
    assert (NE : k1 <> k2) by (pose proof (wf_keys_nodup t WF) as ND; rewrite K in ND; inversion ND as [ | ? ? N ? ]; subst; intros ->; apply N; now left).
    split; [ intros <- | ].
    + apply NE. destruct (V3 f k1 J1) as (C1 & F1 & _). destruct (V3 f k2 J2) as (C2 & F2' & _). assert (EN : c_name k1 = c_name k2) by (eapply column_name_unique; [ apply F1 | apply F2' ]).
      pose proof (wf_names t WF) as ND. clear - C1 C2 EN ND. induction (t_columns t) as [|x l IH]; [ contradiction | ]. cbn [map] in ND. inversion ND as [ | ? ? N ND' ]; subst.
      destruct C1 as [->|C1], C2 as [E|C2]; [ exact E | exfalso; apply N; rewrite EN; now apply in_map | subst x; exfalso; apply N; rewrite <- EN; now apply in_map | auto ].
    + destruct (proj2 (V1 f) (ex_intro _ k1 J1)) as [D1 H1]. destruct (proj2 (V1 g) (ex_intro _ k2 J2)) as [D2 H2].
      split; [ exact D1 | split; [ exact D2 | split; [ exact H1 | split; [ exact H2 | ] ] ] ]. split; [ apply (V3 f k1 J1); left; reflexivity | apply (V3 g k2 J2); right; now left ].
  - intros (f & g & NE & D1 & D2 & H1 & H2 & K1 & K2). destruct (proj1 (V1 f) (conj D1 H1)) as [c1 J1]. destruct (proj1 (V1 g) (conj D2 H2)) as [c2 J2].
    apply (V3 f c1 J1) in K1. apply (V3 g c2 J2) in K2. destruct (t_keys t) as [|k1 [|k2 ks]] eqn:K; cbn [length]; [ contradiction | | lia ].
    exfalso. apply NE. destruct K1 as [ <- | [] ], K2 as [ <- | [] ]. eapply combine_left; [ | exact J1 | exact J2 ]. eapply NoDup_map_inv. apply (wf_names t WF).
Qed.

(** ** The methods *)
Let given (n : bytes) (ms : list method) : list method := match user n with Missing => ms | _ => [] end.
Let head (t : table) : list method :=
  given (B "TableName") [by_value (B "TableName")] ++ key_methods t ++ given (B "SQLColumns") (sql_columns_method t) ++ given (B "Columns") [by_value (B "Columns")] ++
  (if t_readonly t then [] else given (B "Values") (values_method t)) ++ given (B "Addrs") [by_pointer (B "Addrs")] ++ insert_methods t ++ statement_methods t.
Lemma methods_shape : (strict = true -> forall n, user n <> Wrong) -> gen_methods prefix strict user t = Ok (head t ++ map value_method (t_columns t) ++ map (column_method prefix) (t_columns t)).
Proof.
  intros W.
  assert (U : forall n ms, unless_own strict user n ms = Ok (given n ms)).
  { intros n ms. unfold unless_own, given, log_error. destruct (user n) eqn:E; try reflexivity. destruct strict; [ exfalso; exact (W eq_refl n E) | reflexivity ]. }
  unfold gen_methods, head. rewrite !U. cbn [bind]. destruct (t_readonly t); cbn [bind]; rewrite <- ?app_assoc; reflexivity.
Qed.
Lemma head_part : part (map m_name (head t)) fixed_names.
Proof.
  assert (G : forall n ms m, part (map m_name ms) m -> part (map m_name (given n ms)) m) by (intros n ms m H; unfold given; destruct (user n); [ exact H | apply part_none | apply part_none ]).
  unfold head, fixed_names. rewrite !map_app.
  apply part_app; [ apply G, part_all | ].
  apply part_app; [ | apply part_app; [ apply G | apply part_app; [ apply G, part_all | apply part_app; [ | apply part_app; [ apply G, part_all | apply part_app ] ] ] ] ].
  - unfold key_methods. destruct (has_pk t); [ | apply part_none ]. cbn [map by_value m_name]. apply part_keep. destruct (t_auto t).
    + cbn. repeat apply part_keep. apply part_none.
    + apply part_skip, part_skip. destruct (t_keys t) as [|k [|k2 ks]]; cbn; [ apply part_skip, part_all | apply part_keep, part_none | apply part_skip, part_all ].
  - unfold sql_columns_method. destruct (existsb _ _); [ apply part_all | apply part_none ].
  - destruct (t_readonly t); [ apply part_none | ]. apply G. unfold values_method. destruct (insert_columns t); [ apply part_none | apply part_all ].
  - unfold insert_methods. destruct (t_readonly t); [ apply part_none | ]. destruct (insert_columns t); [ apply part_none | ]. rewrite map_app. destruct (Nat.eqb _ _); [ apply part_skip, part_all | apply part_all ].
  - unfold statement_methods. destruct (has_pk t); [ | apply part_none ]. cbn [map by_value m_name]. apply part_keep. destruct (t_readonly t); [ apply part_none | ]. destruct (columns_without_pk t); [ apply part_none | apply part_all ].
Qed.

Lemma in_given n ms m : In m (given n ms) <-> user n = Missing /\ In m ms.
Proof. unfold given. destruct (user n); cbn; intuition congruence. Qed.
Lemma not_has n : user n <> Wrong -> user n = Missing <-> user n <> Has.
Proof. destruct (user n); intuition congruence. Qed.

Notation names ms := (map m_name ms).
(** Which names the generated methods have *)
Theorem C74_names_partial ms : user_ok user -> gen_methods prefix strict user t = Ok ms ->
  forall n, In n (names ms) <-> generated_name prefix user unwrap t ds n.
Proof.
  intros [UW UO] G n. rewrite methods_shape in G by (intros _; exact UW). injection G as <-.
  destruct view as (gs & _ & _ & WF & V1 & V2 & V3).
  pose proof auto_iff as AI. pose proof pk_iff as PI. pose proof insert_iff as II. pose proof all_inserted_iff as AL. pose proof update_iff as UI. pose proof scanner_iff as SI. pose proof several_iff as SV.
  assert (INS : insertable t ds <-> t_readonly t = false /\ insert_columns t <> []) by (unfold insertable; rewrite II; reflexivity).
  rewrite in_map_iff. split.
  - intros (m & <- & I). apply in_app_or in I as [I|I].
    + unfold head in I. repeat (apply in_app_or in I as [I|I]).
      * apply in_given in I as [U [<-|[]]]. apply gn_table. now rewrite U.
      * unfold key_methods in I. destruct (has_pk t) eqn:HP; [ | contradiction ]. assert (K : keyed ds) by (apply PI; reflexivity). destruct I as [<-|I]; [ now apply gn_has_pk | ].
        destruct (t_auto t) as [a|] eqn:A.
        { assert (FA : fields_with auto_field) by (apply AI; eauto). destruct I as [<-|[<-|[<-|[]]]]; [ now apply gn_auto | now apply gn_scan_auto | apply gn_pk; auto ]. }
        assert (NA : ~ fields_with auto_field) by (rewrite <- AI; intros [a A']; discriminate).
        unfold has_pk in HP. rewrite A in HP. destruct (t_keys t) as [|k1 [|k2 ks]] eqn:K'; [ discriminate | | ].
        { destruct I as [<-|[]]. apply gn_pk; [ exact K | ]. intros S2. apply SV in S2. cbn in S2. lia. }
        { destruct I as [<-|[]]. apply gn_composite; [ | exact NA ]. apply SV. cbn. lia. }
      * apply in_given in I as [U I]. unfold sql_columns_method in I. destruct (existsb has_scanner (t_columns t)) eqn:E; [ | contradiction ]. destruct I as [<-|[]]. apply gn_sql_columns; [ now rewrite U | now apply SI ].
      * apply in_given in I as [U [<-|[]]]. apply gn_columns. now rewrite U.
      * destruct (t_readonly t) eqn:R; [ contradiction | ]. apply in_given in I as [U I]. unfold values_method in I. destruct (insert_columns t) eqn:E; [ contradiction | ]. destruct I as [<-|[]]. apply gn_values; [ now rewrite U | ].
        apply INS. split; [ reflexivity | discriminate ].
      * apply in_given in I as [U [<-|[]]]. apply gn_addrs. now rewrite U.
      * unfold insert_methods in I. destruct (t_readonly t) eqn:R; [ contradiction | ]. destruct (insert_columns t) as [|c l] eqn:E; [ contradiction | ].
        assert (IN : insertable t ds) by (apply INS; split; [ reflexivity | discriminate ]). apply in_app_or in I as [I|I].
        { destruct (Nat.eqb _ _) eqn:Q in I; [ contradiction | ]. destruct I as [<-|[]]. apply gn_insert_columns; [ exact IN | ]. apply AL. apply Nat.eqb_neq in Q. exact Q. }
        destruct I as [<-|[<-|[]]]; [ now apply gn_placeholders | now apply gn_insert_one ].
      * unfold statement_methods in I. destruct (has_pk t) eqn:HP; [ | contradiction ]. assert (K : keyed ds) by (apply PI; reflexivity). destruct I as [<-|I]; [ now apply gn_find | ].
        destruct (t_readonly t) eqn:R; [ contradiction | ]. destruct (columns_without_pk t) eqn:E; [ contradiction | ]. destruct I as [<-|[]]. apply gn_update; [ exact K | exact R | ]. apply UI. discriminate.
    + apply in_app_or in I as [I|I]; apply in_map_iff in I as (c & <- & I); destruct (V2 c I) as [f J]; destruct (proj2 (V1 f) (ex_intro _ c J)) as [D H]; destruct (V3 f c J) as (_ & (GN & _) & _);
        unfold value_method, column_method, by_value; cbn [m_name]; rewrite GN; [ now apply gn_value | now apply gn_column ].
  - assert (HH : forall m, In m (head t) -> exists x, m_name x = m_name m /\ In x (head t ++ map value_method (t_columns t) ++ map (column_method prefix) (t_columns t))) by (intros m I; exists m; split; [ reflexivity | apply in_or_app; now left ]).
    assert (KK : keyed ds -> has_pk t = true) by apply PI.
    intros GN. destruct GN as [ U | U | U | U F | U F | K | F | F | K F | F NF | F F' | F | F | K | K R F | f D H | f D H ].
    + apply (HH (by_value (B "TableName"))). unfold head. apply in_or_app. left. apply in_given. split; [ now apply not_has | now left ].
    + apply (HH (by_value (B "Columns"))). unfold head. do 3 (apply in_or_app; right). apply in_or_app. left. apply in_given. split; [ now apply not_has | now left ].
    + apply (HH (by_pointer (B "Addrs"))). unfold head. do 5 (apply in_or_app; right). apply in_or_app. left. apply in_given. split; [ now apply not_has | now left ].
    + apply (HH (by_value (B "SQLColumns"))). unfold head. do 2 (apply in_or_app; right). apply in_or_app. left. apply in_given. split; [ now apply not_has | ]. unfold sql_columns_method. rewrite (proj2 SI F). now left.
    + apply (HH (by_value (B "Values"))). unfold head. do 4 (apply in_or_app; right). apply in_or_app. left. apply INS in F as [R F]. rewrite R. apply in_given. split; [ now apply not_has | ]. unfold values_method. destruct (insert_columns t); [ contradiction | now left ].
    + apply (HH (by_value (B "HasPK"))). unfold head. apply in_or_app; right. apply in_or_app. left. unfold key_methods. rewrite (KK K). now left.
    + apply (HH (by_value (B "IsAutoIncr"))). unfold head. apply in_or_app; right. apply in_or_app. left. apply AI in F as [a A]. unfold key_methods, has_pk. rewrite A. cbn. auto.
    + apply (HH (by_pointer (B "ScanAutoIncr"))). unfold head. apply in_or_app; right. apply in_or_app. left. apply AI in F as [a A]. unfold key_methods, has_pk. rewrite A. cbn. auto.
    + apply (HH (by_value (B "PK"))). unfold head. apply in_or_app; right. apply in_or_app. left. unfold key_methods. pose proof (KK K) as HP. rewrite HP. unfold has_pk in HP. right. destruct (t_auto t) as [a|] eqn:A; [ cbn; auto | ].
      destruct (t_keys t) as [|k1 [|k2 ks]] eqn:K'; [ discriminate | now left | ]. exfalso. destruct (proj2 AI (F (proj1 SV ltac:(cbn; lia)))) as [a A']. discriminate.
    + apply (HH (by_value (B "CompositeKey"))). unfold head. apply in_or_app; right. apply in_or_app. left. unfold key_methods, has_pk. destruct (t_auto t) as [a|] eqn:A; [ exfalso; apply NF, AI; eauto | ].
      apply SV in F. destruct (t_keys t) as [|k1 [|k2 ks]] eqn:K'; cbn in F; [ lia | lia | ]. right. now left.
    + apply (HH (by_value (B "InsertColumns"))). unfold head. do 6 (apply in_or_app; right). apply in_or_app. left. unfold insert_methods. apply INS in F as [R F]. rewrite R. apply AL in F'. apply Nat.eqb_neq in F'. destruct (insert_columns t); [ contradiction | ].
      rewrite F'. now left.
    + apply (HH (by_value (B "InsertPlaceholders"))). unfold head. do 6 (apply in_or_app; right). apply in_or_app. left. unfold insert_methods. apply INS in F as [R F]. rewrite R. destruct (insert_columns t); [ contradiction | ]. apply in_or_app. right. now left.
    + apply (HH (by_value (B "InsertOneStmt"))). unfold head. do 6 (apply in_or_app; right). apply in_or_app. left. unfold insert_methods. apply INS in F as [R F]. rewrite R. destruct (insert_columns t); [ contradiction | ]. apply in_or_app. right. right. now left.
    + apply (HH (by_value (B "FindOneByPKStmt"))). unfold head. do 7 (apply in_or_app; right). unfold statement_methods. rewrite (KK K). now left.
    + apply (HH (by_value (B "UpdateOneByPKStmt"))). unfold head. do 7 (apply in_or_app; right). unfold statement_methods. rewrite (KK K), R. right. apply UI in F. destruct (columns_without_pk t); [ contradiction | now left ].
    + destruct (proj1 (V1 f) (conj D H)) as [c J]. destruct (V3 f c J) as (I & (GN & _) & _). exists (value_method c). split; [ unfold value_method, by_value; cbn [m_name]; now rewrite GN | ]. apply in_or_app. right. apply in_or_app. left. now apply in_map.
    + destruct (proj1 (V1 f) (conj D H)) as [c J]. destruct (V3 f c J) as (I & (GN & _) & _). exists (column_method prefix c). split; [ unfold column_method, by_value; cbn [m_name]; now rewrite GN | ]. apply in_or_app. right. apply in_or_app. right. now apply in_map.
Qed.

(** Only ScanAutoIncr and Addrs are methods of the pointer. *)
Lemma receivers ms m : (strict = true -> forall n, user n <> Wrong) -> gen_methods prefix strict user t = Ok ms -> In m ms -> m_pointer m = true -> m_name m = B "ScanAutoIncr" \/ m_name m = B "Addrs".
Proof.
  intros W G I P. rewrite methods_shape in G by exact W. injection G as <-. apply in_app_or in I as [I|I].
  - unfold head in I. repeat (apply in_app_or in I as [I|I]); try (apply in_given in I as [_ I]).
    + destruct I as [<-|[]]; discriminate.
    + unfold key_methods in I. destruct (has_pk t); [ | contradiction ]. destruct I as [<-|I]; [ discriminate | ]. destruct (t_auto t); [ | destruct (t_keys t) as [|k1 [|k2 ks]] ]; repeat (destruct I as [<-|I]; [ try discriminate; now left | ]); contradiction.
    + unfold sql_columns_method in I. destruct (existsb _ _); [ destruct I as [<-|[]]; discriminate | contradiction ].
    + destruct I as [<-|[]]; discriminate.
    + destruct (t_readonly t); [ contradiction | ]. apply in_given in I as [_ I]. unfold values_method in I. destruct (insert_columns t); [ contradiction | destruct I as [<-|[]]; discriminate ].
    + destruct I as [<-|[]]; now right.
    + unfold insert_methods in I. destruct (t_readonly t); [ contradiction | ]. destruct (insert_columns t); [ contradiction | ]. apply in_app_or in I as [I|I]; [ destruct (Nat.eqb _ _); [ contradiction | destruct I as [<-|[]]; discriminate ] | ].
      destruct I as [<-|[<-|[]]]; discriminate.
    + unfold statement_methods in I. destruct (has_pk t); [ | contradiction ]. destruct I as [<-|I]; [ discriminate | ]. destruct (t_readonly t); [ contradiction | ]. destruct (columns_without_pk t); [ contradiction | destruct I as [<-|[]]; discriminate ].
  - apply in_app_or in I as [I|I]; apply in_map_iff in I as (c & <- & _); discriminate.
Qed.

Lemma fixed_only n : In n fixed_names -> generated_name (B "Column") user unwrap t ds n ->
  (n = B "TableName" -> user (B "TableName") <> Has) /\ (n = B "Columns" -> user (B "Columns") <> Has) /\ (n = B "Addrs" -> user (B "Addrs") <> Has) /\
  (n = B "Values" -> user (B "Values") <> Has /\ insertable t ds) /\ (n = B "HasPK" -> keyed ds) /\ (n = B "InsertPlaceholders" -> insertable t ds).
Proof.
  intros I G. destruct ASCII as (_ & _ & AF). rewrite Forall_forall in AF.
  destruct G; try (repeat match goal with |- _ /\ _ => split | |- _ = _ -> _ => let E := fresh in intros E; try discriminate E end; auto; fail).
  - exfalso. eapply fixed_not_value. exact I.
  - exfalso. eapply fixed_not_column; [ | exact I ]. destruct (AF _ H) as (_ & C & _). apply C. apply H0.
Qed.
(** The functions that take the model.  Partial: other prefixes of the column methods than the default are left out, and nothing is
    said of models with methods of the wrong type. *)
Theorem C74_accepted_partial ms : user_ok user -> prefix = B "Column" -> gen_methods prefix strict user t = Ok ms -> forall d f,
  accepted d user ms f <-> reads_only f \/ ((needs_key f -> keyed ds) /\ (insertable t ds \/ (user (B "Values") = Has /\ ~ needs_placeholders d f))).
Proof.
  intros UK PF G d f. pose proof UK as [UW UO].
  assert (RC := fun m => receivers ms m (fun _ => UW) G).
  assert (NM := C74_names_partial ms UK G). rewrite PF in NM.
  assert (VP : forall n, n <> B "ScanAutoIncr" -> n <> B "Addrs" -> of_value user ms n <-> In n (names ms) \/ user n = Has).
  { intros n N1 N2. unfold of_value. split.
    - intros [I|[H _]]; [ left; apply in_map_iff; exists {| m_name := n; m_pointer := false |}; auto | now right ].
    - intros [I|H]; [ | right; auto ]. left. apply in_map_iff in I as ([n' b] & E & I). cbn in E. subst n'. destruct b; [ | exact I ]. destruct (RC _ I eq_refl) as [H|H]; cbn in H; contradiction. }
  assert (PP : forall n, of_pointer user ms n <-> In n (names ms) \/ user n = Has).
  { intros n. unfold of_pointer. rewrite in_map_iff. split; [ intros [(m & I & E)|H]; [ left; exists m; auto | auto ] | intros [(m & E & I)|H]; [ left; exists m; auto | auto ] ]. }
  assert (HD : forall n, In n optional -> user n <> Has -> user n = Missing) by (intros n _ H; specialize (UW n); destruct (user n); congruence).
  assert (DEC : forall n, user n = Has \/ user n <> Has) by (intros n; destruct (user n); auto; right; discriminate).
  assert (NO : forall n, ~ In n optional -> user n <> Has) by (intros n N H; apply N, UO, H).
  assert (T1 : In (B "TableName") (names ms) \/ user (B "TableName") = Has) by (destruct (DEC (B "TableName")); [ auto | left; apply NM; now constructor ]).
  assert (T2 : In (B "Columns") (names ms) \/ user (B "Columns") = Has) by (destruct (DEC (B "Columns")); [ auto | left; apply NM; now constructor ]).
  assert (T3 : In (B "Addrs") (names ms) \/ user (B "Addrs") = Has) by (destruct (DEC (B "Addrs")); [ auto | left; apply NM; now constructor ]).
  assert (FI : forall n, In n [B "TableName"; B "Columns"; B "Addrs"; B "Values"; B "HasPK"; B "InsertPlaceholders"] -> In n fixed_names).
  { intros n I. cbn [In] in I. unfold fixed_names. cbn [app In]. tauto. }
  assert (T4 : (In (B "Values") (names ms) \/ user (B "Values") = Has) <-> insertable t ds \/ user (B "Values") = Has).
  { rewrite NM. split; [ intros [H|H]; [ | auto ]; left; destruct (fixed_only (B "Values") ltac:(apply FI; cbn; auto 10) H) as (_ & _ & _ & X & _); apply (X eq_refl) | intros [H|H]; [ | auto ]; destruct (DEC (B "Values")); [ auto | left; now constructor ] ]. }
  assert (T5 : (In (B "HasPK") (names ms) \/ user (B "HasPK") = Has) <-> keyed ds).
  { rewrite NM. split; [ intros [H|H]; [ destruct (fixed_only (B "HasPK") ltac:(apply FI; cbn; auto 10) H) as (_ & _ & _ & _ & X & _); apply (X eq_refl) | exfalso; revert H; apply NO; cbn; intuition discriminate ] | intros H; left; now constructor ]. }
  assert (T6 : (In (B "InsertPlaceholders") (names ms) \/ user (B "InsertPlaceholders") = Has) <-> insertable t ds).
  { rewrite NM. split; [ intros [H|H]; [ destruct (fixed_only (B "InsertPlaceholders") ltac:(apply FI; cbn; auto 10) H) as (_ & _ & _ & _ & _ & X); apply (X eq_refl) | exfalso; revert H; apply NO; cbn; intuition discriminate ] | intros H; left; now constructor ]. }
  assert (V1 : of_value user ms (B "TableName") <-> True) by (rewrite VP by discriminate; tauto).
  assert (V2 : of_value user ms (B "Columns") <-> True) by (rewrite VP by discriminate; tauto).
  assert (V4 : of_value user ms (B "Values") <-> insertable t ds \/ user (B "Values") = Has) by (rewrite VP by discriminate; exact T4).
  assert (V5 : of_value user ms (B "HasPK") <-> keyed ds) by (rewrite VP by discriminate; exact T5).
  assert (V6 : of_value user ms (B "InsertPlaceholders") <-> insertable t ds) by (rewrite VP by discriminate; exact T6).
  rewrite <- PP in T1, T2, T3, T4, T5, T6.
  assert (AC : forall (P : bytes -> Prop) l, (forall n, In n l -> P n) <-> fold_right (fun n Q => P n /\ Q) True l).
  { intros P l. induction l as [|x l IH]; cbn [In fold_right]; [ tauto | ]. rewrite <- IH. split; [ intros H; split; auto | intros [H1 H2] n [<-|I]; auto ]. }
  clear RC VP PP HD DEC NO FI NM. unfold accepted. rewrite !AC. clear AC.
  Ltac settle P := first [ assert (P <-> True) as -> by (split; [ auto | intros _; unfold reads_only, needs_key, needs_placeholders; cbn [In]; auto 10 ]) | assert (P <-> False) as -> by (split; [ unfold reads_only, needs_key, needs_placeholders; cbn [In]; intuition discriminate | intros [] ]) ].
  destruct f, d; cbn [asks fst snd fold_right app column_valuer tabler columner valuer keyer ptr_scanner inserter key_valuer key_value_scanner];
    rewrite ?V1, ?V2, ?V4, ?V5, ?V6, ?T4, ?T5, ?T6; clear V1 V2 V4 V5 V6 T4 T5 T6 G UK UO UW;
    (match goal with |- context [ reads_only ?f ] => settle (reads_only f); settle (needs_key f) end);
    (match goal with |- context [ needs_placeholders ?d ?f ] => settle (needs_placeholders d f) end); tauto.
Qed.

(** The methods have different names exactly when the fields with columns do, and none is called ColumnX beside another called XValue.
    Partial: for the default prefix of the column methods; and of Go's rules only this one (C74_field_refuted: another). *)
Theorem C74_distinct_partial ms : user_ok user -> prefix = B "Column" -> gen_methods prefix strict user t = Ok ms ->
  exists gs ns, column_fields rename ds gs ns /\
  (NoDup (names ms) <-> NoDup (map f_name gs) /\ forall f g, In f gs -> In g gs -> B "Column" ++ f_name f <> f_name g ++ B "Value").
Proof.
  intros [UW _] PF G. rewrite methods_shape in G by (intros _; exact UW). injection G as <-. rewrite PF.
  destruct view as (gs & CO & F2 & WF & V1 & V2 & V3). exists gs, (map c_name (t_columns t)). split; [ exact CO | ].
  assert (GN : map c_goname (t_columns t) = map f_name gs) by (clear - F2; induction F2 as [|f c gs cs H F IH]; [ reflexivity | cbn [map]; f_equal; [ apply H | exact IH ] ]).
  assert (E1 : map m_name (map value_method (t_columns t)) = map (fun x => x ++ B "Value") (map f_name gs)) by (rewrite <- GN, !map_map; reflexivity).
  assert (E2 : map m_name (map (column_method (B "Column")) (t_columns t)) = map (fun x => B "Column" ++ x) (map f_name gs)) by (rewrite <- GN, !map_map; reflexivity).
  rewrite !map_app, E1, E2, !nodup_app, (nodup_map_inj (fun x => x ++ B "Value")) by (intros x y H; apply app_inv_tail in H; exact H).
  rewrite (nodup_map_inj (fun x => B "Column" ++ x)) by (intros x y H; apply app_inv_head in H; exact H).
  pose proof head_part as HP. assert (CAP : forall f, In f gs -> capitalised (f_name f)).
  { intros f I. destruct ASCII as (_ & _ & AF). rewrite Forall_forall in AF. destruct CO as [CO _]. apply CO in I as [I HC]. destruct (AF f I) as (_ & C & _). apply C, HC. }
  split.
  - intros (_ & (ND & _ & X) & _). split; [ exact ND | ]. intros f g If Ig E. apply (X (f_name g ++ B "Value")); [ apply in_map_iff; exists (f_name g); split; [ reflexivity | now apply in_map ] | ].
    rewrite <- E. apply in_map_iff. exists (f_name f). split; [ reflexivity | now apply in_map ].
  - intros (ND & X). split; [ eapply part_nodup; [ exact HP | exact fixed_nodup ] | ]. split; [ split; [ exact ND | split; [ exact ND | ] ] | ].
    + intros x I J. apply in_map_iff in I as (y & <- & I). apply in_map_iff in I as (g & <- & Ig). apply in_map_iff in J as (y & E & J). apply in_map_iff in J as (f & <- & If). exact (X f g If Ig E).
    + intros x I J. pose proof (part_in _ _ _ HP I) as K. apply in_app_or in J as [J|J]; apply in_map_iff in J as (y & <- & J); [ exact (fixed_not_value y K) | ].
      apply in_map_iff in J as (f & <- & If). exact (fixed_not_column _ (CAP f If) K).
Qed.

(** *** What goes wrong *)
(** A read-only model, and one with no column to insert, cannot be found, locked, deleted or paged by its key. *)
Theorem C74_no_values_refuted ms : user_ok user -> prefix = B "Column" -> gen_methods prefix strict user t = Ok ms -> user (B "Values") <> Has ->
  t_readonly t = true \/ (~ exists f, In f (declared ds) /\ has_column f /\ insert_field f) -> forall d f, In f [FindByPK; LockByPK; DeleteByPK; Paginate] -> ~ accepted d user ms f.
Proof.
  intros UK PF G NV H d f I A. apply (C74_accepted_partial ms UK PF G d f) in A as [R|[_ [ [R E] | [V _] ]]].
  - unfold reads_only in R. cbn [In] in I, R. repeat (destruct I as [<-|I]; [ intuition discriminate | ]). exact I.
  - destruct H as [H|H]; [ congruence | contradiction ].
  - contradiction.
Qed.
(** Fields of embedded structs that share a name give methods with the same name. *)
Theorem C74_embedded_refuted ms f g : gen_methods prefix strict user t = Ok ms -> In f (declared ds) -> In g (declared ds) -> has_column f -> has_column g -> f <> g -> f_name f = f_name g -> ~ NoDup (names ms).
Proof.
  intros G D1 D2 H1 H2 NE EN ND. 
  destruct view as (gs & CO & F2 & WF & V1 & V2 & V3). destruct (proj1 (V1 f) (conj D1 H1)) as [c J1]. destruct (proj1 (V1 g) (conj D2 H2)) as [c' J2].
  assert (SH : exists l, ms = l ++ map value_method (t_columns t) ++ map (column_method prefix) (t_columns t)).
  { unfold gen_methods in G. destruct (unless_own strict user (B "TableName") _); cbn [bind] in G; try discriminate. destruct (unless_own strict user (B "SQLColumns") _); cbn [bind] in G; try discriminate.
    destruct (unless_own strict user (B "Columns") _); cbn [bind] in G; try discriminate. destruct (if t_readonly t then Ok [] else _); cbn [bind] in G; try discriminate. destruct (unless_own strict user (B "Addrs") _); cbn [bind] in G; try discriminate.
    injection G as <-. rewrite !app_assoc. eexists. rewrite <- app_assoc. reflexivity. }
  destruct SH as [l ->]. rewrite !map_app, !nodup_app in ND. destruct ND as (_ & (ND & _) & _). rewrite map_map in ND. apply NE.
  destruct (V3 f c J1) as (I1 & (N1 & _) & _). destruct (V3 g c' J2) as (I2 & (N2 & _) & _).
  assert (E : c = c').
  { assert (EV : m_name (value_method c) = m_name (value_method c')) by (unfold value_method, by_value; cbn [m_name]; congruence). clear - ND I1 I2 EV.
    induction (t_columns t) as [|x cs IH]; [ contradiction | ]. cbn [map] in ND. inversion ND as [ | ? ? N ND' ]; subst.
    destruct I1 as [->|I1], I2 as [E|I2]; [ exact E | exfalso; apply N, in_map_iff; exists c'; split; [ symmetry; exact EV | exact I2 ] | subst x; exfalso; apply N, in_map_iff; exists c; split; [ exact EV | exact I1 ] | auto ]. }
  subst c'. eapply combine_left; [ eapply NoDup_map_inv; apply (wf_names t WF) | exact J1 | exact J2 ].
Qed.
(** A field of the struct itself called XValue or ColumnX has the name of a method for X: Go allows no field and method of one name. *)
Theorem C74_field_refuted ms f : user_ok user -> prefix = B "Column" -> gen_methods prefix strict user t = Ok ms -> In f (declared ds) -> has_column f ->
  forall g, In g (declared ds) -> length (f_paths g) = 1 -> f_name g = f_name f ++ B "Value" \/ f_name g = B "Column" ++ f_name f -> In (f_name g) (names ms).
Proof.
  intros UK PF G D H g _ _ E. apply (C74_names_partial ms UK G). rewrite PF. destruct E as [->| ->]; [ now apply gn_value | now apply gn_column ].
Qed.
(** The methods of the user that are not among the five are written again. *)
Theorem C74_own_refuted ms : gen_methods prefix strict user t = Ok ms -> keyed ds -> In (B "HasPK") (names ms) /\ In (B "FindOneByPKStmt") (names ms).
Proof.
  intros G K. apply pk_iff in K. unfold gen_methods in G. destruct (unless_own strict user (B "TableName") _); cbn [bind] in G; try discriminate. destruct (unless_own strict user (B "SQLColumns") _); cbn [bind] in G; try discriminate.
  destruct (unless_own strict user (B "Columns") _); cbn [bind] in G; try discriminate. destruct (if t_readonly t then Ok [] else _); cbn [bind] in G; try discriminate. destruct (unless_own strict user (B "Addrs") _); cbn [bind] in G; try discriminate.
  injection G as <-. unfold key_methods, statement_methods. rewrite K. split; apply in_map_iff; [ exists (by_value (B "HasPK")) | exists (by_value (B "FindOneByPKStmt")) ]; (split; [ reflexivity | ]); repeat rewrite in_app_iff; cbn [In]; auto 20.
Qed.
(** Without the strict setting, a method of the wrong type is passed over in silence, and no function that needs the right one takes the model. *)
Theorem C74_wrong_type_refuted : strict = false -> prefix = B "Column" -> user (B "Columns") = Wrong -> exists ms, gen_methods prefix strict user t = Ok ms /\
  forall d f, f <> QueryStmt -> f <> QueryOneStmt -> f <> DbTable -> ~ accepted d user ms f.
Proof.
  intros ST PF U. pose proof (methods_shape ltac:(rewrite ST; discriminate)) as G. eexists. split; [ exact G | ]. intros d f N1 N2 N3 [A _].
  assert (I : In (B "Columns") (fst (asks d f))) by (destruct f, d; try contradiction; cbn; auto 10). destruct (A _ I) as [J|[J _]]; [ | congruence ].
  apply in_app_or in J as [J|J].
  - unfold head in J. repeat (apply in_app_or in J as [J|J]); try (apply in_given in J as [UJ J]); try congruence.
    + destruct J as [J|[]]; discriminate.
    + unfold key_methods in J. destruct (has_pk t); [ | contradiction ]. destruct J as [J|J]; [ discriminate | ]. destruct (t_auto t); [ | destruct (t_keys t) as [|k1 [|k2 ks]] ]; repeat (destruct J as [J|J]; [ discriminate | ]); contradiction.
    + unfold sql_columns_method in J. destruct (existsb _ _); [ destruct J as [J|[]]; discriminate | contradiction ].
    + destruct (t_readonly t); [ contradiction | ]. apply in_given in J as [_ J]. unfold values_method in J. destruct (insert_columns t); [ contradiction | destruct J as [J|[]]; discriminate ].
    + destruct J as [J|[]]; discriminate.
    + unfold insert_methods in J. destruct (t_readonly t); [ contradiction | ]. destruct (insert_columns t); [ contradiction | ]. apply in_app_or in J as [J|J]; [ destruct (Nat.eqb _ _); [ contradiction | destruct J as [J|[]]; discriminate ] | ].
      destruct J as [J|[J|[]]]; discriminate.
    + unfold statement_methods in J. destruct (has_pk t); [ | contradiction ]. destruct J as [J|J]; [ discriminate | ]. destruct (t_readonly t); [ contradiction | ]. destruct (columns_without_pk t); [ contradiction | destruct J as [J|[]]; discriminate ].
  - destruct view as (gs & CO & F2 & WF & V1 & V2 & V3). apply in_app_or in J as [J|J]; apply in_map_iff in J as (c & E & Ic).
    + unfold value_method, by_value in E. injection E as E. apply (f_equal (@rev _)) in E. rewrite rev_app_distr in E. cbn in E. discriminate.
    + unfold column_method, by_value in E. injection E as E. rewrite PF in E. destruct (V2 c Ic) as [g Jg]. destruct (V3 g c Jg) as (_ & (GN & _) & _). destruct (proj2 (V1 g) (ex_intro _ c Jg)) as [D H].
      destruct ASCII as (_ & _ & AF). rewrite Forall_forall in AF. destruct (AF g D) as (_ & C & _). apply (fixed_not_column (f_name g)); [ apply C, H | ]. rewrite <- GN, E. unfold fixed_names. cbn [app In]. auto 20.
Qed.
End Methods.
Print Assumptions C74_names_partial.
Print Assumptions C74_accepted_partial.
Print Assumptions C74_distinct_partial.
Print Assumptions C74_no_values_refuted.
Print Assumptions C74_embedded_refuted.
Print Assumptions C74_field_refuted.
Print Assumptions C74_own_refuted.
Print Assumptions C74_wrong_type_refuted.

(** ** Cases *)
Definition nothing : bytes -> own := fun _ => Missing.
Example C74_case : user_ok nothing /\ ascii_source (B "Member") member /\
  exists t ms, parse_struct isort (rename_func (B "snake_case")) stored taken (B "Member") None member = Ok (Some t) /\ gen_methods (B "Column") false nothing t = Ok ms /\
  map m_name ms = [B "TableName"; B "HasPK"; B "IsAutoIncr"; B "ScanAutoIncr"; B "PK"; B "Columns"; B "Values"; B "Addrs"; B "InsertColumns"; B "InsertPlaceholders"; B "InsertOneStmt"; B "FindOneByPKStmt"; B "UpdateOneByPKStmt";
    B "IDValue"; B "CreatedAtValue"; B "RefValue"; B "FirstNameValue"; B "LastNameValue"; B "ColumnID"; B "ColumnCreatedAt"; B "ColumnRef"; B "ColumnFirstName"; B "ColumnLastName"] /\ accepted DPostgres nothing ms UpsertOne.
Proof.
  split; [ split; [ discriminate | discriminate ] | ]. split; [ apply C17_case | ]. eexists _, _. split; [ vm_compute; reflexivity | ]. split; [ vm_compute; reflexivity | ]. split; [ reflexivity | ].
  assert (FI : forall (P : bytes -> Prop) l, Forall P l -> forall n, In n l -> P n) by (intros P l F n I; rewrite Forall_forall in F; auto). unfold accepted. split; apply FI; cbn.
  - repeat (apply Forall_cons; [ left; cbn; auto 40 | ]). constructor.
  - repeat (apply Forall_cons; [ left; match goal with |- exists m, _ /\ _ = ?n => first [ exists (by_value n); solve [ split; [ cbn; auto 40 | reflexivity ] ] | exists (by_pointer n); solve [ split; [ cbn; auto 40 | reflexivity ] ] ] end | ]). constructor.
Qed.
(** A read-only model with a key; a model with nothing but a generated key; two embedded addresses *)
Definition view_of : list decl := [Names [(B "ID", true)] {| ty_base := B "int64"; ty_ptr := 0 |} (B ",pk"); Names [(B "Total", true)] text []].
Definition counter : list decl := [Names [(B "ID", true)] {| ty_base := B "int64"; ty_ptr := 0 |} (B ",auto_increment")].
Definition order_decl : list decl :=
  [Names [(B "ID", true)] {| ty_base := B "int64"; ty_ptr := 0 |} (B ",pk"); embedded (B "Billing") [Names [(B "Street", true)] text (B "billing_street")]; embedded (B "Shipping") [Names [(B "Street", true)] text (B "shipping_street")]].
Example C74_wrong_cases :
  (exists t ms, parse_struct isort (rename_func (B "snake_case")) taken taken (B "Summary") (Some (B "+sql:readonly")) view_of = Ok (Some t) /\ t_readonly t = true /\ gen_methods (B "Column") false nothing t = Ok ms /\
     map m_name ms = [B "TableName"; B "HasPK"; B "PK"; B "Columns"; B "Addrs"; B "FindOneByPKStmt"; B "IDValue"; B "TotalValue"; B "ColumnID"; B "ColumnTotal"]) /\
  (exists t ms, parse_struct isort (rename_func (B "snake_case")) taken taken (B "Counter") None counter = Ok (Some t) /\ gen_methods (B "Column") false nothing t = Ok ms /\
     map m_name ms = [B "TableName"; B "HasPK"; B "IsAutoIncr"; B "ScanAutoIncr"; B "PK"; B "Columns"; B "Addrs"; B "FindOneByPKStmt"; B "IDValue"; B "ColumnID"]) /\
  (exists t ms f g, parse_struct isort (rename_func (B "snake_case")) taken taken (B "Order") None order_decl = Ok (Some t) /\ gen_methods (B "Column") true nothing t = Ok ms /\
     In f (declared order_decl) /\ In g (declared order_decl) /\ f <> g /\ f_name f = f_name g /\ map c_name (t_columns t) = [B "id"; B "billing_street"; B "shipping_street"]).
Proof.
  split; [ eexists _, _; split; [ vm_compute; reflexivity | split; [ reflexivity | split; [ vm_compute; reflexivity | reflexivity ] ] ] | ].
  split; [ eexists _, _; split; [ vm_compute; reflexivity | split; [ vm_compute; reflexivity | reflexivity ] ] | ].
  eexists _, _, (field_at [(B "Billing", false)] (B "Street") text true false (B "billing_street")), (field_at [(B "Shipping", false)] (B "Street") text true false (B "shipping_street")).
  split; [ vm_compute; reflexivity | split; [ vm_compute; reflexivity | ] ]. split; [ cbn; auto 10 | ]. split; [ cbn; auto 10 | ]. split; [ discriminate | ]. split; reflexivity.
Qed.
