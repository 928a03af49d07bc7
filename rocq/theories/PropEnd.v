(** C16, C17, C21: from the declarations of a struct to what the generated methods hold. *)
From Coq Require Import Permutation Sorted.
From Verif Require Import Base ModelStrconv ModelCompiler ModelNaming ModelParser ModelGen SpecSql SpecGo SpecGen SpecParser SpecEnd
  LemmasBase LemmasSql LemmasSql2 LemmasSql3 LemmasCompiler LemmasParser LemmasTag LemmasGen LemmasGen2 LemmasGen3 PropNaming PropParser PropGen.

(** ** Names *)
Lemma word_plain c : letter c \/ digit c \/ c = "_"%char -> plain_char c.
Proof.
  intros H. split; [ | split; [ | split ] ]; try (intros ->); unfold letter, digit in H.
  - destruct H as [ [H|H] | [H | ->] ]; [ lia | lia | lia | vm_compute; split; discriminate ].
  - destruct H as [ [H|H] | [H|H] ]; [ change (code dquote) with 34%N in H; lia | change (code dquote) with 34%N in H; lia | change (code dquote) with 34%N in H; lia | discriminate ].
  - destruct H as [ [H|H] | [H|H] ]; [ change (code backtick) with 96%N in H; lia | change (code backtick) with 96%N in H; lia | change (code backtick) with 96%N in H; lia | discriminate ].
  - destruct H as [ [H|H] | [H|H] ]; [ change (code backslash) with 92%N in H; lia | change (code backslash) with 92%N in H; lia | change (code backslash) with 92%N in H; lia | discriminate ].
Qed.
Lemma ascii_identifier s : ascii_name s -> PropNaming.identifier s.
Proof. intros [N F]. split; [ exact N | ]. exact F. Qed.
Lemma rename_plain conv s : ascii_name s -> Forall plain_char (rename_func conv s).
Proof.
  intros A. unfold rename_func. destruct (bseq conv (B "snake_case")).
  - destruct (C45_snake_characters_partial s (ascii_identifier s A)) as [_ F]. eapply Forall_impl; [ | exact F ]. intros c H. apply word_plain. unfold snake_char, lower_letter in H. unfold letter. tauto.
  - assert (C : forall i, Forall plain_char (camel_init s i)).
    { intros i. eapply Forall_impl; [ | apply C63_camel_characters_partial ]. intros c H. apply word_plain. unfold alnum in H. tauto. }
    destruct (bseq conv (B "camelCase")); [ apply C | ]. destruct (bseq conv (B "PascalCase")); [ apply C | ].
    destruct A as [_ F]. eapply Forall_impl; [ | exact F ]. intros c H. now apply word_plain.
Qed.
Lemma rename_nonempty conv s : ascii_name s -> capitalised s -> rename_func conv s <> [].
Proof.
  intros A C. unfold rename_func. destruct (bseq conv (B "snake_case")); [ apply (C45_snake_characters_partial s (ascii_identifier s A)) | ].
  assert (N : forall i, camel_init s i <> []).
  { intros i. apply C63_camel_nonempty_partial; [ now apply ascii_identifier | ]. destruct C as (c & r & -> & H). constructor. left. left. exact H. }
  destruct (bseq conv (B "camelCase")); [ apply N | ]. destruct (bseq conv (B "PascalCase")); [ apply N | ]. destruct C as (c & r & -> & _). discriminate.
Qed.
Lemma good_plain n : good_name n -> Forall (fun c => (code c < 128)%N) n -> plain_name n.
Proof.
  intros (c & r & E & _ & _ & W) F. split; [ rewrite E; discriminate | ]. clear E c r. induction W as [ | c r H W IH | a b r H1 H2 W IH | a b c r H1 H2 H3 W IH ]; [ constructor | | | ].
  - inversion F; subst. constructor; [ now apply word_plain | now apply IH ].
  - inversion F; subst. lia.
  - inversion F; subst. lia.
Qed.

Section Tables.
Variables (conv : bytes) (wrap unwrap : gotype -> bytes * bytes).
Notation rename := (rename_func conv).
(** What holds of the table while its fields are read *)
Let fine (t : table) : Prop :=
  plain_name (t_name t) /\ forall c, In c (t_columns t) -> plain_name (c_name c) /\ c_wrap c = wrap (c_type c) /\ c_unwrap c = unwrap (c_type c).
Lemma tag_chars tag p ps n : tag_parts tag (p :: ps) -> trimmed p n -> Forall (fun c => (code c < 128)%N) tag -> Forall (fun c => (code c < 128)%N) n.
Proof.
  intros (_ & _ & J) (a & b & -> & _) F. rewrite <- J in F. assert (G : Forall (fun c => (code c < 128)%N) (a ++ n ++ b)) by (destruct ps as [|q ps]; cbn [join] in F; [ exact F | rewrite Forall_app in F; apply F ]).
  rewrite !Forall_app in G. apply G.
Qed.
Lemma read_tag_plain f n opts : ascii_field f -> read_tag rename f = Ok (Named n opts) -> Forall plain_char n /\ (f_exported f = true -> n <> []).
Proof.
  intros (A & X & T) R.
  assert (RN : Forall plain_char (rename (f_name f)) /\ (f_exported f = true -> rename (f_name f) <> [])) by (split; [ now apply rename_plain | intros E; apply rename_nonempty; auto ]).
  unfold read_tag in R. destruct (f_tag f) as [|c0 r0] eqn:ET; [ injection R as <- _; exact RN | ]. rewrite <- ET in *.
  pose proof (split_pieces "," (f_tag f)) as FP. pose proof (split_join "," (f_tag f)) as SJ. destruct (split_byte "," (f_tag f)) as [|p rest] eqn:ES; [ injection R as <- _; exact RN | ].
  assert (TP : tag_parts (f_tag f) (p :: rest)) by (split; [ discriminate | split; [ exact FP | exact SJ ] ]).
  pose proof (tag_chars _ _ _ _ TP (trim_trimmed p) T) as FC.
  destruct (bseq (trim_space p) (B "-")); [ discriminate | ]. destruct (trim_space p) as [|c r] eqn:EN; [ injection R as <- _; exact RN | ].
  destruct (name_regex (c :: r)) eqn:NR; [ | discriminate ]. injection R as <- _. apply name_regex_iff in NR. destruct (good_plain _ NR FC) as [P1 P2]. split; [ exact P2 | now intros _ ].
Qed.
Lemma add_field_fine t f t' : ascii_field f -> fine t -> add_field rename wrap unwrap t f = Ok t' -> fine t'.
Proof.
  intros A [FT FC] E. unfold add_field in E. destruct (Nat.ltb 1 (ty_ptr (f_type f))); [ discriminate | ].
  destruct (read_tag rename f) as [ [ | n opts ] | | ] eqn:R; cbn [bind] in E; try discriminate; [ injection E as <-; now split | ].
  destruct (read_tag_plain f n opts A R) as [PC NE]. destruct (Nat.eqb _ 0 && _).
  - injection E as <-. destruct n as [|c r]; [ now split | ]. split; [ split; [ discriminate | exact PC ] | exact FC ].
  - destruct (f_exported f) eqn:EX; cbn [negb] in E; [ | injection E as <-; now split ]. destruct (f_embedded f); [ injection E as <-; now split | ]. destruct (bmem _ _); [ discriminate | ].
    assert (G : forall c0 c, (c_name c0 = n /\ c_wrap c0 = wrap (f_type f) /\ c_unwrap c0 = unwrap (f_type f) /\ c_type c0 = f_type f) -> In c (t_columns t ++ [c0]) -> plain_name (c_name c) /\ c_wrap c = wrap (c_type c) /\ c_unwrap c = unwrap (c_type c)).
    { intros c0 c (H1 & H2 & H3 & H4) I. apply in_app_or in I as [ I | [ <- | [] ] ]; [ now apply FC | ]. rewrite H1, H2, H3, H4. split; [ split; [ now apply NE | exact PC ] | auto ]. }
    destruct (has_opts _ _) in E.
    + destruct (has_opts _ [B "auto_increment"]) in E; [ destruct (t_auto t); [ discriminate | ] | ]; (cbn [c_readonly] in E; destruct (has_opts _ [B "readonly"]) eqn:RO in E; [ discriminate | ]); injection E as <-; (split; [ exact FT | ]); cbn [t_columns]; intros c I; (eapply G; [ | exact I ]); repeat split.
    + injection E as <-. split; [ exact FT | ]. cbn [t_columns]. intros c I. eapply G; [ | exact I ]. repeat split.
Qed.
Lemma add_fields_fine fs : forall t t', Forall ascii_field fs -> fine t -> add_fields rename wrap unwrap t fs = Ok t' -> fine t'.
Proof.
  induction fs as [|f fs IH]; intros t t' A FT E; [ injection E as <-; exact FT | ]. cbn [add_fields] in E. inversion A; subst.
  destruct (add_field rename wrap unwrap t f) as [t1| |] eqn:E1; cbn [bind] in E; try discriminate. eapply IH; [ eassumption | | exact E ]. eapply add_field_fine; eassumption.
Qed.
Lemma built_fine name ro fs t : ascii_name name -> capitalised name -> Forall ascii_field fs -> build_table rename wrap unwrap name ro fs = Ok t -> fine t.
Proof.
  intros A C F E. eapply add_fields_fine; [ exact F | | exact E ]. split; [ split; [ now apply rename_nonempty | now apply rename_plain ] | intros c [] ].
Qed.
End Tables.

(** ** Lists in step *)
Lemma combine_filter {A B} (R : A -> B -> Prop) (P : A -> Prop) (p : B -> bool) gs cs :
  Forall2 R gs cs -> (forall f c, In (f, c) (combine gs cs) -> (p c = true <-> P f)) ->
  exists hs, selects P gs hs /\ Forall2 R hs (filter p cs).
Proof.
  induction 1 as [|f c gs cs H F IH]; intros E; [ exists []; split; constructor | ]. destruct IH as (hs & S1 & F1); [ intros x y I; apply E; now right | ].
  pose proof (E f c (or_introl eq_refl)) as Ec. cbn [filter]. destruct (p c).
  - exists (f :: hs). split; [ constructor; [ now apply Ec | exact S1 ] | now constructor ].
  - exists hs. split; [ constructor; [ intros X; apply Ec in X; discriminate | exact S1 ] | exact F1 ].
Qed.
Lemma combine_left {A B} (gs : list A) (cs : list B) f g c : NoDup cs -> In (f, c) (combine gs cs) -> In (g, c) (combine gs cs) -> f = g.
Proof.
  revert cs. induction gs as [|x gs IH]; intros [|y cs] D I J; cbn [combine In] in *; try contradiction. apply NoDup_cons_iff in D. destruct D as [N D].
  destruct I as [ E | I ], J as [ E' | J ].
  - congruence.
  - injection E as -> ->. exfalso. apply N. eapply in_combine_r. exact J.
  - injection E' as -> ->. exfalso. apply N. eapply in_combine_r. exact I.
  - eapply IH; eassumption.
Qed.
Lemma forall2_in {A B} (R : A -> B -> Prop) gs cs f c : Forall2 R gs cs -> In (f, c) (combine gs cs) -> R f c.
Proof. induction 1 as [|x y gs cs H F IH]; cbn [combine In]; [ intros [] | ]. intros [ [= <- <-] | I ]; auto. Qed.
Lemma selects_In {A} (P : A -> Prop) l m x : selects P l m -> (In x m <-> In x l /\ P x).
Proof. induction 1 as [ | y l m H S IH | y l m H S IH ]; cbn [In]; [ tauto | | ]; rewrite IH; split; intuition; subst; tauto. Qed.

Section End_to_end.
Context {V : Type}.
Variables (printable : N -> bool) (d : driver) (conv : bytes) (wrap unwrap : gotype -> bytes * bytes).
Variable sort : list (list nat * sfield) -> list (list nat * sfield).
Variables (name : bytes) (doc : option bytes) (ds : list decl) (t : table).
Notation rename := (rename_func conv).
Notation fl := (flavour_of d).
Hypothesis SORT : sorts sort.
Hypothesis ASCII : ascii_source name ds.
Hypothesis PARSED : parse_struct sort rename wrap unwrap name doc ds = Ok (Some t).

Lemma parsed_view : exists gs fs ro, build_table rename wrap unwrap name ro fs = Ok t /\ column_fields rename ds gs (map c_name (t_columns t)) /\ Forall2 (column_for rename) gs (t_columns t) /\ wf t /\
  plain_name (t_name t) /\ (forall c, In c (t_columns t) -> plain_name (c_name c) /\ c_wrap c = wrap (c_type c) /\ c_unwrap c = unwrap (c_type c)) /\
  (forall f c, In (f, c) (combine gs (t_columns t)) -> (c_readonly c = true <-> readonly_field f) /\ (t_auto t = Some c <-> auto_field f) /\ (In c (t_keys t) <-> key_field f)).
Proof.
  destruct ASCII as (A1 & A2 & A3). destruct (parse_table sort rename wrap unwrap name doc ds t SORT PARSED) as (fs & F & P & _ & (gs & ks & SE & F2 & KS & KE & AU) & WF).
  assert (BT : exists ro, build_table rename wrap unwrap name ro fs = Ok t).
  { unfold parse_struct in PARSED. destruct (annotated doc ds) as [ro|]; [ | discriminate ]. rewrite F in PARSED. exists ro.
    destruct (build_table rename wrap unwrap name ro fs) as [t0| |]; cbn [bind] in PARSED; try discriminate. destruct (t_columns t0); [ discriminate | congruence ]. }
  destruct BT as [ro BT]. pose proof (built_fine conv wrap unwrap name ro fs t A1 A2 ltac:(eapply Permutation_Forall; [ symmetry; exact P | exact A3 ]) BT) as [PT PC].
  assert (ND : NoDup (t_columns t)) by (eapply NoDup_map_inv; apply (wf_names t WF)).
  exists gs, fs, ro. split; [ exact BT | ]. split; [ | split; [ exact F2 | split; [ exact WF | split; [ exact PT | split; [ exact PC | ] ] ] ] ].
  - split; [ | split; [ | apply (wf_names t WF) ] ].
    + intros f. rewrite (selects_In _ _ _ f SE). split; intros [I H]; (split; [ eapply Permutation_in; [ | exact I ]; (exact P || (symmetry; exact P)) | exact H ]).
    + clear - F2. induction F2 as [|f c gs cs H F2 IH]; [ constructor | ]. cbn [map]. constructor; [ apply H | exact IH ].
  - intros f c I. pose proof (forall2_in _ _ _ f c F2 I) as CF. split; [ apply CF | ]. split.
    + rewrite AU. split; [ intros (g & J & H); rewrite (combine_left gs (t_columns t) f g c ND I J); exact H | intros H; exists f; auto ].
    + rewrite KE, in_map_iff. split.
      * intros ((g & c') & E & J). cbn in E. subst c'. apply (selects_In _ _ _ (g, c) KS) in J as [J H]. rewrite (combine_left gs (t_columns t) f g c ND I J). exact H.
      * intros H. exists (f, c). split; [ reflexivity | ]. apply (selects_In _ _ _ (f, c) KS). auto.
Qed.
Lemma paths_of gs cs : Forall2 (column_for rename) gs cs -> map c_gopath cs = map field_path gs.
Proof. induction 1 as [|f c gs cs H F IH]; [ reflexivity | ]. cbn [map]. f_equal; [ apply H | exact IH ]. Qed.
Lemma names_of gs cs : Forall2 (column_for rename) gs cs -> Forall2 (column_name rename) gs (map c_name cs).
Proof. induction 1 as [|f c gs cs H F IH]; [ constructor | ]. cbn [map]. constructor; [ apply H | exact IH ]. Qed.
Lemma inserted_view gs : wf t -> Forall2 (column_for rename) gs (t_columns t) ->
  (forall f c, In (f, c) (combine gs (t_columns t)) -> (c_readonly c = true <-> readonly_field f) /\ (t_auto t = Some c <-> auto_field f) /\ (In c (t_keys t) <-> key_field f)) ->
  exists hs, selects insert_field gs hs /\ Forall2 (column_for rename) hs (insert_columns t).
Proof.
  intros WF F2 RO. apply combine_filter; [ exact F2 | ]. intros f c I. destruct (RO f c I) as (H1 & H2 & _). pose proof (is_auto_spec t c WF (in_combine_r _ _ _ _ I)) as H3. unfold insert_field. rewrite <- H1, <- H2, <- H3.
  destruct (c_readonly c), (is_auto t c); cbn; intuition congruence.
Qed.
Lemma updated_view gs : wf t -> Forall2 (column_for rename) gs (t_columns t) ->
  (forall f c, In (f, c) (combine gs (t_columns t)) -> (c_readonly c = true <-> readonly_field f) /\ (t_auto t = Some c <-> auto_field f) /\ (In c (t_keys t) <-> key_field f)) ->
  exists us, selects update_field gs us /\ Forall2 (column_for rename) us (columns_without_pk t).
Proof.
  intros WF F2 RO. apply combine_filter; [ exact F2 | ]. intros f c I. destruct (RO f c I) as (H1 & H2 & H3). pose proof (columns_without_pk_spec t c WF) as H4. unfold columns_without_pk in H4. rewrite filter_In in H4.
  pose proof (in_combine_r _ _ _ _ I) as Ic. unfold updatable, is_key in H4. unfold update_field. rewrite <- H1, <- H2, <- H3. split.
  - intros E. destruct (proj1 H4 (conj Ic E)) as (_ & X & Y). rewrite X. intuition congruence.
  - intros (X & Y & Z). apply H4. split; [ exact Ic | ]. split; [ destruct (c_readonly c); [ now destruct X | reflexivity ] | tauto ].
Qed.
Lemma literal_ok on cs : (forall c, In c cs -> plain_name (c_name c)) -> Forall2 (literal_names (V:=V) d on) (map (fun c => gen_quote d (quote_id printable d on (c_name c))) cs) (map c_name cs).
Proof.
  induction cs as [|c cs IH]; intros PN; cbn [map]; constructor; [ | apply IH; intros x I; apply PN; now right ].
  pose proof (PN c (or_introl eq_refl)) as P. exists (quote_id printable d on (c_name c)). split.
  - apply gen_quote_literal. destruct on; [ apply lit_id; exact P | ]. destruct P as [_ P]. eapply Forall_impl; [ | exact P ]. intros; apply plain_literal; assumption.
  - split; intros ->; [ reflexivity | ]. eapply reads_lex. apply reads_id. exact P.
Qed.

(** ** C16 *)
Theorem C16_alignment quoted : exists gs ns hs ms, column_fields rename ds gs ns /\
  Forall2 (literal_names (V:=V) d quoted) (gen_columns printable d quoted t) ns /\ map c_gopath (gen_addrs t) = map field_path gs /\
  selects insert_field gs hs /\ Forall2 (column_name rename) hs ms /\
  Forall2 (literal_names (V:=V) d quoted) (gen_insert_columns printable d quoted t) ms /\ map c_gopath (gen_values t) = map field_path hs.
Proof.
  destruct parsed_view as (gs & fs & ro & BT & CO & F2 & WF & PT & PC & RO). destruct (inserted_view gs WF F2 RO) as (hs & SH & FH).
  exists gs, (map c_name (t_columns t)), hs, (map c_name (insert_columns t)). split; [ exact CO | ]. split; [ apply literal_ok; intros c I; apply (PC c I) | ]. split; [ apply paths_of, F2 | ].
  split; [ exact SH | ]. split; [ apply names_of, FH | ]. split; [ apply literal_ok; intros c I; apply (PC c); now apply insert_incl | ]. apply paths_of, FH.
Qed.

(** ** C17, C21 *)
Variables (before after : gotype -> list (tok V)) (item : gotype -> bytes -> list (tok V)).
Hypothesis FUNCTIONS : sql_functions d wrap unwrap before after item.
Variables (own : bool) (tn : bytes) (q : list bytes).
Hypothesis TABLE : table_of (V:=V) d own t tn q.

Lemma view_readable : (forall c, In c (t_columns t) -> plain_name (c_name c) /\ c_wrap c = wrap (c_type c) /\ c_unwrap c = unwrap (c_type c)) ->
  readable d t (fun c => before (c_type c)) (fun c => after (c_type c)) (fun c => item (c_type c) (c_name c)).
Proof. intros PC c I. destruct (PC c I) as (P & W & U). split; [ exact P | split; [ now apply FUNCTIONS | now apply FUNCTIONS ] ]. Qed.
Lemma view_addresses : plain_name (t_name t) -> addresses (V:=V) d own t tn q.
Proof. intros P. unfold addresses. unfold table_of in TABLE. destruct own; [ exact TABLE | split; [ exact P | exact TABLE ] ]. Qed.
Lemma held gs cs (r : bytes -> V) : Forall2 (column_for rename) gs cs ->
  map (fun c => r (c_gopath c)) cs = map (fun f => r (field_path f)) gs /\
  map (holding (fun c => before (c_type c)) (fun c => after (c_type c)) (fun c => r (c_gopath c))) cs = map (fun f => before (f_type f) ++ Val (r (field_path f)) :: after (f_type f)) gs /\
  map (fun c => item (c_type c) (c_name c)) cs = map (fun p => item (f_type (fst p)) (snd p)) (combine gs (map c_name cs)).
Proof.
  induction 1 as [|f c gs cs H F (I1 & I2 & I3)]; [ auto | ]. destruct H as (_ & H2 & H3 & _). cbn [map combine]. rewrite I1, I2, I3. unfold holding. rewrite H2, H3. auto.
Qed.

(** The insert names the columns of the fields that are neither read-only nor generated, and each gets the value of its field.
    There is one unless the model is read-only or has no such field. *)
Theorem C17_insert_one :
  (forall ps cols, gen_insert_one printable d own t = Some (ps, cols) ->
   exists gs ns hs ms text, column_fields rename ds gs ns /\ selects insert_field gs hs /\ Forall2 (column_name rename) hs ms /\ NoDup ms /\
   map c_gopath cols = map field_path hs /\ eval_pieces tn ps = Some text /\
   forall r : bytes -> V,
     read fl text (map (fun f => r (field_path f)) hs)
     = Some (Insert q ms [map (fun f => before (f_type f) ++ Val (r (field_path f)) :: after (f_type f)) hs] Fail
               (match d with DPostgres => map (fun p => item (f_type (fst p)) (snd p)) (combine gs ns) | _ => [] end))) /\
  (t_readonly t = false -> (exists f, In f (declared ds) /\ has_column f /\ insert_field f) -> gen_insert_one printable d own t <> None).
Proof.
  destruct parsed_view as (gs & fs & ro & BT & CO & F2 & WF & PT & PC & RO). destruct (inserted_view gs WF F2 RO) as (hs & SH & FH). split.
  - intros ps cols G. destruct (C17_insert_one_of_tables printable rename wrap unwrap name ro fs t BT d _ _ _ (view_readable PC) own tn q (view_addresses PT) ps cols G) as (H1 & _ & H3 & text & E & R).
    assert (EC : cols = insert_columns t) by (unfold gen_insert_one in G; destruct (t_readonly t); [ discriminate | ]; destruct (insert_columns t); [ discriminate | ]; injection G as _ <-; reflexivity). subst cols.
    exists gs, (map c_name (t_columns t)), hs, (map c_name (insert_columns t)), text. split; [ exact CO | ]. split; [ exact SH | ]. split; [ now apply names_of | ]. split; [ exact H3 | ]. split; [ now apply paths_of | ]. split; [ exact E | ].
    intros r. specialize (R r). destruct (held hs _ r FH) as (K1 & K2 & _). destruct (held gs _ r F2) as (_ & _ & K3). rewrite K1, K2 in R. rewrite R. rewrite <- K3. reflexivity.
  - intros R0 (f & I & HC & IF). unfold gen_insert_one. rewrite R0. assert (J : In f gs) by (apply CO; auto). assert (K : In f hs) by (apply (selects_In _ _ _ f SH); auto).
    destruct (insert_columns t); [ inversion FH; subst; contradiction | discriminate ].
Qed.
(** The update assigns the columns of the fields that are neither read-only nor part of the key, each once, and no other. *)
Theorem C21_update_columns ps cols : gen_update_by_pk printable d own t = Some (ps, cols) ->
  exists gs ns text sets wh, column_fields rename ds gs ns /\ eval_pieces tn ps = Some text /\
  parse fl (lex (V:=V) fl text) = Some (Update q sets (Some wh) [] None) /\ NoDup (map fst sets) /\
  exists us, selects update_field gs us /\ Forall2 (column_name rename) us (map fst sets).
Proof.
  intros G. destruct parsed_view as (gs & fs & ro & BT & CO & F2 & WF & PT & PC & RO). destruct (updated_view gs WF F2 RO) as (us & SU & FU).
  pose proof (view_readable PC) as RD. pose proof (view_addresses PT) as AD.
  unfold gen_update_by_pk in G. destruct (has_pk t) eqn:HP; [ | discriminate ]. destruct (negb (t_readonly t)); [ | discriminate ]. cbn [andb] in G.
  destruct (columns_without_pk t) as [|c0 l0] eqn:E; [ discriminate | ]. rewrite <- E in G, FU. inversion G; subst ps cols; clear G.
  assert (W : forall c, In c (t_columns t) -> wrapped d c (before (c_type c)) (after (c_type c))) by (intros c I; apply (RD c I)).
  assert (SL : forall c, In c (t_columns t) -> selected d c (item (c_type c) (c_name c))) by (intros c I; apply (RD c I)).
  assert (PN : forall c, In c (t_columns t) -> plain_name (c_name c)) by (intros c I; apply (RD c I)).
  edestruct (update_parse printable d t (fun c => before (c_type c)) (fun c => after (c_type c))) as (sets & wh & P & F); eauto; [ exact SL | rewrite E; discriminate | ].
  exists gs, (map c_name (t_columns t)), (B "UPDATE " ++ table_text printable d t own tn ++ update_body printable d t), sets, wh. split; [ exact CO | ]. split; [ | split; [ exact P | split ] ].
  - refine (eval_three printable d t own tn q AD (B "UPDATE ") (update_body printable d t) _ _); [ apply lit_const; clear; destruct d; reflexivity | ]. eapply lit_update_body; eauto; first [ exact W | exact SL ].
  - rewrite F. apply NoDup_filter_map, (wf_names t WF).
  - exists us. split; [ exact SU | ]. rewrite F. now apply names_of.
Qed.
End End_to_end.
Print Assumptions C16_alignment.
Print Assumptions C17_insert_one.
Print Assumptions C21_update_columns.

(** ** A case: an embedded struct, a generated key, a read-only column, a column behind a function, a renamed and a left-out field *)
Definition uuid_type : gotype := {| ty_base := B "uuid"; ty_ptr := 0 |}.
Definition stored (g : gotype) : bytes * bytes := if bseq (ty_base g) (B "uuid") then (B "uuid_to_bin(", B ")") else ([], []).
Definition taken (g : gotype) : bytes * bytes := ([], []).
Definition member : list decl :=
  [Names [(B "ID", true)] {| ty_base := B "int64"; ty_ptr := 0 |} (B ",auto_increment");
   embedded (B "Model") [Names [(B "CreatedAt", true)] text (B ",readonly"); Names [(B "secret", false)] text []; Names [(B "Hidden", true)] text (B "-")];
   Names [(B "Ref", true)] uuid_type (B "ref_no");
   Names [(B "FirstName", true); (B "LastName", true)] text []].
Lemma ascii_field_by f : (match f_name f with [] => false | _ => true end && forallb (fun c => in_range 65 90 c || in_range 97 122 c || in_range 48 57 c || beq c "_") (f_name f) &&
  (negb (f_exported f) || match f_name f with c :: _ => in_range 65 90 c | [] => false end) && forallb (fun c => N.ltb (code c) 128) (f_tag f)) = true -> ascii_field f.
Proof.
  assert (RG : forall a b c, in_range a b c = true -> (a <= code c <= b)%N) by (intros a b c H; unfold in_range in H; apply andb_prop in H as [H1 H2]; apply N.leb_le in H1, H2; lia).
  intros H. apply andb_prop in H as [H H4]. apply andb_prop in H as [H H3]. apply andb_prop in H as [H1 H2]. split; [ split | split ].
  - destruct (f_name f); discriminate.
  - apply Forall_forall. intros c I. rewrite forallb_forall in H2. specialize (H2 c I). rewrite !orb_true_iff in H2. unfold letter, digit. destruct H2 as [ [ [ H2 | H2 ] | H2 ] | H2 ]; [ apply RG in H2; auto | apply RG in H2; auto | apply RG in H2; auto | apply beq_eq in H2; auto ].
  - intros E. rewrite E in H3. cbn in H3. destruct (f_name f) as [|c r]; [ discriminate | ]. exists c, r. split; [ reflexivity | now apply RG ].
  - apply Forall_forall. intros c I. rewrite forallb_forall in H4. specialize (H4 c I). now apply N.ltb_lt in H4.
Qed.
Example C17_case : ascii_source (B "Member") member /\ sorts isort /\
  sql_functions (V:=nat) DMySQL stored taken (fun g => if bseq (ty_base g) (B "uuid") then [Name (B "uuid_to_bin"); Sym "("] else []) (fun g => if bseq (ty_base g) (B "uuid") then [Sym ")"] else []) (fun _ n => [Name n]) /\
  exists t ps cols, parse_struct isort (rename_func (B "snake_case")) stored taken (B "Member") None member = Ok (Some t) /\ table_of (V:=nat) DMySQL false t [] [B "member"] /\
  map c_name (t_columns t) = [B "id"; B "created_at"; B "ref_no"; B "first_name"; B "last_name"] /\
  gen_insert_one (fun _ => true) DMySQL false t = Some (ps, cols) /\ map c_gopath cols = [B ".Ref"; B ".FirstName"; B ".LastName"] /\
  eval_pieces [] ps = Some (B "INSERT INTO `member` (`ref_no`,`first_name`,`last_name`) VALUES (uuid_to_bin(?),?,?);") /\
  exists ps2 cols2, gen_update_by_pk (fun _ => true) DMySQL false t = Some (ps2, cols2).
Proof.
  split; [ split; [ split; [ discriminate | ] | split ] | ].
  - repeat (apply Forall_cons; [ left; unfold letter; cbn; lia | ]). constructor.
  - exists "M"%char, (B "ember"). split; [ reflexivity | cbn; lia ].
  - repeat (apply Forall_cons; [ apply ascii_field_by; reflexivity | ]). constructor.
  - split; [ exact isort_sorts | ]. split.
    + split.
      * intros c W. unfold stored in W. destruct (bseq (ty_base (c_type c)) (B "uuid")); [ | now apply wrapped_none ]. unfold wrapped. rewrite W. cbn [fst snd flavour_of placeholder].
        split; [ intros i; reflexivity | ]. split; [ reflexivity | ]. split; [ intros k [ H | [ H | [] ] ]; discriminate | ]. split; [ intros k [ H | [] ]; discriminate | ].
        split; [ intros [ H | [ H | [] ] ]; discriminate | ]. split; [ intros [ H | [] ]; discriminate | ]. split; apply lit_const; reflexivity.
      * intros c W P. now apply selected_none.
    + eexists _, _, _. split; [ vm_compute; reflexivity | ]. split; [ reflexivity | ]. split; [ reflexivity | ]. split; [ vm_compute; reflexivity | ]. split; [ reflexivity | ]. split; [ vm_compute; reflexivity | ]. eexists _, _. vm_compute. reflexivity.
Qed.
