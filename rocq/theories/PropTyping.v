(** C78: the expressions generated for a column compile, and database/sql takes them. *)
From Verif Require Import Base ModelStrconv ModelTypes ModelConfig ModelExpr ModelResolve ModelColumn LemmasBase PropConfig SpecSource LemmasSource SpecExpr LemmasExpr PropExpr SpecTyping LemmasTyping LemmasTyping2 LemmasTyping3 LemmasTyping4 LemmasTyping5 LemmasTyping6 LemmasTyping7 LemmasTyping8 LemmasTyping9.
Import ModelColumn.

(** The value of a column is written as an expression that is taken as an argument, when its type has a method Value or is one of those of
    [writes_well], no mapping is configured for it and the names in the file are usable.  What is missing: the types that are left out
    (see the refuted theorems below). *)
Theorem C78_value_partial P e load l d custom fuel parent f c t ch : proper P -> agrees e P -> ready P load l -> column_field P load l parent f c -> held c t ->
  method P t (B "Value") /\ (forall u, t <> TPointer u) \/ writes_well P d c t ->
  ~ In (type_string t) (map fst custom) ->
  getter_value d e custom fuel (parent ++ "."%char :: f) c = Some ch ->
  exists out l', render (own_path P) load l ch = Ok (out, l') /\ incl l l' /\ (usable P l' c -> good_expression P l' out (argument P)).
Proof.
  intros Pr Ag Rd Cf H Cw Nc G. destruct (value_chosen P e load l d custom fuel parent f c t ch Pr Ag Rd Cf H Cw Nc G) as (sh & K & _).
  exact (compiles_more P l c _ _ (fun _ => argument P) (fun ex ty X => proj2 X) K).
Qed.
(** Reading back: the same for the destinations, when the type has a method Scan, or the type it points to, or it is one of [reads_well]. *)
Theorem C78_scan_partial P e load l d custom fuel parent f c ch : proper P -> agrees e P -> ready P load l -> column_field P load l parent f c ->
  (exists t, held c t /\ method P (TPointer t) (B "Scan")) \/ reads_well P d c ->
  ~ In (type_string c) (map fst custom) ->
  scan_destination d e custom fuel (parent ++ "."%char :: f) c = Some ch ->
  exists out l', render (own_path P) load l ch = Ok (out, l') /\ incl l l' /\ (usable P l' c -> good_expression P l' out (destination P)).
Proof.
  intros Pr Ag Rd Cf Cw Nc G. assert (Ht : exists t, held c t) by (destruct c; [ .. | eexists; right; split; [ reflexivity | discriminate ] ]; eexists; first [ left; reflexivity | right; split; [ reflexivity | discriminate ] ]). destruct Ht as [t H].
  destruct (scan_chosen P e load l d custom fuel parent f c ch Pr Ag Rd Cf Cw Nc G t H) as [ [_ K] | (_ & sh & K & _) ]; exact (compiles_more P l c _ _ (fun _ => destination P) (fun ex ty X => proj2 X) K).
Qed.
Print Assumptions C78_value_partial.
Print Assumptions C78_scan_partial.

(** ** A program *)
Definition model_path : bytes := B "app/model".
Definition own (n : bytes) : gtype := TNamed model_path n [].
Definition prim_ (n : bytes) : gtype := TBasic n.
Definition fields0 : list (bytes * gtype) :=
  [(B "ID", TBasic (B "int64")); (B "Status", own (B "Status")); (B "Maybe", TPointer (TBasic (B "string"))); (B "Where", own (B "Point")); (B "Here", TPointer (own (B "Point")));
   (B "Hash", TArray 16 (TBasic (B "byte"))); (B "Words", TSlice (TBasic (B "string"))); (B "Extra", TMap (TBasic (B "string")) (TBasic (B "int"))); (B "At", TPointer time_type);
   (B "Tags", own (B "Tags")); (B "Key", TPointer (TArray 16 (TBasic (B "byte")))); (B "Lines", TPointer (TSlice (TBasic (B "string")))); (B "Deep", TPointer (TPointer (TBasic (B "int"))));
   (B "Parts", TSlice (TSlice (TBasic (B "byte")))); (B "Mood", TPointer (own (B "Status"))); (B "Initial", TBasic (B "rune"))].
Definition listed (t : gtype) : bool := match t with TNamed p n [_] => existsb (fun x => bseq (fst (fst x)) p && bseq (snd (fst x)) n) library | TNamed p n [] => bseq p model_path && bseq n (B "Point") | _ => false end.
Definition stands0 (p n : bytes) (args : list gtype) : shape :=
  if bseq n (B "Tags") then UOf (TSlice (TBasic (B "string"))) else if bseq n (B "Status") then UOf (TBasic (B "string")) else if bseq n (B "Model") then UStruct fields0 else UStruct [].
Definition P0 : program := {| own_path := model_path;
  declared := fun p n args => args = [] /\ (p = model_path /\ In n [B "Model"; B "Tags"; B "Status"; B "Point"] \/ p = B "time" /\ n = B "Time");
  stands_for := stands0;
  method := fun t m => m = B "Value" /\ listed t = true \/ m = B "Scan" /\ exists u, t = TPointer u /\ listed u = true;
  variables := fun x => if bseq x (B "v") then Some (TPointer (own (B "Model"))) else None |}.
Definition e0 : env := Env (fun p n args => match args with [t] => if listed (TNamed p n args) then UOf (TSlice t) else stands0 p n args | _ => stands0 p n args end) listed listed (fun _ => false) (fun _ => false).
Definition loads0 (p : bytes) : option bytes := if bseq p encoding_path then Some (B "encoding") else if bseq p sqltype_path then Some (B "sqltype") else if bseq p pgtype_path then Some (B "pgtype") else Some [].

Lemma word_of s : match s with c :: r => is_alpha c && forallb is_alnum r | [] => false end = true -> identifier s. Proof. apply ascii_word. Qed.
Lemma library_listed p n ks t : In (p, n, ks) library -> listed (TNamed p n [t]) = true.
Proof. intros I. cbn [listed]. apply existsb_exists. exists (p, n, ks). split; [ exact I | ]. cbn [fst snd]. now rewrite !bseq_refl. Qed.
Lemma listed_named t : listed t = true -> exists p n args, t = TNamed p n args. Proof. destruct t; try discriminate. eauto. Qed.
Lemma import_path_dec_app : import_path model_path /\ import_path (B "time").
Proof.
  assert (Lt : forall s, match s with c :: r => is_alpha c && forallb path_char r | [] => false end = true -> lettered s).
  { intros [|c r]; [ discriminate | ]. intros H. apply andb_prop in H as [H1 H2]. exists c, r. split; [ reflexivity | ]. split; [ now apply alpha_letter | ]. apply Forall_forall. intros x I. apply path_char_byte. rewrite forallb_forall in H2. now apply H2. }
  split; [ apply (path_more (B "app")); [ now apply Lt | ]; apply path_one; now apply Lt | apply path_one; now apply Lt ].
Qed.
Lemma proper0 : proper P0.
Proof.
  constructor.
  - intros p n args (-> & [ (-> & I) | (-> & ->) ]).
    + split; [ | split; [ | apply import_path_dec_app ] ]; cbn [In] in I; repeat (destruct I as [ <- | I ]; [ first [ now apply word_of | intros J; apply bmem_In in J; discriminate J ] | ]); destruct I.
    + split; [ now apply word_of | ]. split; [ intros J; apply bmem_In in J; discriminate J | apply import_path_dec_app ].
  - intros n args (-> & [ (_ & I) | (E & _) ]); [ | discriminate E ]. cbn [In] in I. repeat (destruct I as [ <- | I ]; [ split; [ reflexivity | intros J; apply bmem_In in J; discriminate J ] | ]). destruct I.
  - intros n I. cbn [variables P0]. destruct (bseq n (B "v")) eqn:E; [ | reflexivity ]. apply bseq_eq in E as ->. apply bmem_In in I. discriminate I.
  - intros n ks I. assert (F : forallb (fun x => negb (bseq (fst (fst x)) model_path)) library = true) by (vm_compute; reflexivity). rewrite forallb_forall in F. specialize (F _ I). cbn [fst own_path P0] in F. rewrite bseq_refl in F. discriminate.
  - intros p n args u (-> & D) E. cbn [stands_for P0] in E. unfold stands0 in E. destruct (bseq n (B "Tags")); [ injection E as <-; split; [ do 2 constructor; mem | discriminate ] | ]. destruct (bseq n (B "Status")); [ injection E as <-; split; [ constructor; mem | discriminate ] | ]. destruct (bseq n (B "Model")); discriminate.
  - intros t m [ [_ L] | (_ & u & -> & L) ]; apply listed_named in L; destruct L as (p & n & args & ->); exists p, n, args; auto.
  - intros t (p & n & ks & u & I & ->). pose proof (library_listed p n ks u I) as L. split; [ left; now split | right; split; [ reflexivity | now exists (TNamed p n [u]) ] ].
Qed.
Lemma agrees0 : agrees e0 P0.
Proof.
  constructor.
  - intros p n args (-> & _). reflexivity.
  - intros p n ks t I. cbn [under e0]. now rewrite (library_listed p n ks t I).
  - intros t _. cbn [own_value e0 method P0]. split; [ now left | intros [ [_ L] | (E & _) ]; [ exact L | discriminate E ] ].
  - intros t _. cbn [own_scan e0 method P0]. split; [ intros L; right; split; [ reflexivity | eauto ] | intros [ [E _] | (_ & u & [= <-] & L) ]; [ discriminate E | exact L ] ].
  - intros t _. cbn [text_value e0 method P0]. split; [ discriminate | intros [ [E _] | (E & _) ]; discriminate E ].
  - intros t _. cbn [text_scan e0 method P0]. split; [ discriminate | intros [ [E _] | (E & _) ]; discriminate E ].
Qed.
Lemma ready0 : ready P0 loads0 [].
Proof.
  constructor.
  - split; constructor.
  - intros [].
  - intros p n [].
  - intros p n. unfold loads0. repeat (destruct (bseq p _); [ intros [= <-] J; cbn in J; intuition discriminate | ]). intros [= <-] [].
  - intros p I. cbn [In] in I. repeat (destruct I as [ <- | I ]; [ split; [ discriminate | discriminate ] | ]). destruct I.
Qed.
Lemma valid0 f c : In (f, c) fields0 -> valid P0 c.
Proof.
  intros I. assert (V : forall n, In n [B "Model"; B "Tags"; B "Status"; B "Point"] -> valid P0 (own n)) by (intros n J; apply v_name; [ split; [ reflexivity | left; split; [ reflexivity | exact J ] ] | constructor ]).
  assert (Vb : forall n, bmem n predeclared = true -> valid P0 (TBasic n)) by (intros n J; apply v_basic; now apply bmem_In).
  assert (Vt : valid P0 time_type) by (apply v_name; [ split; [ reflexivity | now right ] | constructor ]).
  cbn [fields0 In] in I. repeat (destruct I as [ E | I ]; [ apply pair_eq in E as [<- <-]; repeat first [ exact Vt | apply V; now apply bmem_In | apply Vb; vm_compute; reflexivity | apply v_pointer | apply v_slice | apply v_array | apply v_map ] | ]). destruct I.
Qed.
Definition wordb (s : bytes) : bool := match s with c :: r => is_alpha c && forallb is_alnum r | [] => false end.
Fixpoint plainb (u : gtype) : bool :=
  match u with TBasic n => wordb n | TNamed p n [] => bseq p model_path && wordb n | TNamed _ _ _ => false | TPointer t | TSlice t | TArray _ t => plainb t | TMap k v => plainb k && plainb v end.
Lemma plain_spelled u : plainb u = true -> (forall q, mentions q u -> q = model_path) /\ exists s, go_type u s.
Proof.
  unfold go_type. induction u as [ n | p n args | u IH | u IH | n u IH | k IHk v IHv ]; cbn [plainb]; intros H.
  - split; [ intros q M; inversion M | exists n; constructor; now apply word_of ].
  - destruct args; [ | discriminate ]. apply andb_prop in H as [H1 H2]. apply bseq_eq in H1 as ->. split; [ intros q M; inversion M; [ reflexivity | contradiction ] | ]. exists ((model_path ++ ["."%char]) ++ n). apply w_name; [ now apply word_of | reflexivity ].
  - destruct (IH H) as [M (s & W)]. split; [ intros q X; inversion X; auto | eexists; constructor; exact W ].
  - destruct (IH H) as [M (s & W)]. split; [ intros q X; inversion X; auto | eexists; constructor; exact W ].
  - destruct (IH H) as [M (s & W)]. split; [ intros q X; inversion X; auto | eexists; constructor; exact W ].
  - apply andb_prop in H as [H1 H2]. destruct (IHk H1) as [M1 (s1 & W1)], (IHv H2) as [M2 (s2 & W2)]. split; [ intros q X; inversion X; auto | eexists; constructor; eassumption ].
Qed.
Lemma plain_element c u : plainb c = true -> element c u -> plainb u = true. Proof. intros H E. destruct E; auto. Qed.
Lemma plain_stripped c u : plainb c = true -> stripped c u -> plainb u = true. Proof. intros H E. induction E; auto. Qed.
Lemma spelled0 f c : In (f, c) fields0 -> spelled P0 loads0 c.
Proof.
  intros I u E N. assert (H : plainb u = true).
  { assert (Hc : plainb c = true \/ c = TPointer time_type).
    { assert (F : forallb (fun x => plainb (snd x) || bseq (fst x) (B "At")) fields0 = true) by (vm_compute; reflexivity). cbn [fields0 In] in I. clear F. repeat (destruct I as [ X | I ]; [ apply pair_eq in X as [_ <-]; first [ right; reflexivity | left; vm_compute; reflexivity ] | ]). destruct I. }
    destruct Hc as [ Hc | -> ].
    - destruct E as [ E | [ E | (t & -> & E) ] ]; [ exact (plain_element c u Hc E) | exact (plain_stripped c u Hc E) | exact (plain_element t u Hc E) ].
    - exfalso. assert (u = time_type) as ->.
      { destruct E as [ E | [ E | (t & [= <-] & E) ] ]; [ inversion E; reflexivity | | inversion E; reflexivity ]. inversion E as [ t1 u1 E1 | t1 E1 ]; [ | subst; destruct (E1 _ eq_refl) ]. subst. inversion E1; reflexivity. }
      assert (Nu : forall x, ~ underlying P0 time_type x).
      { intros x U. inversion U; subst; try discriminate; match goal with H : stands_for _ _ _ _ = UOf _ |- _ => discriminate H end. }
      destruct N as [ (k & U) | [ M | (b & U & _) ] ]; [ now apply Nu in U | | now apply Nu in U ]. destruct M as [ [X _] | (X & _) ]; discriminate X. }
  destruct (plain_spelled u H) as [M G]. split; [ | exact G ]. exists model_path. split; [ exact M | ]. split; [ apply import_path_dec_app | discriminate ].
Qed.
Lemma column0 f c : In (f, c) fields0 -> column_field P0 loads0 [] (B "v") f c.
Proof.
  intros I. constructor.
  - exists (TPointer (own (B "Model"))). split; [ apply re_variable; [ reflexivity | now apply word_of | intros J; apply bmem_In in J; discriminate J ] | ].
    eapply fl_pointer; [ split; [ reflexivity | left; split; [ reflexivity | now left ] ] | reflexivity | exact I ].
  - cbn [fields0 In] in I. repeat (destruct I as [ X | I ]; [ apply pair_eq in X as [<- _]; split; [ now apply word_of | intros J; apply bmem_In in J; discriminate J ] | ]). destruct I.
  - now apply (valid0 f).
  - now apply (spelled0 f).
  - split; [ discriminate | ]. split; [ reflexivity | ]. right. split; intros [].
Qed.
(** The expressions of the fields *)
Definition value0 d c f := match getter_value d e0 [] 9 (B "v." ++ f) c with Some ch => Some (render model_path loads0 [] ch) | None => None end.
Definition scan0 d c f := match scan_destination d e0 [] 9 (B "v." ++ f) c with Some ch => Some (render model_path loads0 [] ch) | None => None end.
Definition text0 (r : option (res (bytes * imports))) : bytes := match r with Some (Ok (s, _)) => s | _ => [] end.
Lemma usable0 l c : plainb c = true -> forallb (fun x => bseq (fst x) (B "v") || wordb (snd x) && negb (bmem (snd x) keywords) && negb (bseq (snd x) (B "v"))) l = true -> usable P0 l c.
Proof.
  intros H F q [ M | I ].
  - apply (proj1 (plain_spelled c H)) in M as ->. split; [ now left | ]. intros n In_. rewrite forallb_forall in F. specialize (F _ In_). cbn [fst snd] in F. apply orb_prop in F as [ F | F ]; [ discriminate F | ]. rewrite !andb_true_iff, !negb_true_iff in F. destruct F as [ [F1 F2] F3 ].
    split; [ now apply word_of | ]. split; [ now apply bmem_not_In | ]. cbn [variables P0]. now rewrite F3.
  - assert (Q : In "/"%char q /\ q <> B "v") by (cbn [In] in I; repeat (destruct I as [ <- | I ]; [ split; [ unfold encoding_path, sqltype_path, pgtype_path; cbn; tauto | discriminate ] | ]); destruct I). destruct Q as [Q1 Q2]. split; [ right; now left | ]. intros n In_. rewrite forallb_forall in F. specialize (F _ In_). cbn [fst snd] in F. apply orb_prop in F as [ F | F ]; [ apply bseq_eq in F; contradiction | ]. rewrite !andb_true_iff, !negb_true_iff in F. destruct F as [ [F1 F2] F3 ].
    split; [ now apply word_of | ]. split; [ now apply bmem_not_In | ]. cbn [variables P0]. now rewrite F3.
Qed.

(** Reading an expression *)
Ltac kw := intros J; apply bmem_In in J; vm_compute in J; discriminate J.
Ltac none := intros N; unfold goes_on, starts in N; cbn in N; repeat match type of N with _ \/ _ => destruct N as [ N | N ] end; destruct N as [? N]; discriminate N.
Ltac p_unary := first [ apply un_star; p_unary | apply un_amp; p_unary | eapply un_primary; [ p_operand | p_suffixes ] ]
with p_operand := first [ apply op_name; kw | apply op_num | apply op_paren; p_unary | apply op_type; p_literal ]
with p_literal := first [ apply lt_slice; p_type | apply lt_array; p_type | eapply lt_map; [ p_type | p_type ] ]
with p_type := first [ apply tp_pointer; p_type | apply tp_literal; p_literal | apply tp_name; [ kw | none | apply ta_none; none ] ]
with p_list := first [ eapply li_next; [ p_unary | p_list ] | apply li_last; [ p_unary | none ] ]
with p_suffixes := first [ apply sf_sel; [ kw | p_suffixes ] | apply sf_slice; p_suffixes | eapply sf_index; [ p_list | p_suffixes ] | apply sf_call_none; p_suffixes | eapply sf_call; [ p_list | p_suffixes ] | apply sf_none; none ].
Ltac reads := eexists; split; [ vm_compute; reflexivity | p_unary ].
Notation dot x f := (ESel (EName (B x)) (B f)).
Lemma reads_tags : expression (B "(sqltype.StringSlice[Tags])(v.Tags)") (ECall (EIndex (dot "sqltype" "StringSlice") [EName (B "Tags")]) [dot "v" "Tags"]). Proof. reads. Qed.
Lemma reads_key : expression (B "*v.Key[:]") (EStar (ESliceAll (dot "v" "Key"))). Proof. reads. Qed.
Lemma reads_deep : expression (B "(int64)(*v.Deep)") (ECall (EName (B "int64")) [EStar (dot "v" "Deep")]). Proof. reads. Qed.
Lemma reads_lines : expression (B "(*sqltype.StringSlice[[]string])(v.Lines)") (ECall (EStar (EIndex (dot "sqltype" "StringSlice") [ETSlice (EName (B "string"))])) [dot "v" "Lines"]). Proof. reads. Qed.
Lemma reads_parts : expression (B "pgtype.ByteArray(v.Parts)") (ECall (dot "pgtype" "ByteArray") [dot "v" "Parts"]). Proof. reads. Qed.
Lemma v_field l f ty a : typed P0 l (ESel (EName (B "v")) f) ty a -> In (f, ty) fields0.
Proof.
  intros T. inversion T as [ | | e t a' f' u Te F | | | | | | | | | ]; subst. inversion Te as [ x t' V | | | | | | | | | | | ]; subst. cbn [variables P0] in V. rewrite bseq_refl in V. injection V as <-.
  inversion F as [ | p n args fs f' u D St I ]; subst. cbn in St. injection St as <-. exact I.
Qed.
Ltac only_field I := cbn [fields0 In] in I; repeat (destruct I as [ I | I ]; [ first [ discriminate I | apply pair_eq in I as [_ <-] ] | ]); try destruct I.
Lemma declared0 p n args : declared P0 p n args -> args = [] /\ In n [B "Model"; B "Tags"; B "Status"; B "Point"; B "Time"].
Proof. intros (-> & [ (_ & I) | (_ & ->) ]); split; try reflexivity; cbn [In] in *; tauto. Qed.
Lemma no_kind_tags ks : ~ one_of P0 (own (B "Tags")) ks.
Proof. intros (k & _ & n & U & _). inversion U as [ p m args u D St | | | | | | ]; subst. discriminate St. Qed.
Lemma no_kind_list t ks : ~ one_of P0 (TSlice t) ks. Proof. intros (k & _ & n & U & _). inversion U. Qed.
Lemma no_kind_pointer t k : ~ kind P0 (TPointer t) k. Proof. intros (n & U & _). inversion U. Qed.
Lemma library_fits p n t : valid P0 (TNamed p n [t]) -> exists ks, one_of P0 t ks.
Proof. intros V. inversion V as [ | p' n' args D | p' n' ks u I Vu O | | | | ]; subst; [ apply declared0 in D as [X _]; discriminate | now exists ks ]. Qed.
Lemma no_function n us ts r : function P0 n us ts r -> In n [B "StringSlice"; B "ByteArray"; B "int64"] -> False.
Proof.
  intros F I. assert (S0 : forall k, In (n, k) scanners -> False).
  { intros k J. assert (Fb : forallb (fun x => negb (bmem (fst x) [B "StringSlice"; B "ByteArray"; B "int64"])) scanners = true) by (vm_compute; reflexivity). rewrite forallb_forall in Fb. specialize (Fb _ J). cbn [fst] in Fb. apply bmem_In in I. now rewrite I in Fb. }
  destruct F; try (apply bmem_In in I; discriminate I). eapply S0; eassumption.
Qed.
Lemma untyped_tags l ty a : ~ typed P0 l (ECall (EIndex (dot "sqltype" "StringSlice") [EName (B "Tags")]) [dot "v" "Tags"]) ty a.
Proof.
  intros T. inversion T as [ | | | | | | | | | f t e u a' D Te C | f p n es ts r R | f p n as_ us es ts r R Ep Fd Ta Ff ]; subst.
  - inversion D as [ | e' p n R | e' p n es ts R Fd V | | | | ]; subst; [ inversion R | ]. inversion Fd as [ | x y xs ys Dx Fr ]; subst. inversion Fr; subst. inversion Dx as [ n' I | e' p' n' R' V' | | | | | ]; subst; [ apply bmem_In in I; discriminate I | ]. inversion R'; subst.
    apply library_fits in V. destruct V as (ks & O). now apply no_kind_tags in O.
  - inversion R.
  - inversion R; subst. eapply no_function; [ exact Ff | now left ].
Qed.
Lemma untyped_key l ty a : ~ typed P0 l (EStar (ESliceAll (dot "v" "Key"))) ty a.
Proof.
  intros T. inversion T as [ | | | e t u a' Te U | | | | | | | | ]; subst. inversion Te as [ | | | | | e t' n v Tv Uv | e t' n u' v a2 Tv Uv | e t' v a2 Tv Uv | e t' a2 Tv Kv | | | ]; subst; try (inversion U; fail); apply v_field in Tv; only_field Tv; [ inversion Uv | now apply no_kind_pointer in Kv ].
Qed.
Lemma untyped_deep l ty a : ~ typed P0 l (ECall (EName (B "int64")) [EStar (dot "v" "Deep")]) ty a.
Proof.
  intros T. inversion T as [ | | | | | | | | | f t e u a' D Te C | f p n es ts r R Ep | f p n as_ us es ts r R ]; subst.
  - assert (ty = TBasic (B "int64")) as Et.
    { inversion D as [ n' I | e' p' n' R V | | | | | ]; subst; [ reflexivity | ]. exfalso. inversion R; subst. inversion V as [ | p' n' args D' | | | | | ]; subst. apply declared0 in D' as [_ I]. apply bmem_In in I. discriminate I. }
    inversion Te as [ | | | e' t' u' a2 Tv U | | | | | | | | ]; subst. apply v_field in Tv. only_field Tv. inversion U; subst.
    inversion C as [ t1 u1 x y U1 U2 Sm | t1 u1 x y U1 U2 Sm | t1 u1 O _ | t1 u1 O _ | t1 u1 x U1 | t1 u1 x K ]; subst.
    + inversion U1; inversion U2; subst. discriminate Sm.
    + destruct O as (k & _ & K). now apply no_kind_pointer in K.
    + destruct O as (k & _ & K). now apply no_kind_pointer in K.
    + inversion U1.
    + now apply no_kind_pointer in K.
  - inversion R.
Qed.
Lemma untyped_lines l ty a : ~ typed P0 l (ECall (EStar (EIndex (dot "sqltype" "StringSlice") [ETSlice (EName (B "string"))])) [dot "v" "Lines"]) ty a.
Proof.
  intros T. inversion T as [ | | | | | | | | | f t e u a' D Te C | f p n es ts r R | f p n as_ us es ts r R Ep Fd Ta Ff ]; subst; [ | inversion R ].
  inversion D as [ | e' p n R | | e' t' D' | | | ]; subst; [ inversion R | ]. inversion D' as [ | e' p n R | e' p n es ts R Fd V | | | | ]; subst; [ inversion R | ]. inversion Fd as [ | x y xs ys Dx Fr ]; subst. inversion Fr; subst. inversion Dx as [ | e' p' n' R' | | | e' t2 D2 | | ]; subst; [ inversion R' | ].
  apply library_fits in V. destruct V as (ks & O). now apply no_kind_list in O.
Qed.
Lemma untyped_parts l ty a : ~ typed P0 l (ECall (dot "pgtype" "ByteArray") [dot "v" "Parts"]) ty a.
Proof.
  intros T. inversion T as [ | | | | | | | | | f t e u a' D Te C | f p n es ts r R Ep Ta Ff | f p n as_ us es ts r R Ep Fd Ta Ff ]; subst.
  - inversion D as [ | e' p n R V | | | | | ]; subst. inversion R; subst. inversion V as [ | p' n' args D' | | | | | ]; subst. apply declared0 in D' as [_ I]. apply bmem_In in I. discriminate I.
  - inversion R; subst. eapply no_function; [ exact Ff | right; now left ].
Qed.
(** Generated expressions that do not compile, for fields of a program where everything else holds: *)
Definition does_not_compile (r : option (res (bytes * imports))) (c : gtype) : Prop := exists out l', r = Some (Ok (out, l')) /\ usable P0 l' c /\ forall ex ty a, expression out ex -> ~ typed P0 l' ex ty a.
Ltac broken lemma_reads lemma_untyped := eexists _, _; split; [ vm_compute; reflexivity | split; [ apply usable0; vm_compute; reflexivity | intros ex ty a Ex; rewrite (one_expression _ _ _ Ex lemma_reads); apply lemma_untyped ] ].
(** the value of a named list of strings, of a pointer to an array of bytes, of a pointer to a pointer, for PostgreSQL of a list of lists of bytes; *)
Theorem C78_value_refuted : proper P0 /\ agrees e0 P0 /\ ready P0 loads0 [] /\ (forall f c, In (f, c) fields0 -> column_field P0 loads0 [] (B "v") f c) /\
  does_not_compile (value0 MySQL (own (B "Tags")) (B "Tags")) (own (B "Tags")) /\
  does_not_compile (value0 MySQL (TPointer (TArray 16 (TBasic (B "byte")))) (B "Key")) (TPointer (TArray 16 (TBasic (B "byte")))) /\
  does_not_compile (value0 MySQL (TPointer (TPointer (TBasic (B "int")))) (B "Deep")) (TPointer (TPointer (TBasic (B "int")))) /\
  does_not_compile (value0 Postgres (TSlice (TSlice (TBasic (B "byte")))) (B "Parts")) (TSlice (TSlice (TBasic (B "byte")))).
Proof.
  split; [ exact proper0 | ]. split; [ exact agrees0 | ]. split; [ exact ready0 | ]. split; [ exact column0 | ].
  split; [ broken reads_tags untyped_tags | ]. split; [ broken reads_key untyped_key | ]. split; [ broken reads_deep untyped_deep | broken reads_parts untyped_parts ].
Qed.
(** and the destination of a pointer to a list. *)
Theorem C78_scan_refuted : proper P0 /\ agrees e0 P0 /\ ready P0 loads0 [] /\ (forall f c, In (f, c) fields0 -> column_field P0 loads0 [] (B "v") f c) /\
  does_not_compile (scan0 MySQL (TPointer (TSlice (TBasic (B "string")))) (B "Lines")) (TPointer (TSlice (TBasic (B "string")))) /\
  does_not_compile (scan0 Postgres (TSlice (TSlice (TBasic (B "byte")))) (B "Parts")) (TSlice (TSlice (TBasic (B "byte")))).
Proof.
  split; [ exact proper0 | ]. split; [ exact agrees0 | ]. split; [ exact ready0 | ]. split; [ exact column0 | ].
  split; [ broken reads_lines untyped_lines | broken reads_parts untyped_parts ].
Qed.
(** Fields that meet the hypotheses, with their expressions *)
Example C78_case :
  (forall d c, In c [TBasic (B "int64"); own (B "Status"); TArray 16 (TBasic (B "byte")); TSlice (TBasic (B "string")); TMap (TBasic (B "string")) (TBasic (B "int"))] -> held c c /\ writes_well P0 d c c /\ reads_well P0 d c) /\
  method P0 (own (B "Point")) (B "Value") /\
  text0 (value0 MySQL (own (B "Status")) (B "Status")) = B "(string)(v.Status)" /\ text0 (scan0 MySQL (own (B "Status")) (B "Status")) = B "encoding.StringScanner[Status](&v.Status)" /\
  text0 (value0 Postgres (TSlice (TBasic (B "string"))) (B "Words")) = B "pgtype.StringArray[string](v.Words)" /\ text0 (scan0 Postgres (TSlice (TBasic (B "string"))) (B "Words")) = B "(*pgtype.StringArray[string])(&v.Words)" /\
  text0 (value0 MySQL (TArray 16 (TBasic (B "byte"))) (B "Hash")) = B "v.Hash[:]" /\ text0 (scan0 MySQL (TArray 16 (TBasic (B "byte"))) (B "Hash")) = B "encoding.ByteArrayScanner(v.Hash[:],16)" /\
  text0 (value0 MySQL (TPointer (own (B "Point"))) (B "Here")) = B "*v.Here" /\ text0 (scan0 MySQL (TPointer (own (B "Point"))) (B "Here")) = B "encoding.PtrScanner(&v.Here)" /\
  text0 (scan0 MySQL (TPointer time_type) (B "At")) = B "encoding.TimeScanner(&v.At)".
Proof.
  split; [ | split; [ left; split; reflexivity | repeat split; vm_compute; reflexivity ] ].
  assert (U : forall u, ~ underlying P0 (own (B "Status")) (TPointer u) /\ ~ underlying P0 (own (B "Status")) (TSlice u) /\ forall n, ~ underlying P0 (own (B "Status")) (TArray n u)).
  { intros u. split; [ | split; [ | intros n ] ]; intros V; inversion V as [ p m args x D St | | | | | | ]; subst; discriminate St. }
  assert (Bt : ~ underlying P0 (TBasic (B "string")) (TBasic (B "byte")) /\ ~ underlying P0 (TBasic (B "string")) (TBasic (B "rune")) /\ ~ underlying P0 (TBasic (B "byte")) (TBasic (B "string"))) by (repeat split; intros V; inversion V).
  intros d c I. cbn [In] in I. repeat (destruct I as [ <- | I ]; [ split; [ right; split; [ reflexivity | discriminate ] | ] | ]); try destruct I.
  all: split; constructor; intros;
    repeat match goal with
    | H : _ \/ _ |- _ => destruct H as [ H | H ]
    | H : own _ = TNamed _ _ _ |- _ => injection H as <- <- <-
    | H : stands_for P0 _ _ _ = UStruct _ |- _ => discriminate H
    | H : underlying P0 (own (B "Status")) (TPointer _) |- _ => exfalso; exact (proj1 (U _) H)
    | H : underlying P0 (own (B "Status")) (TSlice _) |- _ => exfalso; exact (proj1 (proj2 (U _)) H)
    | H : underlying P0 (own (B "Status")) (TArray _ _) |- _ => exfalso; exact (proj2 (proj2 (U _)) _ H)
    | |- ~ underlying P0 (own (B "Status")) _ => apply U
    | H : underlying P0 _ _ |- _ => inversion H; clear H; subst
    | H : _ = TNamed _ _ _ |- _ => discriminate H
    | H : _ = TPointer _ |- _ => discriminate H
    | |- ~ underlying P0 _ _ => let V := fresh in intros V; inversion V; fail
    end; auto.
  - split; [ reflexivity | ]. split; [ discriminate | intros _; apply Bt ].
  - split; [ intros _; right; split; [ reflexivity | split; [ | intros _ ]; apply Bt ] | intros _ b V; inversion V ].
Qed.
Print Assumptions C78_value_refuted.
Print Assumptions C78_scan_refuted.
