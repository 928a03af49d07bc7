(** C76: the generated source, read as Go, declares the intended methods with the intended bodies. *)
From Coq Require Import Permutation.
From Verif Require Import Base ModelStrconv ModelEncoding ModelCompiler ModelNaming ModelParser ModelGen ModelMethods ModelText SpecSql SpecGo SpecGen SpecParser SpecEnd SpecSource SpecOutput
  LemmasBase LemmasSql LemmasSql2 LemmasSql3 LemmasCompiler LemmasGen LemmasGen2 PropNaming PropParser PropGen PropEnd ModelText SpecSource SpecOutput LemmasSource LemmasOutput LemmasOutput2 LemmasOutput3 LemmasOutput4 LemmasOutput5.
Notation word := SpecSource.word.
Notation comma := LemmasOutput.comma.

Lemma identifier_word s : go_identifier s -> go_word s.
Proof. intros (c & r & -> & H & F). split; assumption. Qed.
Lemma expression_is e : expression_text e -> is_expression e.
Proof. intros [x H]. unfold is_expression, parsed. destruct H as (T & H). rewrite T. split; assumption. Qed.
Lemma letter_start c : letter c -> word_start c = true.
Proof. unfold letter, word_start, is_alpha, is_upper, is_lower, in_range. intros [H|H]; rewrite !orb_true_iff, !andb_true_iff, !N.leb_le; auto. Qed.
Lemma digit_char c : digit c -> word_char c = true.
Proof. unfold digit, word_char, is_digit, in_range. intros H. rewrite orb_true_iff, andb_true_iff, !N.leb_le. auto. Qed.
Lemma name_chars s : ascii_name s -> Forall (fun c => word_char c = true) s.
Proof.
  intros [_ F]. eapply Forall_impl; [ | exact F ]. intros c [ H | [ H | -> ] ]; [ unfold word_char; now rewrite letter_start | now apply digit_char | reflexivity ].
Qed.
Lemma name_word s : ascii_name s -> capitalised s -> go_word s.
Proof.
  intros A (c & r & -> & H). pose proof (name_chars _ A) as F. inversion F; subst. split; [ | assumption ]. apply letter_start. now left.
Qed.
Lemma plain_line n : plain_name n -> ~ In LF n.
Proof. intros [_ F] I. rewrite Forall_forall in F. destruct (F _ I) as [H _]. vm_compute in H. destruct H as [H _]. now apply H. Qed.
Lemma forall2_map {A C D} (R : A -> C -> Prop) (g : A -> D) (h : C -> D) l m : Forall2 R l m -> (forall f c, R f c -> g f = h c) -> map g l = map h m.
Proof. intros F H. induction F as [|f c l m X F IH]; [ reflexivity | ]. cbn [map]. now rewrite IH, (H _ _ X). Qed.
Lemma forall2_imp_map {A C D} (R : A -> C -> Prop) (Q : A -> D -> Prop) (h : C -> D) l m : Forall2 R l m -> (forall f c, R f c -> Q f (h c)) -> Forall2 Q l (map h m).
Proof. intros F H. induction F as [|f c l m X F IH]; [ constructor | ]. cbn [map]. constructor; auto. Qed.
Lemma forall2_flip {A C} (R : A -> C -> Prop) l m : Forall2 R l m -> Forall2 (fun c f => R f c) m l.
Proof. induction 1; constructor; assumption. Qed.
Lemma forall2_all {A C} (R : A -> C -> Prop) (Q : C -> Prop) l m : Forall2 R l m -> (forall f c, R f c -> Q c) -> Forall Q m.
Proof. intros F H. induction F; constructor; eauto. Qed.
Lemma select_length {A} (P : A -> Prop) l m : selects P l m -> length m <= length l /\ (length m = length l -> m = l).
Proof. induction 1 as [ | x l m H F [L E] | x l m H F [L E] ]; cbn [length]; [ auto | split; [ lia | intros X; rewrite E; [ reflexivity | lia ] ] | split; [ lia | intros X; lia ] ]. Qed.
Lemma repeat_question n k : tl (repeat_bytes (B "," ++ B "?") (S n)) = join (B ",") (map (fun _ => B "?") (seq k (S n))).
Proof.
  revert k. induction n as [|n IH]; intros k; [ reflexivity | ]. change (tl (repeat_bytes (B "," ++ B "?") (S (S n)))) with (B "?" ++ B "," ++ tl (repeat_bytes (B "," ++ B "?") (S n))). rewrite (IH (S k)). reflexivity.
Qed.
Lemma query_value tn ps : query_ok ps -> text_of tn (query_trees ps) = eval_pieces tn ps.
Proof.
  intros [ (a & x & -> & L) | (a & x & b & y & -> & L & M) ]; unfold text_of; cbn [query_trees].
  - change (split_trees (B "+") [] [str a]) with [[str a]]. cbn [sum_of str eval_pieces]. destruct (go_literal a); reflexivity.
  - change (split_trees (B "+") [] [str a; sym (B "+"); word (B "v"); sym (B "."); word (B "TableName"); paren []; sym (B "+"); str b]) with [[str a]; [word (B "v"); sym (B "."); word (B "TableName"); paren []]; [str b]].
    cbn [sum_of str eval_pieces SpecSource.word sym paren]. change (bseq (B "v") v && bseq (B ".") (B ".") && bseq (B "TableName") (B "TableName") && beq "(" "(") with true. cbn iota. rewrite L, M. reflexivity.
Qed.
Lemma query_evaluates tn own a b c x : eval_pieces tn (if own : bool then [Lit a; CallTableName; Lit b] else [Lit c]) = Some x -> query_ok (if own then [Lit a; CallTableName; Lit b] else [Lit c]).
Proof.
  destruct own; cbn [eval_pieces]; intros E.
  - destruct (go_literal a) as [u|] eqn:U; [ | discriminate ]. destruct (go_literal b) as [w|] eqn:W; [ | discriminate ]. right. exists a, u, b, w. auto.
  - destruct (go_literal c) as [u|] eqn:U; [ | discriminate ]. left. exists c, u. auto.
Qed.
Lemma content_ptr ty : is_ptr ty = negb (Nat.eqb (ty_ptr ty) 0).
Proof. unfold is_ptr. destruct (ty_ptr ty); reflexivity. Qed.
Lemma elem_pointed ty : elem_of ty = pointed ty.
Proof. unfold elem_of, pointed. f_equal. apply Nat.sub_1_r. Qed.

Section Source.
Context {V : Type}.
Variables (printable : N -> bool) (d : driver) (on : bool) (prefix : bytes) (strict : bool) (user : bytes -> own).
Variables (conv : bytes) (wrap unwrap : gotype -> bytes * bytes).
Variable sort : list (list nat * sfield) -> list (list nat * sfield).
Variables (name : bytes) (doc : option bytes) (ds : list decl) (t : table).
Variables (valuer scanner : bytes -> gotype -> bytes) (basic : gotype -> bool) (type_text : gotype -> bytes) (new_text : bytes -> bytes) (type_name : gotype -> bytes).
Variables (before after : gotype -> list (tok V)) (item : gotype -> bytes -> list (tok V)).
Notation rename := (rename_func conv).
Hypothesis SORT : sorts sort.
Hypothesis ASCII : ascii_source name ds.
Hypothesis PARSED : parse_struct sort rename wrap unwrap name doc ds = Ok (Some t).
Hypothesis FUNCTIONS : sql_functions d wrap unwrap before after item.
Hypothesis READABLE : forall f, In f (declared ds) -> has_column f -> readable_field valuer scanner type_text new_text f.
Hypothesis AUTO : forall f, In f (declared ds) -> has_column f -> auto_field f -> expression_text (type_name (f_type f)).
Hypothesis PREFIX : prefix = [] \/ go_identifier prefix.
Hypothesis DISTINCT : distinct_paths ds.

Definition own_name : bool := match user (B "TableName") with Has => true | _ => false end.
Notation ns := (map c_name (t_columns t)).
Notation method F := (describes_method (V:=V) d on prefix own_name name valuer scanner basic type_text new_text type_name unwrap before after item t F ns).

Section Fields.
Variable F : fields.
Hypothesis VIEW : viewed conv wrap unwrap name ds t F.
Notation near := (beside t F).

Lemma near_for f c : near f c -> column_for rename f c.
Proof. intros I. eapply forall2_in; [ apply VIEW | exact I ]. Qed.
Lemma near_in f c : near f c -> In f (all F) /\ In c (t_columns t).
Proof. intros I. split; [ eapply in_combine_l; exact I | eapply in_combine_r; exact I ]. Qed.
Lemma field_declared f : In f (all F) -> In f (declared ds) /\ has_column f.
Proof. intros I. apply (vw_fields _ _ _ _ _ _ _ VIEW) in I. exact I. Qed.
Lemma near_readable f c : near f c -> readable_field valuer scanner type_text new_text f.
Proof. intros N. apply near_in in N as [N _]. apply field_declared in N as [N H]. now apply READABLE. Qed.
Lemma near_ascii f c : near f c -> ascii_field f /\ capitalised (f_name f).
Proof.
  intros N. apply near_in in N as [N _]. apply field_declared in N as [N H]. destruct ASCII as (_ & _ & A). rewrite Forall_forall in A. pose proof (A f N) as AF. split; [ exact AF | ]. destruct AF as (_ & C & _). apply C. apply H.
Qed.
Lemma near_word f c : near f c -> go_word (f_name f).
Proof. intros N. destruct (near_ascii f c N) as [A C]. apply name_word; [ apply A | exact C ]. Qed.
Lemma near_goword f c : near f c -> go_word (c_goname c).
Proof. intros N. destruct (near_for f c N) as (-> & _). eapply near_word. exact N. Qed.
Lemma near_named f c : near f c -> named F ns f (c_name c).
Proof. intros N. unfold named. now apply combine_map. Qed.
Lemma near_plain f c : near f c -> plain_name (c_name c).
Proof. intros N. apply (vw_plain _ _ _ _ _ _ _ VIEW). now apply (near_in f). Qed.
Lemma near_pos f c : near f c -> nth_error (all F) (c_pos c) = Some f.
Proof.
  intros N. eapply combine_nth; [ | exact N | ].
  - eapply NoDup_map_inv. apply (wf_names t). apply VIEW.
  - apply wf_nth; [ apply VIEW | ]. now apply (near_in f).
Qed.
Lemma near_literal b f c : near f c -> literal_names (V:=V) d b (gen_quote d (quote_id printable d b (c_name c))) (c_name c).
Proof.
  intros N. pose proof (near_plain f c N) as P. exists (quote_id printable d b (c_name c)). split.
  - apply gen_quote_literal. destruct b; [ now apply lit_id | ]. destruct P as [_ P]. eapply Forall_impl; [ | exact P ]. intros; apply plain_literal; assumption.
  - split; intros ->; [ reflexivity | ]. eapply reads_lex. apply reads_id. exact P.
Qed.
Lemma literal_string b lit n : literal_names (V:=V) d b lit n -> exists x, go_literal lit = Some x.
Proof. intros (x & H & _). eauto. Qed.
Lemma through f : through_pointer f <-> existsb snd (f_paths f) = true.
Proof.
  unfold through_pointer. rewrite existsb_exists. split; [ intros (n & I); exists (n, true); auto | intros ((n & b) & I & E); cbn in E; subst b; eauto ].
Qed.
Lemma near_value f c : near f c -> value_ok valuer c /\ value_expr valuer f (value_trees valuer c).
Proof.
  intros N. destruct (near_for f c N) as (E1 & E2 & E3 & _ & _ & E6). destruct (near_readable f c N) as (_ & _ & R & _). unfold value_ok, value_trees, value_expr.
  change (c_gopath c = field_path f) in E2. rewrite E1, E2, E3, E6.
  assert (X : existsb snd (f_paths f) = false -> is_expression (valuer (B "v" ++ field_path f) (f_type f))) by (intros H; apply expression_is, R; rewrite through, H; discriminate).
  split; [ split; [ eapply near_word; exact N | exact X ] | ]. destruct (existsb snd (f_paths f)) eqn:E.
  - left. split; [ now apply through | reflexivity ].
  - right. split; [ rewrite through, E; discriminate | ]. now apply is_expression_trees, X.
Qed.
Lemma near_content path f c : near f c -> path = B "v" ++ field_path f \/ path = B "val" -> is_expression (content_text valuer path (f_type f)) /\ content valuer path (f_type f) (parsed (content_text valuer path (f_type f))).
Proof.
  intros N P. destruct (near_readable f c N) as (_ & R & _). specialize (R path P). unfold content_text, content. rewrite content_ptr, elem_pointed. destruct (Nat.eqb (ty_ptr (f_type f)) 0) eqn:E; cbn [negb].
  - apply Nat.eqb_eq in E. apply expression_is in R. split; [ exact R | ]. left. split; [ exact E | now apply is_expression_trees ].
  - apply Nat.eqb_neq in E. apply expression_is in R. split; [ exact R | ]. right. split; [ exact E | now apply is_expression_trees ].
Qed.
Lemma near_values fs cs : Forall2 near fs cs -> Forall (value_ok valuer) cs /\ Forall2 (value_expr valuer) fs (map (value_trees valuer) cs) /\ Forall no_comma (map (value_trees valuer) cs) /\ (forall e, In e (map (value_trees valuer) cs) -> e <> []).
Proof.
  intros H. assert (VO : Forall (value_ok valuer) cs) by (eapply forall2_all; [ exact H | ]; intros f c N; now apply near_value in N). split; [ exact VO | ]. split; [ eapply forall2_imp_map; [ exact H | ]; intros f c N; now apply near_value | ].
  assert (PT : forall c, In c cs -> plain_trees (value_trees valuer c)) by (intros c I; rewrite Forall_forall in VO; now apply value_parts, VO).
  split; [ apply Forall_forall; intros e I; apply in_map_iff in I as (c & <- & I); now apply PT | intros e I; apply in_map_iff in I as (c & <- & I); now apply PT ].
Qed.
Lemma value_slice fs cs : Forall2 near fs cs -> value_list valuer (slice (B "any") (map (value_trees valuer) cs)) fs.
Proof.
  intros H. destruct (near_values fs cs H) as (_ & V1 & V2 & V3). exists (map (value_trees valuer) cs). split; [ | exact V1 ]. eexists. split; [ reflexivity | now apply elements_commas ].
Qed.
Lemma string_slice lits : slice_of (B "string") (slice (B "string") (map (fun l => [str l]) lits)) (map string_token lits).
Proof.
  eexists. split; [ reflexivity | ]. apply elements_commas; [ | intros e I; apply in_map_iff in I as (l & <- & I); discriminate ].
  apply Forall_forall. intros e I. apply in_map_iff in I as (l & <- & I). repeat constructor.
Qed.
Lemma number_slice (is : list nat) : slice_of (B "int") (slice (B "int") (map (fun i => [num i]) is)) (map number_token is).
Proof.
  eexists. split; [ reflexivity | ]. apply elements_commas; [ | intros e I; apply in_map_iff in I as (l & <- & I); discriminate ].
  apply Forall_forall. intros e I. apply in_map_iff in I as (l & <- & I). repeat constructor.
Qed.
Lemma GO : go_word name.
Proof. destruct ASCII as (A & C & _). now apply name_word. Qed.

(** ** Text that declares methods of these kinds *)
Definition covers (s : bytes) (ks : list kind) : Prop := exists ss ms, s = concat ss /\ Forall2 declares ss ms /\ Forall2 (method F) ks ms.
Lemma covers_nil : covers [] [].
Proof. exists [], []. repeat split; constructor. Qed.
Lemma covers_app s1 k1 s2 k2 : covers s1 k1 -> covers s2 k2 -> covers (s1 ++ s2) (k1 ++ k2).
Proof. intros (a & b & -> & A1 & A2) (x & y & -> & X1 & X2). exists (a ++ x), (b ++ y). rewrite concat_app. split; [ reflexivity | split; apply Forall2_app; assumption ]. Qed.
Lemma covers_one s k m : declares s m -> method F k m -> covers s [k].
Proof. intros D M. exists [s], [m]. cbn [concat]. rewrite app_nil_r. repeat split; constructor; auto. Qed.
Lemma returning_commas (es : list (list gtree)) m : g_body m = [Simple (return_of (commas es))] -> Forall no_comma es -> (forall e, In e es -> e <> []) -> returning m es.
Proof. intros E N H. eexists. split; [ exact E | ]. eexists. split; [ reflexivity | now apply elements_commas ]. Qed.
Lemma returning_one e m : g_body m = [Simple (return_of e)] -> no_comma e -> e <> [] -> returning m [e].
Proof. intros E N H. apply returning_commas; [ exact E | repeat constructor; exact N | intros x [<-|[]]; exact H ]. Qed.

Lemma covers_table_name : covers (table_name_text printable d on name t) [KTableName].
Proof.
  assert (L : literal_names (V:=V) d on (gen_table_name printable d on t) (t_name t)).
  { pose proof (vw_table _ _ _ _ _ _ _ VIEW) as P. exists (quote_id printable d on (t_name t)). split.
    - apply gen_quote_literal. destruct on; [ now apply lit_id | ]. destruct P as [_ P]. eapply Forall_impl; [ | exact P ]. intros; apply plain_literal; assumption.
    - split; intros ->; [ reflexivity | ]. eapply reads_lex. apply reads_id. exact P. }
  destruct (literal_string _ _ _ L) as [x X]. eapply covers_one; [ eapply table_name_declares; [ exact GO | exact X ] | ].
  split; [ repeat split; now left | ]. exists (gen_table_name printable d on t). split; [ | exact L ]. apply returning_one; [ reflexivity | repeat constructor | discriminate ].
Qed.
Lemma near_lits b fs cs : Forall2 near fs cs -> Forall2 (literal_names (V:=V) d b) (map (fun c => gen_quote d (quote_id printable d b (c_name c))) cs) (map c_name cs).
Proof. intros H. induction H as [|f c fs cs N H IH]; [ constructor | ]. cbn [map]. constructor; [ eapply near_literal; exact N | exact IH ]. Qed.
Lemma lits_strings b lits names : Forall2 (literal_names (V:=V) d b) lits names -> Forall (fun l => exists x, go_literal l = Some x) lits.
Proof. induction 1; constructor; [ eapply literal_string; eassumption | assumption ]. Qed.
Lemma covers_names n lits k kd (q : bytes -> bytes -> Prop) : go_word n -> Forall (fun l => exists x, go_literal l = Some x) lits ->
  (forall m, signature name m false n [] strings -> returning m [slice (B "string") (map (fun l => [str l]) lits)] -> method F kd m) ->
  covers (line [B "func ("; name; B ") "; n; B "() []string {"] ++ line [B "return []string{"; join (B ",") lits; B "} // "; itoa k] ++ line [B "}"]) [kd].
Proof.
  intros W L H. eapply covers_one; [ eapply names_declares; [ exact GO | exact W | exact L ] | ]. apply H; [ repeat split; now left | ]. apply returning_one; [ reflexivity | repeat constructor | discriminate ].
Qed.
Lemma covers_columns : covers (columns_text printable d on name t) [KColumns].
Proof.
  pose proof (near_lits on _ _ (vw_all _ _ _ _ _ _ _ VIEW)) as L.
  assert (E : columns_text printable d on name t = line [B "func ("; name; B ") "; B "Columns"; B "() []string {"] ++ line [B "return []string{"; join (B ",") (gen_columns printable d on t); B "} // "; itoa (length (t_columns t))] ++ line [B "}"]) by reflexivity.
  rewrite E. eapply covers_names; [ exact (fun _ _ => True) | repeat constructor | eapply lits_strings; exact L | ]. intros m S0 R. split; [ exact S0 | ]. eexists. split; [ exact R | ]. eexists. split; [ apply string_slice | exact L ].
Qed.
Lemma covers_insert_columns : covers (insert_columns_text printable d on name t) (if Nat.eqb (length (inserted F)) (length (all F)) then [] else [KInsertColumns]).
Proof.
  unfold insert_columns_text. rewrite (forall2_length _ _ _ (vw_inserted _ _ _ _ _ _ _ VIEW)), (forall2_length _ _ _ (vw_all _ _ _ _ _ _ _ VIEW)). destruct (Nat.eqb _ _); [ apply covers_nil | ].
  pose proof (near_lits on _ _ (vw_inserted _ _ _ _ _ _ _ VIEW)) as L.
  change (covers (line [B "func ("; name; B ") "; B "InsertColumns"; B "() []string {"] ++ line [B "return []string{"; join (B ",") (gen_insert_columns printable d on t); B "} // "; itoa (length (insert_columns t))] ++ line [B "}"]) [KInsertColumns]).
  eapply covers_names; [ exact (fun _ _ => True) | repeat constructor | eapply lits_strings; exact L | ]. intros m S0 R. split; [ exact S0 | ]. eexists _, (map c_name (insert_columns t)). split; [ exact R | ].
  split; [ eexists; split; [ apply string_slice | exact L ] | ]. eapply forall2_imp_map; [ apply VIEW | ]. intros; now apply near_named.
Qed.

Lemma in_field f : In f (all F) -> exists c, near f c.
Proof.
  pose proof (vw_all _ _ _ _ _ _ _ VIEW) as H. intros I. induction H as [|g c gs cs N H IH]; [ destruct I | ]. destruct I as [->|I]; eauto.
Qed.
Lemma near_unwrap f c : near f c -> c_unwrap c = unwrap (f_type f).
Proof. intros N. destruct (near_in f c N) as [_ I]. destruct (vw_plain _ _ _ _ _ _ _ VIEW c I) as (_ & _ & ->). f_equal. apply (near_for f c N). Qed.
Definition scanned (f : sfield) : bool := match unwrap (f_type f) with ([], []) => false | _ => true end.
Lemma scanned_columns : existsb has_scanner (t_columns t) = existsb scanned (all F).
Proof.
  assert (G : forall fs cs, Forall2 near fs cs -> existsb has_scanner cs = existsb scanned fs); [ | apply G, VIEW ].
  induction 1 as [|f c fs cs N H IH]; [ reflexivity | ]. cbn [existsb]. rewrite IH. f_equal. unfold has_scanner, scanned. now rewrite (near_unwrap f c N).
Qed.
Lemma covers_sql_columns : covers (sql_columns_text printable d on name t) (if existsb scanned (all F) then [KSQLColumns] else []).
Proof.
  unfold sql_columns_text. rewrite scanned_columns. destruct (existsb scanned (all F)); [ | apply covers_nil ].
  change (covers (line [B "func ("; name; B ") "; B "SQLColumns"; B "() []string {"] ++ line [B "return []string{"; join (B ",") (gen_sql_columns printable d on t); B "} // "; itoa (length (t_columns t))] ++ line [B "}"]) [KSQLColumns]).
  assert (L : Forall2 (fun lit p => exists id, go_literal lit = Some (fst (unwrap (f_type (fst p))) ++ id ++ snd (unwrap (f_type (fst p)))) /\ (on = false -> id = snd p) /\ (on = true -> lex (V:=V) (flavour_of d) id = [Name (snd p)])) (gen_sql_columns printable d on t) (combine (all F) ns)).
  { assert (G : forall fs cs, Forall2 near fs cs -> Forall2 (fun lit p => exists id, go_literal lit = Some (fst (unwrap (f_type (fst p))) ++ id ++ snd (unwrap (f_type (fst p)))) /\ (on = false -> id = snd p) /\ (on = true -> lex (V:=V) (flavour_of d) id = [Name (snd p)]))
        (map (fun c => gen_quote d (fst (c_unwrap c) ++ quote_id printable d on (c_name c) ++ snd (c_unwrap c))) cs) (combine fs (map c_name cs))); [ | apply G, VIEW ].
    induction 1 as [|f c fs cs N H IH]; [ constructor | ]. cbn [map combine]. constructor; [ | exact IH ]. cbn [fst snd]. exists (quote_id printable d on (c_name c)).
    destruct (near_literal on f c N) as (x & X1 & X2). pose proof (near_plain f c N) as P. destruct (near_in f c N) as [_ I]. destruct (vw_plain _ _ _ _ _ _ _ VIEW c I) as (_ & _ & U). destruct FUNCTIONS as [_ SELECT].
    destruct (SELECT c U P) as (_ & _ & _ & _ & A & Z). split; [ | split; intros ->; [ reflexivity | eapply reads_lex; apply reads_id; exact P ] ].
    rewrite <- (near_unwrap f c N). apply gen_quote_literal. apply lit_app; [ exact A | ]. apply lit_app; [ | exact Z ]. destruct on; [ now apply lit_id | ]. destruct P as [_ P]. eapply Forall_impl; [ | exact P ]. intros; apply plain_literal; assumption. }
  eapply covers_names; [ exact (fun _ _ => True) | repeat constructor | | ].
  - clear - L. induction L as [|a b l m (id & H & _) L IH]; constructor; eauto.
  - intros m S0 R. split; [ exact S0 | ]. exists (slice (B "string") (map (fun l => [str l]) (gen_sql_columns printable d on t))), (gen_sql_columns printable d on t). split; [ exact R | ]. split; [ apply string_slice | exact L ].
Qed.
(** *** Keys *)
Lemma covers_marker n k : go_word n -> (forall m, signature name m false n [] [] -> g_body m = [] -> method F k m) -> covers (line [B "func ("; name; B ") "; n; B "() {}"]) [k].
Proof. intros W H. eapply covers_one; [ eapply marker_declares; [ exact GO | exact W ] | ]. apply H; [ repeat split; now left | reflexivity ]. Qed.
Lemma covers_pk f c : near f c -> covers (line [B "func (v "; name; B ") PK() (string, int, any) {"] ++ line [chr 9 :: B "return "; gen_quote d (quote_id printable d on (c_name c)); B ", "; itoa (c_pos c); B ", "; value_text valuer c] ++ line [B "}"]) [KPK f].
Proof.
  intros N. pose proof (near_literal on f c N) as L. destruct (literal_string _ _ _ L) as [x X]. destruct (near_value f c N) as [VO VE]. destruct (value_parts valuer c VO) as (_ & _ & (_ & NC & _ & NE)).
  eapply covers_one; [ eapply pk_declares; [ exact GO | exact X | exact VO ] | ]. split; [ repeat split; now right | ].
  exists (gen_quote d (quote_id printable d on (c_name c))), (c_name c), (c_pos c), (value_trees valuer c). split; [ | split; [ now apply near_named | split; [ exact L | split; [ now apply near_pos | exact VE ] ] ] ].
  apply returning_commas; [ reflexivity | repeat constructor; exact NC | intros e [<-|[<-|[<-|[]]]]; [ discriminate | discriminate | exact NE ] ].
Qed.
Lemma plain_quote c : quote_id printable d false (c_name c) = c_name c.
Proof. reflexivity. Qed.
Lemma covers_composite fs cs : Forall2 near fs cs -> covers (line [B "func (v "; name; B ") CompositeKey() ([]string, []int, []any) {"] ++
   line [B "return []string{"; join (B ",") (map (fun c => gen_quote d (c_name c)) cs); B "}, []int{"; join (B ",") (map itoa (map c_pos cs)); B "}, []any{"; join (B ",") (map (value_text valuer) cs); B "}"] ++ line [B "}"]) [KComposite fs].
Proof.
  intros H. pose proof (near_lits false fs cs H) as L. destruct (near_values fs cs H) as (VO & _).
  eapply covers_one; [ eapply composite_declares; [ exact GO | eapply lits_strings; exact L | exact VO ] | ]. split; [ repeat split; now right | ].
  eexists _, _, _, (map (fun c => gen_quote d (c_name c)) cs), (map c_pos cs), (map c_name cs). split; [ | split; [ apply string_slice | split; [ exact L | split; [ | split; [ apply number_slice | split; [ | exact (value_slice fs cs H) ] ] ] ] ] ].
  - apply returning_commas; [ reflexivity | repeat constructor | intros e [<-|[<-|[<-|[]]]]; discriminate ].
  - eapply forall2_imp_map; [ exact H | ]. intros; now apply near_named.
  - clear - H VIEW. induction H as [|f c fs cs N H IH]; cbn [map]; constructor; [ now apply near_pos | exact IH ].
Qed.
Lemma covers_scan f c : near f c -> auto_field f -> covers (line [B "func (v *"; name; B ") ScanAutoIncr(val int64) error {"] ++
          line [chr 9 :: B "v."; c_goname c; B " = "; type_name (c_type c); B "(val)"] ++ line [chr 9 :: B "return nil"] ++ line [B "}"]) [KScanAuto f].
Proof.
  intros N A. destruct (near_for f c N) as (E1 & _ & E3 & _). rewrite E1, E3. destruct (near_in f c N) as [I _]. apply field_declared in I as [I HC]. pose proof (expression_is _ (AUTO f I HC A)) as X.
  eapply covers_one; [ eapply scan_auto_declares; [ exact GO | eapply near_word; exact N | exact X ] | ]. split; [ repeat split | ]. eexists. split; [ apply is_expression_trees; exact X | reflexivity ].
Qed.
Definition key_kinds : list kind :=
  match auto F, keys F with
  | Some f, _ => [KHasPK; KIsAuto; KScanAuto f; KPK f]
  | None, [] => []
  | None, [f] => [KHasPK; KPK f]
  | None, fs => [KHasPK; KComposite fs]
  end.
Lemma auto_is f : auto F = Some f -> auto_field f.
Proof. destruct (vw_fields _ _ _ _ _ _ _ VIEW) as (_ & _ & _ & _ & A). intros E. now apply A in E. Qed.
Lemma covers_key : covers (key_text printable d on name valuer type_name t) key_kinds.
Proof.
  pose proof (vw_auto _ _ _ _ _ _ _ VIEW) as A. pose proof (vw_keys _ _ _ _ _ _ _ VIEW) as K. unfold key_text, gen_key, has_pk, single_key, key_kinds.
  assert (HP : covers (line [B "func ("; name; B ") HasPK() {}"]) [KHasPK]).
  { change (line [B "func ("; name; B ") HasPK() {}"]) with (line [B "func ("; name; B ") "; B "HasPK"; B "() {}"]). apply covers_marker; [ repeat constructor | ]. intros m S0 E. split; assumption. }
  destruct (auto F) as [f|] eqn:EA.
  - destruct (t_auto t) as [c|]; [ | contradiction ]. change [KHasPK; KIsAuto; KScanAuto f; KPK f] with ([KHasPK] ++ ([KIsAuto] ++ [KScanAuto f]) ++ [KPK f]). apply covers_app; [ exact HP | ].
    apply covers_app; [ | now apply covers_pk ]. apply covers_app; [ | apply covers_scan; [ exact A | now apply auto_is ] ].
    change (line [B "func ("; name; B ") IsAutoIncr() {}"]) with (line [B "func ("; name; B ") "; B "IsAutoIncr"; B "() {}"]). apply covers_marker; [ repeat constructor | ]. intros m S0 E. split; assumption.
  - destruct (t_auto t) as [c|]; [ contradiction | ]. destruct K as [|f c fs cs N K]; [ apply covers_nil | ]. destruct K as [|f2 c2 fs cs N2 K].
    + change [KHasPK; KPK f] with ([KHasPK] ++ [KPK f]). apply covers_app; [ exact HP | ]. now apply covers_pk.
    + change [KHasPK; KComposite (f :: f2 :: fs)] with ([KHasPK] ++ [KComposite (f :: f2 :: fs)]). apply covers_app; [ exact HP | ]. apply (covers_composite (f :: f2 :: fs) (c :: c2 :: cs)). constructor; [ exact N | constructor; [ exact N2 | exact K ] ].
Qed.
(** *** Values and addresses *)
Lemma covers_values : covers (values_text name valuer t) (if nonempty (inserted F) then [KValues] else []).
Proof.
  pose proof (vw_inserted _ _ _ _ _ _ _ VIEW) as H. destruct (insert_columns t) as [|c0 l0] eqn:E.
  - unfold values_text, gen_values. rewrite E. inversion H. apply covers_nil.
  - assert (NE : nonempty (inserted F) = true) by (inversion H; reflexivity). rewrite NE. rewrite <- E in H. destruct (near_values _ _ H) as (VO & V1 & V2 & V3).
    eapply covers_one; [ eapply values_declares; [ exact GO | exact VO | | unfold gen_values; rewrite E; discriminate ] | ].
    + intros c I. apply plain_line. apply (vw_plain _ _ _ _ _ _ _ VIEW). unfold gen_values, insert_columns in I. apply filter_In in I. apply I.
    + split; [ repeat split; now right | ]. eexists. split; [ eapply returning_one; [ reflexivity | repeat constructor | discriminate ] | ]. eexists. split; [ | exact V1 ]. eexists. split; [ reflexivity | now apply elements_trailing ].
Qed.
Lemma near_pointers f c : near f c -> pointer_paths [] (c_paths c) = map path_text (pointers [] (f_paths f)).
Proof. intros N. destruct (near_for f c N) as (_ & _ & _ & _ & _ & ->). exact (pointer_paths_text (f_paths f) []). Qed.
Lemma identifiers_words pps : Forall (Forall go_identifier) pps -> Forall (Forall go_word) pps.
Proof. intros H. eapply Forall_impl; [ | exact H ]. intros p P. eapply Forall_impl; [ | exact P ]. intros; now apply identifier_word. Qed.
Lemma covers_addrs : covers (addrs_text name scanner new_text t) [KAddrs].
Proof.
  destruct (allocation_order ds (all F) DISTINCT) as (ps & EP & ND & ID & IN & OR).
  { intros f I. destruct (field_declared f I) as [I1 I2]. split; [ exact I1 | ]. apply (READABLE f I1 I2). }
  assert (TP : table_pointers t = map path_text ps).
  { rewrite <- EP. unfold table_pointers. f_equal. pose proof (vw_all _ _ _ _ _ _ _ VIEW) as H. clear - H VIEW. induction H as [|f c fs cs N H IH]; [ reflexivity | ]. cbn [flat_map]. now rewrite IH, (near_pointers f c N). }
  assert (NT : forall p, In p ps -> is_expression (new_text (path_text p))).
  { intros p I. apply IN in I as (f & I & J). destruct (field_declared f I) as [I1 I2]. apply expression_is. apply (READABLE f I1 I2). exact J. }
  assert (SC : forall f c, near f c -> is_expression (scanner (B "&v" ++ field_path f) (f_type f))) by (intros f c N; apply expression_is; apply (near_readable f c N)).
  assert (SN : forall c, In c (t_columns t) -> is_expression (scanner (B "&v" ++ c_gopath c) (c_type c)) /\ ~ In LF (c_name c)).
  { intros c I. pose proof (vw_all _ _ _ _ _ _ _ VIEW) as H. assert (X : exists f, near f c) by (clear - H I; induction H as [|f x fs cs N H IH]; [ destruct I | destruct I as [->|I]; eauto ]). destruct X as [f N].
    split; [ | apply plain_line; eapply near_plain; exact N ]. destruct (near_for f c N) as (_ & E2 & E3 & _). rewrite E3. change (c_gopath c = field_path f) in E2. rewrite E2. eapply SC. exact N. }
  eapply covers_one; [ eapply addrs_declares; [ exact GO | exact TP | now apply identifiers_words | exact NT | exact SN ] | ]. split; [ repeat split | ].
  eexists ps, _, _, _, _. split; [ reflexivity | ]. split; [ | split; [ exact ND | split; [ exact IN | split; [ exact OR | split; [ | split; [ eexists; split; [ reflexivity | ] | ] ] ] ] ] ].
  - clear - NT. induction ps as [|p ps IH]; cbn [map]; constructor; [ | apply IH; intros q I; apply NT; now right ]. eexists. split; [ apply is_expression_trees, NT; now left | reflexivity ].
  - eexists. split; [ reflexivity | ]. apply (elements_commas [block _]); [ repeat constructor | intros e [<-|[]]; discriminate ].
  - apply elements_trailing. apply Forall_forall. intros e I. apply in_map_iff in I as (c & <- & I). destruct (SN c I) as [X _]. apply expression_parts in X as (_ & _ & (_ & NC & _)). exact NC.
  - eapply forall2_imp_map; [ exact (vw_all _ _ _ _ _ _ _ VIEW) | ]. intros f c N. unfold addr_trees. destruct (near_for f c N) as (_ & E2 & E3 & _). rewrite E3. change (c_gopath c = field_path f) in E2. rewrite E2. apply is_expression_trees. eapply SC. exact N.
Qed.
Lemma covers_placeholders : inserted F <> [] -> covers (placeholders_text d name t) [KPlaceholders].
Proof.
  intros NE. pose proof (forall2_length _ _ _ (vw_inserted _ _ _ _ _ _ _ VIEW)) as L.
  assert (NI : insert_columns t <> []) by (intros E; rewrite E in L; apply NE; now apply length_zero_iff_nil).
  destruct (placeholders_declares d name t GO NI) as (m & D & N1 & N2 & N3 & N4 & P). eapply covers_one; [ exact D | ]. split; [ repeat split; auto | ]. intros n row. rewrite P. f_equal. unfold gen_insert_placeholders. subst n. rewrite <- L.
  destruct (inserted F) as [|f0 l0] eqn:E; [ now destruct NE | ]. cbn [length].
  assert (MP : forall n, map (fun i => B "$" ++ itoa (row * n + (i + 1))) (seq 0 n) = map (fun i => placeholder Postgres (row * n + S i)) (seq 0 n)) by (intros n; apply map_ext; intros i; cbn [placeholder]; now rewrite Nat.add_1_r).
  destruct d; cbn [flavour_of]; [ | now rewrite MP | ]; cbn [quote_var]; rewrite (repeat_question (length l0) 0); reflexivity.
Qed.

(** *** Statements *)
Lemma some_table : exists tn table, table_of (V:=V) d own_name t tn table.
Proof. unfold table_of. destruct own_name; [ exists (B "t"), [B "t"]; destruct d; reflexivity | exists [], [t_name t]; reflexivity ]. Qed.
Lemma readable_columns : readable d t (fun c => before (c_type c)) (fun c => after (c_type c)) (fun c => item (c_type c) (c_name c)).
Proof. intros c I. destruct (vw_plain _ _ _ _ _ _ _ VIEW c I) as (P & W & U). split; [ exact P | split; [ now apply FUNCTIONS | now apply FUNCTIONS ] ]. Qed.
Lemma addressed tn table : table_of (V:=V) d own_name t tn table -> addresses (V:=V) d own_name t tn table.
Proof. unfold table_of, addresses. destruct own_name; [ auto | ]. intros H. split; [ exact (vw_table _ _ _ _ _ _ _ VIEW) | exact H ]. Qed.
Lemma args_of fs cs (r : bytes -> V) : Forall2 near fs cs -> map (fun c => r (c_gopath c)) cs = map (value_in r) fs.
Proof. intros H. symmetry. eapply forall2_map; [ exact H | ]. intros f c N. unfold value_in. f_equal. symmetry. apply (near_for f c N). Qed.
Lemma holds_of fs cs (r : bytes -> V) : Forall2 near fs cs -> map (holding (fun c => before (c_type c)) (fun c => after (c_type c)) (fun c => r (c_gopath c))) cs = map (holds before after r) fs.
Proof.
  intros H. symmetry. eapply forall2_map; [ exact H | ]. intros f c N. destruct (near_for f c N) as (_ & E2 & E3 & _). change (c_gopath c = field_path f) in E2. unfold holds, holding, value_in. now rewrite E2, E3.
Qed.
Lemma items_of fs cs : Forall2 near fs cs -> map (fun c => item (c_type c) (c_name c)) cs = map (fun p => item (f_type (fst p)) (snd p)) (combine fs (map c_name cs)).
Proof.
  induction 1 as [|f c fs cs N H IH]; [ reflexivity | ]. cbn [map combine fst snd]. rewrite IH. destruct (near_for f c N) as (_ & _ & -> & _). reflexivity.
Qed.
Lemma identity_near : Forall2 near (identity F) (key_of t).
Proof.
  pose proof (vw_auto _ _ _ _ _ _ _ VIEW) as A. pose proof (vw_keys _ _ _ _ _ _ _ VIEW) as K. unfold identity, key_of. destruct (auto F), (t_auto t); try contradiction; [ | exact K ]. constructor; [ exact A | constructor ].
Qed.
Lemma key_condition_of (r : bytes -> V) : key_equals t (fun c => before (c_type c)) (fun c => after (c_type c)) (fun c => r (c_gopath c)) = key_is before after r (identity F) (map c_name (key_of t)).
Proof.
  pose proof identity_near as H. unfold key_equals, key_is.
  assert (G : Compare (Tuple (map (fun c => [Name (V:=V) (c_name c)]) (key_of t))) (B "=") (Tuple (map (fun c => before (c_type c) ++ Val (r (c_gopath c)) :: after (c_type c)) (key_of t)))
          = Compare (Tuple (map (fun k => [Name k]) (map c_name (key_of t)))) (B "=") (Tuple (map (holds before after r) (identity F)))) by (rewrite map_map, <- (holds_of _ _ r H); reflexivity).
  revert G. destruct H as [|f c fs cs N H]; [ auto | ]. destruct H as [|f2 c2 fs cs N2 H]; [ | auto ]. intros _. cbn [map]. unfold value_in. destruct (near_for f c N) as (_ & E2 & _). change (c_gopath c = field_path f) in E2. now rewrite E2.
Qed.
Lemma named_of fs cs : Forall2 near fs cs -> Forall2 (named F ns) fs (map c_name cs).
Proof. intros H. eapply forall2_imp_map; [ exact H | ]. intros; now apply near_named. Qed.
Lemma covers_statement n ps fs cs kd : go_word n -> query_ok ps -> Forall2 near fs cs ->
  (forall m a, signature name m false n [] [paren ([word (B "string"); comma] ++ anys)] -> returning m [query_trees ps; a] -> value_list valuer a fs -> method F kd m) ->
  covers (line [B "func (v "; name; B ") "; n; B "() (string, []any) {"] ++ line [B "return "; query_text ps; B ", []any{"; join (B ",") (map (value_text valuer) cs); B "}"] ++ line [B "}"]) [kd].
Proof.
  intros W Q H K. destruct (near_values fs cs H) as (VO & _). destruct (query_parts ps Q) as (_ & (_ & NC & _ & NE)). eapply covers_one; [ eapply statement_declares; [ exact GO | exact W | exact Q | exact VO ] | ].
  eapply K; [ repeat split; now right | apply returning_commas; [ reflexivity | constructor; [ exact NC | repeat constructor ] | intros e [<-|[<-|[]]]; [ exact NE | discriminate ] ] | now apply value_slice ].
Qed.
Lemma covers_insert_one : t_readonly t = false -> inserted F <> [] -> covers (insert_one_text printable d user name valuer t) [KInsertOne].
Proof.
  intros RO NE. pose proof (vw_inserted _ _ _ _ _ _ _ VIEW) as H. destruct (vw_built _ _ _ _ _ _ _ VIEW) as (fs & ro & BT). unfold insert_one_text. fold own_name.
  destruct (gen_insert_one printable d own_name t) as [ [ps cs] | ] eqn:G.
  2:{ exfalso. unfold gen_insert_one in G. rewrite RO in G. destruct (insert_columns t); [ inversion H; congruence | discriminate ]. }
  assert (C : cs = insert_columns t /\ exists a b c, ps = if own_name then [Lit a; CallTableName; Lit b] else [Lit c]).
  { unfold gen_insert_one in G. rewrite RO in G. destruct (insert_columns t); [ discriminate | ]. injection G as <- <-. split; [ reflexivity | ]. eexists _, _, _. reflexivity. }
  destruct C as (-> & a & b & c & EP).
  assert (READ : forall tn table, table_of (V:=V) d own_name t tn table -> exists text, eval_pieces tn ps = Some text /\ forall r, read (flavour_of d) text (map (value_in r) (inserted F)) =
           Some (Insert table (map c_name (insert_columns t)) [map (holds before after r) (inserted F)] Fail (match d with DPostgres => map (fun p => item (f_type (fst p)) (snd p)) (combine (all F) ns) | _ => [] end))).
  { intros tn table T. destruct (C17_insert_one_of_tables printable _ _ _ _ _ _ _ BT d _ _ _ readable_columns own_name tn table (addressed tn table T) ps _ G) as (_ & _ & _ & text & E & R).
    exists text. split; [ exact E | ]. intros r. specialize (R r). rewrite (args_of _ _ r H), (holds_of _ _ r H), (items_of _ _ (vw_all _ _ _ _ _ _ _ VIEW)) in R. exact R. }
  assert (Q : query_ok ps) by (destruct some_table as (tn & table & T); destruct (READ tn table T) as (text & E & _); subst ps; eapply query_evaluates; exact E).
  assert (SAY : forall m x, returning m [query_trees ps; x] -> ((x = call v (B "Values") /\ inserted F = all F) \/ value_list valuer x (inserted F)) -> signature name m false (B "InsertOneStmt") [] [paren ([word (B "string"); comma] ++ anys)] -> method F KInsertOne m).
  { intros m x R A S0. split; [ exact S0 | ]. exists (map c_name (insert_columns t)). split; [ now apply named_of | ]. exists (query_trees ps), x. split; [ exact R | ]. split; [ exact A | ]. intros tn table T. destruct (READ tn table T) as (text & E & RD). exists text. split; [ now rewrite query_value | exact RD ]. }
  destruct (Nat.eqb _ _) eqn:EL.
  - destruct (query_parts ps Q) as (_ & (_ & NC & _ & NQ)). eapply covers_one; [ eapply statement_values_declares; [ exact GO | exact Q ] | ]. eapply SAY; [ | left; split; [ reflexivity | ] | repeat split; now right ].
    + apply returning_commas; [ reflexivity | constructor; [ exact NC | repeat constructor ] | intros e [<-|[<-|[]]]; [ exact NQ | discriminate ] ].
    + destruct (vw_fields _ _ _ _ _ _ _ VIEW) as (_ & SE & _). eapply select_length; [ exact SE | ]. apply Nat.eqb_eq in EL. rewrite (forall2_length _ _ _ H), EL. symmetry. eapply forall2_length. exact (vw_all _ _ _ _ _ _ _ VIEW).
  - change (line [B "func (v "; name; B ") InsertOneStmt() (string, []any) {"]) with (line [B "func (v "; name; B ") "; B "InsertOneStmt"; B "() (string, []any) {"]).
    eapply covers_statement; [ repeat constructor | exact Q | exact H | ]. intros m x S0 R VL. eapply SAY; eauto.
Qed.
Lemma has_key : has_pk t = nonempty (identity F).
Proof. pose proof identity_near as H. unfold has_pk. unfold key_of in H. destruct (t_auto t); [ inversion H; reflexivity | ]. destruct (t_keys t); inversion H; reflexivity. Qed.
Lemma covers_find : covers (find_text printable d user name valuer t) (if nonempty (identity F) then [KFind] else []).
Proof.
  pose proof identity_near as H. destruct (vw_built _ _ _ _ _ _ _ VIEW) as (fs & ro & BT). unfold find_text, statement_text. fold own_name. rewrite <- has_key. destruct (gen_find_by_pk printable d own_name t) as [ [ps cs] | ] eqn:G.
  2:{ unfold gen_find_by_pk in G. destruct (has_pk t); [ discriminate | apply covers_nil ]. }
  assert (C : has_pk t = true /\ cs = key_of t /\ exists a b c, ps = if own_name then [Lit a; CallTableName; Lit b] else [Lit c]).
  { unfold gen_find_by_pk in G. destruct (has_pk t); [ | discriminate ]. injection G as <- <-. split; [ reflexivity | ]. split; [ reflexivity | ]. eexists _, _, _. reflexivity. }
  destruct C as (HP & -> & a & b & c & EP). rewrite HP.
  assert (READ : forall tn table, table_of (V:=V) d own_name t tn table -> exists text, eval_pieces tn ps = Some text /\ forall r, read (flavour_of d) text (map (value_in r) (identity F)) =
           Some (Select (map (fun p => item (f_type (fst p)) (snd p)) (combine (all F) ns)) table (Some (key_is before after r (identity F) (map c_name (key_of t)))) [] [] (Some 1%N) None [])).
  { intros tn table T. destruct (C19_find_by_pk_partial printable _ _ _ _ _ _ _ BT d _ _ _ readable_columns own_name tn table (addressed tn table T) ps _ G) as (_ & text & E & R).
    exists text. split; [ exact E | ]. intros r. specialize (R r). unfold gen_addrs in R. rewrite (args_of _ _ r H), key_condition_of, (items_of _ _ (vw_all _ _ _ _ _ _ _ VIEW)) in R. exact R. }
  assert (Q : query_ok ps) by (destruct some_table as (tn & table & T); destruct (READ tn table T) as (text & E & _); subst ps; eapply query_evaluates; exact E).
  eapply covers_statement; [ repeat constructor | exact Q | exact H | ]. intros m x S0 R VL. split; [ exact S0 | ]. exists (map c_name (key_of t)). split; [ now apply named_of | ]. exists (query_trees ps), x. split; [ exact R | ]. split; [ exact VL | ].
  intros tn table T. destruct (READ tn table T) as (text & E & RD). exists text. split; [ now rewrite query_value | exact RD ].
Qed.
Lemma combine_holds fs cs (r : bytes -> V) : Forall2 near fs cs ->
  map (fun c => (c_name c, holding (fun c => before (c_type c)) (fun c => after (c_type c)) (fun c => r (c_gopath c)) c)) cs = combine (map c_name cs) (map (holds before after r) fs).
Proof.
  intros H. rewrite <- (holds_of _ _ r H). clear. induction cs as [|c cs IH]; [ reflexivity | ]. cbn [map combine]. now rewrite IH.
Qed.
Lemma covers_update : covers (update_text printable d user name valuer t) (if nonempty (identity F) && negb (t_readonly t) && nonempty (updated F) then [KUpdate] else []).
Proof.
  pose proof identity_near as H. pose proof (vw_updated _ _ _ _ _ _ _ VIEW) as HU. destruct (vw_built _ _ _ _ _ _ _ VIEW) as (fs & ro & BT). unfold update_text, statement_text. fold own_name. rewrite <- has_key.
  destruct (gen_update_by_pk printable d own_name t) as [ [ps cs] | ] eqn:G.
  2:{ unfold gen_update_by_pk in G. destruct (has_pk t && negb (t_readonly t)); [ | apply covers_nil ]. destruct (columns_without_pk t); [ inversion HU; apply covers_nil | discriminate ]. }
  assert (C : has_pk t && negb (t_readonly t) && nonempty (updated F) = true /\ cs = columns_without_pk t ++ key_of t /\ exists a b c, ps = if own_name then [Lit a; CallTableName; Lit b] else [Lit c]).
  { unfold gen_update_by_pk in G. destruct (has_pk t && negb (t_readonly t)); [ | discriminate ]. destruct (columns_without_pk t); [ discriminate | ]. injection G as <- <-. split; [ inversion HU; reflexivity | ]. split; [ reflexivity | ]. eexists _, _, _. reflexivity. }
  destruct C as (KU & -> & a & b & c & EP). rewrite KU.
  assert (HC : Forall2 near (updated F ++ identity F) (columns_without_pk t ++ key_of t)) by (apply Forall2_app; assumption).
  assert (READ : forall tn table, table_of (V:=V) d own_name t tn table -> exists text, eval_pieces tn ps = Some text /\
           (exists sets wh, parse (flavour_of d) (lex (V:=V) (flavour_of d) text) = Some (Update table sets (Some wh) [] None) /\ map fst sets = map c_name (columns_without_pk t)) /\
           ((d = DPostgres -> length (identity F) = 1 -> length (all F) = length (updated F) + 1) ->
            forall r, read (flavour_of d) text (map (value_in r) (updated F ++ identity F)) =
              Some (Update table (combine (map c_name (columns_without_pk t)) (map (holds before after r) (updated F))) (Some (key_is before after r (identity F) (map c_name (key_of t)))) [] None))).
  { intros tn table T. pose proof (addressed tn table T) as AD. pose proof readable_columns as RD.
    assert (W : forall c, In c (t_columns t) -> wrapped d c (before (c_type c)) (after (c_type c))) by (intros x I; apply (RD x I)).
    assert (SL : forall c, In c (t_columns t) -> selected d c (item (c_type c) (c_name c))) by (intros x I; apply (RD x I)).
    assert (PN : forall c, In c (t_columns t) -> plain_name (c_name c)) by (intros x I; apply (RD x I)).
    pose proof (vw_wf _ _ _ _ _ _ _ VIEW) as WF.
    assert (HP : has_pk t = true) by (destruct (has_pk t); [ reflexivity | discriminate ]).
    assert (NE : columns_without_pk t <> []) by (intros E; rewrite E in HU; inversion HU as [X|]; rewrite <- X in KU; rewrite andb_false_r in KU; discriminate).
    set (text := B "UPDATE " ++ table_text printable d t own_name tn ++ update_body printable d t).
    assert (EV : eval_pieces tn ps = Some text).
    { assert (EQ : ps = if own_name then [Lit (gen_quote d (B "UPDATE ")); CallTableName; Lit (gen_quote d (update_body printable d t))] else [Lit (gen_quote d (B "UPDATE " ++ must_quote printable d (t_name t) ++ update_body printable d t))]).
      { unfold gen_update_by_pk in G. destruct (has_pk t && negb (t_readonly t)); [ | discriminate ]. destruct (columns_without_pk t) eqn:EC; [ now destruct NE | ]. rewrite <- EC in G. injection G as <-. unfold update_body. reflexivity. }
      rewrite EQ. refine (eval_three printable d t own_name tn table AD (B "UPDATE ") (update_body printable d t) _ _); [ apply lit_const; clear; destruct d; reflexivity | ]. eapply lit_update_body; eauto; first [ exact W | exact SL ]. }
    exists text. split; [ exact EV | ]. split.
    - edestruct (update_parse printable d t (fun c => before (c_type c)) (fun c => after (c_type c))) as (sets & wh & P & FS); eauto; exact SL.
    - intros COUNT r. destruct (C20_update_by_pk_partial printable _ _ _ _ _ _ _ BT d _ _ _ RD own_name tn table AD ps _ G) as (text2 & ups & EU & _ & _ & E2 & R).
      { intros D K. rewrite app_length, K. rewrite <- (forall2_length _ _ _ HU), <- (forall2_length _ _ _ (vw_all _ _ _ _ _ _ _ VIEW)). apply COUNT; [ exact D | ]. now rewrite (forall2_length _ _ _ H). }
      rewrite EV in E2. injection E2 as <-. apply app_inv_tail in EU. subst ups. specialize (R r). rewrite (args_of _ _ r HC), key_condition_of, (combine_holds _ _ r HU) in R. exact R. }
  assert (Q : query_ok ps) by (destruct some_table as (tn & table & T); destruct (READ tn table T) as (text & E & _); subst ps; eapply query_evaluates; exact E).
  eapply covers_statement; [ repeat constructor | exact Q | exact HC | ]. intros m x S0 R VL. split; [ exact S0 | ]. exists (map c_name (columns_without_pk t)), (map c_name (key_of t)). split; [ now apply named_of | ]. split; [ now apply named_of | ]. exists (query_trees ps), x. split; [ exact R | ]. split; [ exact VL | ].
  intros tn table T. destruct (READ tn table T) as (text & E & RD). exists text. split; [ now rewrite query_value | exact RD ].
Qed.
(** *** Getters *)
Lemma nested_guards ps inner : nested ps inner = guards ps inner.
Proof. induction ps as [|p ps IH]; [ reflexivity | ]. cbn [nested guards]. now rewrite IH. Qed.
Lemma covers_getter f c : near f c -> covers (getter_text name valuer c) [KValue f].
Proof.
  intros N. destruct (near_for f c N) as (E1 & E2 & E3 & _ & _ & E6). change (c_gopath c = field_path f) in E2. destruct (near_content (B "v" ++ field_path f) f c N (or_introl eq_refl)) as [X CT].
  eapply covers_one; [ eapply getter_declares; [ exact GO | eapply near_goword; exact N | apply near_pointers; exact N | | rewrite E2, E3; exact X ] | ].
  - apply identifiers_words. apply Forall_forall. intros p I. eapply pointers_identifiers; [ | exact I ]. apply (near_readable f c N).
  - rewrite E1, E2, E3. split; [ repeat split; now right | ]. eexists. split; [ exact CT | ]. cbn [g_body]. rewrite nested_guards. f_equal. rewrite pointers_nonempty. destruct (pointers [] (f_paths f)); reflexivity.
Qed.
Lemma covers_column f c : near f c -> covers (column_text printable d on prefix name valuer basic type_text c) [KColumn f].
Proof.
  intros N. destruct (near_for f c N) as (E1 & E2 & E3 & _). assert (EP : c_gopath c = path (map fst (f_paths f))) by (rewrite E2; unfold path; rewrite map_map; reflexivity). pose proof (near_readable f c N) as (ID & _ & _ & _ & TT & _). pose proof (expression_is _ TT) as X.
  pose proof (near_literal on f c N) as L. destruct (literal_string _ _ _ L) as [x LX]. destruct (near_content (B "val") f c N (or_intror eq_refl)) as [Y CT].
  assert (GN : go_word (prefix ++ c_goname c)).
  { destruct PREFIX as [ -> | P ]; [ eapply near_goword; exact N | ]. apply go_word_app; [ now apply identifier_word | ]. rewrite E1. apply name_chars. apply (near_ascii f c N). }
  assert (GW : Forall go_word (map fst (f_paths f))) by (eapply Forall_impl; [ | exact ID ]; intros; now apply identifier_word).
  destruct (basic (c_type c)) eqn:BA.
  - eapply covers_one; [ eapply basic_declares; [ exact GO | exact GN | exact LX | reflexivity | exact EP | exact GW | exact BA | rewrite E3; exact X ] | ].
    rewrite E1, E3 in *. exists (gen_quote d (quote_id printable d on (c_name c))), (c_name c), (parsed (type_text (f_type f))). split; [ now apply near_named | ]. split; [ exact L | ]. split; [ now apply is_expression_trees | ]. rewrite BA. split; [ repeat split; now right | reflexivity ].
  - eapply covers_one; [ eapply convert_declares; [ exact GO | exact GN | exact LX | reflexivity | exact EP | exact GW | exact BA | rewrite E3; exact X | rewrite E3; exact Y ] | ].
    rewrite E1, E3 in *. exists (gen_quote d (quote_id printable d on (c_name c))), (c_name c), (parsed (type_text (f_type f))). split; [ now apply near_named | ]. split; [ exact L | ]. split; [ now apply is_expression_trees | ]. rewrite BA. split; [ repeat split; now right | ].
    exists (closure_body valuer (f_type f)), (parsed (content_text valuer (B "val") (f_type f))). split; [ exact CT | ]. split; [ reflexivity | ].
    unfold brace. rewrite body_of_statements, (prints_statements _ _ (closure_prints valuer (f_type f) Y)), content_ptr. destruct (Nat.eqb (ty_ptr (f_type f)) 0); reflexivity.
Qed.
Lemma covers_map (text : column -> bytes) (kd : sfield -> kind) fs cs : Forall2 near fs cs -> (forall f c, near f c -> covers (text c) [kd f]) -> covers (concat (map text cs)) (map kd fs).
Proof. intros H G. induction H as [|f c fs cs N H IH]; [ apply covers_nil | ]. cbn [map concat]. change (kd f :: map kd fs) with ([kd f] ++ map kd fs). apply covers_app; auto. Qed.

Lemma covers_all text : gen_text printable d on prefix strict user name valuer scanner basic type_text new_text type_name t = Ok text ->
  exists body, text = LF :: body /\ covers body (kinds user (t_readonly t) (existsb scanned (all F)) F).
Proof.
  unfold gen_text. intros E.
  assert (OWN : forall n s ks x, covers s ks -> unless_own_text strict user n s = Ok x -> covers x (if missing user n then ks else [])).
  { intros n s ks x C U. unfold unless_own_text in U. unfold missing. destruct (user n); [ injection U as <-; exact C | injection U as <-; apply covers_nil | destruct strict; [ discriminate | injection U as <-; apply covers_nil ] ]. }
  destruct (match user (B "TableName") with Missing => _ | Has => _ | Wrong => _ end) as [s1| |] eqn:E1; cbn [bind] in E; try discriminate.
  destruct (unless_own_text strict user (B "SQLColumns") _) as [s2| |] eqn:E2; cbn [bind] in E; try discriminate.
  destruct (unless_own_text strict user (B "Columns") _) as [s3| |] eqn:E3; cbn [bind] in E; try discriminate.
  destruct (if t_readonly t then _ else _) as [s4| |] eqn:E4; cbn [bind] in E; try discriminate.
  destruct (unless_own_text strict user (B "Addrs") _) as [s5| |] eqn:E5; cbn [bind] in E; try discriminate.
  injection E as <-. eexists. split; [ reflexivity | ]. unfold kinds.
  apply covers_app. { unfold missing. destruct (user (B "TableName")); [ injection E1 as <-; apply covers_table_name | injection E1 as <-; apply covers_nil | destruct strict; discriminate ]. }
  apply covers_app; [ apply covers_key | ].
  apply covers_app. { pose proof (OWN _ _ _ _ covers_sql_columns E2) as C. destruct (missing user (B "SQLColumns")); cbn [andb]; exact C. }
  apply covers_app; [ exact (OWN _ _ _ _ covers_columns E3) | ].
  apply covers_app. { destruct (t_readonly t); cbn [negb]; [ injection E4 as <-; rewrite andb_false_r; apply covers_nil | ]. rewrite andb_true_r. pose proof (OWN _ _ _ _ covers_values E4) as C. destruct (missing user (B "Values")); cbn [andb]; exact C. }
  apply covers_app; [ exact (OWN _ _ _ _ covers_addrs E5) | ].
  apply covers_app.
  { pose proof (vw_inserted _ _ _ _ _ _ _ VIEW) as H. destruct (t_readonly t) eqn:RO; cbn [negb andb]; [ apply covers_nil | ]. destruct (inserted F) as [|f0 l0] eqn:EI.
    - inversion H as [X|]. apply covers_nil.
    - cbn [nonempty]. destruct (insert_columns t) as [|c0 k0] eqn:EC; [ inversion H | ]. rewrite <- EI. apply covers_app; [ apply covers_insert_columns | ]. change [KPlaceholders; KInsertOne] with ([KPlaceholders] ++ [KInsertOne]).
      apply covers_app; [ apply covers_placeholders; rewrite EI; discriminate | apply covers_insert_one; [ exact RO | rewrite EI; discriminate ] ]. }
  pose proof covers_find as CF. pose proof covers_update as CU. pose proof (covers_map _ _ _ _ (vw_all _ _ _ _ _ _ _ VIEW) covers_getter) as CG. pose proof (covers_map _ _ _ _ (vw_all _ _ _ _ _ _ _ VIEW) covers_column) as CC.
  pose proof (covers_app _ _ _ _ CF (covers_app _ _ _ _ CU (covers_app _ _ _ _ CG CC))) as C. destruct (nonempty (identity F)); cbn [andb app] in *; [ | exact C ].
  destruct (negb (t_readonly t) && nonempty (updated F)); exact C.
Qed.
End Fields.

(** ** C76 *)
Lemma source_declares text : gen_text printable d on prefix strict user name valuer scanner basic type_text new_text type_name t = Ok text ->
  exists F ns ss ms, fields_of rename ds F ns /\ text = LF :: concat ss /\ Forall2 declares ss ms /\
  Forall2 (describes_method (V:=V) d on prefix own_name name valuer scanner basic type_text new_text type_name unwrap before after item t F ns)
    (kinds user (t_readonly t) (existsb (fun f => match unwrap (f_type f) with ([], []) => false | _ => true end) (all F)) F) ms.
Proof.
  intros G. destruct (full_view conv wrap unwrap sort name doc ds t SORT ASCII PARSED) as [F VIEW]. destruct (covers_all F VIEW text G) as (body & -> & ss & ms & -> & D & M).
  exists F, (map c_name (t_columns t)), ss, ms. split; [ apply VIEW | ]. split; [ reflexivity | ]. split; [ exact D | exact M ].
Qed.
Theorem C76_source text : gen_text printable d on prefix strict user name valuer scanner basic type_text new_text type_name t = Ok text ->
  exists F ns ms, fields_of rename ds F ns /\ read_source text = Some (map Method ms) /\
  Forall2 (describes_method (V:=V) d on prefix own_name name valuer scanner basic type_text new_text type_name unwrap before after item t F ns)
    (kinds user (t_readonly t) (existsb (fun f => match unwrap (f_type f) with ([], []) => false | _ => true end) (all F)) F) ms.
Proof.
  intros G. destruct (source_declares text G) as (F & ns & ss & ms & FO & -> & D & M). exists F, ns, ms. split; [ exact FO | ]. split; [ now apply declared_source | exact M ].
Qed.
(** There is a text unless one of the methods that the generator would write exists with another type. *)
Theorem C76_source_exists : (forall n, user n <> Wrong) -> exists text, gen_text printable d on prefix strict user name valuer scanner basic type_text new_text type_name t = Ok text.
Proof.
  intros W. unfold gen_text.
  assert (U : forall n s, exists x, unless_own_text strict user n s = Ok x) by (intros n s; unfold unless_own_text; specialize (W n); destruct (user n); [ eauto | eauto | now destruct W ]).
  assert (E1 : exists x, match user (B "TableName") with Missing => Ok (table_name_text printable d on name t) | Has => Ok [] | Wrong => if strict then Panic else Err end = Ok x) by (specialize (W (B "TableName")); destruct (user (B "TableName")); [ eauto | eauto | now destruct W ]).
  destruct E1 as [x1 ->]. cbn [bind]. destruct (U (B "SQLColumns") (sql_columns_text printable d on name t)) as [x2 ->]. cbn [bind]. destruct (U (B "Columns") (columns_text printable d on name t)) as [x3 ->]. cbn [bind].
  assert (E4 : exists x, (if t_readonly t then Ok [] else unless_own_text strict user (B "Values") (values_text name valuer t)) = Ok x) by (destruct (t_readonly t); eauto). destruct E4 as [x4 ->]. cbn [bind].
  destruct (U (B "Addrs") (addrs_text name scanner new_text t)) as [x5 ->]. cbn [bind]. eauto.
Qed.
End Source.
Print Assumptions C76_source.
Print Assumptions C76_source_exists.

(** ** A case: a generated key, a struct embedded by pointer, a read-only column, a column behind a function, a pointer *)
Definition account : list decl :=
  [Names [(B "ID", true)] {| ty_base := B "int64"; ty_ptr := 0 |} (B ",auto_increment");
   Embeds (B "Model") true {| ty_base := B "Model"; ty_ptr := 1 |} [] [Names [(B "CreatedAt", true)] text (B ",readonly")];
   Names [(B "Ref", true)] uuid_type (B "ref_no");
   Names [(B "Nick", true)] {| ty_base := B "string"; ty_ptr := 1 |} []].
Definition plain_basic (g : gotype) : bool := match ty_ptr g with 0 => bseq (ty_base g) (B "string") || bseq (ty_base g) (B "int64") | _ => false end.
Definition plain_valuer (p : bytes) (g : gotype) : bytes := if plain_basic g then p else if bseq (ty_base g) (B "uuid") then B "encoding.BinaryMarshalerValue(" ++ p ++ B ")" else B "encoding.StringValue(" ++ p ++ B ")".
Definition plain_scanner (p : bytes) (g : gotype) : bytes := if plain_basic g then p else B "encoding.Scanner[" ++ ty_base g ++ B "](" ++ p ++ B ")".
Definition plain_type (g : gotype) : bytes := repeat "*"%char (ty_ptr g) ++ ty_base g.
Definition plain_new (p : bytes) : bytes := B "Model".
Lemma expression_by e : match trees e with
  | Some x => forallb (fun c => negb (beq c LF)) e && forallb (fun t => negb (is_sym (B ",") t) && negb (is_sym (B ";") t)) x = true /\ trees (e ++ [LF]) = Some (x ++ [sym (B ";")])
  | None => False end -> expression_text e.
Proof.
  destruct (trees e) as [x|] eqn:E; [ | intros [] ]. intros [H T]. exists x. apply andb_prop in H as [H1 H2]. split; [ exact E | ]. rewrite forallb_forall in H1, H2. split; [ | split; [ | exact T ] ].
  - intros I. specialize (H1 _ I). discriminate.
  - intros u I. specialize (H2 u I). apply andb_prop in H2 as [H2 H3]. split; [ now destruct (is_sym (B ",") u) | now destruct (is_sym (B ";") u) ].
Qed.
Definition account_methods : option (list gfunc) :=
  match parse_struct isort (rename_func (B "snake_case")) stored taken (B "Account") None account with
  | Ok (Some t) => match gen_text (fun _ => true) DMySQL true (B "Column") true (fun _ => Missing) (B "Account") plain_valuer plain_scanner plain_basic plain_type plain_new plain_type t with
                   | Ok text => option_map (flat_map (fun m => match m with Method g => [g] | _ => [] end)) (read_source text) | _ => None end
  | _ => None
  end.
Example C76_case : ascii_source (B "Account") account /\ sorts isort /\ distinct_paths account /\
  sql_functions (V:=nat) DMySQL stored taken (fun g => if bseq (ty_base g) (B "uuid") then [Name (B "uuid_to_bin"); Sym "("] else []) (fun g => if bseq (ty_base g) (B "uuid") then [Sym ")"] else []) (fun _ n => [Name n]) /\
  (forall f, In f (declared account) -> has_column f -> readable_field plain_valuer plain_scanner plain_type plain_new f) /\
  (forall f, In f (declared account) -> has_column f -> auto_field f -> expression_text (plain_type (f_type f))) /\
  exists t text ms, parse_struct isort (rename_func (B "snake_case")) stored taken (B "Account") None account = Ok (Some t) /\
  gen_text (fun _ => true) DMySQL true (B "Column") true (fun _ => Missing) (B "Account") plain_valuer plain_scanner plain_basic plain_type plain_new plain_type t = Ok text /\
  read_source text = Some (map Method ms) /\
  map g_name ms = map B ["TableName"; "HasPK"; "IsAutoIncr"; "ScanAutoIncr"; "PK"; "Columns"; "Values"; "Addrs"; "InsertColumns"; "InsertPlaceholders"; "InsertOneStmt"; "FindOneByPKStmt"; "UpdateOneByPKStmt";
                         "IDValue"; "CreatedAtValue"; "RefValue"; "NickValue"; "ColumnID"; "ColumnCreatedAt"; "ColumnRef"; "ColumnNick"]%string.
Proof.
  split; [ split; [ split; [ discriminate | ] | split ] | ].
  - repeat (apply Forall_cons; [ left; unfold letter; cbn; lia | ]). constructor.
  - exists "A"%char, (B "ccount"). split; [ reflexivity | cbn; lia ].
  - repeat (apply Forall_cons; [ apply ascii_field_by; reflexivity | ]). constructor.
  - split; [ exact isort_sorts | ]. split; [ | split; [ apply C17_case | ] ].
    + unfold distinct_paths. cbn. repeat constructor; cbn; intuition discriminate.
    + split; [ | split ].
      * intros f I _. cbn in I.
        repeat (destruct I as [ <- | I ]; [ split; [ repeat (apply Forall_cons; [ eexists _, _; split; [ reflexivity | ]; split; [ reflexivity | repeat constructor ] | ]); constructor | ];
          split; [ intros p [ -> | -> ]; apply expression_by; vm_compute; split; reflexivity | ]; split; [ intros _; apply expression_by; vm_compute; split; reflexivity | ];
          split; [ apply expression_by; vm_compute; split; reflexivity | ]; split; [ apply expression_by; vm_compute; split; reflexivity | ]; intros p _; apply expression_by; vm_compute; split; reflexivity | ]).
        destruct I.
      * intros f I _ _. cbn in I. repeat (destruct I as [ <- | I ]; [ apply expression_by; vm_compute; split; reflexivity | ]). destruct I.
      * eexists _, _, (match account_methods with Some ms => ms | None => [] end). split; [ vm_compute; reflexivity | ]. split; [ vm_compute; reflexivity | ]. split; vm_compute; reflexivity.
Qed.
