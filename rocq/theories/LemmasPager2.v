(** The statements of the pager without an ordering. *)
From Verif Require Import Base ModelStrconv ModelCompiler ModelGen ModelRuntime ModelStmt ModelPager SpecSql SpecGen SpecRuntime SpecStmt SpecPager
  LemmasBase LemmasSql LemmasSql2 LemmasSql3 LemmasGen LemmasGen2 LemmasSql4 LemmasRuntime LemmasRuntime2 LemmasStmt LemmasStmt2 LemmasStmt3 LemmasStmt4 LemmasPager.

Section P.
Context {V : Type}.
Notation tok := (tok V).
Notation wc := (where_clause V).
Implicit Types (fl : flavour) (ts r : list tok) (s : sqlstmt V).

(** ** A condition followed by a parenthesis *)
Lemma calls_here (t : tok) r : ends_value t = true -> forall pre, calls_value (pre ++ t :: Sym "(" :: r) = true.
Proof.
  intros E pre. induction pre as [|x pre IH].
  - cbn [app]. cbn [calls_value]. rewrite E. reflexivity.
  - cbn [app calls_value]. rewrite IH. apply orb_true_r.
Qed.
Lemma not_expr (t : tok) pre r : ends_value t = true -> is_expr (pre ++ t :: Sym "(" :: r) = false.
Proof.
  intros E. destruct (is_expr (pre ++ t :: Sym "(" :: r)) eqn:X; [|reflexivity].
  apply is_expr_passes in X. destruct X as (_ & _ & C). rewrite calls_here in C by exact E. discriminate.
Qed.
Lemma operand_called (v : V) r : parse_operand (Val v :: Sym "(" :: r) = None.
Proof. unfold parse_operand. change (Val v :: Sym "(" :: r) with ([] ++ Val v :: Sym (V:=V) "(" :: r). rewrite not_expr by reflexivity. reflexivity. Qed.
Lemma operand_row_called ts r : balanced ts -> parse_operand (Sym "(" :: ts ++ Sym ")" :: Sym "(" :: r) = None.
Proof.
  intros Bl. unfold parse_operand. cbn [beq Ascii.eqb Bool.eqb]. rewrite group_close by exact Bl.
  change (Sym "(" :: ts ++ Sym ")" :: Sym "(" :: r) with ((Sym "(" :: ts) ++ Sym ")" :: Sym (V:=V) "(" :: r). rewrite not_expr by reflexivity. reflexivity.
Qed.
Lemma predicate_paren ts : balanced ts -> forall r, (forall sep : tok -> bool, passes sep r) -> predicate (Sym "(" :: ts ++ Sym ")" :: r) = None.
Proof.
  intros Bl r R. unfold predicate.
  assert (E : until pred_start 0 (Sym "(" :: ts ++ Sym ")" :: r) = Some (Sym "(" :: ts ++ Sym ")" :: r, [])).
  { change (passes pred_start (Sym "(" :: ts ++ Sym ")" :: r)). replace (Sym "(" :: ts ++ Sym ")" :: r) with ((Sym "(" :: ts ++ [Sym ")"]) ++ r) by (cbn [app]; rewrite <- app_assoc; reflexivity).
    apply passes_app; [apply passes_paren, Bl|apply R]. }
  rewrite E. reflexivity.
Qed.

Lemma leaf_called fl (w : wc) (x : list tok) : match w with WAnd _ | WOr _ => False | _ => True end -> balanced x ->
  predicate (wtoks fl w ++ Sym "(" :: x ++ [Sym ")"]) = None.
Proof.
  intros L Bx. set (r := x ++ [Sym ")"]).
  assert (CMP : forall n o v, predicate (V:=V) (Name n :: Op o :: Val v :: Sym "(" :: r) = None).
  { intros n o v. unfold predicate. change (Name n :: Op o :: ?y) with ([Name (V:=V) n] ++ Op o :: y). rewrite until_stop by reflexivity.
    rewrite operand_name. cbn [obind]. destruct (comparison o); [|reflexivity]. rewrite operand_called. reflexivity. }
  assert (LIKE : forall neg l v, pred_tail (V:=V) neg l (B "LIKE") (Val v :: Sym "(" :: r) = None).
  { intros. unfold pred_tail. change (bseq (B "LIKE") (B "IN")) with false. change (bseq (B "LIKE") (B "LIKE")) with true. cbv iota. rewrite operand_called. reflexivity. }
  assert (BTW : forall neg l lo hi, pred_tail (V:=V) neg l (B "BETWEEN") (Val lo :: Kw (B "AND") :: Val hi :: Sym "(" :: r) = None).
  { intros. unfold pred_tail. change (bseq (B "BETWEEN") (B "IN")) with false. change (bseq (B "BETWEEN") (B "LIKE")) with false.
    change (bseq (B "BETWEEN") (B "BETWEEN")) with true. cbv iota.
    change (Val lo :: Kw (B "AND") :: ?y) with ([Val lo] ++ Kw (B "AND") :: y). rewrite split_sep by reflexivity.
    rewrite split_one; [rewrite operand_val; cbn [obind]; rewrite operand_called; reflexivity|].
    apply passes_cons; [reflexivity|reflexivity|]. apply passes_paren, Bx. }
  assert (IN : forall neg l (vs : list V), pred_tail (V:=V) neg l (B "IN") (row_toks (vals vs) ++ Sym "(" :: r) = None).
  { intros neg l vs. unfold pred_tail. change (bseq (B "IN") (B "IN")) with true. cbv iota. unfold row_toks. cbn [app]. rewrite <- app_assoc. cbn [app].
    rewrite operand_row_called by apply balanced_vals. reflexivity. }
  destruct w; try contradiction; cbn [wtoks app]; unfold ko; try apply CMP;
  rewrite predicate_kw by reflexivity.
  - change (bseq (B "IN") (B "IS")) with false. change (bseq (B "IN") (B "NOT")) with false. cbv iota. apply IN.
  - change (bseq (B "NOT") (B "IS")) with false. change (bseq (B "NOT") (B "NOT")) with true. cbv iota. apply IN.
  - change (bseq (B "LIKE") (B "IS")) with false. change (bseq (B "LIKE") (B "NOT")) with false. cbv iota. apply LIKE.
  - change (bseq (B "NOT") (B "IS")) with false. change (bseq (B "NOT") (B "NOT")) with true. cbv iota. apply LIKE.
  - reflexivity.
  - reflexivity.
  - change (bseq (B "BETWEEN") (B "IS")) with false. change (bseq (B "BETWEEN") (B "NOT")) with false. cbv iota. apply BTW.
  - change (bseq (B "NOT") (B "IS")) with false. change (bseq (B "NOT") (B "NOT")) with true. cbv iota. apply BTW.
Qed.
Lemma where_called fl (w : wc) (x : list tok) : wtoks fl w <> [] -> balanced x -> where_p (wtoks fl w ++ Sym "(" :: x ++ [Sym ")"]) = None.
Proof.
  intros NE Bx. unfold where_p.
  assert (BF : forall (cs : list wc) (t : tok), plain_tok t = true -> balanced (sep_by t (map (wtoks fl) cs))).
  { intros cs t P. apply passes_sep_by; [exact P|reflexivity|]. apply Forall_forall. intros y I. apply in_map_iff in I. destruct I as (c & <- & _). apply wtoks_balanced. }
  assert (BX : forall sep : tok -> bool, passes sep (Sym "(" :: x ++ [Sym ")"])) by (intros; apply passes_paren, Bx).
  destruct (length _) as [|f] eqn:E; [reflexivity|]. rewrite condition_one.
  2:{ apply passes_app; [apply wtoks_passes, harmless_or|apply BX]. }
  2:{ apply cuts_app; [apply wtoks_cuts|apply cuts_paren, Bx]. }
  assert (GRP : forall (t : tok) cs, plain_tok t = true -> atom f ((Sym "(" :: sep_by t (map (wtoks fl) cs) ++ [Sym ")"]) ++ Sym "(" :: x ++ [Sym ")"]) = None).
  { intros t cs P. unfold atom. cbn [app beq Ascii.eqb Bool.eqb]. rewrite <- app_assoc. cbn [app]. rewrite group_close by (apply BF, P).
    apply predicate_paren; [apply BF, P|exact BX]. }
  destruct w as [[|c cs]|[|c cs]| | | | | | | | | | | | | |]; try (cbn [wtoks map boxed] in NE; congruence);
    try (match goal with |- atom f ?y = None => change (predicate y = None) end; apply leaf_called; [exact I|exact Bx]).
  - apply (GRP (ko "AND") (c :: cs)). reflexivity.
  - apply (GRP (ko "OR") (c :: cs)). reflexivity.
Qed.
Lemma wtoks_nil fl (w : wc) : wtoks fl w = [] <-> writes_nothing w.
Proof.
  unfold writes_nothing. split; [|intros [->| ->]; reflexivity].
  destruct w as [[|c cs]|[|c cs]| | | | | | | | | | | | | |]; try discriminate; intros _; [now left|now right].
Qed.

(** ** The whole statement *)
Section Whole.
Variables (d : driver) (fwd : bool) (p : pager V) (m : model V) (q cols : list bytes) (items : list (expr V)) (ks : list (bytes * V)).
Notation fl := (flavour_of d).
Hypothesis D : described fl m q cols items.
Hypothesis K : keyed_by fl m ks.

Definition cond_toks : list tok := match p_where p with Some w => wtoks fl w | None => [] end.
Definition rel : bytes := if fwd then B ">=" else B "<=".
Lemma rel_spells n : spells (V:=V) fl n (B " " ++ rel ++ B " ") [] [Op rel].
Proof. unfold rel. destruct fwd; sconst. Qed.

Lemma tail_spells n (o : bytes) ots lim : (forall n, spells (V:=V) fl n o [] ots) ->
  spells fl n (B " ORDER BY " ++ o ++ B " LIMIT " ++ format_uint lim ++ B ";") [] (ko "ORDER" :: ko "BY" :: ots ++ [ko "LIMIT"; Num (format_uint lim); Sym ";"]).
Proof.
  intros SO. change (ko "ORDER" :: ko "BY" :: ?x) with ([ko (V:=V) "ORDER"; ko "BY"] ++ x). apply spells_lr; [unfold ko; sconst| |reflexivity].
  apply spells_rr; [apply SO| |reflexivity|discriminate].
  change [ko (V:=V) "LIMIT"; Num (format_uint lim); Sym ";"] with ([ko (V:=V) "LIMIT"] ++ [Num (format_uint lim)] ++ [Sym ";"]).
  apply spells_lr; [unfold ko; sconst| |reflexivity]. apply spells_rr; [apply spells_number|sconst|reflexivity|discriminate].
Qed.
Lemma order_text_spells : p_order p = [] -> exists o, page_order fwd m (p_order p) = Ok o /\ forall n, spells fl n o [] (key_name_toks m ks ++ dir_toks m fwd).
Proof.
  intros ->. destruct (key_order_ok d m ks K) as (t & E). unfold page_order, dir_toks.
  assert (S0 : forall n, spells fl n t [] (key_name_toks m ks)) by (intros; apply key_names_spell; assumption).
  destruct fwd; rewrite key_order_split, E; cbn [bind]; eexists; (split; [reflexivity|]); intros n.
  - destruct (m_key m); rewrite ?app_nil_r; try apply S0. apply spells_rr; [apply S0|unfold ko; sconst|reflexivity|discriminate].
  - assert (X : (match m_key m with CompKey _ _ _ => B " DESC" | _ => B " DESC" end) = B " DESC") by (destruct (m_key m); reflexivity). rewrite X.
    apply spells_rr; [apply S0|unfold ko; sconst|reflexivity|discriminate].
Qed.

Lemma page_spells (cursor : bool) : p_order p = [] -> condition_ok fl (p_where p) -> calm d (p_where p) ->
  exists text args tbl, page_stmt d fwd p m cursor = Ok (text, args) /\ qname tbl = Some q /\
  spells fl 0 text args (page_toks items tbl (cond_toks ++ if cursor then boxed_bound m ks rel else []) (key_name_toks m ks ++ dir_toks m fwd) (uint16 (p_limit p + 1))).
Proof.
  intros PO C CA. destruct (LemmasRuntime2.select_spells d m q cols items D) as (tbl & Q & SH).
  unfold page_stmt. set (s0 := put empty_stmt _).
  assert (IS0 : in_step d s0) by (intros _; reflexivity).
  assert (T0 : s_text s0 = select_head m ++ B " WHERE ") by (unfold s0, select_head; cbn [put empty_stmt s_text app]; rewrite <- !app_assoc; reflexivity).
  assert (A0 : s_args s0 = []) by reflexivity.
  assert (W : exists text s1 vs, (match p_where p with Some w => write_where d w s0 | None => Ok s0 end) = Ok s1 /\ in_step d s1 /\
    s_text s1 = s_text s0 ++ text /\ s_args s1 = vs /\ spells fl 0 text vs cond_toks).
  { unfold cond_toks. destruct (p_where p) as [w|].
    - destruct (where_spells d w C CA s0 IS0) as (text & s' & E & IS' & ET & EA & SP). exists text, s', (wvals w).
      split; [exact E|]. split; [exact IS'|]. split; [exact ET|]. split; [rewrite EA, A0; reflexivity|]. rewrite A0 in SP. exact SP.
    - exists [], s0, []. split; [reflexivity|]. split; [exact IS0|]. rewrite app_nil_r. split; [reflexivity|]. split; [exact A0|apply spells_nil]. }
  destruct W as (tw & s1 & vs & E1 & IS1 & ET1 & EA1 & SW). rewrite E1, PO. cbn [bind].
  assert (N1 : (if fwd then next_conditions d m [] s1 else prev_conditions d m [] s1) = Ok s1) by (destruct fwd; reflexivity).
  rewrite N1. cbn [bind].
  assert (CU : exists text s2 us, (if cursor then cursor_bound d (if fwd then B ">=" else B "<=") m s1 else Ok s1) = Ok s2 /\
    s_text s2 = s_text s1 ++ text /\ s_args s2 = vs ++ us /\ spells fl (length vs) text us (if cursor then boxed_bound m ks rel else []) /\ headed text = true).
  { destruct cursor.
    - destruct (bound_writes d m ks K rel) with (s := s1) as (text & s' & E & IS' & ET & EA & SP & H & NE).
      + unfold rel. destruct fwd; reflexivity.
      + apply rel_spells.
      + exact IS1.
      + exists text, s', (map snd ks). rewrite EA1 in *. auto.
    - exists [], s1, []. rewrite !app_nil_r. repeat split; auto. apply spells_nil. }
  destruct CU as (tc & s2 & us & E2 & ET2 & EA2 & SC & HC). rewrite E2. cbn [bind].
  destruct (order_text_spells PO) as (o & EO & SO). rewrite PO in EO. rewrite EO. cbn [bind]. eexists. eexists. exists tbl. split; [reflexivity|].
  split; [exact Q|]. cbn [put s_text s_args]. rewrite ET2, ET1, T0, EA2. unfold page_toks.
  set (lim := uint16 (p_limit p + 1)). set (ots := key_name_toks m ks ++ dir_toks m fwd) in *.
  apply spells_eq with (s := select_head m ++ B " WHERE " ++ tw ++ tc ++ B " ORDER BY " ++ o ++ B " LIMIT " ++ format_uint lim ++ B ";") (vs := vs ++ us)
    (ts := (Kw (B "SELECT") :: commas items ++ Kw (B "FROM") :: tbl) ++ [ko "WHERE"] ++ cond_toks ++ (if cursor then boxed_bound m ks rel else []) ++ (ko "ORDER" :: ko "BY" :: ots ++ [ko "LIMIT"; Num (format_uint lim); Sym ";"]));
    [|rewrite <- !app_assoc; reflexivity|reflexivity|cbn [app]; rewrite <- ?app_assoc; cbn [app]; rewrite <- ?app_assoc; reflexivity].
  apply spells_rr; [exact SH| |reflexivity|discriminate].
  apply spells_lr; [unfold ko; sconst| |reflexivity].
  assert (TS : forall n, spells fl n (B " ORDER BY " ++ o ++ B " LIMIT " ++ format_uint lim ++ B ";") []
    (ko "ORDER" :: ko "BY" :: ots ++ [ko "LIMIT"; Num (format_uint lim); Sym ";"])) by (intros; apply tail_spells, SO).
  assert (ST : spells fl (length vs) (tc ++ B " ORDER BY " ++ o ++ B " LIMIT " ++ format_uint (lim) ++ B ";") us
    ((if cursor then boxed_bound m ks rel else []) ++ (ko "ORDER" :: ko "BY" :: ots ++ [ko "LIMIT"; Num (format_uint lim); Sym ";"]))).
  { eapply spells_eq; [eapply spells_app_r with (vs1 := us) (vs2 := [])|reflexivity|apply app_nil_r|reflexivity]; [exact SC|apply TS|reflexivity|discriminate]. }
  apply spells_app_r; [exact SW|exact ST| |destruct tc; discriminate].
  destruct tc; [reflexivity|exact HC].
Qed.

Lemma page_reads (cursor : bool) : p_order p = [] -> condition_ok fl (p_where p) -> calm d (p_where p) ->
  exists text args, page_stmt d fwd p m cursor = Ok (text, args) /\
  read fl text args =
  obind (where_p (cond_toks ++ if cursor then boxed_bound m ks rel else [])) (fun c =>
  if orderable fl (key_columns m ks) then Some (Select items q (Some c) [] [(key_columns m ks, heading fwd)] (Some (uint16 (p_limit p + 1))) None []) else None).
Proof.
  intros PO C CA. destruct (page_spells cursor PO C CA) as (text & args & tbl & E & Q & SP). exists text, args. split; [exact E|].
  rewrite (spells_read _ _ _ _ SP). rewrite page_parse with (q := q).
  - rewrite key_order_p by exact K. destruct (where_p _); [cbn [obind]|reflexivity]. destruct (orderable fl (key_columns m ks)); reflexivity.
  - eapply items_some, D.
  - eapply items_are_exprs, D.
  - exact Q.
  - apply passes_app.
    + unfold cond_toks. destruct (p_where p); [apply wtoks_passes, harmless_ends|apply passes_nil].
    + destruct cursor; [apply (boxed_passes d m ks K)|apply passes_nil].
  - apply (dir_passes d m ks K); reflexivity.
Qed.
Lemma page_storm (cursor : bool) : stormy d (p_where p) -> page_stmt d fwd p m cursor = Panic.
Proof.
  unfold page_stmt, stormy. destruct (p_where p) as [w|]; [|contradiction]. intros [S E].
  rewrite (proj1 (where_total d w _) E S). reflexivity.
Qed.

Lemma orderable_iff : orderable fl (key_columns m ks) = true <-> d = DPostgres \/ ~ composite m.
Proof.
  unfold key_columns, composite, keyed_by in *. destruct (m_key m) as [|x i v|x i v|ns is vs].
  - contradiction.
  - destruct K as (k & _ & ->). clear. destruct d; cbn; tauto.
  - destruct K as (k & _ & ->). clear. destruct d; cbn; tauto.
  - clear. destruct d; cbn; split; intros H; try discriminate; auto; (destruct H as [H|H]; [discriminate|exfalso; apply H; exact I]).
Qed.
End Whole.
End P.
