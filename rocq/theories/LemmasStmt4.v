(** The statement functions: whole statements. *)
From Verif Require Import Base ModelStrconv ModelCompiler ModelGen ModelRuntime ModelStmt SpecSql SpecGen SpecRuntime SpecStmt
  LemmasBase LemmasSql LemmasSql2 LemmasSql3 LemmasGen LemmasGen2 LemmasSql4 LemmasRuntime LemmasStmt LemmasStmt2 LemmasStmt3.

Section S.
Context {V : Type}.
Notation tok := (tok V).
Notation wc := (where_clause V).
Implicit Types (fl : flavour) (w : option wc) (ts r : list tok) (s : sqlstmt V).

Definition calm (d : driver) w : Prop := match w with Some w => ~ empty_in w \/ d = DPostgres | None => True end.
Definition stormy (d : driver) w : Prop := match w with Some w => static d /\ empty_in w | None => False end.
Lemma calm_or_stormy d w : calm d w \/ stormy d w.
Proof.
  destruct w as [w|]; [|left; exact I]. cbn. unfold static. destruct (empty_in_dec w) as [E|E]; [|now left; left].
  destruct d; [right; split; [discriminate|exact E]|left; now right|right; split; [discriminate|exact E]].
Qed.
Lemma stormy_panics d w s : stormy d w -> write_opt d w s = Panic.
Proof. destruct w as [w|]; [|contradiction]. intros [S E]. cbn [write_opt]. apply (proj1 (where_total d w _) E S). Qed.

Lemma write_opt_spells d w s : in_step d s -> condition_ok (flavour_of d) w -> calm d w -> exists text s' vs,
  write_opt d w s = Ok s' /\ in_step d s' /\ s_text s' = s_text s ++ text /\ s_args s' = s_args s ++ vs /\
  spells (flavour_of d) (length (s_args s)) text vs (where_toks (flavour_of d) w) /\ headed text = true.
Proof.
  intros IS C CA. destruct w as [w|].
  - cbn [write_opt]. destruct (where_spells d w C CA (put s (B " WHERE ")) IS) as (text & s' & E & IS' & ET & EA & SP).
    cbn [put s_text s_args] in ET, EA, SP. exists (B " WHERE " ++ text), s', (wvals w). split; [exact E|]. split; [exact IS'|].
    split; [rewrite ET, <- app_assoc; reflexivity|]. split; [exact EA|]. split; [|reflexivity].
    change (where_toks (flavour_of d) (Some w)) with ([ko (V:=V) "WHERE"] ++ wtoks (flavour_of d) w).
    apply spells_lr; [unfold ko; sconst|exact SP|reflexivity].
  - exists [], s, []. cbn [write_opt where_toks]. rewrite !app_nil_r. repeat split; auto. apply spells_nil.
Qed.
Lemma finish d w s ts0 fin fts : in_step d s -> spells (flavour_of d) 0 (s_text s) (s_args s) ts0 -> condition_ok (flavour_of d) w -> calm d w ->
  piece (flavour_of d) fin fts -> fin <> [] ->
  exists s', write_opt d w s = Ok s' /\ in_step d s' /\ spells (flavour_of d) 0 (s_text s' ++ fin) (s_args s') (ts0 ++ where_toks (flavour_of d) w ++ fts).
Proof.
  intros IS SP C CA [P H] NE. destruct (write_opt_spells d w s IS C CA) as (text & s' & vs & E & IS' & ET & EA & SW & HW).
  exists s'. split; [exact E|]. split; [exact IS'|]. rewrite ET, EA, <- app_assoc. apply spells_app_r; [exact SP| |apply headed_app; assumption|].
  - eapply spells_eq; [apply spells_app_r with (s2 := fin) (vs2 := []); [exact SW|apply P|exact H|exact NE]|reflexivity|apply app_nil_r|reflexivity].
  - destruct text; [exact NE|discriminate].
Qed.

(** ** Selects *)
Definition select_toks fl (items : list (list tok)) (tbl : list tok) w gl ol fts : list tok :=
  ko "SELECT" :: commas items ++ ko "FROM" :: tbl ++ where_toks fl w ++ group_toks fl gl ++ order_toks fl ol ++ fts.
Lemma db_name_is g t : g_dbname g ++ t = in_db g t.
Proof. unfold g_dbname, in_db. destruct (g_db g); [rewrite <- app_assoc|]; reflexivity. Qed.
Lemma select_text_is d g (q : select_stmt V) t : from_table g q = Some t ->
  select_text d g q = let* s := write_opt d (q_where q) (put empty_stmt (B "SELECT " ++ join (B ",") (projection g q) ++ B " FROM " ++ t)) in
  Ok (put s (match q_group q with [] => [] | x :: l => B " GROUP BY " ++ x ++ concat (map (fun y => B "," ++ y) l) end ++ order_by (q_order q))).
Proof.
  unfold from_table, select_text, projection. intros F.
  assert (TB : (match q_from q, g_table g with [], Some t => Ok (g_dbname g ++ t) | [], None => Err | f, _ => Ok (g_dbname g ++ f) end) = Ok t).
  { destruct (q_from q); [destruct (g_table g); [|discriminate F]|]; cbn in F; rewrite db_name_is; congruence. }
  rewrite TB. cbn [bind]. destruct (q_select q); [destruct (g_columns g)|]; reflexivity.
Qed.
Lemma select_spells d g (q : select_stmt V) table fin fts : parts_ok (flavour_of d) g q table -> calm d (q_where q) -> piece (flavour_of d) fin fts -> fin <> [] ->
  exists s tbl, select_text d g q = Ok s /\ qname tbl = Some table /\
  spells (flavour_of d) 0 (s_text s ++ fin) (s_args s) (select_toks (flavour_of d) (map (lex (flavour_of d)) (projection g q)) tbl (q_where q) (q_group q) (q_order q) fts).
Proof.
  intros (NE & FI & (t & FT & AT) & CO & FG & FO) CA PF NF. rewrite (select_text_is d g q t FT). set (fl := flavour_of d) in *.
  assert (HEAD : spells (V:=V) fl 0 (B "SELECT " ++ join (B ",") (projection g q) ++ B " FROM " ++ t) []
    (ko "SELECT" :: commas (map (lex fl) (projection g q)) ++ ko "FROM" :: lex fl t)).
  { change (ko "SELECT" :: ?x) with ([ko (V:=V) "SELECT"] ++ x). apply spells_lr; [unfold ko; sconst| |reflexivity].
    apply spells_rr; [apply exprs_spell, FI| |reflexivity|discriminate].
    change (ko "FROM" :: ?x) with ([ko (V:=V) "FROM"] ++ x). apply spells_lr; [unfold ko; sconst| |reflexivity].
    apply spells_lex; [reflexivity|]. destruct (qname_plain (lex fl t) table ends_clause AT) as (_ & _ & PL & BA & _); [reflexivity|reflexivity|].
    apply forallb_forall. intros x I. destruct x; try reflexivity; exfalso.
    - assert (J : In k (plist (lex fl t))) by (apply plist_In, I). rewrite PL in J. contradiction.
    - apply bads_In in BA. auto. }
  set (tail := match q_group q with [] => [] | x :: l => B " GROUP BY " ++ x ++ concat (map (fun y => B "," ++ y) l) end ++ order_by (q_order q)).
  assert (PT : piece fl (tail ++ fin) ((group_toks fl (q_group q) ++ order_toks fl (q_order q)) ++ fts)).
  { apply piece_app; [|exact PF]. apply piece_app; [apply group_piece, FG|apply order_piece, FO]. }
  destruct (finish d (q_where q) (put empty_stmt (B "SELECT " ++ join (B ",") (projection g q) ++ B " FROM " ++ t)) _ (tail ++ fin) _
    (fun _ => eq_refl) HEAD CO CA PT) as (s' & E & IS & SP).
  { destruct tail; [exact NF|discriminate]. }
  rewrite E. cbn [bind]. exists (put s' tail), (lex fl t). split; [reflexivity|]. split; [exact AT|]. cbn [put s_text s_args].
  rewrite <- app_assoc. eapply spells_eq; [exact SP|reflexivity|reflexivity|]. unfold select_toks. cbn [app]. rewrite <- !app_assoc. reflexivity.
Qed.
Definition offset_ok fl (lim off : N) : bool := match fl with Postgres => true | _ => N.eqb off 0 || negb (N.eqb lim 0) end.
Lemma select_parse fl (items : list (list tok)) tbl table w gl ol lim off :
  items <> [] -> forallb is_expr items = true -> qname tbl = Some table -> Forall (an_expr (V:=V) fl) gl -> Forall (fun o => a_name (V:=V) fl (fst o)) ol ->
  parse fl (select_toks fl items tbl w gl ol (num_toks "LIMIT" lim ++ num_toks "OFFSET" off ++ [Sym ";"])) =
  match where_den_opt fl w with
  | Some wh => if offset_ok fl lim off then Some (Select items table wh (map (lex fl) gl) (map (an_order fl) ol) (given_n lim) (given_n off) []) else None
  | None => None
  end.
Proof.
  intros NE FI Q FG FO. set (r5 := [Sym (V:=V) ";"]). set (r4 := num_toks "OFFSET" off ++ r5). set (r3 := num_toks "LIMIT" lim ++ r4).
  assert (S5 : stops r5) by (split; reflexivity).
  assert (S4 : stops r4) by (apply num_stops; [reflexivity|exact S5]).
  assert (S3 : stops r3) by (apply num_stops; [reflexivity|exact S4]).
  assert (S2 : stops (order_toks fl ol ++ r3)) by (apply order_stops, S3).
  assert (S1 : stops (group_toks fl gl ++ order_toks fl ol ++ r3)) by (apply group_stops, S2).
  assert (S0 : stops (where_toks fl w ++ group_toks fl gl ++ order_toks fl ol ++ r3)) by (apply where_stops, S1).
  assert (PS : forall x : list tok, parse fl (ko "SELECT" :: x) = parse_select fl x) by (intros x; destruct fl; reflexivity).
  unfold select_toks. rewrite PS. fold r5 r4 r3.
  destruct (qname_plain tbl table ends_clause Q) as (_ & P & _ & _ & _); [reflexivity|reflexivity|]. unfold parse_select.
  rewrite until_stop; [|apply exprs_passes_ends; exact FI|reflexivity|reflexivity].
  cbn [obind]. rewrite exprs_commas by assumption. cbn [obind].
  change (ko "FROM" :: tbl ++ ?x) with (map (Kw (V:=V)) [B "FROM"] ++ tbl ++ x). rewrite strip_kws. cbn [obind].
  rewrite until_stops by assumption. cbn [obind]. rewrite Q. cbn [obind].
  rewrite where_clause_reads; [|exact S1|unfold group_toks, order_toks, r3, r4, r5, num_toks; destruct gl, ol, lim, off; reflexivity].
  destruct (where_den_opt fl w) as [wh|]; [cbn [obind]|reflexivity].
  destruct (group_clause_reads fl gl (order_toks fl ol ++ r3) FG S2) as (gx & EG & OG); [unfold order_toks, r3, r4, r5, num_toks; destruct ol, lim, off; reflexivity|].
  rewrite EG; cbn [obind].
  destruct (order_clause_reads fl ol r3 FO S3) as (ox & EO & OO & _); [unfold r3, r4, r5, num_toks; destruct lim, off; reflexivity|].
  rewrite EO; cbn [obind].
  unfold r3; rewrite num_clause_reads; [|exact S4|unfold r4, r5, num_toks; destruct off; reflexivity]; cbn [obind].
  unfold r4; rewrite num_clause_reads; [|exact S5|reflexivity]; cbn [obind]; rewrite OG, OO. clear.
  destruct fl, lim, off; reflexivity.
Qed.

Lemma query_reads d g (q : select_stmt V) table : parts_ok (flavour_of d) g q table -> calm d (q_where q) ->
  exists text args, query_stmt d g q = Ok (text, args) /\
  read (flavour_of d) text args = match where_den_opt (flavour_of d) (q_where q) with
  | Some wh => if offset_ok (flavour_of d) (q_limit q) (q_offset q)
               then Some (Select (map (lex (flavour_of d)) (projection g q)) table wh (map (lex (flavour_of d)) (q_group q)) (map (an_order (flavour_of d)) (q_order q)) (given_n (q_limit q)) (given_n (q_offset q)) [])
               else None
  | None => None
  end.
Proof.
  intros PK CA. set (fl := flavour_of d) in *. set (fin := positive (B " LIMIT ") (q_limit q) ++ positive (B " OFFSET ") (q_offset q) ++ B ";").
  assert (PF : piece (V:=V) fl fin (num_toks "LIMIT" (q_limit q) ++ num_toks "OFFSET" (q_offset q) ++ [Sym ";"])).
  { apply piece_app; [apply num_piece; [reflexivity|intros; unfold ko; sconst]|]. apply piece_app; [apply num_piece; [reflexivity|intros; unfold ko; sconst]|apply semi_piece]. }
  destruct (select_spells d g q table fin _ PK CA PF) as (s & tbl & E & Q & SP).
  { unfold fin. intros X. apply app_eq_nil in X. destruct X as [_ X]. apply app_eq_nil in X. destruct X as [_ X]. discriminate. }
  unfold query_stmt. rewrite E. cbn [bind]. eexists. eexists. split; [reflexivity|]. cbn [put s_text s_args]. fold fin.
  fold fl in SP. rewrite (spells_read _ _ _ _ SP). destruct PK as (NE & FI & _ & _ & FG & FO). apply select_parse; auto.
  - destruct (projection g q); [contradiction|discriminate].
  - apply exprs_ok, FI.
Qed.
Lemma query_one_reads d g (q : select_stmt V) table : parts_ok (flavour_of d) g q table -> calm d (q_where q) ->
  exists text args, query_one_stmt d g q = Ok (text, args) /\
  read (flavour_of d) text args = match where_den_opt (flavour_of d) (q_where q) with
  | Some wh => Some (Select (map (lex (flavour_of d)) (projection g q)) table wh (map (lex (flavour_of d)) (q_group q)) (map (an_order (flavour_of d)) (q_order q)) (Some 1%N) None [])
  | None => None
  end.
Proof.
  intros PK CA. set (fl := flavour_of d) in *.
  assert (PF : piece (V:=V) fl (B " LIMIT 1;") (num_toks "LIMIT" 1 ++ num_toks "OFFSET" 0 ++ [Sym ";"])).
  { split; [intros; unfold num_toks; cbn [given_n app]; unfold ko; change (format_uint 1) with (B "1"); sconst|reflexivity]. }
  destruct (select_spells d g q table _ _ PK CA PF) as (s & tbl & E & Q & SP); [discriminate|].
  unfold query_one_stmt. rewrite E. cbn [bind]. eexists. eexists. split; [reflexivity|]. cbn [put s_text s_args].
  fold fl in SP. rewrite (spells_read _ _ _ _ SP). destruct PK as (NE & FI & _ & _ & FG & FO). rewrite select_parse with (table := table); auto.
  - destruct fl; reflexivity.
  - destruct (projection g q); [contradiction|discriminate].
  - apply exprs_ok, FI.
Qed.
Lemma query_storm d g (q : select_stmt V) t : from_table g q = Some t -> stormy d (q_where q) -> query_stmt d g q = Panic /\ query_one_stmt d g q = Panic.
Proof. intros F S. unfold query_stmt, query_one_stmt. rewrite (select_text_is d g q t F), stormy_panics by exact S. auto. Qed.

(** ** Updates and deletes *)
Lemma sets_spell d l : Forall (fun a => names_a_column (flavour_of d) (fst a)) l -> forall s ts0, in_step d s -> spells (flavour_of d) 0 (s_text s) (s_args s) ts0 ->
  exists s', write_sets d l s = Ok s' /\ in_step d s' /\ spells (flavour_of d) 0 (s_text s') (s_args s') (ts0 ++ concat (map (fun a => Sym "," :: assign_toks (a_set (flavour_of d) a)) l)).
Proof.
  intros F. induction F as [|[c v] l A F IH]; intros s ts0 IS SP; [exists s; cbn; rewrite app_nil_r; auto|]. cbn [write_sets fst snd] in *.
  assert (W : writes d (write_set d (c, v)) [given c v] ([Name (name_of (flavour_of d) c)] ++ [Op (B "=")] ++ [Val (given c v)]))
    by (apply write_one_spells; [exact A|intros; sconst|reflexivity|discriminate|reflexivity]).
  destruct (W (put s (B ",")) IS) as (text & s1 & E & IS1 & ET & EA & SW). rewrite E. cbn [bind]. cbn [put s_text s_args] in ET, EA, SW.
  destruct (IH s1 (ts0 ++ [Sym ","] ++ assign_toks (a_set (flavour_of d) (c, v))) IS1) as (s' & E' & IS' & SP').
  - rewrite ET, EA, <- app_assoc. apply spells_app_r; [exact SP| |reflexivity|discriminate]. apply spells_lr; [sconst|exact SW|reflexivity].
  - exists s'. split; [exact E'|]. split; [exact IS'|]. eapply spells_eq; [exact SP'|reflexivity|reflexivity|]. cbn [map concat]. rewrite <- !app_assoc. reflexivity.
Qed.
Lemma commas_concat {A} (f : A -> list tok) x l : commas (map f (x :: l)) = f x ++ concat (map (fun c => Sym "," :: f c) l).
Proof.
  revert x. induction l as [|y l IH]; intros x; [cbn; rewrite app_nil_r; reflexivity|].
  change (commas (map f (x :: y :: l))) with (f x ++ Sym "," :: commas (map f (y :: l))). rewrite IH. reflexivity.
Qed.

Definition tail_toks fl (u : update_stmt V) (n : N) : list tok := order_toks fl (e_order u) ++ num_toks "LIMIT" n ++ [Sym ";"].
Definition real_limit (d : driver) (u : update_stmt V) : N := match d with DPostgres => 0%N | _ => e_limit u end.
Lemma tail_piece d (u : update_stmt V) : changes_ok (flavour_of d) u ->
  piece (flavour_of d) (order_by (e_order u) ++ exec_limit d (e_limit u) ++ B ";") (tail_toks (flavour_of d) u (real_limit d u)).
Proof.
  intros (_ & _ & FO). apply piece_app; [apply order_piece, FO|]. apply piece_app; [|apply semi_piece].
  destruct d; cbn [exec_limit real_limit]; try (apply num_piece; [reflexivity|intros; unfold ko; sconst]). apply piece_nil.
Qed.
Lemma tail_parse fl w ol n : Forall (fun o => a_name (V:=V) fl (fst o)) ol ->
  parse_tail fl (where_toks fl w ++ order_toks fl ol ++ num_toks "LIMIT" n ++ [Sym ";"]) =
  match where_den_opt fl w with
  | Some wh => match fl, ol, given_n n with
               | Postgres, [], None => Some (wh, map (an_order fl) ol, given_n n)
               | Postgres, _, _ => None
               | _, _, _ => Some (wh, map (an_order fl) ol, given_n n)
               end
  | None => None
  end.
Proof.
  intros FO. set (r2 := [Sym (V:=V) ";"]). set (r1 := num_toks "LIMIT" n ++ r2). assert (S2 : stops r2) by (split; reflexivity).
  assert (S1 : stops r1) by (apply num_stops; [reflexivity|exact S2]). assert (S0 : stops (order_toks fl ol ++ r1)) by (apply order_stops, S1).
  unfold parse_tail. rewrite where_clause_reads; [|exact S0|unfold order_toks, r1, r2, num_toks; destruct ol, n; reflexivity].
  destruct (where_den_opt fl w) as [wh|]; [|reflexivity]. cbn [obind].
  destruct (order_clause_reads fl ol r1 FO S1) as (ox & EO & OO & ON); [unfold r1, r2, num_toks; destruct n; reflexivity|]. rewrite EO. cbn [obind].
  unfold r1. rewrite num_clause_reads; [|exact S2|reflexivity]. cbn [obind]. rewrite OO. cbn [the_end is_sym guard obind r2].
  change (beq ";" ";") with true. cbn [guard obind].
  destruct fl; try (destruct ox, (given_n n); reflexivity).
  destruct ol as [|o ol]; [destruct ON as [_ ON]; rewrite (ON eq_refl); destruct (given_n n); reflexivity|].
  destruct ox; [reflexivity|]. destruct ON as [ON _]. discriminate (ON eq_refl).
Qed.
Lemma tail_stops fl w (u : update_stmt V) n : stops (where_toks fl w ++ tail_toks fl u n).
Proof. apply where_stops. apply order_stops, num_stops; [reflexivity|split; reflexivity]. Qed.

Lemma table_spells d t table : a_table (V:=V) (flavour_of d) t table -> spells (V:=V) (flavour_of d) 0 t [] (lex (flavour_of d) t).
Proof.
  intros AT. apply spells_lex; [reflexivity|]. set (fl := flavour_of d) in *.
  destruct (qname_plain (lex fl t) table ends_clause AT) as (_ & _ & PL & BA & _); [reflexivity|reflexivity|].
  apply forallb_forall. intros x I. destruct x; try reflexivity; exfalso.
  - assert (J : In k (plist (lex fl t))) by (apply plist_In, I). rewrite PL in J. contradiction.
  - apply bads_In in BA. auto.
Qed.
Lemma exec_table_is g t : exec_table g t = changed_table g t.
Proof. unfold exec_table, changed_table. apply db_name_is. Qed.

Definition tail_result (d : driver) (u : update_stmt V) : option (option (cond V) * list (operand V * direction) * option N) :=
  match where_den_opt (flavour_of d) (e_where u) with
  | Some wh => match d, e_order u with
               | DPostgres, _ :: _ => None
               | _, _ => Some (wh, map (an_order (flavour_of d)) (e_order u), asked_limit (flavour_of d) (e_limit u))
               end
  | None => None
  end.
Lemma tail_result_is d (u : update_stmt V) : changes_ok (flavour_of d) u ->
  parse_tail (flavour_of d) (where_toks (flavour_of d) (e_where u) ++ tail_toks (flavour_of d) u (real_limit d u)) = tail_result d u.
Proof.
  intros (_ & _ & FO). unfold tail_toks. rewrite tail_parse by exact FO. unfold tail_result.
  destruct (where_den_opt (flavour_of d) (e_where u)); [|reflexivity]. destruct d; cbn [flavour_of real_limit asked_limit]; try (destruct (given_n (e_limit u)), (e_order u); reflexivity).
Qed.

Lemma update_reads d g (u : update_stmt V) table : a_table (V:=V) (flavour_of d) (changed_table g (e_table u)) table -> changes_ok (flavour_of d) u -> calm d (e_where u) ->
  exists text args, exec_update d g u = Ok (text, args) /\
  read (flavour_of d) text args = match e_set u, tail_result d u with
  | _ :: _, Some (wh, ord, lim) => Some (Update table (map (a_set (flavour_of d)) (e_set u)) wh ord lim)
  | _, _ => None
  end.
Proof.
  intros AT CH CA. pose proof (tail_piece d u CH) as PT. pose proof (tail_result_is d u CH) as TR. destruct CH as (FS & CO & FO).
  set (fl := flavour_of d) in *. unfold exec_update. rewrite exec_table_is. set (t := changed_table g (e_table u)) in *.
  assert (HEAD : spells (V:=V) fl 0 (B "UPDATE " ++ t) [] (ko "UPDATE" :: lex fl t)).
  { change (ko "UPDATE" :: ?x) with ([ko (V:=V) "UPDATE"] ++ x). apply spells_lr; [unfold ko; sconst|eapply table_spells, AT|reflexivity]. }
  assert (NF : order_by (e_order u) ++ exec_limit d (e_limit u) ++ B ";" <> []).
  { intros X. apply app_eq_nil in X. destruct X as [_ X]. apply app_eq_nil in X. destruct X as [_ X]. discriminate. }
  destruct (e_set u) as [|[c v] l] eqn:ES.
  - cbn [bind]. unfold exec_tail.
    destruct (finish d (e_where u) (put empty_stmt (B "UPDATE " ++ t)) _ _ _ (fun _ => eq_refl) HEAD CO CA PT NF) as (s' & E & _ & SP).
    rewrite E. cbn [bind]. eexists. eexists. split; [reflexivity|]. cbn [put s_text s_args]. fold fl in SP. rewrite (spells_read _ _ _ _ SP).
    change (parse fl ((ko "UPDATE" :: ?x) ++ ?y)) with (parse fl (ko "UPDATE" :: (x ++ y))).
    assert (PU : forall x : list tok, parse fl (ko "UPDATE" :: x) = parse_update fl x) by (intros x; destruct fl; reflexivity). rewrite PU.
    destruct (qname_plain (lex fl t) table ends_clause AT) as (_ & P & _ & _ & _); [reflexivity|reflexivity|].
    unfold parse_update. rewrite until_stops by (try exact P; apply tail_stops). cbn [obind]. rewrite AT. cbn [obind].
    replace (strip [B "SET"] (where_toks fl (e_where u) ++ tail_toks fl u (real_limit d u))) with (@None (list tok)); [reflexivity|].
    unfold where_toks, tail_toks, order_toks, num_toks. destruct (e_where u), (e_order u), (given_n (real_limit d u)); reflexivity.
  - inversion FS as [|? ? A FS']; subst. cbn [fst] in A.
    assert (W : writes d (write_set d (c, v)) [given c v] ([Name (name_of (flavour_of d) c)] ++ [Op (B "=")] ++ [Val (given c v)]))
      by (apply write_one_spells; [exact A|intros; sconst|reflexivity|discriminate|reflexivity]).
    destruct (W (put (put empty_stmt (B "UPDATE " ++ t)) (B " SET ")) (fun _ => eq_refl)) as (text & s1 & E1 & IS1 & ET & EA & SW). rewrite E1. cbn [bind].
    cbn [put empty_stmt s_text s_args app length] in ET, EA, SW.
    assert (H1 : spells (V:=V) fl 0 (s_text s1) (s_args s1) ((ko "UPDATE" :: lex fl t) ++ [ko "SET"] ++ assign_toks (a_set fl (c, v)))).
    { rewrite ET, EA. change (B " SET ") with (B " SET" ++ B " "). change (B "UPDATE " ++ t) with (B "UPDATE " ++ t) in *.
      change (B " SET" ++ B " ") with (B " SET "). rewrite <- app_assoc.
      apply spells_rr; [exact HEAD| |reflexivity|discriminate]. apply spells_lr; [unfold ko; sconst|exact SW|reflexivity]. }
    destruct (sets_spell d l FS' s1 _ IS1 H1) as (s2 & E2 & IS2 & SP2). rewrite E2. cbn [bind]. unfold exec_tail.
    destruct (finish d (e_where u) s2 _ _ _ IS2 SP2 CO CA PT NF) as (s' & E & _ & SP). rewrite E. cbn [bind].
    eexists. eexists. split; [reflexivity|]. cbn [put s_text s_args]. fold fl in SP. rewrite (spells_read _ _ _ _ SP).
    replace ((((ko "UPDATE" :: lex fl t) ++ [ko "SET"] ++ assign_toks (a_set fl (c, v))) ++ concat (map (fun a => Sym "," :: assign_toks (a_set fl a)) l)) ++ where_toks fl (e_where u) ++ tail_toks fl u (real_limit d u))
      with (ko "UPDATE" :: (lex fl t ++ Kw (B "SET") :: commas (map assign_toks (map (a_set fl) ((c, v) :: l))) ++ where_toks fl (e_where u) ++ tail_toks fl u (real_limit d u))).
    2:{ rewrite map_map, commas_concat. cbn [app]. rewrite <- !app_assoc. cbn [app]. rewrite <- ?app_assoc. reflexivity. }
    assert (PU : forall x : list tok, parse fl (ko "UPDATE" :: x) = parse_update fl x) by (intros x; destruct fl; reflexivity). rewrite PU.
    destruct (tail_result d u) as [[[wh ord] lim]|].
    + apply parse_update_shape; [exact AT|discriminate| |apply tail_stops|exact TR].
      apply forallb_forall. intros p I. apply in_map_iff in I. destruct I as (a & <- & _). reflexivity.
    + unfold parse_update. destruct (qname_plain (lex fl t) table ends_clause AT) as (_ & P & _ & _ & _); [reflexivity|reflexivity|].
      rewrite until_stop by (auto; reflexivity). cbn [obind]. rewrite AT. cbn [obind].
      change (Kw (B "SET") :: ?x) with (map (Kw (V:=V)) [B "SET"] ++ x). rewrite strip_kws. cbn [obind].
      rewrite until_stops; [| |apply tail_stops].
      * cbn [obind]. destruct (assignments _); [|reflexivity]. cbn [obind]. rewrite TR. reflexivity.
      * apply passes_commas; [apply ends_not_comma|]. apply Forall_forall. intros x I. apply in_map_iff in I. destruct I as (p & <- & I).
        apply in_map_iff in I. destruct I as (a & <- & _). repeat (apply passes_cons; [reflexivity|reflexivity|]). apply passes_nil.
Qed.
Lemma delete_reads d g (u : update_stmt V) table : a_table (V:=V) (flavour_of d) (changed_table g (e_table u)) table -> changes_ok (flavour_of d) u -> calm d (e_where u) ->
  exists text args, exec_delete d g u = Ok (text, args) /\
  read (flavour_of d) text args = match tail_result d u with
  | Some (wh, ord, lim) => Some (Delete table wh ord lim)
  | None => None
  end.
Proof.
  intros AT CH CA. pose proof (tail_piece d u CH) as PT. pose proof (tail_result_is d u CH) as TR. destruct CH as (FS & CO & FO).
  set (fl := flavour_of d) in *. unfold exec_delete, exec_tail. rewrite exec_table_is. set (t := changed_table g (e_table u)) in *.
  assert (HEAD : spells (V:=V) fl 0 (B "DELETE FROM " ++ t) [] ([ko "DELETE"; ko "FROM"] ++ lex fl t)).
  { apply spells_lr; [unfold ko; sconst|eapply table_spells, AT|reflexivity]. }
  assert (NF : order_by (e_order u) ++ exec_limit d (e_limit u) ++ B ";" <> []).
  { intros X. apply app_eq_nil in X. destruct X as [_ X]. apply app_eq_nil in X. destruct X as [_ X]. discriminate. }
  destruct (finish d (e_where u) (put empty_stmt (B "DELETE FROM " ++ t)) _ _ _ (fun _ => eq_refl) HEAD CO CA PT NF) as (s' & E & _ & SP).
  rewrite E. cbn [bind]. eexists. eexists. split; [reflexivity|]. cbn [put s_text s_args]. fold fl in SP. rewrite (spells_read _ _ _ _ SP).
  assert (PU : forall x : list tok, parse fl ([ko "DELETE"; ko "FROM"] ++ x) = parse_delete fl x) by (intros x; destruct fl; reflexivity).
  rewrite <- app_assoc, PU.
  destruct (tail_result d u) as [[[wh ord] lim]|].
  - apply parse_delete_shape; [exact AT|apply tail_stops|exact TR].
  - unfold parse_delete. destruct (qname_plain (lex fl t) table ends_clause AT) as (_ & P & _ & _ & _); [reflexivity|reflexivity|].
    rewrite until_stops by (try exact P; apply tail_stops). cbn [obind]. rewrite AT. cbn [obind]. rewrite TR. reflexivity.
Qed.
End S.
