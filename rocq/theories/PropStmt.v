(** Theorems on conditions, statements and their formatting: C30-C33 and C59. *)
From Verif Require Import Base ModelStrconv ModelEncoding ModelPgutil ModelCompiler ModelGen ModelRuntime ModelStmt SpecSql SpecGen SpecRuntime SpecStmt
  SpecPg LemmasPgutil LemmasBase LemmasSql LemmasSql2 LemmasSql3 LemmasGen LemmasGen2 LemmasSql4 LemmasRuntime LemmasStmt LemmasStmt2 LemmasStmt3 LemmasStmt4 LemmasStmt5.

Section T.
Context {V : Type}.
Implicit Types (w : where_clause V).

(** ** C30 *)

(** A condition without an empty And, Or, In or NotIn is written without panic and reads back as composed.
    Missing: the empty groups, refuted below. *)
Theorem C30_conditions_partial : forall d w,
  all_columns (names_a_column (flavour_of d)) w -> solid w ->
  exists s, write_where d w empty_stmt = Ok s /\ read_cond (flavour_of d) (s_text s) (s_args s) = Some (meaning (flavour_of d) w).
Proof.
  intros d w C S. pose proof (condition_reads d w C) as R. destruct (write_where d w empty_stmt) as [s| |]; [|contradiction|].
  - exists s. split; [reflexivity|]. rewrite R. apply den_solid, S.
  - exfalso. destruct R as [_ E]. exact (empty_hollow w E S).
Qed.
(** With an empty group anywhere the operators panic or write a text that is no condition. *)
Theorem C30_empty_group_refuted : forall d w,
  all_columns (names_a_column (flavour_of d)) w -> ~ solid w ->
  write_where d w empty_stmt = Panic \/
  exists s, write_where d w empty_stmt = Ok s /\ read_cond (flavour_of d) (s_text s) (s_args s) = None.
Proof.
  intros d w C S. pose proof (condition_reads d w C) as R. destruct (write_where d w empty_stmt) as [s| |]; [right|contradiction|now left].
  exists s. split; [reflexivity|]. rewrite R. apply den_hollow, S.
Qed.
(** The panic comes exactly from an empty In or NotIn on the dialects without numbered placeholders. *)
Theorem C30_panics : forall d w,
  all_columns (names_a_column (flavour_of d)) w ->
  (write_where d w empty_stmt = Panic <-> d <> DPostgres /\ empty_in w).
Proof.
  intros d w C. pose proof (condition_reads d w C) as R. split.
  - intros E. rewrite E in R. exact R.
  - intros [S E]. apply (proj1 (where_total d w _) E S).
Qed.

(** ** C31 *)

(** After any history of calls without an empty Vars, the texts handed out since the last Reset are those of the
    placeholders 1, 2, ... of the values, which are kept in order.  Missing: Vars without values, refuted below. *)
Theorem C31_history_partial : forall d (ops : list (op V)),
  (forall o, In o ops -> empty_vars o = false) \/ d = DPostgres ->
  exists s, perform_all d (empty_stmt, []) ops = Ok (s, handed_out (flavour_of d) 0 (since_reset ops)) /\
  s_text s = texts_of (since_reset ops) /\ s_args s = values_of (since_reset ops).
Proof. exact history. Qed.
Theorem C31_empty_vars_refuted : forall d (ops : list (op V)),
  d <> DPostgres -> In (OVars []) ops -> perform_all d (empty_stmt, []) ops = Panic.
Proof. exact history_panics. Qed.

(** ** C32 *)
Lemma where_solid fl (w : option (where_clause V)) : condition_solid w -> where_den_opt fl w = Some (option_map (meaning fl) w).
Proof. destruct w as [w|]; [|reflexivity]. cbn. intros S. rewrite den_solid by exact S. reflexivity. Qed.
Lemma where_hollow fl (w : option (where_clause V)) : ~ condition_solid w -> where_den_opt fl w = None.
Proof. destruct w as [w|]; cbn; [|tauto]. intros S. rewrite den_hollow by exact S. reflexivity. Qed.
Lemma solid_calm d (w : option (where_clause V)) : condition_solid w -> calm d w.
Proof. destruct w as [w|]; [|constructor]. intros S. left. intros E. exact (empty_hollow w E S). Qed.

(** Missing: OFFSET without LIMIT and empty groups, refuted below. *)
Theorem C32_query_partial : forall d g (q : select_stmt V) table,
  parts_ok (flavour_of d) g q table -> condition_solid (q_where q) -> d = DPostgres \/ q_limit q <> 0%N \/ q_offset q = 0%N ->
  exists text args, query_stmt d g q = Ok (text, args) /\
  read (flavour_of d) text args = Some (asked (flavour_of d) g q table (given_n (q_limit q)) (given_n (q_offset q))).
Proof.
  intros d g q table P S O. destruct (query_reads d g q table P (solid_calm d _ S)) as (text & args & E & R).
  exists text, args. split; [exact E|]. rewrite R, where_solid by exact S.
  replace (offset_ok _ _ _) with true; [reflexivity|]. unfold offset_ok.
  destruct d; try reflexivity; (destruct O as [O|[O|O]]; [discriminate| |rewrite O; reflexivity]);
    apply N.eqb_neq in O; cbn; rewrite O; now rewrite orb_true_r.
Qed.
Theorem C32_query_one_partial : forall d g (q : select_stmt V) table,
  parts_ok (flavour_of d) g q table -> condition_solid (q_where q) ->
  exists text args, query_one_stmt d g q = Ok (text, args) /\
  read (flavour_of d) text args = Some (asked (flavour_of d) g q table (Some 1%N) None).
Proof.
  intros d g q table P S. destruct (query_one_reads d g q table P (solid_calm d _ S)) as (text & args & E & R).
  exists text, args. split; [exact E|]. rewrite R, where_solid by exact S. reflexivity.
Qed.
(** A query without a table, on a model without a table name, is an error. *)
Theorem C32_no_table : forall d g (q : select_stmt V), q_from q = [] -> g_table g = None ->
  query_stmt d g q = Err /\ query_one_stmt d g q = Err.
Proof. intros d g q F T. unfold query_stmt, query_one_stmt, select_text. rewrite F, T. auto. Qed.
(** OFFSET without LIMIT is no MySQL or SQLite statement. *)
Theorem C32_offset_refuted : forall d g (q : select_stmt V) table,
  d <> DPostgres -> parts_ok (flavour_of d) g q table -> condition_solid (q_where q) -> q_limit q = 0%N -> q_offset q <> 0%N ->
  exists text args, query_stmt d g q = Ok (text, args) /\ read (flavour_of d) text args = None.
Proof.
  intros d g q table D P S L O. destruct (query_reads d g q table P (solid_calm d _ S)) as (text & args & E & R).
  exists text, args. split; [exact E|]. rewrite R, where_solid by exact S.
  replace (offset_ok _ _ _) with false; [reflexivity|]. unfold offset_ok. rewrite L. apply N.eqb_neq in O.
  destruct d; try contradiction; cbn; rewrite O; reflexivity.
Qed.
(** An empty group in the condition: a panic or a statement that is rejected. *)
Theorem C32_empty_group_refuted : forall d g (q : select_stmt V) table,
  parts_ok (flavour_of d) g q table -> ~ condition_solid (q_where q) ->
  query_stmt d g q = Panic \/
  exists text args, query_stmt d g q = Ok (text, args) /\ read (flavour_of d) text args = None.
Proof.
  intros d g q table P S. destruct (calm_or_stormy d (q_where q)) as [C|C].
  - right. destruct (query_reads d g q table P C) as (text & args & E & R). exists text, args. split; [exact E|].
    rewrite R, where_hollow by exact S. reflexivity.
  - left. destruct P as (_ & _ & (t & F & _) & _). apply (query_storm d g q t F C).
Qed.

Lemma tail_asked d (u : update_stmt V) : condition_solid (e_where u) -> d <> DPostgres \/ e_order u = [] ->
  tail_result d u = Some (option_map (meaning (flavour_of d)) (e_where u), map (an_order (flavour_of d)) (e_order u), asked_limit (flavour_of d) (e_limit u)).
Proof.
  intros S O. unfold tail_result. rewrite where_solid by exact S.
  destruct d; try reflexivity. destruct O as [O|O]; [contradiction|]. rewrite O. reflexivity.
Qed.
(** Missing: no assignment, ORDER BY on PostgreSQL and empty groups, refuted below; and a table name given for a
    model that has one, which is ignored ([C32_table_ignored_refuted]). *)
Theorem C32_update_partial : forall d g (u : update_stmt V) table,
  a_table (V:=V) (flavour_of d) (changed_table g (e_table u)) table -> changes_ok (flavour_of d) u -> condition_solid (e_where u) ->
  e_set u <> [] -> d <> DPostgres \/ e_order u = [] ->
  exists text args, exec_update d g u = Ok (text, args) /\ read (flavour_of d) text args = Some (asked_update (flavour_of d) u table).
Proof.
  intros d g u table T C S N O. destruct (update_reads d g u table T C (solid_calm d _ S)) as (text & args & E & R).
  exists text, args. split; [exact E|]. rewrite R, tail_asked by assumption. unfold asked_update. destruct (e_set u); [contradiction|reflexivity].
Qed.
Theorem C32_delete_partial : forall d g (u : update_stmt V) table,
  a_table (V:=V) (flavour_of d) (changed_table g (e_table u)) table -> changes_ok (flavour_of d) u -> condition_solid (e_where u) ->
  d <> DPostgres \/ e_order u = [] ->
  exists text args, exec_delete d g u = Ok (text, args) /\ read (flavour_of d) text args = Some (asked_delete (flavour_of d) u table).
Proof.
  intros d g u table T C S O. destruct (delete_reads d g u table T C (solid_calm d _ S)) as (text & args & E & R).
  exists text, args. split; [exact E|]. rewrite R, tail_asked by assumption. reflexivity.
Qed.
(** PostgreSQL has no UPDATE or DELETE with ORDER BY. *)
Theorem C32_order_refuted : forall g (u : update_stmt V) table,
  a_table (V:=V) Postgres (changed_table g (e_table u)) table -> changes_ok Postgres u -> e_order u <> [] ->
  (exists text args, exec_update DPostgres g u = Ok (text, args) /\ read Postgres text args = None) /\
  (exists text args, exec_delete DPostgres g u = Ok (text, args) /\ read Postgres text args = None).
Proof.
  intros g u table T C O. assert (K : calm DPostgres (e_where u)) by (unfold calm; destruct (e_where u); [right; reflexivity|exact I]).
  assert (TR : tail_result DPostgres u = None).
  { unfold tail_result. destruct (where_den_opt _ _); [|reflexivity]. destruct (e_order u); [contradiction|reflexivity]. }
  split.
  - destruct (update_reads DPostgres g u table T C K) as (text & args & E & R). exists text, args. split; [exact E|].
    cbn [flavour_of] in R. rewrite R, TR. destruct (e_set u); reflexivity.
  - destruct (delete_reads DPostgres g u table T C K) as (text & args & E & R). exists text, args. split; [exact E|].
    cbn [flavour_of] in R. rewrite R, TR. reflexivity.
Qed.
Theorem C32_no_set_refuted : forall d g (u : update_stmt V) table,
  a_table (V:=V) (flavour_of d) (changed_table g (e_table u)) table -> changes_ok (flavour_of d) u -> condition_solid (e_where u) -> e_set u = [] ->
  exists text args, exec_update d g u = Ok (text, args) /\ read (flavour_of d) text args = None.
Proof.
  intros d g u table T C S N. destruct (update_reads d g u table T C (solid_calm d _ S)) as (text & args & E & R).
  exists text, args. split; [exact E|]. rewrite R, N. reflexivity.
Qed.
(** When the model has a TableName, the name given in FromTable or Table is ignored. *)
Theorem C32_table_ignored_refuted : forall d g (u u' : update_stmt V), g_table g <> None ->
  e_set u' = e_set u -> e_where u' = e_where u -> e_order u' = e_order u -> e_limit u' = e_limit u ->
  exec_update d g u' = exec_update d g u /\ exec_delete d g u' = exec_delete d g u.
Proof.
  intros d g u u' T S W O L. unfold exec_update, exec_delete, exec_tail, exec_table. rewrite S, W, O, L.
  destruct (g_table g); [auto|contradiction].
Qed.

(** ** C33 *)

(** The k-th placeholder is replaced by the k-th literal when the texts between the placeholders do not contain the
    mark that starts a placeholder.  Missing: such texts, refuted below. *)
Theorem C33_format_partial : forall d (strf : V -> res bytes) (s : sqlstmt V) pieces last lits,
  s_text s = laced (flavour_of d) 1 pieces last -> length pieces = length (s_args s) ->
  Forall2 (fun v x => strf v = Ok x) (s_args s) lits ->
  Forall (fun p => ~ In (mark (flavour_of d)) p) pieces -> ~ In (mark (flavour_of d)) last ->
  format d strf true s = Ok (filled (combine pieces lits) last).
Proof. intros d f s pieces last lits T L F P N. unfold format. rewrite T. apply format_laced; assumption. Qed.
(** The verbs without flags give the text. *)
Theorem C33_plain : forall d (strf : V -> res bytes) (s : sqlstmt V), format d strf false s = Ok (s_text s).
Proof. reflexivity. Qed.
(** A question mark too many, for instance in the name of a column, makes Format panic on MySQL and SQLite. *)
Theorem C33_mark_refuted : forall d (strf : V -> res bytes) (s : sqlstmt V),
  d <> DPostgres -> (forall v, In v (s_args s) -> strf v <> Err) -> length (s_args s) < length (filter (beq "?") (s_text s)) ->
  format d strf true s = Panic.
Proof. intros d f s D E L. unfold format. apply format_short; assumption. Qed.

(** ** C59 *)

(** Comparing with, or assigning to, a column that carries a SQL value function ignores the function. *)
Fixpoint unwrap w : where_clause V :=
  let plain (c : colclause V) := match c with SqlCol n f _ => Convert n f | c => c end in
  match w with
  | WAnd cs => WAnd (map unwrap cs) | WOr cs => WOr (map unwrap cs)
  | WEqual c v => WEqual (plain c) v | WNotEqual c v => WNotEqual (plain c) v
  | WIn c vs => WIn (plain c) vs | WNotIn c vs => WNotIn (plain c) vs
  | WGreaterThan c v => WGreaterThan (plain c) v | WGreaterThanOrEqual c v => WGreaterThanOrEqual (plain c) v
  | WLessThan c v => WLessThan (plain c) v | WLessThanOrEqual c v => WLessThanOrEqual (plain c) v
  | WLike c v => WLike (plain c) v | WNotLike c v => WNotLike (plain c) v
  | WIsNull c => WIsNull (plain c) | WIsNotNull c => WIsNotNull (plain c)
  | WBetween c lo hi => WBetween (plain c) lo hi | WNotBetween c lo hi => WNotBetween (plain c) lo hi
  end.
Theorem C59_operators_refuted : forall d w s, write_where d (unwrap w) s = write_where d w s.
Proof.
  intros d. induction w using where_induction; intros s.
  1,2: destruct cs as [|c cs]; [reflexivity|]; cbn [unwrap map write_where]; inversion H as [|? ? H1 H2]; subst; rewrite H1;
    destruct (write_where d c (put s (B "("))) as [s1| |]; [cbn [bind]|reflexivity..];
    match goal with |- bind ?a _ = bind ?b _ => assert (E : a = b); [|rewrite E; reflexivity] end;
    clear H H1; revert s1; induction H2 as [|x cs HX HS IH]; intros s1; [reflexivity|];
    cbn [map]; rewrite HX; destruct (write_where d x _); [cbn [bind]; apply IH|reflexivity..].
  destruct w; try contradiction; match goal with c : colclause V |- _ => destruct c end; reflexivity.
Qed.
Theorem C59_set_refuted : forall d n f g v (s : sqlstmt V), write_set d (SqlCol n f g, v) s = write_set d (Convert n f, v) s.
Proof. reflexivity. Qed.
End T.

(** The literals of a formatted statement are those of the values.  Missing: strings with special characters on MySQL,
    strings on SQLite and times outside MySQL, refuted below; the texts of floats and times are given. *)
Lemma lex_minus {V : Type} fl n : lex (V:=V) fl ("-"%char :: format_uint n) = [Sym "-"; Num (format_uint n)].
Proof.
  pose proof (lex_number (V:=V) fl n) as L. unfold lex, lex_from in *. cbn [run step].
  replace (start fl 0 [] "-"%char) with (Idle, 0, [Sym (V:=V) "-"]) by (destruct fl; reflexivity).
  rewrite run_idle_out. destruct (run fl (Idle, 0, []) (format_uint n)) as [[m k] o].
  assert (R : forall t : list (tok V), rev (t ++ [Sym "-"]) = Sym "-" :: rev t) by (intros; apply rev_unit).
  destruct m as [|acc|[|c acc]|acc|q i acc|q i acc]; cbn [flush] in *; rewrite ?app_comm_cons, R, L; reflexivity.
Qed.
Lemma lex_mysql_string {V : Type} printable s : Forall plain_char s -> lex (V:=V) MySQL (go_quote printable s) = [Str s].
Proof.
  intros F. rewrite plain_quote_rune by exact F. unfold lex, lex_from.
  change (run MySQL (Idle, 0, []) (dquote :: s ++ [dquote])) with (run (V:=V) MySQL (InQuote dquote false [], 0, []) (s ++ [dquote])).
  rewrite run_in_quote by (eapply Forall_impl; [|exact F]; intros c (_ & D & _); exact D).
  rewrite app_nil_r. cbn [flush]. rewrite rev_involutive. reflexivity.
Qed.
Theorem C33_literals_partial : forall printable (V : Type) d v x, strf printable d v = Ok x -> shows (V:=V) d v x.
Proof.
  intros printable V d v x. induction v as [|s|b|z|n|t|t|s|v IH|]; cbn [strf shows]; intros E; try discriminate;
    try (injection E as <-).
  - destruct d; reflexivity.
  - destruct d; [apply lex_mysql_string| |exact I]. rewrite <- (app_nil_r (pg_quote s)). apply estring_quote. exact I.
  - destruct d, b; reflexivity.
  - destruct z as [|p|p]; cbn [format_int Z.abs_N Z.ltb Z.compare app].
    + exists (B "0"). split; [reflexivity|]. destruct d; reflexivity.
    + exists (format_uint (Npos p)). split; [|apply lex_number]. pose proof (number_reads (V:=V) MySQL (Npos p)) as E. cbn [number] in E. congruence.
    + exists (format_uint (Npos p)). split; [|apply lex_minus]. pose proof (number_reads (V:=V) MySQL (Npos p)) as E. cbn [number] in E. congruence.
  - exists (format_uint n). split; [|apply lex_number]. pose proof (number_reads (V:=V) MySQL n) as E. cbn [number] in E. congruence.
  - reflexivity.
  - destruct d; try exact I. apply lex_mysql_string.
  - reflexivity.
  - apply IH, E.
Qed.
(** The literals: strings are double-quoted on SQLite and times on PostgreSQL, where that makes an identifier. *)
Theorem C33_quotes_refuted : forall printable (V : Type) s, plain_name s ->
  (exists x, strf printable DSQLite (LString s) = Ok x /\ lex (V:=V) SQLite x = [Name s]) /\
  (exists x, strf printable DPostgres (LTime s) = Ok x /\ lex (V:=V) Postgres x = [Name s]).
Proof.
  intros printable V s P. split; (eexists; split; [reflexivity|]).
  - exact (reads_lex _ 0 _ _ 0 (reads_id printable DSQLite s 0 P)).
  - exact (reads_lex _ 0 _ _ 0 (reads_id printable DPostgres s 0 P)).
Qed.
(** A value that is no nil, text, bool, number, time or Valuer of these (a pointer, say) makes Format panic. *)
Theorem C33_other_refuted : forall printable d (s : sqlstmt literal) before after rest,
  s_text s = before ++ placeholder (flavour_of d) 1 ++ after -> ~ In (mark (flavour_of d)) before -> s_args s = LOther :: rest ->
  format d (strf printable d) true s = Panic.
Proof.
  intros printable d s before after rest T N A. unfold format. rewrite T, A. cbn [format_loop].
  assert (C : cut (quote_var d 1) (before ++ placeholder (flavour_of d) 1 ++ after) = Some (before, after)).
  { destruct d; apply cut_first, N. }
  rewrite C. reflexivity.
Qed.

(** ** Cases that meet the hypotheses *)
Definition ex_where : where_clause nat :=
  WAnd [WEqual (Basic (B "a")) 1; WOr [WIn (Convert (B "b") S) [1; 2]; WNotBetween (Basic (B "c")) 3 4]; WIsNull (Basic (B "e"))].
Ltac columns := cbn; repeat split; eexists; vm_compute; reflexivity.
Example C30_case : forall d, all_columns (names_a_column (flavour_of d)) ex_where /\ solid ex_where /\
  match write_where d ex_where empty_stmt with
  | Ok s => s_args s = [1; 2; 3; 3; 4] /\ s_text s = match d with
      | DPostgres => B "(a = $1 AND (b IN ($2,$3) OR c NOT BETWEEN $4 AND $5) AND e IS NULL)"
      | _ => B "(a = ? AND (b IN (?,?) OR c NOT BETWEEN ? AND ?) AND e IS NULL)"
      end
  | _ => False
  end.
Proof.
  intros d. split; [destruct d; columns|]. split; [cbn; repeat split; discriminate|].
  destruct d; vm_compute; split; reflexivity.
Qed.
Example C30_refuted_case : forall d, let w := WAnd [WIn (Basic (B "a")) []; WEqual (Basic (B "b")) 1] in
  all_columns (names_a_column (flavour_of d)) w /\ ~ solid w /\ empty_in w.
Proof. intros d. split; [destruct d; columns|]. split; [cbn; intros (_ & H & _); now apply H|cbn; tauto]. Qed.
Example C31_case :
  perform_all DPostgres (empty_stmt, []) [OVar 7; OReset; OVars [1; 2]; OWrite (B " AND "); OVar 3]
  = Ok ({| s_text := B " AND "; s_pos := 3; s_args := [1; 2; 3] |}, [B "($1,$2)"; B "$3"]).
Proof. reflexivity. Qed.
Definition ex_target := {| g_columns := Some [B "id"; B "name"]; g_table := Some (B "users"); g_db := Some (B "app") |}.
Definition ex_query (lim : N) : select_stmt nat :=
  {| q_select := []; q_from := []; q_where := Some ex_where; q_order := [(B "id", false); (B "name", true)]; q_group := [B "name"]; q_offset := 20; q_limit := lim |}.
Example C32_case : forall d lim, parts_ok (flavour_of d) ex_target (ex_query lim) [B "app"; B "users"] /\ condition_solid (q_where (ex_query lim)).
Proof.
  intros d lim. split; [|cbn; repeat split; discriminate].
  split; [discriminate|]. split; [repeat constructor; destruct d; reflexivity|].
  split; [eexists; split; [reflexivity|]; destruct d; reflexivity|].
  split; [destruct d; columns|].
  split; [repeat constructor; destruct d; reflexivity|].
  repeat constructor; destruct d; eexists; reflexivity.
Qed.
Definition ex_update : update_stmt nat :=
  {| e_table := B "other"; e_set := [(Basic (B "name"), 5)]; e_where := Some ex_where; e_order := []; e_limit := 3 |}.
Example C32_change_case : forall d, a_table (V:=nat) (flavour_of d) (changed_table ex_target (e_table ex_update)) [B "app"; B "users"] /\
  changes_ok (flavour_of d) ex_update /\ condition_solid (e_where ex_update) /\ e_set ex_update <> [] /\ e_order ex_update = [].
Proof.
  intros d. split; [destruct d; reflexivity|]. split; [|split; [cbn; repeat split; discriminate|split; [discriminate|reflexivity]]].
  split; [repeat constructor; destruct d; eexists; reflexivity|]. split; [destruct d; columns|constructor].
Qed.
Example C33_case : forall d, exists pieces last,
  B "a = " ++ placeholder (flavour_of d) 1 ++ B " AND b = " ++ placeholder (flavour_of d) 2 ++ B ";" = laced (flavour_of d) 1 pieces last /\
  format d (strf (fun _ => true) d) true {| s_text := laced (flavour_of d) 1 pieces last; s_pos := 2; s_args := [LInt 4; LBool true] |} = Ok (B "a = 4 AND b = true;").
Proof. intros d. exists [B "a = "; B " AND b = "], (B ";"). destruct d; split; reflexivity. Qed.
(** A back-quoted MySQL column whose name contains a question mark: the condition reads back, Format panics. *)
Definition ex_marked := WEqual (V:=literal) (Basic ("`"%char :: B "a?" ++ ["`"%char])) (LInt 1).
Example C33_mark_case : match write_where DMySQL ex_marked empty_stmt with
  | Ok s => read_cond MySQL (s_text s) (s_args s) = Some (Compare (One [Name (B "a?")]) (B "=") (One [Val (LInt 1)])) /\
            length (s_args s) < length (filter (beq "?") (s_text s)) /\ format DMySQL (strf (fun _ => true) DMySQL) true s = Panic
  | _ => False
  end.
Proof. vm_compute. auto. Qed.
Example C59_case : forall d, let c := SqlCol (B "pos") (fun v : nat => v) (fun p => B "ST_GeomFromText(" ++ p ++ B ")") in
  match write_where d (WEqual c 1) empty_stmt with
  | Ok s => s_text s = B "pos = " ++ placeholder (flavour_of d) 1
  | _ => False end.
Proof. intros []; reflexivity. Qed.
Print Assumptions C30_conditions_partial.
Print Assumptions C30_empty_group_refuted.
Print Assumptions C30_panics.
Print Assumptions C31_history_partial.
Print Assumptions C31_empty_vars_refuted.
Print Assumptions C32_query_partial.
Print Assumptions C32_query_one_partial.
Print Assumptions C32_no_table.
Print Assumptions C32_offset_refuted.
Print Assumptions C32_empty_group_refuted.
Print Assumptions C32_update_partial.
Print Assumptions C32_delete_partial.
Print Assumptions C32_order_refuted.
Print Assumptions C32_no_set_refuted.
Print Assumptions C32_table_ignored_refuted.
Print Assumptions C33_format_partial.
Print Assumptions C33_plain.
Print Assumptions C33_mark_refuted.
Print Assumptions C59_operators_refuted.
Print Assumptions C59_set_refuted.
Print Assumptions C33_quotes_refuted.
Print Assumptions C33_other_refuted.
Print Assumptions C33_literals_partial.
