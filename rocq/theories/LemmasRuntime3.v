(** Upserts, read back. *)
From Verif Require Import Base ModelStrconv ModelCompiler ModelGen ModelRuntime SpecSql SpecGen SpecRuntime
  LemmasBase LemmasSql LemmasSql2 LemmasSql3 LemmasGen LemmasGen2 LemmasGen3 LemmasSql4 LemmasRuntime LemmasRuntime2.

Section R.
Context {V : Type}.
Notation tok := (tok V).

(** An operator directly after a name *)
Lemma step_op fl n s1 ts1 (x : bytes) n1 c r :
  reads fl n s1 (ts1 ++ [Name (V:=V) x]) n1 -> op_char c = true ->
  forall out, run fl (run fl (Idle, n, out) s1) (c :: r) = run fl (Idle, n1, rev (ts1 ++ [Name x]) ++ out) (c :: r).
Proof.
  intros [C H] O out. pose proof (H []) as H0. specialize (H out). pose proof (run_mode_ok (V:=V) fl n s1) as K.
  unfold mode_after in *. rewrite run_idle_out in *.
  destruct (run fl (Idle, n, []) s1) as [[m k] o].
  assert (F : word_char c = false /\ is_digit c = false /\ quote_kind fl c = None).
  { clear -O. unfold op_char in O. rewrite !orb_true_iff, !beq_eq in O.
    destruct O as [[[-> | ->] | ->] | ->]; (repeat split; try reflexivity; destruct fl; reflexivity). }
  destruct F as (W & Dg & Q). cbn [run].
  replace (step fl (m, k, o ++ out) c) with (restart fl (m, k, o ++ out) c); [unfold restart; rewrite H; reflexivity|].
  destruct m; cbn [step]; rewrite ?W, ?Dg; try reflexivity.
  - exfalso. cbn [flush] in H0. rewrite rev_app_distr in H0. cbn [rev app] in H0. inversion H0.
  - contradiction.
  - destruct (beq c q) eqn:E; [|reflexivity]. apply beq_eq in E. subst q. cbn in K. congruence.
Qed.
Lemma spells_op fl n s1 (x : bytes) s2 vs2 (ts2 : list tok) c r :
  denotes (V:=V) fl s1 x -> s2 = c :: r -> op_char c = true -> spells fl n s2 vs2 ts2 ->
  spells fl n (s1 ++ s2) vs2 (Name x :: ts2).
Proof.
  intros DN -> O (t2 & R2 & P2 & B2 & M2).
  assert (R1 : reads (V:=V) fl n s1 ([] ++ [Name x]) n) by (apply lex_piece; [exact DN|intros [|[]]; discriminate|intros k [|[]]; discriminate]).
  assert (E : forall out : list tok, run fl (Idle, n, out) (s1 ++ c :: r) = run fl (Idle, n, [Name x] ++ out) (c :: r)).
  { intros out. rewrite run_app. apply (step_op fl n s1 [] x n c r R1 O out). }
  exists (Name x :: t2). split; [|split; [exact P2|split; [exact B2|]]].
  - destruct R2 as [C2 H2]. split.
    + rewrite <- (mode_after_eq (V:=V) fl n _ []). rewrite E. rewrite mode_after_eq. exact C2.
    + intros out. rewrite E, H2. cbn [rev]. rewrite <- app_assoc. reflexivity.
  - intros pre post L. cbn [map bind_tok]. f_equal. apply M2. exact L.
Qed.

(** ** Assignments of proposed values *)
Definition proposal_toks (fl : flavour) (c : bytes) : list tok :=
  match fl with
  | MySQL => [Name c; Op (B "="); Kw (B "VALUES"); Sym "("; Name c; Sym ")"]
  | _ => [Name c; Op (B "="); Name (B "excluded"); Sym "."; Name c]
  end.
Lemma proposal_ok fl c : fl <> SQLite -> proposal fl (proposal_toks fl c) = Some (c, c).
Proof. intros N. destruct fl; [reflexivity|reflexivity|contradiction]. Qed.
Lemma proposals_ok fl cs : fl <> SQLite -> cs <> [] ->
  proposals fl (commas (map (proposal_toks fl) cs)) = Some (map (fun c => (c, c)) cs).
Proof.
  intros N NE. unfold proposals. rewrite split_commas.
  - rewrite map_map. apply all_some_map. intros c _. apply proposal_ok, N.
  - destruct cs; [contradiction|discriminate].
  - apply Forall_forall. intros x I. apply in_map_iff in I. destruct I as (c & <- & _).
    destruct fl; [|repeat (apply passes_cons; [reflexivity|reflexivity|]); apply passes_nil|contradiction].
    cbn [proposal_toks]. do 3 (apply passes_cons; [reflexivity|reflexivity|]).
    apply (passes_paren is_comma [Name c]). apply passes_one; reflexivity.
Qed.
Lemma proposals_pass fl cs : fl <> SQLite -> passes ends_update (commas (map (proposal_toks fl) cs)).
Proof.
  intros N. apply passes_commas.
  - intros t T. destruct (is_comma t) eqn:C; [|reflexivity]. destruct t; try discriminate. unfold is_comma, is_sym in C. apply beq_eq in C. subst. discriminate.
  - apply Forall_forall. intros x I. apply in_map_iff in I. destruct I as (c & <- & _).
    destruct fl; [|repeat (apply passes_cons; [reflexivity|reflexivity|]); apply passes_nil|contradiction].
    cbn [proposal_toks]. do 3 (apply passes_cons; [reflexivity|reflexivity|]).
    apply (passes_paren ends_update [Name c]). apply passes_one; reflexivity.
Qed.

Lemma excluded_spells n texts cs : Forall2 (denotes (V:=V) Postgres) texts cs ->
  spells Postgres n (excluded_list texts) [] (commas (map (proposal_toks Postgres) cs)).
Proof.
  intros F. unfold excluded_list. apply spells_list2. induction F as [|x c l l' DN F IH]; cbn [map]; constructor; [|exact IH].
  intros m. cbn [proposal_toks]. change [Name c; Op (B "="); Name (B "excluded"); Sym "."; Name c]
    with ([Name c] ++ [Op (B "="); Name (B "excluded"); Sym "."] ++ [Name (V:=V) c]).
  apply spells_rr; [apply denotes_spells, DN| |reflexivity|discriminate].
  apply spells_lr; [sconst|apply denotes_spells, DN|reflexivity].
Qed.
(** Both spellings of the assignment in MySQL: [ =VALUES(] and [=VALUES(] *)
Lemma values_spells fl n eq texts cs : (eq = B " =" \/ eq = B "=") -> Forall2 (denotes (V:=V) fl) texts cs ->
  spells fl n (values_list eq texts) [] (commas (map (proposal_toks MySQL) cs)).
Proof.
  intros E F. unfold values_list. apply spells_list2. induction F as [|x c l l' DN F IH]; cbn [map]; constructor; [|exact IH].
  intros m. cbn [proposal_toks].
  assert (R : forall p ts, spells fl m p [] ts -> tailed p = true -> spells fl m (p ++ x ++ B ")") [] (ts ++ [Name c] ++ [Sym (V:=V) ")"])).
  { intros p ts P T. apply spells_lr; [exact P| |exact T]. apply spells_rr; [apply denotes_spells, DN|sconst|reflexivity|discriminate]. }
  destruct E as [-> | ->].
  - change (B " =" ++ B "VALUES(" ++ x ++ B ")") with (B " =VALUES(" ++ x ++ B ")").
    change [Name c; Op (B "="); Kw (B "VALUES"); Sym "("; Name c; Sym ")"] with ([Name c] ++ [Op (B "="); Kw (B "VALUES"); Sym "("] ++ [Name c] ++ [Sym (V:=V) ")"]).
    apply spells_rr; [apply denotes_spells, DN| |reflexivity|discriminate]. apply R; [sconst|reflexivity].
  - change (B "=" ++ B "VALUES(" ++ x ++ B ")") with (B "=VALUES(" ++ x ++ B ")").
    eapply spells_op; [exact DN|reflexivity|reflexivity|].
    change [Op (B "="); Kw (B "VALUES"); Sym "("; Name c; Sym ")"] with ([Op (B "="); Kw (B "VALUES"); Sym "("] ++ [Name c] ++ [Sym (V:=V) ")"]).
    apply R; [sconst|reflexivity].
Qed.

(** ** The conflict clause of PostgreSQL *)
Definition conflict_toks (nothing : bool) (tgt sets : list bytes) : list tok :=
  [Kw (B "ON"); Kw (B "CONFLICT"); Sym "("] ++ commas (name_toks tgt) ++ [Sym ")"] ++
  (if nothing then [Kw (B "DO"); Kw (B "NOTHING")]
   else [Kw (B "DO"); Kw (B "UPDATE"); Kw (B "SET")] ++ commas (map (proposal_toks Postgres) sets)).

Lemma conflict_parsed nothing tgt sets rest : tgt <> [] -> NoDup tgt -> (nothing = false -> sets <> []) ->
  conflict_p (V:=V) Postgres false (conflict_toks nothing tgt sets ++ Kw (B "RETURNING") :: rest)
  = Some (conflict_of nothing tgt sets, Kw (B "RETURNING") :: rest).
Proof.
  intros NE ND SN. unfold conflict_p, conflict_toks. cbn [app].
  change (strip (map B ["ON"; "DUPLICATE"; "KEY"; "UPDATE"]%string) (Kw (B "ON") :: Kw (B "CONFLICT") :: ?x)) with (@None (list tok)).
  change (strip (map B ["ON"; "CONFLICT"]%string) (Kw (B "ON") :: Kw (B "CONFLICT") :: ?x)) with (Some x). cbv beta iota.
  assert (C : forall r, until ends_clause 0 (Sym "(" :: commas (name_toks tgt) ++ Sym ")" :: Kw (V:=V) (B "DO") :: r)
    = Some (Sym "(" :: commas (name_toks tgt) ++ [Sym ")"], Kw (B "DO") :: r)).
  { intros r. replace (Sym "(" :: commas (name_toks tgt) ++ Sym ")" :: Kw (B "DO") :: r)
      with ((Sym "(" :: commas (name_toks tgt) ++ [Sym ")"]) ++ Kw (V:=V) (B "DO") :: r) by (cbn [app]; rewrite <- app_assoc; reflexivity).
    apply until_stop; [apply passes_paren, names_balanced|reflexivity|reflexivity]. }
  destruct nothing; rewrite <- ?app_assoc; cbn [app]; rewrite <- ?app_assoc; cbn [app]; rewrite C; cbn [obind]; rewrite parens_group by apply names_balanced; cbn [obind];
    rewrite names_commas by assumption; cbn [obind].
  - reflexivity.
  - match goal with |- context [strip (map B ["DO"; "NOTHING"]%string) ?x] => change (strip (map B ["DO"; "NOTHING"]%string) x) with (@None (list tok)) end.
    match goal with |- context [strip (map B ["DO"; "UPDATE"; "SET"]%string) (_ :: _ :: _ :: ?x)] =>
      change (strip (map B ["DO"; "UPDATE"; "SET"]%string) (Kw (B "DO") :: Kw (B "UPDATE") :: Kw (B "SET") :: x)) with (Some x) end.
    cbv beta iota. rewrite until_stop; [|apply proposals_pass; discriminate|reflexivity|reflexivity].
    cbn [obind]. rewrite proposals_ok by (try discriminate; apply SN; reflexivity). reflexivity.
Qed.
(** Nothing to assign: the statement is refused. *)
Lemma conflict_refused tgt rest :
  conflict_p (V:=V) Postgres false (conflict_toks false tgt [] ++ Kw (B "RETURNING") :: rest) = None.
Proof.
  unfold conflict_p, conflict_toks. cbn [app].
  change (strip (map B ["ON"; "DUPLICATE"; "KEY"; "UPDATE"]%string) (Kw (B "ON") :: Kw (B "CONFLICT") :: ?x)) with (@None (list tok)).
  change (strip (map B ["ON"; "CONFLICT"]%string) (Kw (B "ON") :: Kw (B "CONFLICT") :: ?x)) with (Some x). cbv beta iota.
  cbn [map commas app]. rewrite <- app_assoc. cbn [app].
  replace (Sym "(" :: commas (name_toks tgt) ++ Sym ")" :: Kw (B "DO") :: Kw (B "UPDATE") :: Kw (B "SET") :: Kw (B "RETURNING") :: rest)
      with ((Sym "(" :: commas (name_toks tgt) ++ [Sym ")"]) ++ Kw (V:=V) (B "DO") :: Kw (B "UPDATE") :: Kw (B "SET") :: Kw (B "RETURNING") :: rest) by (cbn [app]; rewrite <- app_assoc; reflexivity).
  rewrite until_stop; [|apply passes_paren, names_balanced|reflexivity|reflexivity].
  cbn [obind]. rewrite parens_group by apply names_balanced. cbn [obind]. destruct (names _); reflexivity.
Qed.

(** Which texts stay in the update list *)
Lemma chosen_nil (pick : nat -> bytes -> Prop) : chosen [] [] pick [].
Proof. split; [constructor|]. intros c. split; [contradiction|]. intros ([|i] & t & E & _); discriminate. Qed.
Lemma chosen_cons x c texts cs (pick : nat -> bytes -> Prop) sets : chosen texts cs (fun i => pick (S i)) sets ->
  (pick 0 x -> chosen (x :: texts) (c :: cs) pick (c :: sets)) /\ (~ pick 0 x -> chosen (x :: texts) (c :: cs) pick sets).
Proof.
  intros [SB H]. split; intros P; (split; [constructor; exact SB|]); intros c'; cbn [In].
  - rewrite H. split.
    + intros [->|(i & t & E1 & E2 & E3)]; [exists 0, x; repeat split; exact P|exists (S i), t; repeat split; assumption].
    + intros ([|i] & t & E1 & E2 & E3); cbn in E1, E2; [left; congruence|right; exists i, t; repeat split; assumption].
  - rewrite H. split.
    + intros (i & t & E1 & E2 & E3); exists (S i), t; repeat split; assumption.
    + intros ([|i] & t & E1 & E2 & E3); cbn in E1, E2; [inversion E1; subst; contradiction|exists i, t; repeat split; assumption].
Qed.
Lemma chosen_iff texts cs (p1 p2 : nat -> bytes -> Prop) sets : (forall i t, p1 i t <-> p2 i t) -> chosen texts cs p1 sets -> chosen texts cs p2 sets.
Proof.
  intros E [SB H]. split; [exact SB|]. intros c. rewrite H. split; intros (i & t & E1 & E2 & E3); exists i, t; repeat split; try assumption; now apply E.
Qed.
Lemma kept_Forall2 {P : bytes -> bytes -> Prop} omit texts cs : Forall2 P texts cs ->
  exists sets, Forall2 P (kept omit texts) sets /\ chosen texts cs (fun _ text => ~ In text omit) sets.
Proof.
  induction 1 as [|x c l l' H F (sets & IH1 & IH2)].
  - exists []. split; [constructor|apply chosen_nil].
  - apply (chosen_cons x c _ _ (fun _ text => ~ In text omit)) in IH2. destruct IH2 as [K1 K2].
    cbn [kept filter]. destruct (bmem x omit) eqn:M; cbn [negb].
    + exists sets. split; [exact IH1|]. apply K2. apply bmem_In in M. tauto.
    + exists (c :: sets). split; [constructor; assumption|]. apply K1. apply bmem_not_In, M.
Qed.

(** An accepted insert has rows of the right length and an accepted conflict clause. *)
Lemma parse_insert_needs fl ig tbl q (cols : list bytes) (rows : list (list (list tok))) rest s :
  qname tbl = Some q -> cols <> [] -> NoDup cols -> rows <> [] ->
  (forall x : list (list tok), In x rows -> x <> [] /\ forallb is_expr x = true) -> stops rest ->
  parse_insert fl ig (tbl ++ Sym "(" :: commas (name_toks cols) ++ Sym ")" :: Kw (B "VALUES") :: commas (map row_toks rows) ++ rest) = Some s ->
  (forall x, In x rows -> length x = length cols) /\ conflict_p fl ig rest <> None.
Proof.
  intros Q CN ND RN R ST. unfold parse_insert.
  destruct (qname_plain tbl q ends_clause Q) as (_ & P & _ & _ & CUT); [reflexivity|reflexivity|].
  replace (tbl ++ Sym "(" :: commas (name_toks cols) ++ Sym ")" :: Kw (B "VALUES") :: commas (map row_toks rows) ++ rest)
    with ((tbl ++ Sym "(" :: commas (name_toks cols) ++ [Sym ")"]) ++ Kw (B "VALUES") :: commas (map row_toks rows) ++ rest)
    by (rewrite <- !app_assoc; cbn [app]; rewrite <- app_assoc; reflexivity).
  rewrite until_stop; [|apply passes_app; [exact P|apply passes_paren, names_balanced]|reflexivity|reflexivity].
  cbn [obind]. rewrite CUT, Q. cbn [obind]. rewrite parens_group by apply names_balanced. cbn [obind].
  rewrite names_commas by assumption. cbn [obind].
  change (Kw (B "VALUES") :: commas (map row_toks rows) ++ rest) with (map Kw [B "VALUES"] ++ commas (map row_toks rows) ++ rest).
  rewrite strip_kws. cbn [obind].
  rewrite until_stops; [|apply passes_commas|exact ST].
  - cbn [obind]. rewrite split_commas.
    + rewrite map_map. rewrite (all_some_map _ (fun x : list (list tok) => x) rows).
      * rewrite map_id. cbn [obind]. match goal with |- context [forallb ?g rows] => destruct (forallb g rows) eqn:F; [|discriminate] end. cbn [guard obind].
        rewrite forallb_forall in F. destruct (conflict_p fl ig rest); [|discriminate]. intros _. split; [|discriminate].
        intros x I. apply Nat.eqb_eq, F, I.
      * intros r I. destruct (R r I) as [L E]. apply row_value; assumption.
    + destruct rows; [contradiction|discriminate].
    + apply Forall_forall. intros x I. apply in_map_iff in I. destruct I as (r & <- & I). apply row_passes. apply R. exact I.
  - apply ends_not_comma.
  - apply Forall_forall. intros x I. apply in_map_iff in I. destruct I as (r & <- & I). apply row_passes. apply R. exact I.
Qed.
Lemma insert_needs fl tbl (tt : list tok) q texts cs rows (vss : list (list V)) tail (tts : list tok) s :
  qname tt = Some q -> (forall n, spells fl n tbl [] tt) ->
  Forall2 (denotes (V:=V) fl) texts cs -> NoDup cs -> cs <> [] ->
  spells_all fl 0 rows vss (map row_toks (row_vals vss)) -> vss <> [] -> (forall vs, In vs vss -> vs <> []) ->
  (forall n, spells fl n tail [] tts) -> headed tail = true -> tail <> [] -> stops tts ->
  read fl (B "INSERT INTO " ++ tbl ++ B " (" ++ join (B ",") texts ++ B ") VALUES " ++ join (B ",") rows ++ tail) (concat vss) = Some s ->
  (forall vs, In vs vss -> length vs = length cs) /\ conflict_p fl false tts <> None.
Proof.
  intros Q T C ND NE R RN L TL H TNE ST.
  erewrite spells_read; [|eapply insert_spells with (kts := [Kw (B "INSERT"); Kw (B "INTO")]); eauto; sconst].
  unfold parse. cbn [app].
  match goal with |- match strip _ (_ :: _ :: ?r) with _ => _ end = _ -> _ => change (parse_insert fl false r = Some s -> (forall vs, In vs vss -> length vs = length cs) /\ conflict_p fl false tts <> None) end.
  intros PI. apply parse_insert_needs with (q := q) in PI; auto.
  - destruct PI as [PL PC]. split; [|exact PC]. intros vs I. rewrite <- (vals_length vs). apply PL. apply in_map, I.
  - unfold row_vals. destruct vss; [contradiction|discriminate].
  - intros x I. unfold row_vals in I. apply in_map_iff in I. destruct I as (vs & <- & I). split; [|apply vals_exprs].
    specialize (L vs I). destruct vs; [contradiction|discriminate].
Qed.

(** ** Upsert on PostgreSQL *)
Section UpsertPg.
Variables (m : model V) (q cols : list bytes) (items : list (expr V)) (o : upsert_opts) (tgt : list bytes) (a : option nat).
Hypothesis D : described Postgres m q cols items.
Hypothesis KEY : m_key m <> NoKey.
Hypothesis TGT : Forall2 (denotes (V:=V) Postgres) (target_texts m o) tgt.
Hypothesis A : a = generated_at m.
Hypothesis IN : forall i, a = Some i -> i < length cols.
Hypothesis NE : omit_at a cols <> [].

Lemma conflict_text_is columns : exists omit,
  conflict_text m o columns
  = Ok (B " ON CONFLICT(" ++ join (B ",") (target_texts m o) ++ B ")"
        ++ (if o_nothing o then B " DO NOTHING" else B " DO UPDATE SET " ++ excluded_list (kept omit columns))
        ++ B " RETURNING " ++ join (B ",") (table_columns m) ++ B ";")
  /\ forall text, In text omit <-> omitted_text m o text.
Proof.
  unfold conflict_text. assert (KN : key_names m = Ok (key_texts m)) by (unfold key_names, key_texts; destruct (m_key m); [contradiction|reflexivity..]).
  rewrite KN. cbn [bind].
  assert (CT : exists extra, conflict_target m o = Ok (target_texts m o, extra) /\
     forall text, In text extra <-> (o_dup o = [] /\ exists ks, m_dup m = Some ks /\ In text ks)).
  { unfold conflict_target, target_texts. destruct (o_dup o).
    - destruct (m_dup m) as [ks|].
      + exists ks. split; [reflexivity|]. intros text. split; [intros I; split; [reflexivity|]; eauto|intros (_ & ks' & E & I); inversion E; subst; exact I].
      + rewrite KN. exists []. split; [reflexivity|]. intros text. split; [contradiction|intros (_ & ks & E & _); discriminate].
    - exists []. split; [reflexivity|]. intros text. split; [contradiction|intros (E & _); discriminate]. }
  destruct CT as (extra & CT & EX). rewrite CT. cbn [bind fst snd]. eexists. split; [reflexivity|].
  intros text. unfold omitted_text. rewrite !in_app_iff, EX.
  assert (OM : In text (match m_omit m with Some l => l | None => [] end) <-> exists l, m_omit m = Some l /\ In text l).
  { destruct (m_omit m); split; [eauto|intros (x & E & I); inversion E; subst; exact I|contradiction|intros (x & E & I); discriminate]. }
  rewrite OM. tauto.
Qed.

Lemma conflict_spells columns cs : Forall2 (denotes (V:=V) Postgres) columns cs -> exists text sets,
  conflict_text m o columns = Ok text /\ headed text = true /\ text <> [] /\
  (forall n, spells Postgres n text [] (conflict_toks (o_nothing o) tgt sets ++ Kw (B "RETURNING") :: commas items ++ [Sym ";"])) /\
  chosen columns cs (fun _ x => ~ omitted_text m o x) sets.
Proof.
  intros F. destruct (conflict_text_is columns) as (omit & E & OM).
  destruct (kept_Forall2 omit columns cs F) as (sets & F2 & CH).
  exists (B " ON CONFLICT(" ++ join (B ",") (target_texts m o) ++ B ")"
        ++ (if o_nothing o then B " DO NOTHING" else B " DO UPDATE SET " ++ excluded_list (kept omit columns))
        ++ B " RETURNING " ++ join (B ",") (table_columns m) ++ B ";"), sets.
  split; [exact E|]. split; [reflexivity|]. split; [discriminate|]. split; [|eapply chosen_iff; [|exact CH]; intros i t; cbv beta; rewrite OM; reflexivity].
  intros n. unfold conflict_toks. rewrite <- app_assoc. apply spells_lr; [sconst| |reflexivity].
  rewrite <- app_assoc. apply spells_rr; [apply denotes_list, TGT| |reflexivity|discriminate].
  rewrite <- app_assoc. destruct (o_nothing o).
  - change (B ")" ++ B " DO NOTHING" ++ ?x) with (B ") DO NOTHING" ++ x).
    change ([Sym ")"] ++ [Kw (B "DO"); Kw (B "NOTHING")] ++ ?x) with ([Sym ")"; Kw (B "DO"); Kw (B "NOTHING")] ++ x).
    apply spells_rr; [sconst|eapply returning_spells, D|reflexivity|discriminate].
  - rewrite <- !app_assoc. change (B ")" ++ B " DO UPDATE SET " ++ ?x) with (B ") DO UPDATE SET " ++ x).
    change ([Sym ")"] ++ [Kw (B "DO"); Kw (B "UPDATE"); Kw (B "SET")] ++ ?x) with ([Sym ")"; Kw (B "DO"); Kw (B "UPDATE"); Kw (B "SET")] ++ x).
    apply spells_lr; [sconst| |reflexivity].
    apply spells_rr; [apply excluded_spells, F2|eapply returning_spells, D|reflexivity|discriminate].
Qed.

(** The statement that proposes the rows [vss] of the columns [omit_at a cols] *)
Section Rows.
Variables (rows : list bytes) (vss : list (list V)) (columns cs : list bytes).
Hypothesis SA : spells_all Postgres 0 rows vss (map row_toks (row_vals vss)).
Hypothesis VN : vss <> [].
Hypothesis LV : forall vs, In vs vss -> length vs = length (omit_at a cols).
Hypothesis UPD : Forall2 (denotes (V:=V) Postgres) columns cs.

Lemma upsert_pg_read : exists tail sets, conflict_text m o columns = Ok tail /\
  chosen columns cs (fun _ x => ~ omitted_text m o x) sets /\
  let text := B "INSERT INTO " ++ db_table m ++ B " (" ++ join (B ",") (omit_at a (m_columns m)) ++ B ") VALUES " ++ join (B ",") rows ++ tail in
  (tgt <> [] -> NoDup tgt -> (o_nothing o = false -> sets <> []) ->
   read Postgres text (concat vss) = Some (Insert q (omit_at a cols) (row_vals vss) (conflict_of (o_nothing o) tgt sets) items)) /\
  (o_nothing o = false -> sets = [] -> read Postgres text (concat vss) = None).
Proof.
  destruct (conflict_spells columns cs UPD) as (tail & sets & E & H & TN & SP & CH).
  exists tail, sets. split; [exact E|]. split; [exact CH|].
  destruct (table_spells _ _ _ _ _ D) as (tt & Q & T).
  assert (F2 : Forall2 (denotes (V:=V) Postgres) (omit_at a (m_columns m)) (omit_at a cols)) by apply omit_Forall2, D.
  assert (ND : NoDup (omit_at a cols)) by (eapply sublist_NoDup; [apply sublist_omit|apply D]).
  cbv zeta. split.
  - intros TNE TND SN.
    change items with (opt_list (Some items)).
    eapply insert_parsed with (ig := false) (rest2 := Kw (B "RETURNING") :: commas items ++ [Sym ";"]) (rest3 := [Sym ";"]); try eassumption.
    + left. split; reflexivity.
    + unfold conflict_toks. split; reflexivity.
    + apply conflict_parsed; assumption.
    + eapply returning_clause, D.
    + reflexivity.
    + discriminate.
  - intros N SE. destruct (read _ _ _) as [s|] eqn:RD; [|reflexivity]. exfalso.
    apply insert_needs with (tt := tt) (q := q) (cs := omit_at a cols) (tts := conflict_toks (o_nothing o) tgt sets ++ Kw (B "RETURNING") :: commas items ++ [Sym ";"]) in RD; try assumption.
    + destruct RD as [_ C]. apply C. rewrite N, SE. apply conflict_refused.
    + intros vs I Z. specialize (LV vs I). subst vs. destruct (omit_at a cols); [contradiction|discriminate].
    + unfold conflict_toks. split; reflexivity.
Qed.
End Rows.

Lemma upsert_one_pg_reads : length (m_values m) = length cols -> numbered Postgres m (length (omit_at a cols)) ->
  exists text sets, upsert_one_pg m o = Ok (text, omit_at a (m_values m)) /\
    chosen (omit_at a (m_columns m)) (omit_at a cols) (fun _ x => ~ omitted_text m o x) sets /\
    (tgt <> [] -> NoDup tgt -> (o_nothing o = false -> sets <> []) ->
     read Postgres text (omit_at a (m_values m))
     = Some (Insert q (omit_at a cols) [row_of (omit_at a (m_values m))] (conflict_of (o_nothing o) tgt sets) items)) /\
    (o_nothing o = false -> sets = [] -> read Postgres text (omit_at a (m_values m)) = None).
Proof.
  intros L NUM. set (vs := omit_at a (m_values m)).
  assert (LV : length vs = length (omit_at a cols)) by (apply omit_length, L).
  destruct (upsert_pg_read (map (m_places m) (seq 0 (length [vs]))) [vs] (omit_at a (m_columns m)) (omit_at a cols)) as (tail & sets & E & CH & R1 & R2).
  - apply (spells_numbered Postgres m _ NUM [vs] 0). intros x [<-|[]]. exact LV.
  - discriminate.
  - intros x [<-|[]]. exact LV.
  - apply omit_Forall2, D.
  - eexists _, sets. split; [|split; [exact CH|]].
    + unfold upsert_one_pg. replace (auto_idx m) with a by (rewrite A; reflexivity).
      rewrite without_omit by (intros i Ei; rewrite (cols_length _ _ _ _ _ D); apply IN, Ei). cbn [bind].
      rewrite without_omit by (intros i Ei; rewrite L; apply IN, Ei). cbn [bind]. rewrite E. cbn [bind]. reflexivity.
    + cbn [concat length seq map join] in R1, R2. rewrite app_nil_r in R1, R2. split; [exact R1|exact R2].
Qed.

Lemma upsert_pg_reads data : (forall x, In x (m :: data) -> length (m_values x) = length cols) -> numbered Postgres m (length (omit_at a cols)) ->
  exists text args sets, upsert_pg (m :: data) o = Ok (Some (text, args)) /\
    chosen (m_columns m) cols (fun _ x => ~ omitted_text m o x) sets /\
    (tgt <> [] -> NoDup tgt -> (o_nothing o = false -> sets <> []) ->
     read Postgres text args
     = Some (Insert q (omit_at a cols) (map (fun x => row_of (omit_at a (m_values x))) (m :: data)) (conflict_of (o_nothing o) tgt sets) items)) /\
    (o_nothing o = false -> sets = [] -> read Postgres text args = None).
Proof.
  intros L NUM. set (vss := map (fun x => omit_at a (m_values x)) (m :: data)).
  assert (LV : forall vs, In vs vss -> length vs = length (omit_at a cols)).
  { intros vs I. apply in_map_iff in I. destruct I as (x & <- & I). apply omit_length, L, I. }
  destruct (upsert_pg_read (map (m_places m) (seq 0 (length vss))) vss (m_columns m) cols) as (tail & sets & E & CH & R1 & R2).
  - apply (spells_numbered Postgres m _ NUM vss 0). exact LV.
  - discriminate.
  - exact LV.
  - apply D.
  - eexists _, _, sets. split; [|split; [exact CH|]].
    + unfold upsert_pg. replace (auto_idx m) with a by (rewrite A; reflexivity).
      rewrite without_omit by (intros i Ei; rewrite (cols_length _ _ _ _ _ D); apply IN, Ei). cbn [bind].
      rewrite (map_res_ok _ (fun x => omit_at a (m_values x))) by (intros x I; apply without_omit; intros i Ei; rewrite (L x I); apply IN, Ei).
      cbn [bind]. rewrite E. cbn [bind]. replace (length (m :: data)) with (length vss) by (unfold vss; apply map_length). reflexivity.
    + replace (map (fun x => row_of (omit_at a (m_values x))) (m :: data)) with (row_vals vss) by (unfold row_vals, vss; rewrite map_map; reflexivity).
      split; [exact R1|exact R2].
Qed.
End UpsertPg.
End R.
