(** Properties C16-C24: what the generator writes into a model's methods.

    A table is any result of [build_table], so any struct: names, tags, flags and positions are those of the
    parser.  A record is a function from field paths to values.  Statements are compared through
    [SpecSql.read], which tokenises and parses the text by the rules of the database. *)
From Verif Require Import Base ModelStrconv ModelUtf8 ModelEncoding ModelCompiler ModelGen SpecSql SpecGo SpecGen
  LemmasBase LemmasUtf8 LemmasEncoding LemmasSql LemmasSql2 LemmasSql3 LemmasCompiler LemmasGen LemmasGen2 LemmasGen3.

Section Statements.
Context {V : Type}.
Variables (printable : N -> bool) (rename : bytes -> bytes) (wrap unwrap : gotype -> bytes * bytes).
Variables (sname : bytes) (ro : bool) (fs : list sfield) (t : table).
Hypothesis BUILT : build_table rename wrap unwrap sname ro fs = Ok t.
Variables (d : driver) (before after item : column -> list (tok V)).
Hypothesis READ : readable d t before after item.

Let WF : wf t := build_table_wf _ _ _ _ _ _ _ BUILT.
Let PN : forall c, In c (t_columns t) -> plain_name (c_name c).
Proof. intros c I. apply (READ c I). Qed.
Let W : forall c, In c (t_columns t) -> wrapped d c (before c) (after c).
Proof. intros c I. apply (READ c I). Qed.
Let SEL : forall c, In c (t_columns t) -> selected d c (item c).
Proof. intros c I. apply (READ c I). Qed.

Notation value r := (fun c : column => r (c_gopath c)).
Notation fl := (flavour_of d).

(** ** C16, for tables with plain names; from the declarations of a struct in PropEnd.v *)
Definition names_column (on : bool) (lit : bytes) (c : column) : Prop :=
  exists text, go_literal lit = Some text /\ (on = false -> text = c_name c) /\ (on = true -> lex (V:=V) fl text = [Name (c_name c)]).
Lemma names_column_ok on cs : incl cs (t_columns t) ->
  Forall2 (names_column on) (map (fun c => gen_quote d (quote_id printable d on (c_name c))) cs) cs.
Proof.
  induction cs as [|c cs IH]; intros IN; cbn [map]; constructor; [|apply IH; intros x I; apply IN; now right].
  pose proof (PN c (IN c (or_introl eq_refl))) as P. exists (quote_id printable d on (c_name c)). split.
  - apply gen_quote_literal. destruct on; [apply lit_id; exact P|]. destruct P as [_ P]. eapply Forall_impl; [|exact P]. intros; apply plain_literal; assumption.
  - split; intros ->; [reflexivity|]. eapply reads_lex. apply reads_id. exact P.
Qed.
Theorem C16_alignment_of_tables on :
  Forall2 (names_column on) (gen_columns printable d on t) (gen_addrs t)
  /\ NoDup (map c_name (gen_addrs t)) /\ (forall c, In c (gen_addrs t) <-> In c (t_columns t))
  /\ Forall2 (names_column on) (gen_insert_columns printable d on t) (gen_values t)
  /\ sublist (gen_values t) (gen_addrs t) /\ (forall c, In c (gen_values t) <-> insertable t c).
Proof.
  split; [apply names_column_ok, incl_refl|]. split; [apply (wf_names t WF)|]. split; [reflexivity|].
  split; [apply names_column_ok, insert_incl|]. split; [apply filter_sublist|]. intros c. apply insert_columns_spec, WF.
Qed.

(** ** C17, for tables with plain names; from the declarations of a struct in PropEnd.v *)
Variables (own : bool) (tn : bytes) (q : list bytes).
Hypothesis ADR : addresses (V:=V) d own t tn q.

Theorem C17_insert_one_of_tables ps cols : gen_insert_one printable d own t = Some (ps, cols) ->
  (forall c, In c cols <-> insertable t c) /\ sublist cols (t_columns t) /\ NoDup (map c_name cols) /\
  exists text, eval_pieces tn ps = Some text /\
  forall r : bytes -> V,
    read fl text (map (value r) cols)
    = Some (Insert q (map c_name cols) [map (holding before after (value r)) cols] Fail
              (match d with DPostgres => map item (t_columns t) | _ => [] end)).
Proof.
  intros G. unfold gen_insert_one in G. destruct (t_readonly t); [discriminate|].
  assert (C : cols = insert_columns t /\ insert_columns t <> [] /\
    ps = (if own then [Lit (gen_quote d (B "INSERT INTO ")); CallTableName; Lit (gen_quote d (insert_text printable d t))]
          else [Lit (gen_quote d (B "INSERT INTO " ++ must_quote printable d (t_name t) ++ insert_text printable d t))])).
  { destruct (insert_columns t) eqn:E; [discriminate|]. inversion G. split; [reflexivity|]. split; [discriminate|reflexivity]. }
  destruct C as (-> & NE & ->).
  split; [intros c; apply insert_columns_spec, WF|]. split; [apply filter_sublist|].
  split; [apply NoDup_filter_map, (wf_names t WF)|].
  exists (B "INSERT INTO " ++ table_text printable d t own tn ++ insert_text printable d t). split.
  - eapply eval_three; [exact ADR|apply lit_const; clear; destruct d; reflexivity|]. eapply lit_insert_text; eauto.
  - intros r. eapply insert_read; eauto.
Qed.

(** The statement exists whenever there is something to insert. *)
Theorem C17_insert_one_of_tables_exists : t_readonly t = false -> (exists c, insertable t c) -> gen_insert_one printable d own t <> None.
Proof.
  intros R [c I]. unfold gen_insert_one. rewrite R. apply (insert_columns_spec t c WF) in I.
  destruct (insert_columns t); [contradiction|discriminate].
Qed.

(** ** C19.  Missing part: names outside plain ASCII. *)
Theorem C19_find_by_pk_partial ps cols : gen_find_by_pk printable d own t = Some (ps, cols) ->
  cols = key_of t /\
  exists text, eval_pieces tn ps = Some text /\
  forall r : bytes -> V,
    read fl text (map (value r) cols)
    = Some (Select (map item (gen_addrs t)) q (Some (key_equals t before after (value r))) [] [] (Some 1%N) None []).
Proof.
  intros G. unfold gen_find_by_pk in G. destruct (has_pk t) eqn:HP; [|discriminate].
  inversion G; subst; clear G. split; [reflexivity|].
  exists (find_text printable d t own tn). split.
  - replace (find_text printable d t own tn) with
      ((B "SELECT " ++ join (B ",") (map (sql_scanner printable d) (t_columns t)) ++ B " FROM ") ++ table_text printable d t own tn
       ++ B " WHERE " ++ key_condition printable d t 1 0 ++ B " LIMIT 1;") by (unfold find_text; rewrite <- !app_assoc; reflexivity).
    match goal with |- eval_pieces _ ?x = _ => replace x with
      (if own then [Lit (gen_quote d (B "SELECT " ++ join (B ",") (map (sql_scanner printable d) (t_columns t)) ++ B " FROM ")); CallTableName;
                    Lit (gen_quote d (B " WHERE " ++ key_condition printable d t 1 0 ++ B " LIMIT 1;"))]
       else [Lit (gen_quote d ((B "SELECT " ++ join (B ",") (map (sql_scanner printable d) (t_columns t)) ++ B " FROM ") ++ must_quote printable d (t_name t) ++
                    (B " WHERE " ++ key_condition printable d t 1 0 ++ B " LIMIT 1;")))]) by reflexivity end.
    eapply eval_three; [exact ADR| |].
    + apply lit_app; [apply lit_const; clear; destruct d; reflexivity|]. apply lit_app; [eapply lit_items; eauto using incl_refl|apply lit_const; clear; destruct d; reflexivity].
    + apply lit_app; [apply lit_const; clear; destruct d; reflexivity|]. apply lit_app; [eapply lit_key; eauto|apply lit_const; clear; destruct d; reflexivity].
  - intros r. eapply find_read; eauto.
Qed.
Theorem C19_find_by_pk_exists : (exists c, is_key t c) -> gen_find_by_pk printable d own t <> None.
Proof.
  intros [c K]. unfold is_key in K. unfold gen_find_by_pk. replace (has_pk t) with true; [discriminate|]. unfold has_pk.
  destruct (t_auto t); [reflexivity|]. destruct K as [K|K]; [|discriminate]. destruct (t_keys t); [contradiction|reflexivity].
Qed.

(** Further key columns beside an auto-increment column are not compared at all. *)
Theorem C19_other_keys_refuted ps cols a : gen_find_by_pk printable d own t = Some (ps, cols) -> t_auto t = Some a ->
  exists text, eval_pieces tn ps = Some text /\
  forall r : bytes -> V, exists items,
    read fl text (map (value r) cols)
    = Some (Select items q (Some (Compare (One [Name (c_name a)]) (B "=") (One [Val (value r a)]))) [] [] (Some 1%N) None []).
Proof.
  intros G A. destruct (C19_find_by_pk_partial ps cols G) as (_ & text & E & R). exists text. split; [exact E|].
  intros r. exists (map item (gen_addrs t)). rewrite R. unfold key_equals, key_of. rewrite A. reflexivity.
Qed.

(** ** C20.  Missing parts: names outside plain ASCII; PostgreSQL tables with a single key column where the
    columns that are not assigned number more than one (refuted below). *)
Theorem C20_update_by_pk_partial ps cols : gen_update_by_pk printable d own t = Some (ps, cols) ->
  (d = DPostgres -> length (key_of t) = 1 -> length (t_columns t) = length cols) ->
  exists text ups, cols = ups ++ key_of t /\ (forall c, In c ups <-> updatable t c) /\ sublist ups (t_columns t) /\
  eval_pieces tn ps = Some text /\
  forall r : bytes -> V,
    read fl text (map (value r) cols)
    = Some (Update q (map (fun c => (c_name c, holding before after (value r) c)) ups) (Some (key_equals t before after (value r))) [] None).
Proof.
  intros G COUNT. unfold gen_update_by_pk in G. destruct (has_pk t) eqn:HP; [|discriminate].
  destruct (negb (t_readonly t)); [|discriminate]. cbn [andb] in G.
  destruct (columns_without_pk t) as [|c0 l0] eqn:E; [discriminate|]. rewrite <- E in G.
  inversion G; subst ps cols; clear G.
  exists (B "UPDATE " ++ table_text printable d t own tn ++ update_body printable d t), (columns_without_pk t).
  split; [reflexivity|]. split; [intros c; apply columns_without_pk_spec, WF|]. split; [apply filter_sublist|]. split.
  - refine (eval_three printable d t own tn q ADR (B "UPDATE ") (update_body printable d t) _ _); [apply lit_const; clear; destruct d; reflexivity|]. eapply lit_update_body; eauto.
  - intros r. eapply update_read; eauto; [rewrite E; discriminate|]. intros D S.
    destruct (single_key t) as [pk|] eqn:SK; [|contradiction].
    rewrite (COUNT D), app_length, (key_columns_single t pk SK); [lia|].
    destruct (single_key_of t pk SK) as [-> _]. reflexivity.
Qed.

(** PostgreSQL, a single key column, and a further column that is not assigned (a read-only column, or a key
    beside the auto-increment column): the server refuses the update of every record. *)
Theorem C20_update_by_pk_refuted ps cols : gen_update_by_pk printable d own t = Some (ps, cols) ->
  d = DPostgres -> length (key_of t) = 1 -> length (t_columns t) <> length cols ->
  exists text, eval_pieces tn ps = Some text /\ forall r : bytes -> V, read fl text (map (value r) cols) = None.
Proof.
  intros G D KL NL. unfold gen_update_by_pk in G. destruct (has_pk t) eqn:HP; [|discriminate].
  destruct (negb (t_readonly t)); [|discriminate]. cbn [andb] in G.
  destruct (columns_without_pk t) as [|c0 l0] eqn:E; [discriminate|]. rewrite <- E in G.
  inversion G; subst ps cols; clear G.
  exists (B "UPDATE " ++ table_text printable d t own tn ++ update_body printable d t). split.
  - refine (eval_three printable d t own tn q ADR (B "UPDATE ") (update_body printable d t) _ _); [apply lit_const; clear; destruct d; reflexivity|]. eapply lit_update_body; eauto.
  - intros r. eapply update_refused; eauto.
    + unfold single_key. unfold key_of in KL. destruct (t_auto t); [discriminate|]. destruct (t_keys t) as [|? [|? ?]]; discriminate.
    + rewrite app_length in NL. unfold key_of in KL. change (length (key_columns t) = 1) in KL. rewrite KL in NL. rewrite Nat.add_1_r in NL. exact NL.
    + rewrite map_length. reflexivity.
Qed.

(** ** C21, for tables with plain names; from the declarations of a struct in PropEnd.v *)
Theorem C21_update_columns_of_tables ps cols : gen_update_by_pk printable d own t = Some (ps, cols) ->
  exists text sets wh, eval_pieces tn ps = Some text /\
  parse fl (lex (V:=V) fl text) = Some (Update q sets (Some wh) [] None) /\
  NoDup (map fst sets) /\
  forall c, In c (t_columns t) -> (In (c_name c) (map fst sets) <-> c_readonly c = false /\ ~ is_key t c).
Proof.
  intros G. unfold gen_update_by_pk in G. destruct (has_pk t) eqn:HP; [|discriminate].
  destruct (negb (t_readonly t)); [|discriminate]. cbn [andb] in G.
  destruct (columns_without_pk t) as [|c0 l0] eqn:E; [discriminate|]. rewrite <- E in G.
  inversion G; subst ps cols; clear G.
  edestruct (update_parse printable d t before after) as (sets & wh & P & F); eauto; [rewrite E; discriminate|].
  exists (B "UPDATE " ++ table_text printable d t own tn ++ update_body printable d t), sets, wh. split; [|split; [|split]].
  - refine (eval_three printable d t own tn q ADR (B "UPDATE ") (update_body printable d t) _ _); [apply lit_const; clear; destruct d; reflexivity|]. eapply lit_update_body; eauto.
  - exact P.
  - rewrite F. apply NoDup_filter_map, (wf_names t WF).
  - intros c I. rewrite F. split.
    + intros X. apply in_map_iff in X. destruct X as (x & N & X).
      assert (x = c) as -> by (eapply (wf_name_inj t); eauto; apply (without_pk_incl t); exact X).
      apply (columns_without_pk_spec t c WF) in X. destruct X as (_ & ? & ?). auto.
    + intros [R K]. apply in_map. apply columns_without_pk_spec; [exact WF|]. repeat split; assumption.
Qed.
End Statements.
Print Assumptions C16_alignment_of_tables.
Print Assumptions C17_insert_one_of_tables.
Print Assumptions C17_insert_one_of_tables_exists.
Print Assumptions C19_find_by_pk_partial.
Print Assumptions C19_find_by_pk_exists.
Print Assumptions C19_other_keys_refuted.
Print Assumptions C20_update_by_pk_partial.
Print Assumptions C20_update_by_pk_refuted.
Print Assumptions C21_update_columns_of_tables.

(** A single key column is compared with the bare value even when inserts wrap it by a configured SQLValuer. *)
Theorem C19_wrapped_key_refuted : exists (t : table) (c : column) (before after : column -> list (tok nat)),
  build_table (fun n => n) (fun _ => (B "uuid_to_bin(", B ")")) (fun _ => ([], [])) (B "T") false
    [{| f_name := B "ID"; f_type := {| ty_base := B "uuid"; ty_ptr := 0 |}; f_exported := true; f_embedded := false;
        f_tag := B ",pk"; f_paths := [(B "ID", false)] |}] = Ok t
  /\ In c (key_of t) /\ readable DMySQL t before after (fun c => [Name (c_name c)])
  /\ forall val, holding before after val c = [Name (B "uuid_to_bin"); Sym "("; Val (val c); Sym ")"]
  /\ key_equals t before after val = Compare (One [Name (B "ID")]) (B "=") (One [Val (val c)]).
Proof.
  eexists. eexists. exists (fun _ => [Name (B "uuid_to_bin"); Sym "("]), (fun _ => [Sym ")"]).
  split; [reflexivity|]. split; [left; reflexivity|]. split; [|split; reflexivity].
  intros c [<-|[]]. split; [split; [discriminate|repeat constructor; discriminate]|]. split.
  - split; [intros i; reflexivity|]. split; [reflexivity|].
    split; [intros k [H|[H|[]]]; discriminate|]. split; [intros k [H|[]]; discriminate|].
    split; [intros [H|[H|[]]]; discriminate|]. split; [intros [H|[]]; discriminate|].
    split; apply lit_const; reflexivity.
  - apply selected_none; [reflexivity|]. split; [discriminate|repeat constructor; discriminate].
Qed.
Print Assumptions C19_wrapped_key_refuted.

(** ** A table that meets the hypotheses: an auto-increment key, a second key, a read-only column, a column with
    SQLValuer and SQLScanner, built from its struct for every dialect. *)
Definition ex_field (name base tag : string) : sfield :=
  {| f_name := B name; f_type := {| ty_base := B base; ty_ptr := 0 |}; f_exported := true; f_embedded := false;
     f_tag := B tag; f_paths := [(B name, false)] |}.
Definition ex_point : bytes := B "orb.Point".
Definition ex_wrap (g : gotype) : bytes * bytes := if bseq (ty_base g) ex_point then (B "ST_GeomFromText(", B ",4326)") else ([], []).
Definition ex_unwrap (g : gotype) : bytes * bytes := if bseq (ty_base g) ex_point then (B "ST_AsText(", B ")") else ([], []).
Definition ex_table (fs : list sfield) : option table :=
  match build_table (fun n => n) ex_wrap ex_unwrap (B "Users") false fs with Ok t => Some t | _ => None end.
Definition ex_full := [ex_field "ID" "int64" "id,auto_increment"; ex_field "Tenant" "string" ",pk"; ex_field "Name" "string" "name";
                       ex_field "Where" "orb.Point" ""; ex_field "Seen" "time.Time" ",readonly"].
Definition ex_simple := [ex_field "ID" "int64" "id,pk"; ex_field "Name" "string" "name"; ex_field "Where" "orb.Point" "loc"].
Definition ex_composite := [ex_field "A" "int64" ",pk"; ex_field "B" "string" ",pk"; ex_field "Name" "string" "name"; ex_field "Seen" "time.Time" ",readonly"].

Definition ex_get (o : option table) : table :=
  match o with Some t => t | None => {| t_name := []; t_keys := []; t_columns := []; t_readonly := true; t_auto := None |} end.
Definition ex_t1 : table := Eval vm_compute in ex_get (ex_table ex_full).
Definition ex_t2 : table := Eval vm_compute in ex_get (ex_table ex_simple).
Definition ex_t3 : table := Eval vm_compute in ex_get (ex_table ex_composite).
Definition ex_before {V} (d : driver) (c : column) : list (tok V) :=
  if bseq (ty_base (c_type c)) ex_point then [Name (fold_name (flavour_of d) (B "ST_GeomFromText")); Sym "("] else [].
Definition ex_after {V} (c : column) : list (tok V) :=
  if bseq (ty_base (c_type c)) ex_point then [Sym ","; Num (B "4326"); Sym ")"] else [].
Definition ex_item {V} (d : driver) (c : column) : list (tok V) :=
  if bseq (ty_base (c_type c)) ex_point then [Name (fold_name (flavour_of d) (B "ST_AsText")); Sym "("; Name (c_name c); Sym ")"] else [Name (c_name c)].

Lemma ex_wrapped {V} d c : c_wrap c = (B "ST_GeomFromText(", B ",4326)") -> ty_base (c_type c) = ex_point ->
  wrapped (V:=V) d c (ex_before d c) (ex_after c).
Proof.
  intros E T. unfold wrapped, ex_before, ex_after. rewrite T, E. cbn [fst snd]. rewrite bseq_refl. split.
  - intros i. replace (placeholder (flavour_of d) (S i)) with (quote_var d (S i)) by (destruct d; reflexivity). eapply reads_lex.
    eapply (reads_app_l _ _ _ _ i); [split; [destruct d; exact I|intros; destruct d; reflexivity]| |destruct d; reflexivity].
    change (Param (S i) :: [Sym ","; Num (B "4326"); Sym ")"]) with ([Param (V:=V) (S i)] ++ [Sym ","; Num (B "4326"); Sym ")"]).
    eapply reads_app_r; [apply reads_var| |reflexivity|discriminate].
    split; [destruct d; exact I|intros; destruct d; reflexivity].
  - split; [reflexivity|]. split; [intros k [H|[H|[]]]; discriminate|]. split; [intros k [H|[H|[H|[]]]]; discriminate|].
    split; [intros [H|[H|[]]]; discriminate|]. split; [intros [H|[H|[H|[]]]]; discriminate|]. split; apply lit_const; destruct d; reflexivity.
Qed.

Lemma plain_nameb n : negb (bseq n []) && forallb (fun c => N.leb 32 (code c) && N.leb (code c) 126 && negb (beq c dquote) && negb (beq c backtick) && negb (beq c backslash)) n = true -> plain_name n.
Proof.
  intros H. apply andb_true_iff in H. destruct H as [NE H]. split.
  - intros ->. discriminate.
  - apply Forall_forall. intros c I. rewrite forallb_forall in H. specialize (H c I).
    repeat (apply andb_true_iff in H; let X := fresh in destruct H as [H X]; try (apply negb_true_iff, beq_neq in X)).
    apply N.leb_le in H, H3. repeat split; assumption.
Qed.
Lemma ex_readable d c : plain_name (c_name c) ->
  (c_wrap c = ([], []) /\ c_unwrap c = ([], []) /\ bseq (ty_base (c_type c)) ex_point = false) \/
  (c_wrap c = (B "ST_GeomFromText(", B ",4326)") /\ c_unwrap c = (B "ST_AsText(", B ")") /\ ty_base (c_type c) = ex_point) ->
  plain_name (c_name c) /\ wrapped (V:=nat) d c (ex_before d c) (ex_after c) /\ selected (V:=nat) d c (ex_item d c).
Proof.
  intros P [(A & C & E)|(A & C & E)]; split; try exact P; split.
  - unfold ex_before, ex_after. rewrite E. apply wrapped_none. exact A.
  - unfold ex_item. rewrite E. apply selected_none; assumption.
  - apply ex_wrapped; assumption.
  - unfold ex_item. rewrite E, bseq_refl. unfold selected. rewrite C. cbn [fst snd]. split.
    + replace (identifier (flavour_of d) (c_name c)) with (must_quote (fun _ => true) d (c_name c))
        by (rewrite must_quote_plain by apply P; destruct d; reflexivity). eapply reads_lex.
      change [Name (fold_name (flavour_of d) (B "ST_AsText")); Sym "("; Name (c_name c); Sym ")"]
        with ([Name (V:=nat) (fold_name (flavour_of d) (B "ST_AsText")); Sym "("] ++ [Name (c_name c)] ++ [Sym ")"]).
      eapply reads_app_l; [split; [destruct d; exact I|intros; destruct d; reflexivity]| |destruct d; reflexivity].
      eapply reads_app_r; [apply reads_id; exact P|split; [destruct d; exact I|intros; destruct d; reflexivity]|reflexivity|discriminate].
    + split; [reflexivity|]. split; [intros k [H|[H|[H|[H|[]]]]]; discriminate|]. split; [intros [H|[H|[H|[H|[]]]]]; discriminate|].
      split; apply lit_const; destruct d; reflexivity.
Qed.
Ltac ex_columns :=
  intros c I; unfold ex_t1, ex_t2, ex_t3 in I; cbn [t_columns In] in I;
  repeat (destruct I as [<-|I]; [apply ex_readable; [apply plain_nameb; reflexivity|
    first [left; repeat split; reflexivity|right; repeat split; reflexivity]]|]); destruct I.

Example C16_to_C21_case : forall d,
  ex_table ex_full = Some ex_t1 /\ ex_table ex_simple = Some ex_t2 /\ ex_table ex_composite = Some ex_t3
  /\ Forall (fun t => readable (V:=nat) d t (ex_before d) ex_after (ex_item d)
                       /\ addresses (V:=nat) d false t [] [B "Users"] /\ addresses (V:=nat) d true t (B "app.logs") [B "app"; B "logs"]
                       /\ (if gen_insert_one (fun _ => true) d false t then True else False)
                       /\ (if gen_find_by_pk (fun _ => true) d false t then True else False)
                       /\ (if gen_update_by_pk (fun _ => true) d true t then True else False)) [ex_t1; ex_t2; ex_t3]
  /\ length (t_keys ex_t1) = 1 /\ length (key_of ex_t1) = 1 /\ length (key_of ex_t3) = 2
  /\ (match gen_update_by_pk (fun _ => true) d false ex_t1 with Some (_, cols) => length (t_columns ex_t1) <> length cols | None => False end)
  /\ (match gen_update_by_pk (fun _ => true) d false ex_t2 with Some (_, cols) => length (t_columns ex_t2) = length cols | None => False end).
Proof.
  intros d. split; [vm_compute; reflexivity|]. split; [vm_compute; reflexivity|]. split; [vm_compute; reflexivity|]. split.
  - constructor; [|constructor; [|constructor; [|constructor]]];
      (split; [ex_columns|]; split; [split; [apply plain_nameb; reflexivity|reflexivity]|]; split; [destruct d; reflexivity|];
       destruct d; vm_compute; auto).
  - destruct d; vm_compute; repeat split; discriminate.
Qed.

(** ** C18 *)
Theorem C18_placeholders : forall V d (t : table) rows, insert_columns t <> [] -> rows <> 0 ->
  let n := length (insert_columns t) in
  all_some (map (value_row (V:=V)) (split is_comma 0 (lex (flavour_of d) (join (B ",") (map (gen_insert_placeholders d t) (seq 0 rows))))))
  = Some (map (fun i => map (fun j => [Param (i * n + j + 1)]) (seq 0 n)) (seq 0 rows)).
Proof.
  intros V d t rows NE RN n. assert (POS : 0 < length (insert_columns t)) by (destruct (insert_columns t); [contradiction|cbn; lia]).
  unfold lex. erewrite reads_lex by (apply reads_join; exact (reads_rows (V:=V) d t rows POS 0)).
  assert (EX : forall r, forallb is_expr (row_params (V:=V) n r) = true).
  { intros r. apply forallb_forall. intros x I. apply in_map_iff in I. destruct I as (j & <- & _). reflexivity. }
  rewrite split_commas.
  - rewrite map_map. apply all_some_map. intros r _. apply row_value; [|apply EX].
    apply map_nonempty. intros H. apply (f_equal (length (A:=nat))) in H. rewrite seq_length in H. cbn in H. unfold n in H. lia.
  - destruct rows; [contradiction|discriminate].
  - apply Forall_forall. intros x I. apply in_map_iff in I. destruct I as (r & <- & _). apply row_passes, EX.
Qed.
Print Assumptions C18_placeholders.

(** The numbers are 1, 2, ..., rows * n: none is left out or used twice. *)
Theorem C18_numbers : forall rows n,
  concat (map (fun i => map (fun j => i * n + j + 1) (seq 0 n)) (seq 0 rows)) = seq 1 (rows * n).
Proof.
  intros rows n. induction rows as [|rows IH]; [reflexivity|]. rewrite seq_S, map_app, concat_app, IH. cbn [map concat Nat.add].
  rewrite app_nil_r. replace (S rows * n) with (rows * n + n) by lia. rewrite seq_app. f_equal.
  clear IH. generalize (rows * n) as a. intros a. induction n as [|n IHn]; [reflexivity|].
  rewrite !seq_S, map_app, IHn. cbn [map]. do 2 f_equal. lia.
Qed.
Print Assumptions C18_numbers.
Example C18_case : gen_insert_placeholders DPostgres {| t_name := []; t_keys := []; t_columns := repeat
   {| c_name := B "a"; c_goname := B "A"; c_gopath := B ".A"; c_type := {| ty_base := B "int"; ty_ptr := 0 |}; c_pos := 0;
      c_readonly := false; c_paths := []; c_wrap := ([], []); c_unwrap := ([], []) |} 3; t_readonly := false; t_auto := None |} 4 = B "($13,$14,$15)".
Proof. vm_compute. reflexivity. Qed.

(** ** C22.  Missing part: composite keys when identifiers are quoted (refuted below). *)
Theorem C22_single_key : forall printable d on rename wrap unwrap sname ro fs t name pos pk,
  build_table rename wrap unwrap sname ro fs = Ok t ->
  gen_key printable d on t = Some (PK name pos pk) ->
  nth_error (gen_columns printable d on t) pos = Some name /\ key_of t = [pk] /\ nth_error (t_columns t) pos = Some pk.
Proof.
  intros until pk. intros H G. apply build_table_wf in H. unfold gen_key in G. destruct (has_pk t); [|discriminate].
  destruct (single_key t) as [k|] eqn:S; [|discriminate]. inversion G; subst.
  destruct (single_key_of t pk S) as [K _]. assert (I : In pk (t_columns t)) by (apply (key_columns_incl t H); change (In pk (key_of t)); rewrite K; now left).
  pose proof (wf_nth t pk H I) as N. split; [|auto]. unfold gen_columns. rewrite nth_error_map, N. reflexivity.
Qed.
Print Assumptions C22_single_key.

Theorem C22_composite_key_partial : forall printable d rename wrap unwrap sname ro fs t names pos keys,
  build_table rename wrap unwrap sname ro fs = Ok t ->
  gen_key printable d false t = Some (CompositeKey names pos keys) ->
  map (nth_error (gen_columns printable d false t)) pos = map Some names
  /\ map (nth_error (t_columns t)) pos = map Some keys /\ keys = key_of t.
Proof.
  intros until keys. intros H G. apply build_table_wf in H. unfold gen_key in G. destruct (has_pk t); [|discriminate].
  destruct (single_key t) as [k|] eqn:S; [discriminate|]. inversion G; subst. destruct (composite_key_of t S) as (_ & K & _).
  split; [|split; [|congruence]]; rewrite !map_map; apply map_ext_in; intros c I;
    pose proof (wf_nth t c H (keys_incl t H c I)) as N; unfold gen_columns; rewrite ?nth_error_map, N; reflexivity.
Qed.
Print Assumptions C22_composite_key_partial.

(** With quoting on, no name of a composite key is the column list's entry at its position. *)
Theorem C22_composite_key_refuted : forall printable d rename wrap unwrap sname ro fs t names pos keys,
  build_table rename wrap unwrap sname ro fs = Ok t ->
  gen_key printable d true t = Some (CompositeKey names pos keys) ->
  (forall c, In c keys -> plain_name (c_name c)) ->
  Forall2 (fun p name => exists other, nth_error (gen_columns printable d true t) p = Some other /\ other <> name) pos names.
Proof.
  intros until keys. intros H G P. apply build_table_wf in H. unfold gen_key in G. destruct (has_pk t); [|discriminate].
  destruct (single_key t) as [k|] eqn:S; [discriminate|]. inversion G; subst. pose proof (keys_incl t H) as IN. clear G S.
  induction (t_keys t) as [|c l IH]; cbn [map]; constructor.
  - pose proof (wf_nth t c H (IN c (or_introl eq_refl))) as N. unfold gen_columns. rewrite nth_error_map, N. cbn [option_map].
    eexists. split; [reflexivity|]. intros E. destruct (P c (or_introl eq_refl)) as [NE F].
    assert (A : Forall (fun c => code c < 128)%N (c_name c)) by (eapply Forall_impl; [|exact F]; intros x (X & _); lia).
    rewrite (gen_quote_ascii d (c_name c)) in E by exact A. unfold quote_id in E.
    change (dialect_quote printable d (c_name c)) with (must_quote printable d (c_name c)) in E.
    rewrite must_quote_plain in E by exact F. rewrite gen_quote_ascii in E.
    + apply (f_equal (length (A:=byte))) in E. repeat (cbn [length app] in E; rewrite ?app_length in E). lia.
    + constructor; [destruct d; reflexivity|]. apply Forall_app. split; [exact A|]. constructor; [destruct d; reflexivity|constructor].
  - apply IH; [intros x I; apply P; now right|intros x I; apply IN; now right].
Qed.
Print Assumptions C22_composite_key_refuted.
Example C22_case :
  (match gen_key (fun _ => true) DPostgres true ex_t1 with Some (PK _ p _) => p = 0 | _ => False end)
  /\ (match gen_key (fun _ => true) DMySQL false ex_t3 with Some (CompositeKey ns ps _) => ps = [0; 1] /\ length ns = 2 | _ => False end)
  /\ Forall (fun c => plain_name (c_name c)) (t_keys ex_t3).
Proof. split; [reflexivity|]. split; [split; reflexivity|]. repeat (constructor; [apply plain_nameb; reflexivity|]). constructor. Qed.

(** ** C23: exactly the texts made of ASCII characters other than NUL, the literal's quote character and (for
    interpreted literals) backslash and newline or (for raw ones) carriage return are carried faithfully. *)
Theorem C23_literal_exact_partial : forall d us, Forall (fun u => scalar u = true) us ->
  go_literal (gen_quote d (utf8 us)) = Some (utf8 us) <-> Forall (literal_char d) (utf8 us).
Proof. exact literal_exact. Qed.
Print Assumptions C23_literal_exact_partial.

Theorem C23_non_ascii_refuted : forall d us u, Forall (fun u => scalar u = true) us -> In u us -> (128 <= u)%N ->
  go_literal (gen_quote d (utf8 us)) <> Some (utf8 us).
Proof.
  intros d us u S I U E. apply literal_exact in E; [|exact S]. apply in_split in I. destruct I as (a & b & ->).
  unfold utf8 in E. rewrite map_app, concat_app in E. cbn [map concat] in E. apply Forall_app in E. destruct E as [_ E].
  apply Forall_app in E. destruct E as [E _]. apply Forall_app in S. destruct S as [_ S]. inversion S; subst.
  pose proof (encode_high u H1 U) as HI. pose proof (encode_rune_nonempty u). destruct (encode_rune u); [contradiction|].
  inversion E; subst. inversion HI; subst. destruct H4. lia.
Qed.
Print Assumptions C23_non_ascii_refuted.

(** The column name of a field called with an e acute: the generated source is not even valid UTF-8. *)
Example C23_case : go_literal (gen_quote DPostgres (utf8 [110; 233]%N)) = None
  /\ Forall (literal_char DPostgres) (B "SELECT ""a\b"" = $1;").
Proof. split; [reflexivity|]. apply lit_const. reflexivity. Qed.

(** ** C24.  Missing part: names with quote characters, backslashes or unprintable characters (refuted below). *)
Theorem C24_identifier_partial : forall V printable d us, us <> [] -> Forall (fun u => scalar u = true) us ->
  match d with
  | DMySQL => ~ In (code backtick) us
  | _ => Forall (sayable printable) us
  end ->
  lex (V:=V) (flavour_of d) (dialect_quote printable d (utf8 us)) = [Name (utf8 us)].
Proof.
  intros V printable d us NE S H. eapply reads_lex. instantiate (1 := 0).
  assert (E : dialect_quote printable d (utf8 us) = id_quote d :: utf8 us ++ [id_quote d]).
  { destruct d; [reflexivity| |]; apply go_quote_sayable; exact H. }
  rewrite E. apply reads_ident; [apply utf8_nonempty, NE|]. apply utf8_no_char; [destruct d; reflexivity|exact S|].
  destruct d; [exact H| |]; intros I; rewrite Forall_forall in H; specialize (H _ I); destruct H as (_ & X & _); apply X; reflexivity.
Qed.
Print Assumptions C24_identifier_partial.

(** A name ending in the quote character of its dialect: the identifier is never closed. *)
Lemma unclosed V d s : Forall (fun x => x <> id_quote d) s ->
  In Bad (lex (V:=V) (flavour_of d) (id_quote d :: s ++ [id_quote d; id_quote d])).
Proof.
  intros NQ. unfold lex, lex_from. change [id_quote d; id_quote d] with ([id_quote d] ++ [id_quote d]). rewrite app_assoc.
  cbn [run step]. replace (start (flavour_of d) 0 (@nil (tok V)) (id_quote d)) with (InQuote (id_quote d) true [], 0, @nil (tok V))
      by (destruct d; reflexivity).
  rewrite run_app, run_in_quote by exact NQ. cbn [run step]. rewrite (proj2 (beq_eq _ _) eq_refl). left. reflexivity.
Qed.
Theorem C24_quote_char_refuted : forall V printable d us, Forall (sayable printable) us -> ~ In (code (id_quote d)) us ->
  In Bad (lex (V:=V) (flavour_of d) (dialect_quote printable d (utf8 us ++ [id_quote d]))).
Proof.
  intros V printable d us S NI.
  assert (SC : Forall (fun u => scalar u = true) us) by (eapply Forall_impl; [|exact S]; intros u H; apply H).
  assert (NQ : Forall (fun x => x <> id_quote d) (utf8 us)) by (apply utf8_no_char; [destruct d; reflexivity|exact SC|exact NI]).
  assert (G : go_quote printable (utf8 us ++ [dquote]) = dquote :: (utf8 us ++ [backslash]) ++ [dquote; dquote]).
  { replace (utf8 us ++ [dquote]) with (utf8 (us ++ [34%N])) by (unfold utf8; rewrite map_app, concat_app; reflexivity).
    unfold go_quote. rewrite runes_utf8 by (apply Forall_app; split; [exact SC|constructor; [reflexivity|constructor]]).
    rewrite !map_app, concat_app. pose proof (go_quote_sayable printable us S) as G. unfold go_quote in G. rewrite runes_utf8 in G by exact SC.
    injection G as G. apply app_inv_tail in G. rewrite G. cbn. rewrite <- !app_assoc. reflexivity. }
  assert (E : exists s, dialect_quote printable d (utf8 us ++ [id_quote d]) = id_quote d :: s ++ [id_quote d; id_quote d]
              /\ Forall (fun x => x <> id_quote d) s).
  { destruct d; cbn [dialect_quote id_quote] in *.
    - exists (utf8 us). split; [|exact NQ]. cbn. rewrite <- app_assoc. reflexivity.
    - exists (utf8 us ++ [backslash]). split; [exact G|]. apply Forall_app. split; [exact NQ|]. constructor; [discriminate|constructor].
    - exists (utf8 us ++ [backslash]). split; [exact G|]. apply Forall_app. split; [exact NQ|]. constructor; [discriminate|constructor]. }
  destruct E as (s & -> & F). apply unclosed, F.
Qed.
Print Assumptions C24_quote_char_refuted.

(** A backslash in a name is doubled by PostgreSQL and SQLite dialects, so another name is meant. *)
Theorem C24_backslash_refuted : forall V printable,
  lex (V:=V) Postgres (dialect_quote printable DPostgres (B "a\b")) = [Name (B "a\\b")].
Proof. reflexivity. Qed.
Print Assumptions C24_backslash_refuted.
Example C24_case : Forall (sayable (fun _ => true)) [110; 233; 128512]%N.
Proof. repeat constructor; try discriminate; lia. Qed.
