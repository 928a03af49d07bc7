(** C84: a migration compares with the columns the table has. *)
From Coq Require Import List Bool ZArith Lia Sorted Permutation.
From Verif Require Import SpecDataType PropDataType LemmasDataType SpecSql Base LemmasBase ModelStrconv ModelGen ModelDataType ModelMigration SpecMigration PropMigration ModelScript SpecDb ModelEncoding ModelCatalog SpecCatalog LemmasAnswers.
Import ListNotations.
Open Scope Z_scope.

Lemma text_scan raw s : scan_string (handed raw (VString s)) = Ok s.
Proof. destruct raw; reflexivity. Qed.
Lemma opt_text_scan raw x : scan_null_string (handed raw (opt_text x)) = Ok x.
Proof. destruct raw, x; reflexivity. Qed.
Lemma opt_int_scan raw x : int64 x -> scan_null_int (handed raw (opt_int x)) = Ok x.
Proof. destruct raw, x as [z|]; try reflexivity. intros H. cbn [handed opt_int scan_null_int]. rewrite parse_int_format; [reflexivity|reflexivity|exact H]. Qed.
Lemma null_scan raw (b : bool) : scan_bool (handed raw (VString (if b then B "YES" else B "NO"))) = Ok b.
Proof. destruct raw, b; reflexivity. Qed.
Lemma scanned {A} (scan : list ModelEncoding.dval -> res ecol) (f : A -> list ModelEncoding.dval) (R : ecol -> A -> Prop) l :
  (forall e, In e l -> exists c, scan (f e) = Ok c /\ R c e) -> exists cs, scan_rows scan (map f l) false = Ok cs /\ Forall2 R cs l.
Proof.
  induction l as [|e l IH]; intros H; [exists []; split; [reflexivity|constructor]|]. destruct (H e (or_introl eq_refl)) as (c & E & Rc). destruct IH as (cs & E' & F); [intros x I; apply H; right; exact I|].
  exists (c :: cs). cbn [map scan_rows]. rewrite E. cbn [bind]. rewrite E'. split; [reflexivity|constructor; assumption].
Qed.

Section Read.
Variable D : semantics ModelEncoding.dval.
Hypothesis L : catalogue_law D.
Lemma text_eq a b : match cmp D (VString a) (VString b) with Some Eq => true | _ => false end = bseq a b.
Proof. destruct (bseq a b) eqn:E; [apply bseq_eq in E; apply L in E; rewrite E; reflexivity|]. destruct (cmp D (VString a) (VString b)) as [[]|] eqn:X; try reflexivity. apply L in X. subst b. rewrite bseq_refl in E. discriminate E. Qed.
Lemma two_chosen n1 n2 v1 v2 e a1 a2 : cells e n1 = VString a1 -> cells e n2 = VString a2 ->
  chosen_by D (Some (Conj [Compare (One [Name n1]) (B "=") (One [Val (VString v1)]); Compare (One [Name n2]) (B "=") (One [Val (VString v2)])])) (cells e) = bseq a1 v1 && bseq a2 v2.
Proof.
  intros E1 E2. cbn [chosen_by truth evals eval]. rewrite E1, E2. rewrite <- (text_eq a1 v1), <- (text_eq a2 v2). cbn.
  destruct (cmp D (VString a1) (VString v1)) as [[]|], (cmp D (VString a2) (VString v2)) as [[]|]; reflexivity.
Qed.
Lemma by_position n l : (forall e, cells e n = VInt (i_pos e)) -> StronglySorted (fun a b => not_after D [(One [Name n], Ascending)] (cells a) (cells b)) l -> in_order l.
Proof.
  intros C. unfold in_order. induction 1 as [|x l H IH F]; constructor; [exact IH|]. eapply Forall_impl; [|exact F]. intros y N. unfold not_after in N. cbn [order_rows evals eval sort_rows turned] in N. rewrite !C, (proj2 L) in N.
  destruct (Z.compare_spec (i_pos x) (i_pos y)); try lia. exfalso. apply N. reflexivity.
Qed.
(** The queries, as the databases read them *)
Definition name_is (n : bytes) : expr ModelEncoding.dval := [Name n].
Definition two (n1 n2 : bytes) (v1 v2 : bytes) : cond ModelEncoding.dval :=
  Conj [Compare (One [Name n1]) (B "=") (One [Val (VString v1)]); Compare (One [Name n2]) (B "=") (One [Val (VString v2)])].
Definition pg_items : list bytes := [B "column_name"; B "column_default"; B "is_nullable"; B "udt_name"; B "character_maximum_length"; B "numeric_precision"; B "datetime_precision"; B "interval_precision"].
Definition my_items : list bytes := [B "COLUMN_NAME"; B "COLUMN_DEFAULT"; B "IS_NULLABLE"; B "DATA_TYPE"; B "COLUMN_TYPE"; B "CHARACTER_MAXIMUM_LENGTH"; B "NUMERIC_PRECISION"; B "DATETIME_PRECISION"; B "COLUMN_COMMENT"].
Lemma pg_query_reads db t : read Postgres pg_columns_query [VString db; VString t] =
  Some (Select (map name_is pg_items) [B "information_schema"; B "columns"] (Some (two (B "table_catalog") (B "table_name") db t)) [] [(One [Name (B "ordinal_position")], Ascending)] None None []).
Proof. vm_compute. reflexivity. Qed.
Lemma my_query_reads db t : read MySQL my_columns_query [VString db; VString t] =
  Some (Select (map name_is my_items) [B "information_schema"; B "columns"] (Some (two (B "TABLE_SCHEMA") (B "TABLE_NAME") db t)) [] [(One [Name (B "ORDINAL_POSITION")], Ascending)] None None []).
Proof. vm_compute. reflexivity. Qed.
Lemma pg_scan raw e : entry_ok e -> exists c, scan_pg (map (fun it => handed raw (eval D (cells e) it)) (map name_is pg_items)) = Ok c /\ shows c e.
Proof.
  intros (C & N & T & I). exists (ECol (i_name e) (i_type e) (i_null e) (i_default e) (i_chars e) (i_time e)). split; [|repeat split].
  change (map (fun it => handed raw (eval D (cells e) it)) (map name_is pg_items)) with
    [handed raw (VString (i_name e)); handed raw (opt_text (i_default e)); handed raw (VString (if i_null e then B "YES" else B "NO")); handed raw (VString (i_type e)); handed raw (opt_int (i_chars e)); handed raw (opt_int (i_num e)); handed raw (opt_int (i_time e)); handed raw (opt_int (i_interval e))].
  unfold scan_pg. rewrite !text_scan, opt_text_scan, null_scan, !opt_int_scan by assumption. reflexivity.
Qed.
Lemma my_scan raw e : entry_ok e -> exists c, scan_my (map (fun it => handed raw (eval D (cells e) it)) (map name_is my_items)) = Ok c /\ shows c e.
Proof.
  intros (C & N & T & I). exists (ECol (i_name e) (i_type e) (i_null e) (i_default e) (i_chars e) (i_time e)). split; [|repeat split].
  change (map (fun it => handed raw (eval D (cells e) it)) (map name_is my_items)) with
    [handed raw (VString (i_name e)); handed raw (opt_text (i_default e)); handed raw (VString (if i_null e then B "YES" else B "NO")); handed raw (VString (i_type e)); handed raw (VString (i_full e)); handed raw (opt_int (i_chars e)); handed raw (opt_int (i_num e)); handed raw (opt_int (i_time e)); handed raw (VString (i_comment e))].
  unfold scan_my. rewrite !text_scan, opt_text_scan, null_scan, !opt_int_scan by assumption. reflexivity.
Qed.
Variables (raw : bool) (cat : list entry) (query : bytes -> list ModelEncoding.dval -> res (list (list ModelEncoding.dval) * bool)).
Hypothesis OK : Forall entry_ok cat.
Lemma kept es (f : entry -> bool) : Permutation es (filter f cat) -> Forall entry_ok es.
Proof. intros P. apply Forall_forall. intros e I. apply (Permutation_in _ P) in I. apply filter_In in I as [I _]. rewrite Forall_forall in OK. apply OK, I. Qed.

(** MySQL: the columns of the table in the current database, in their order *)
Theorem C84_mysql db t : serves D MySQL raw cat query ->
  exists l es, table_columns DMySQL query db t = Ok l /\ Forall2 shows l es /\ columns_in cat (fun e => i_schema e = db /\ i_table e = t) es.
Proof.
  intros S1. destruct (S1 _ _ _ _ _ _ (my_query_reads db t) eq_refl) as (es & (l & P & SL & E) & Q). cbn [cut_to] in E. subst l.
  rewrite (filter_ext (fun x => chosen_by D (Some (two (B "TABLE_SCHEMA") (B "TABLE_NAME") db t)) (cells x)) (fun e => bseq (i_schema e) db && bseq (i_table e) t)) in P by (intros e; apply two_chosen; reflexivity).
  destruct (scanned scan_my (fun e => map (fun it => handed raw (eval D (cells e) it)) (map name_is my_items)) shows es) as (cs & E & F).
  { intros e I. apply my_scan. pose proof (kept es _ P) as K. rewrite Forall_forall in K. apply K, I. }
  exists cs, es. split; [unfold table_columns; rewrite Q; exact E|]. split; [exact F|]. exists (fun e => bseq (i_schema e) db && bseq (i_table e) t). split; [|split; [exact P|]].
  - intros e. rewrite andb_true_iff, !bseq_eq. reflexivity.
  - revert SL. apply by_position. reflexivity.
Qed.
(** PostgreSQL: the columns of all tables of that name in the database *)
Lemma pg_columns db t : serves D Postgres raw cat query ->
  exists l es, table_columns DPostgres query db t = Ok l /\ Forall2 shows l es /\ columns_in cat (fun e => i_catalog e = db /\ i_table e = t) es.
Proof.
  intros S1. destruct (S1 _ _ _ _ _ _ (pg_query_reads db t) eq_refl) as (es & (l & P & SL & E) & Q). cbn [cut_to] in E. subst l.
  rewrite (filter_ext (fun x => chosen_by D (Some (two (B "table_catalog") (B "table_name") db t)) (cells x)) (fun e => bseq (i_catalog e) db && bseq (i_table e) t)) in P by (intros e; apply two_chosen; reflexivity).
  destruct (scanned scan_pg (fun e => map (fun it => handed raw (eval D (cells e) it)) (map name_is pg_items)) shows es) as (cs & E & F).
  { intros e I. apply pg_scan. pose proof (kept es _ P) as K. rewrite Forall_forall in K. apply K, I. }
  exists cs, es. split; [unfold table_columns; rewrite Q; exact E|]. split; [exact F|]. exists (fun e => bseq (i_catalog e) db && bseq (i_table e) t). split; [|split; [exact P|]].
  - intros e. rewrite andb_true_iff, !bseq_eq. reflexivity.
  - revert SL. apply by_position. reflexivity.
Qed.
(** Missing: tables of the same name in other schemas, refuted below *)
Theorem C84_pg_partial db s t : serves D Postgres raw cat query -> (forall e, In e cat -> i_catalog e = db -> i_table e = t -> i_schema e = s) ->
  exists l es, table_columns DPostgres query db t = Ok l /\ Forall2 shows l es /\ columns_in cat (fun e => i_catalog e = db /\ i_schema e = s /\ i_table e = t) es.
Proof.
  intros S1 O. destruct (pg_columns db t S1) as (l & es & E & F & f & F1 & P & SO). exists l, es. split; [exact E|]. split; [exact F|].
  exists (fun e => f e && bseq (i_schema e) s). split; [|split; [|exact SO]].
  - intros e. rewrite andb_true_iff, F1, bseq_eq. tauto.
  - rewrite (filter_ext_in (fun e => f e && bseq (i_schema e) s) f); [exact P|]. intros e I. destruct (f e) eqn:X; [|reflexivity]. apply F1 in X as [X Y]. rewrite (O e I X Y). apply bseq_refl.
Qed.
Theorem C84_pg_schemas_refuted db t e : serves D Postgres raw cat query -> In e cat -> i_catalog e = db -> i_table e = t -> exists l c, table_columns DPostgres query db t = Ok l /\ In c l /\ shows c e.
Proof.
  intros S1 I C T. destruct (pg_columns db t S1) as (l & es & E & F & f & F1 & P & _). assert (J : In e es) by (apply (Permutation_in _ (Permutation_sym P)); apply filter_In; split; [exact I|apply F1; split; assumption]).
  clear -E F J. revert E. generalize (table_columns DPostgres query db t). intros r ->. induction F as [|c x l es S1 F IH]; [destruct J|]. destruct J as [->|J]; [exists (c :: l), c; split; [reflexivity|split; [left; reflexivity|exact S1]]|].
  destruct (IH J) as (l' & c' & E & I & S2). injection E as <-. exists (c :: l), c'. split; [reflexivity|]. split; [right; exact I|exact S2].
Qed.
(** The table is missing in the current schema; because another schema has one like it, there is nothing to migrate *)
Theorem C84_pg_missed_refuted printable format_float md5 db s t model pk : serves D Postgres raw cat query ->
  (forall e, In e cat -> i_schema e = s -> i_table e <> t) -> model <> [] ->
  NoDup (map g_name model) -> NoDup (map i_name (filter (fun e => bseq (i_catalog e) db && bseq (i_table e) t) cat)) ->
  (forall g, In g model -> exists e, In e cat /\ i_catalog e = db /\ i_table e = t /\ i_name e = g_name g /\ i_type e = g_type g /\ i_chars e = None /\ i_time e = None /\ i_null e = g_null g) ->
  migrate printable format_float md5 DPostgres query (VString db) t model pk = Ok None.
Proof.
  intros S1 _ _ NM NE H. destruct (pg_columns db t S1) as (l & es & E & F & f & F1 & P & _). unfold migrate. cbn [scan_string bind]. rewrite E. cbn [bind]. unfold migrate_text.
  set (bare := map (fun g => MCol (g_name g) (g_type g) (g_null g) None) model).
  assert (X : pg_migrate bare pk (map existing l) = None).
  { apply C49_pg_dropped_refuted.
    - unfold names. rewrite map_map. cbn [existing t_name]. replace (map (fun x => e_name x) l) with (map i_name es) by (clear -F; induction F as [|c e l es (N & _) F IH]; [reflexivity|]; cbn [map]; rewrite IH, N; reflexivity).
      apply (Permutation_NoDup (l := map i_name (filter f cat))); [apply Permutation_map, Permutation_sym, P|]. rewrite (filter_ext f (fun e => bseq (i_catalog e) db && bseq (i_table e) t)); [exact NE|].
      intros e. apply eq_true_iff_eq. rewrite F1, andb_true_iff, !bseq_eq. reflexivity.
    - unfold bare. rewrite map_map. exact NM.
    - intros m I. unfold bare in I. apply in_map_iff in I as (g & <- & I). destruct (H g I) as (e & Ie & C & T & N & Ty & CH & TM & NU).
      assert (J : In e es) by (apply (Permutation_in _ (Permutation_sym P)); apply filter_In; split; [exact Ie|apply F1; split; assumption]).
      assert (K : exists c, In c l /\ shows c e). { clear -F J. induction F as [|c x l es S1 F IH]; [destruct J|]. destruct J as [->|J]; [exists c; split; [left; reflexivity|exact S1]|]. destruct (IH J) as (c' & I & S2). exists c'. split; [right; exact I|exact S2]. }
      destruct K as (c & Ic & (A1 & A2 & A3 & _ & A5 & A6)). exists (existing c). split; [apply in_map, Ic|]. cbn [existing t_name t_type t_null m_name m_type m_null]. split; [congruence|]. split; [|congruence].
      unfold column_data_type. rewrite A5, A6, CH, TM. congruence. }
  unfold pg_migrate in X. destruct (compare_cols bare (map existing l)) as [[u n] d]. destruct u, n; try discriminate X. reflexivity.
Qed.
End Read.

(** When the columns cannot all be read (the query fails, or the rows break off), no migration is written: neither a creation of the table nor an alteration. *)
Theorem C84_failure d printable format_float md5 query current t model pk : d <> DSQLite ->
  (forall text args, query text args = Err \/ exists rows, query text args = Ok (rows, true)) -> forall x, migrate printable format_float md5 d query current t model pk <> Ok x.
Proof.
  intros ND F x. assert (SC : forall scan rows l, scan_rows scan rows true <> Ok l). { intros scan rows. induction rows as [|r rows IH]; intros l; cbn [scan_rows]; [discriminate|]. destruct (scan r); [|discriminate..]. cbn [bind]. destruct (scan_rows scan rows true) as [cs| |] eqn:E; [exfalso; apply (IH cs); reflexivity|discriminate..]. }
  assert (TC : forall db l, table_columns d query db t <> Ok l).
  { intros db l. unfold table_columns. destruct d; [| |contradiction]; match goal with |- context [query ?a ?b] => destruct (F a b) as [->|(rows & ->)] end; cbn [bind fst snd]; first [discriminate|apply SC]. }
  assert (X : forall A B (f : A -> res B) r y, (forall l, r <> Ok l) -> bind r f <> Ok y) by (intros A C f [l| |] y H; [exfalso; exact (H l eq_refl)|discriminate..]).
  unfold migrate. destruct d; [| |contradiction]; (destruct (scan_string current) as [db| |]; [|discriminate..]; cbn [bind]; apply X, TC).
Qed.
(** MySQL without a database chosen: an error, nothing is written *)
Theorem C84_no_database printable format_float md5 query t model pk : migrate printable format_float md5 DMySQL query VNull t model pk = Err.
Proof. reflexivity. Qed.

(** ** Types as the catalogue shows them *)
Definition small_ints : list bytes := [B "int"; B "int8"; B "int16"; B "int32"; B "uint"; B "uint8"; B "uint16"; B "uint32"].
Definition stable : list bytes := [B "string"; B "bool"; B "time.Time"; B "sql.RawBytes"; B "encoding/json.RawMessage"; B "[...]rune"; B "[...]byte"; B "[]rune"; B "[][]byte"; B "*"].
Fixpoint pg_view (t : sqltype) : option (bytes * option Z * option Z) :=
  let ints n := if Z.eqb n 2 then Some (B "int2") else if Z.eqb n 4 then Some (B "int4") else if Z.eqb n 8 then Some (B "int8") else None in
  match t with
  | TInteger n | TSerial n => option_map (fun u => (u, None, None)) (ints n)
  | TBool => Some (B "bool", None, None)
  | TChar n => Some (B "bpchar", Some n, None)
  | TVarchar n => Some (B "varchar", Some n, None)
  | TText => Some (B "text", None, None)
  | TBlob => Some (B "bytea", None, None)
  | TJson => Some (B "json", None, None)
  | TFloat a b c => if Z.eqb a 24 && Z.eqb b (-149) && Z.eqb c 104 then Some (B "float4", None, None) else if Z.eqb a 53 && Z.eqb b (-1074) && Z.eqb c 971 then Some (B "float8", None, None) else None
  | TTimestamp _ => None
  | TTimestamptz n => Some (B "timestamptz", None, Some n)
  | TArray t => option_map (fun p => (B "_" ++ fst (fst p), None, None)) (pg_view t)
  end.
Lemma view_complete t u c p : pg_shows t u c p -> pg_view t = Some (u, c, p).
Proof. induction 1; try reflexivity; [cbn [pg_view] in *; exact IHpg_shows|]. cbn [pg_view]. rewrite IHpg_shows. reflexivity. Qed.
Lemma view_sound t : forall u c p, pg_view t = Some (u, c, p) -> pg_shows t u c p.
Proof.
  induction t; cbn [pg_view]; intros u c p E; try discriminate E.
  - destruct (Z.eqb_spec bytes 2) as [->|]; [injection E as <- <- <-; constructor|]. destruct (Z.eqb_spec bytes 4) as [->|]; [injection E as <- <- <-; constructor|]. destruct (Z.eqb_spec bytes 8) as [->|]; [injection E as <- <- <-; constructor|discriminate E].
  - destruct (Z.eqb_spec bytes 2) as [->|]; [injection E as <- <- <-; repeat constructor|]. destruct (Z.eqb_spec bytes 4) as [->|]; [injection E as <- <- <-; repeat constructor|]. destruct (Z.eqb_spec bytes 8) as [->|]; [injection E as <- <- <-; repeat constructor|discriminate E].
  - injection E as <- <- <-. constructor.
  - injection E as <- <- <-. constructor.
  - injection E as <- <- <-. constructor.
  - injection E as <- <- <-. constructor.
  - injection E as <- <- <-. constructor.
  - injection E as <- <- <-. constructor.
  - destruct (Z.eqb bits 24 && Z.eqb emin (-149) && Z.eqb emax 104) eqn:X.
    + rewrite !andb_true_iff, !Z.eqb_eq in X. destruct X as [[-> ->] ->]. injection E as <- <- <-. exact sh_single.
    + destruct (Z.eqb bits 53 && Z.eqb emin (-1074) && Z.eqb emax 971) eqn:Y; [|discriminate E]. rewrite !andb_true_iff, !Z.eqb_eq in Y. destruct Y as [[-> ->] ->]. injection E as <- <- <-. exact sh_double.
  - injection E as <- <- <-. constructor.
  - destruct (pg_view t) as [[[u' c'] p']|]; [|discriminate E]. injection E as <- <- <-. apply (sh_array t u' c' p'). apply IHt. reflexivity.
Qed.

Definition settled (key : bytes) (incr : bool) : bool := bmem key stable || bmem key small_ints && negb incr.
Definition agrees (p : bytes * (column -> bytes)) : bool :=
  bmem (fst p) (PropDataType.sized_keys DPostgres) ||
  forallb (fun n => forallb (fun i => match plain_decl DPostgres (fst p) n i with
    | Some dc => match pg_view (d_type dc) with Some (u, k, t) => Bool.eqb (bseq (column_data_type (ECol [] u true None k t)) (snd p (Column 0 n i))) (settled (fst p) i) | None => false end
    | None => true end) [true; false]) [true; false].
Lemma all_agree : forallb agrees pg_types = true.
Proof. vm_compute. reflexivity. Qed.
Lemma plain_text key f c : In (key, f) pg_types -> ~ In key (PropDataType.sized_keys DPostgres) -> f c = f (Column 0 (c_null c) (c_incr c)).
Proof. intros I N. destruct c as [n a i]. cbn [c_null c_incr]. cbn [pg_types In] in I. repeat (destruct I as [I|I]; [injection I as <- <-; first [reflexivity|exfalso; apply N; cbn; auto; fail]|]); destruct I. Qed.
Lemma settled_iff key incr : settled key incr = true <-> In key stable \/ In key small_ints /\ incr = false.
Proof. unfold settled. rewrite orb_true_iff, andb_true_iff, !bmem_In, negb_true_iff. reflexivity. Qed.
Lemma type_name_null name name' u null null' def def' n p : column_data_type (ECol name u null def n p) = column_data_type (ECol name' u null' def' n p).
Proof. reflexivity. Qed.
(** The type read back from the catalogue is the one the model declares for exactly these Go types; for all others every migration
    sees a difference, however often it is applied *)
Theorem C84_types_partial key f c dc : 0 <= c_size c -> In (key, f) pg_types -> column_is DPostgres key c dc ->
  exists u n p, pg_shows (d_type dc) u n p /\ forall name null def,
  (column_data_type (ECol name u null def n p) = f c <-> In key stable \/ In key small_ints /\ c_incr c = false).
Proof.
  intros P I C. destruct (in_dec (list_eq_dec Ascii.ascii_dec) key (PropDataType.sized_keys DPostgres)) as [K|K].
  - assert (X : d_type dc = TVarchar (if bseq key (B "string") then eff_size c else c_size c) /\ f c = B "varchar" ++ B "(" ++ format_int (if bseq key (B "string") then eff_size c else c_size c) ++ B ")" /\ 0 < (if bseq key (B "string") then eff_size c else c_size c) /\ In key stable).
    { cbn [PropDataType.sized_keys] in K. destruct K as [<-|K].
      - apply pg_string_decl in C as [_ ->]. split; [reflexivity|]. split; [|split; [apply eff_size_pos|left; reflexivity]]. rewrite (key_fun DPostgres (B "string") f (fun c => B "varchar(" ++ format_int (if Z.ltb 0 (c_size c) then c_size c else 255) ++ B ")") I ltac:(right; right; left; reflexivity)). reflexivity.
      - apply (pg_array_decl key c dc K P) in C as [SZ ->]. assert (NS : bseq key (B "string") = false) by (destruct K as [<-|[<-|[]]]; reflexivity). rewrite NS. split; [reflexivity|]. split; [|split; [lia|]].
        + rewrite (key_fun DPostgres key f (fun c => bare (B "varchar(" ++ format_int (c_size c) ++ B ")") c) I); [reflexivity|]. destruct K as [<-|[<-|[]]]; [do 19 right; left; reflexivity|do 20 right; left; reflexivity].
        + destruct K as [<-|[<-|[]]]; unfold stable; cbn [In]; tauto. }
    destruct X as (ET & EF & PO & ST). set (m := if bseq key (B "string") then eff_size c else c_size c) in *. exists (B "varchar"), (Some m), None. rewrite ET. split; [constructor|]. intros name null def.
    unfold column_data_type. cbn [e_chars e_time e_udt]. rewrite (proj2 (Z.ltb_lt 0 m) PO). rewrite EF. split; [left; exact ST|reflexivity].
  - pose proof all_agree as A. rewrite forallb_forall in A. specialize (A _ I). unfold agrees in A. cbn [fst snd] in A.
    assert (S2 : bmem key (PropDataType.sized_keys DPostgres) = false) by (destruct (bmem key (PropDataType.sized_keys DPostgres)) eqn:X; [exfalso; apply K, bmem_In, X|reflexivity]). rewrite S2 in A. cbn [orb] in A.
    apply (bool_cases _ (c_null c)) in A. apply (bool_cases _ (c_incr c)) in A. cbv beta in A.
    apply (column_iff DPostgres key f c dc I) in C. rewrite (plain_eq DPostgres key f c I K) in C. rewrite C in A. destruct (pg_view (d_type dc)) as [[[u n] p]|] eqn:V; [|discriminate A].
    exists u, n, p. split; [apply view_sound, V|]. intros name null def. rewrite (plain_text key f c I K). rewrite <- settled_iff. apply eqb_prop in A. rewrite (type_name_null name [] u null true def None n p). rewrite <- A. symmetry. apply bseq_eq.
Qed.
(** For example every int64 and every list *)
Theorem C84_types_refuted key f c dc : In key [B "int64"; B "uint64"; B "float32"; B "float64"; B "rune"; B "byte"; B "[]string"; B "[]int64"; B "[]bool"] -> 0 <= c_size c -> In (key, f) pg_types -> column_is DPostgres key c dc ->
  forall u n p name null def, pg_shows (d_type dc) u n p -> column_data_type (ECol name u null def n p) <> f c.
Proof.
  intros K P I C u n p name null def SH E. destruct (C84_types_partial key f c dc P I C) as (u' & n' & p' & SH' & IFF). apply view_complete in SH. apply view_complete in SH'. rewrite SH in SH'. injection SH' as <- <- <-. apply IFF in E.
  assert (N : settled key (c_incr c) = true) by (apply settled_iff; exact E). cbn [In] in K. repeat (destruct K as [<-|K]; [vm_compute in N; discriminate N|]). destruct K.
Qed.
(** ** Cases *)
Definition case_rank (v : ModelEncoding.dval) : Z := match v with VInt z => z | _ => 0 end.
Definition case_law : semantics ModelEncoding.dval := {|
  cmp := fun a b => match a, b with VString x, VString y => Some (if bseq x y then Eq else Lt) | _, _ => None end;
  sort_cmp := fun a b => Z.compare (case_rank a) (case_rank b); like := fun _ _ => None; other := fun _ _ => VNull |}.
Lemma case_lawful : catalogue_law case_law.
Proof. split; [|reflexivity]. intros a b. cbn. destruct (bseq a b) eqn:E; [apply bseq_eq in E; split; [intros _; exact E|reflexivity]|]. split; [discriminate|]. intros ->. rewrite bseq_refl in E. discriminate E. Qed.
(** Any catalogue is served by a server that sorts *)
Definition case_query (cat : list entry) (fl : flavour) (raw : bool) (text : bytes) (args : list ModelEncoding.dval) : res (list (list ModelEncoding.dval) * bool) :=
  match read fl text args with
  | Some (Select items view wh [] ord None None []) => Ok (map (fun e => map (fun it => handed raw (eval case_law (cells e) it)) items) (answer case_law cells cat wh ord None None), false)
  | _ => Err
  end.
Lemma case_serves cat fl raw : serves case_law fl raw cat (case_query cat fl raw).
Proof. intros text args items wh ord view E _. exists (answer case_law cells cat wh ord None None). split; [apply (answered case_law case_rank); reflexivity|]. unfold case_query. rewrite E. reflexivity. Qed.
Definition col (s t n ty : bytes) (pos : Z) (chars : option Z) : entry := Entry (B "app") s t pos n None false ty ty [] chars None None None.
Definition case_cat : list entry :=
  [col (B "audit") (B "users") (B "id") (B "int4") 1 None; col (B "public") (B "orders") (B "id") (B "int4") 1 None; col (B "audit") (B "users") (B "name") (B "varchar") 2 (Some 255); col (B "audit") (B "users") (B "on") (B "bool") 3 None].
Example C84_case : exists l, table_columns DPostgres (case_query case_cat Postgres true) (B "app") (B "users") = Ok l /\ map e_name l = [B "id"; B "name"; B "on"] /\ map column_data_type l = [B "int4"; B "varchar(255)"; B "bool"] /\
  Forall entry_ok case_cat /\ (forall e, In e case_cat -> i_schema e = B "public" -> i_table e <> B "users") /\
  migrate (fun _ => true) (fun _ => []) (fun _ => []) DPostgres (case_query case_cat Postgres true) (VString (B "app")) (B "users") [GCol (B "id") (B "int4") false None; GCol (B "on") (B "bool") false None] [B "id"] = Ok None.
Proof.
  eexists. split; [vm_compute; reflexivity|]. split; [reflexivity|]. split; [vm_compute; reflexivity|]. split; [repeat constructor; discriminate|]. split; [|vm_compute; reflexivity].
  intros e [<-|[<-|[<-|[<-|[]]]]]; cbn; intros; discriminate.
Qed.
Example C84_mysql_case : exists l, table_columns DMySQL (case_query case_cat MySQL false) (B "public") (B "orders") = Ok l /\ map e_name l = [B "id"].
Proof. eexists. split; vm_compute; reflexivity. Qed.
Example C84_types_case : exists f c dc, In (B "int64", f) pg_types /\ column_is DPostgres (B "int64") c dc /\ 0 <= c_size c /\ pg_shows (d_type dc) (B "int8") None None /\ f c = B "bigint".
Proof.
  exists (bare (B "bigint")), (Column 0 true false), (Decl (TInteger 8) true None). split; [do 8 right; left; reflexivity|]. split; [|split; [cbn; lia|split; [constructor|reflexivity]]].
  apply (column_iff DPostgres (B "int64") (bare (B "bigint"))); [do 8 right; left; reflexivity|]. vm_compute. reflexivity.
Qed.
Print Assumptions C84_mysql.
Print Assumptions C84_pg_partial.
Print Assumptions C84_pg_schemas_refuted.
Print Assumptions C84_pg_missed_refuted.
Example C84_failure_case : forall (text : bytes) (args : list ModelEncoding.dval), (fun _ _ => Ok ([[VString (B "id")]], true)) text args = Err \/ exists rows, (fun (_ : bytes) (_ : list ModelEncoding.dval) => Ok ([[VString (B "id")]], true)) text args = Ok (rows, true).
Proof. intros. right. eexists. reflexivity. Qed.
Print Assumptions C84_failure.
Print Assumptions C84_no_database.
Print Assumptions C84_types_partial.
Print Assumptions C84_types_refuted.
