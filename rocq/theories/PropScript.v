(** C80: the text of migration files. *)
From Coq Require Import List Bool ZArith Lia.
From Verif Require Import SpecSql Base LemmasBase ModelStrconv ModelUtf8 LemmasUtf8 LemmasGen LemmasGen3 ModelGen ModelMigration ModelScript SpecScript SpecScript2 SpecMigration PropMigration LemmasScript LemmasScript2 LemmasScript3 LemmasScript4 LemmasScript5.
Import ListNotations.

Section Files.
Variable printable : N -> bool.
Variable format_float : N -> bytes.
Variable md5 : bytes -> bytes.
Variable d : driver.
Notation my := (my_of d).
Lemma sized_type ty ts n : type_text my ty ts -> (0 < n)%Z -> exists us, type_text my (ty ++ B "(" ++ format_int n ++ B ")") us.
Proof.
  intros (L & P & N & C & F) H. assert (FE : format_int n = format_uint (Z.to_N n)) by (destruct n; [lia|reflexivity|lia]). rewrite FE. exists (ts ++ [Sy "("; Wd (format_uint (Z.to_N n)); Sy ")"]).
  assert (P2 : piece my (B "(" ++ format_uint (Z.to_N n) ++ B ")") = Some ([Sy "("] ++ [Wd (format_uint (Z.to_N n))] ++ [Sy ")"])).
  { apply eats_piece; [unfold eats, scan; case my; reflexivity|]. apply piece_app; [apply piece_word; [apply format_uint_nonempty|apply digits_word]|unfold piece, scan; case my; reflexivity|apply rp_starts]. }
  split; [|split; [|split; [|split]]].
  - apply one_line_app; [exact L|]. apply lit_line; [reflexivity|]. apply one_line_app; [apply digits_line|apply one_line_b; reflexivity].
  - apply piece_app; [exact P|exact P2|]. unfold starts, sep, opens. case my; reflexivity.
  - destruct ts; discriminate.
  - apply calm_app; [exact C|reflexivity].
  - apply Forall_app. split; [exact F|]. constructor; [reflexivity|]. constructor; [|constructor; [reflexivity|constructor]].
    pose proof (format_uint_digits (Z.to_N n)) as FD. pose proof (format_uint_nonempty (Z.to_N n)) as NE. destruct (format_uint (Z.to_N n)) as [|c r]; [contradiction|]. inversion FD as [|? ? D0 _]; subst. unfold clause, kw.
    assert (U : upper1 c = c) by (unfold upper1; replace (is_lower c) with false; [reflexivity|]; symmetry; unfold is_lower, is_digit, in_range in *; rewrite andb_true_iff, !N.leb_le in D0; apply andb_false_iff; rewrite N.leb_gt; lia).
    assert (X : forall w, match w with [] => False | a :: _ => is_digit a = false end -> bseq (map upper1 (c :: r)) w = false).
    { intros [|a w] A; [contradiction|]. destruct (bseq (map upper1 (c :: r)) (a :: w)) eqn:E; [|reflexivity]. apply bseq_eq in E. cbn [map] in E. injection E as E _. congruence. }
    rewrite !X by reflexivity. reflexivity.
Qed.
Lemma existing_ok e : row_ok printable d e -> row_good printable d (existing e) /\ row_is e (existing e).
Proof.
  intros (NM & (ts & TY) & D). unfold existing. split.
  - split; [apply name_good, NM|]. split; [|exact D]. cbn [t_type]. unfold column_data_type.
    assert (K : forall n, (0 < n)%Z -> exists us, type_text my (e_udt e ++ B "(" ++ format_int n ++ B ")") us) by (intros n H; eapply sized_type; eassumption).
    destruct (e_chars e) as [n|].
    + destruct (Z.ltb_spec 0 n); [apply K; assumption|]. destruct (e_time e) as [k|]; [|exists ts; exact TY]. destruct (Z.ltb_spec 0 k); [apply K; assumption|exists ts; exact TY].
    + destruct (e_time e) as [k|]; [|exists ts; exact TY]. destruct (Z.ltb_spec 0 k); [apply K; assumption|exists ts; exact TY].
  - split; [reflexivity|]. split; [reflexivity|]. split; [reflexivity|]. cbn [t_type]. unfold row_type, column_data_type.
    assert (K : forall n, (0 < n)%Z -> sized (e_udt e) n (e_udt e ++ B "(" ++ format_int n ++ B ")")).
    { intros n H. exists (format_uint (Z.to_N n)). assert (FE : format_int n = format_uint (Z.to_N n)) by (destruct n; [lia|reflexivity|lia]). rewrite FE. split; [reflexivity|]. split; [apply format_uint_nonempty|]. split; [apply format_uint_digits|apply number_of_uint]. }
    destruct (e_chars e) as [n|], (e_time e) as [k|]; cbn [positive]; (split; [|split]); intros; try contradiction; repeat match goal with E : Some _ = Some _ |- _ => injection E as <- end;
      repeat match goal with |- context [Z.ltb 0 ?z] => destruct (Z.ltb_spec 0 z) end; try lia; try (apply K; assumption); try reflexivity; try (exfalso; auto; fail).
Qed.
Lemma existings ex : Forall (row_ok printable d) ex -> Forall2 row_is ex (map existing ex) /\ Forall (row_good printable d) (map existing ex).
Proof. induction 1 as [|e ex H F IH]; [split; constructor|]. destruct IH as (A & C). destruct (existing_ok e H) as (G & R). cbn [map]. split; constructor; assumption. Qed.
Lemma names_is ex rows : Forall2 row_is ex rows -> names rows = map e_name ex.
Proof. induction 1 as [|e c ex rows (E & _) F IH]; [reflexivity|]. cbn [names map]. rewrite E. f_equal. exact IH. Qed.
Lemma model_is model cols : Forall2 (column_is format_float d) model cols -> map m_name cols = map g_name model.
Proof. induction 1 as [|g m model cols (E & _) F IH]; [reflexivity|]. cbn [map]. rewrite E. f_equal. exact IH. Qed.
Lemma left_fine l : Forall (row_good printable d) l -> Forall (act_fine printable d) (flat_map down_left l).
Proof. intros F. apply Forall_forall. intros a I. apply in_flat_map in I as (c & I & [<-|[]]). rewrite Forall_forall in F. destruct (F c I) as (A & _ & D). split; assumption. Qed.
Lemma good_fine acts : Forall (act_good printable d) acts -> Forall (act_fine printable d) acts.
Proof. intros F. eapply Forall_impl; [|exact F]. intros a H. destruct a as [| | |n [ty|] b x|]; try exact H. destruct H. Qed.
Lemma downs_fine u n l : (forall o m, In (o, m) u -> row_good printable d o) -> Forall (col_good printable d) n -> Forall (row_good printable d) l -> Forall (act_fine printable d) (downs u n l).
Proof.
  intros HU HN HL. pose proof (downs_good printable d u n HU HN) as G. unfold downs in *. cbn [flat_map] in G. rewrite app_nil_r in G. rewrite app_assoc. apply Forall_app. split; [apply good_fine, G|apply left_fine, HL].
Qed.
Lemma typeless_left u n l : l <> [] -> existsb typeless (downs u n l) = true.
Proof. intros N. unfold downs. rewrite !existsb_app. destruct l as [|c l]; [contradiction|]. cbn. rewrite !orb_true_r. reflexivity. Qed.
(** The file for what the comparison found *)
Lemma text_reads t cols pk rows u n l : name_ok printable d t -> Forall (name_ok printable d) pk -> cols <> [] -> Forall (col_good printable d) cols -> Forall (row_good printable d) rows ->
  (forall o m, In (o, m) u -> In o rows /\ In m cols) -> incl n cols -> incl l rows -> (my = false -> u <> [] \/ n <> []) ->
  exists up down us, sections (file_text printable md5 d t cols pk u n l) up down /\ read_section my up = Some us /\ Forall2 (stmt_says my t) [Create cols pk; Alter (ups u n l)] us /\
    (l = [] -> exists ds, read_section my down = Some ds /\ Forall2 (stmt_says my t) [Alter (downs u n l)] ds) /\ (l <> [] -> read_section my down = None) /\ exists cs as', us = [SCreate t cs (key_of md5 pk); SAlter t as'].
Proof.
  intros NT NP NC GC GR HU HN HL HE. rewrite Forall_forall in GC, GR. apply name_good in NT. assert (GP : Forall (good printable d) pk) by (eapply Forall_impl; [|exact NP]; intros k; apply name_good).
  assert (GN : Forall (col_good printable d) n) by (apply Forall_forall; intros m I; apply GC, HN, I). assert (GL : Forall (row_good printable d) l) by (apply Forall_forall; intros c I; apply GR, HL, I).
  assert (UG : Forall (act_good printable d) (ups u n l)) by (apply ups_good; [intros o m I; apply GC; apply (HU o m I)|exact GN|eapply Forall_impl; [|exact GL]; intros c (A & _); exact A]).
  assert (DF : Forall (act_fine printable d) (downs u n l)) by (apply downs_fine; [intros o m I; apply GR; apply (HU o m I)|exact GN|exact GL]).
  assert (UE : ups u n l = [] -> my = true).
  { intros E. destruct my eqn:M; [reflexivity|]. destruct (HE eq_refl) as [X|X]; [destruct u as [|p u]; [contradiction|discriminate E]|]. destruct n as [|m n]; [contradiction|]. unfold ups in E. apply app_eq_nil in E as [_ E]. discriminate E. }
  assert (DE : downs u n l = [] -> my = true).
  { intros E. destruct my eqn:M; [reflexivity|]. destruct (HE eq_refl) as [X|X]; [destruct u as [|p u]; [contradiction|discriminate E]|]. destruct n as [|m n]; [contradiction|]. unfold downs in E. apply app_eq_nil in E as [_ E]. discriminate E. }
  assert (CG : Forall (col_good printable d) cols) by (apply Forall_forall; exact GC).
  destruct (up_reads printable md5 d t cols pk _ NT NC CG GP (fun _ => pk_name_good printable md5 d pk) UG UE) as (us & RU & SU & KU).
  destruct (body_reads printable md5 d cols pk NC CG GP (fun _ => pk_name_good printable md5 d pk)) as (_ & _ & _ & _ & _ & _ & _ & _ & _ & LB & TB).
  destruct (acts_read printable d _ UG) as (_ & _ & _ & _ & _ & _ & LU). destruct (fines_read printable d _ DF) as (_ & _ & _ & LD & _).
  do 3 eexists. split; [apply file_sections; eassumption|]. split; [exact RU|]. split; [exact SU|]. split.
  - intros ->. destruct (down_reads printable d t (downs u n []) NT) as (ds & RD & SD); [apply downs_good; [intros o m I; apply GR; apply (HU o m I)|exact GN]|exact DE|]. eexists. split; [exact RD|]. constructor; [|constructor]. split; [reflexivity|exact SD].
  - split; [|exact KU]. intros NL. apply down_rejected; [exact NT|exact DF|apply typeless_left, NL].
Qed.
End Files.

(** ** C80, PostgreSQL. What is written is a script of two sections, which read as the statements pg_migrate gives (C49 says what these do).
    Missing: the down section when a column of the table is not in the model, names and defaults that cannot be said (all refuted below). *)
Theorem C80_pg_text_partial printable format_float md5 t model pk ex :
  name_ok printable DPostgres t -> Forall (name_ok printable DPostgres) pk -> model <> [] -> Forall (column_ok printable format_float DPostgres) model -> Forall (row_ok printable DPostgres) ex ->
  exists cols rows, Forall2 (column_is format_float DPostgres) model cols /\ Forall2 row_is ex rows /\
    match pg_migrate cols pk rows with
    | None => migrate_text printable format_float md5 DPostgres t model pk ex = Ok None
    | Some (tu, td) => exists text up down us, migrate_text printable format_float md5 DPostgres t model pk ex = Ok (Some text) /\ sections text up down /\
        read_section false up = Some us /\ Forall2 (stmt_says false t) tu us /\
        (NoDup (map e_name ex) -> NoDup (map g_name model) -> (forall e, In e ex -> In (e_name e) (map g_name model)) ->
         exists ds, read_section false down = Some ds /\ Forall2 (stmt_says false t) td ds)
    end.
Proof.
  intros NT NP NM CO RO. destruct (columns_formatted printable format_float DPostgres model CO) as (cols & EF & IS & GC). destruct (existings printable md5 DPostgres ex RO) as (RI & GR).
  exists cols, (map existing ex). split; [exact IS|]. split; [exact RI|]. unfold migrate_text, pg_migrate.
  set (bare := map (fun g => MCol (g_name g) (g_type g) (g_null g) None) model).
  assert (SAME : Forall2 (fun x y => m_name x = m_name y /\ m_type x = m_type y /\ m_null x = m_null y) bare cols).
  { unfold bare. clear -IS. induction IS as [|g m model cols (A & C & D & _) F IH]; constructor; [|exact IH]. cbn. auto. }
  pose proof (compare_same bare cols SAME (map existing ex)) as CS. destruct (compare_cols bare (map existing ex)) as [[bu bn] bl]. destruct (compare_cols cols (map existing ex)) as [[u n] l] eqn:EC. destruct CS as (LU & LN & _).
  destruct (compare_incl cols _ _ _ _ EC) as (HU & HN & HL). assert (NC : cols <> []) by (intros ->; inversion IS; subst; contradiction).
  destruct u as [|p u], n as [|m n]; destruct bu as [|bp bu]; try discriminate LU; destruct bn as [|bm bn]; try discriminate LN; [reflexivity| | |].
  all: rewrite EF; cbn [bind]; rewrite EC; destruct (text_reads printable md5 DPostgres t cols pk (map existing ex) _ _ l NT NP NC GC GR HU HN HL) as (up & down & us & S1 & S2 & S3 & S4 & _); [intros _; first [left; discriminate|right; discriminate]|];
    do 4 eexists; (split; [reflexivity|]); (split; [exact S1|]); (split; [exact S2|]); (split; [exact S3|]); intros NE ND AL; apply S4;
    rewrite <- (names_is _ _ RI) in NE; rewrite <- (model_is _ _ _ _ IS) in ND; destruct (compare_spec cols (map existing ex) _ _ l NE ND EC) as (_ & _ & -> & _); rewrite <- (model_is _ _ _ _ IS) in AL; clear -AL;
    (assert (AL' : forall c, In c (map existing ex) -> In (t_name c) (map m_name cols)) by (intros c I; apply in_map_iff in I as (e & <- & I); exact (AL e I)));
    induction (map existing ex) as [|c r IH]; [reflexivity|]; cbn [filter]; rewrite (proj2 (has_iff _ _) (AL' c (or_introl eq_refl))); cbn [negb]; apply IH; intros x I; apply AL'; right; exact I.
Qed.
Print Assumptions C80_pg_text_partial.

(** Once a column was dropped, PostgreSQL rejects the text of the down section *)
Theorem C80_pg_down_refuted printable format_float md5 t model pk ex text e :
  name_ok printable DPostgres t -> Forall (name_ok printable DPostgres) pk -> model <> [] -> Forall (column_ok printable format_float DPostgres) model -> Forall (row_ok printable DPostgres) ex ->
  NoDup (map e_name ex) -> NoDup (map g_name model) -> In e ex -> ~ In (e_name e) (map g_name model) ->
  migrate_text printable format_float md5 DPostgres t model pk ex = Ok (Some text) ->
  exists up down, sections text up down /\ read_section false down = None.
Proof.
  intros NT NP NM CO RO NE ND IE NI E. destruct (columns_formatted printable format_float DPostgres model CO) as (cols & EF & IS & GC). destruct (existings printable md5 DPostgres ex RO) as (RI & GR). unfold migrate_text in E.
  set (bare := map (fun g => MCol (g_name g) (g_type g) (g_null g) None) model) in *.
  assert (SAME : Forall2 (fun x y => m_name x = m_name y /\ m_type x = m_type y /\ m_null x = m_null y) bare cols).
  { unfold bare. clear -IS. induction IS as [|g m model cols (A & C & D & _) F IH]; constructor; [|exact IH]. cbn. auto. }
  pose proof (compare_same bare cols SAME (map existing ex)) as CS. rewrite EF in E. cbn [bind] in E. destruct (compare_cols bare (map existing ex)) as [[bu bn] bl]. destruct (compare_cols cols (map existing ex)) as [[u n] l] eqn:EC. destruct CS as (LU & LN & _).
  destruct (compare_incl cols _ _ _ _ EC) as (HU & HN & HL). assert (NC : cols <> []) by (intros ->; inversion IS; subst; contradiction).
  rewrite <- (names_is _ _ RI) in NE. rewrite <- (model_is _ _ _ _ IS) in ND, NI. destruct (compare_spec cols (map existing ex) _ _ l NE ND EC) as (_ & _ & HD & _).
  assert (L : l <> []). { intros ->. assert (I : In (existing e) []) by (rewrite HD; apply filter_In; split; [apply in_map, IE|]; apply negb_true_iff, has_false; exact NI). exact I. }
  assert (X : text = file_text printable md5 DPostgres t cols pk u n l /\ (u <> [] \/ n <> [])).
  { destruct bu, bn, u, n; try discriminate LU; try discriminate LN; try discriminate E; injection E as <-; (split; [reflexivity|]); try (left; discriminate); right; discriminate. }
  destruct X as (-> & UN). destruct (text_reads printable md5 DPostgres t cols pk (map existing ex) u n l NT NP NC GC GR HU HN HL (fun _ => UN)) as (up & down & us & S1 & S2 & S3 & _ & S5 & _). exists up, down. split; [exact S1|apply S5, L].
Qed.
Print Assumptions C80_pg_down_refuted.

(** ** MySQL *)
Theorem C80_mysql_text_partial printable format_float md5 t model pk ex :
  name_ok printable DMySQL t -> Forall (name_ok printable DMySQL) pk -> model <> [] -> Forall (column_ok printable format_float DMySQL) model -> Forall (row_ok printable DMySQL) ex ->
  exists cols rows tu td text up down us, Forall2 (column_is format_float DMySQL) model cols /\ Forall2 row_is ex rows /\ my_migrate cols pk rows = Some (tu, td) /\
    migrate_text printable format_float md5 DMySQL t model pk ex = Ok (Some text) /\ sections text up down /\ read_section true up = Some us /\ Forall2 (stmt_says true t) tu us /\
    (ex = [] -> exists ds, read_section true down = Some ds /\ Forall2 (stmt_says true t) td ds).
Proof.
  intros NT NP NM CO RO. destruct (columns_formatted printable format_float DMySQL model CO) as (cols & EF & IS & GC). destruct (existings printable md5 DMySQL ex RO) as (RI & GR). assert (NC : cols <> []) by (intros ->; inversion IS; subst; contradiction).
  destruct (text_reads printable md5 DMySQL t cols pk (map existing ex) [] [] (map existing ex) NT NP NC GC GR ltac:(intros o m []) ltac:(intros m []) (incl_refl _) ltac:(discriminate)) as (up & down & us & S1 & S2 & S3 & S4 & _).
  exists cols, (map existing ex). do 3 eexists. exists up, down, us. split; [exact IS|]. split; [exact RI|]. split; [reflexivity|]. split; [unfold migrate_text; rewrite EF; reflexivity|]. split; [exact S1|]. split; [exact S2|]. split; [exact S3|]. intros ->. apply S4. reflexivity.
Qed.
Print Assumptions C80_mysql_text_partial.
(** Where the table exists, MySQL rejects the text of the down section: columns are added without a type *)
Theorem C80_mysql_down_refuted printable format_float md5 t model pk ex text :
  name_ok printable DMySQL t -> Forall (name_ok printable DMySQL) pk -> model <> [] -> Forall (column_ok printable format_float DMySQL) model -> Forall (row_ok printable DMySQL) ex -> ex <> [] ->
  migrate_text printable format_float md5 DMySQL t model pk ex = Ok (Some text) -> exists up down, sections text up down /\ read_section true down = None.
Proof.
  intros NT NP NM CO RO NE E. destruct (columns_formatted printable format_float DMySQL model CO) as (cols & EF & IS & GC). destruct (existings printable md5 DMySQL ex RO) as (RI & GR). assert (NC : cols <> []) by (intros ->; inversion IS; subst; contradiction).
  destruct (text_reads printable md5 DMySQL t cols pk (map existing ex) [] [] (map existing ex) NT NP NC GC GR ltac:(intros o m []) ltac:(intros m []) (incl_refl _) ltac:(discriminate)) as (up & down & us & S1 & _ & _ & _ & S5 & _).
  unfold migrate_text in E. rewrite EF in E. injection E as <-. exists up, down. split; [exact S1|]. apply S5. destruct ex; [contradiction|discriminate].
Qed.
Print Assumptions C80_mysql_down_refuted.

(** ** Defaults *)
(** A default that is a string is written so that it denotes the string exactly when it holds no quote and, in MySQL, no backslash *)
Theorem C80_string_default_exact_partial format_float d s x : format format_float (DStr s) = Ok x -> (piece (my_of d) x = Some [St s] <-> plain_string (my_of d) s).
Proof.
  intros E. injection E as <-. split; [|apply piece_string]. intros P. destruct (in_dec Ascii.ascii_dec squote s) as [Q|Q]; [exfalso; revert P; apply piece_string_only; intros (A & _); contradiction|].
  split; [exact Q|]. intros M I. revert P. apply piece_string_only. intros (_ & A). exact (A M I).
Qed.
Print Assumptions C80_string_default_exact_partial.
(** A default can end its statement and start another one *)
Definition evil_model : list gcol := [GCol (B "name") (B "VARCHAR(255)") false (Some (DStr (B "x'); DROP TABLE users; -- ")))].
Theorem C80_injection_refuted : exists text up down ts l, migrate_text (fun _ => true) (fun _ => []) (fun _ => []) DMySQL (B "t") evil_model [] [] = Ok (Some text) /\ sections text up down /\
  stokens true (sql_of up) = Some ts /\ statements [] ts = Some l /\ In [Wd (B "DROP"); Wd (B "TABLE"); Wd (B "users")] l.
Proof.
  eexists. exists [B "-- SQL in section 'Up' is executed when this migration is applied"; B "CREATE TABLE IF NOT EXISTS `t` ("; chr 9 :: B "`name` VARCHAR(255) NOT NULL DEFAULT 'x'); DROP TABLE users; -- '"; B ");"; B "ALTER TABLE `t`"; B ";"; []].
  exists [B "-- SQL section 'Down' is executed when this migration is rolled back"; B "ALTER TABLE `t`"; B ";"]. do 2 eexists. split; [vm_compute; reflexivity|]. split; [split; [vm_compute; reflexivity|]; repeat (constructor; [vm_compute; reflexivity|]); constructor|]. split; [vm_compute; reflexivity|]. split; [vm_compute; reflexivity|]. right. left. vm_compute. reflexivity.
Qed.
Print Assumptions C80_injection_refuted.
(** A default of type []byte, which the interface allows, or any other type: no file but a panic *)
Theorem C80_bytes_default_refuted printable format_float md5 t model pk ex g s : In g model -> g_default g = Some (DBytes s) ->
  migrate_text printable format_float md5 DMySQL t model pk ex = Panic /\
  (~ In (g_name g) (map e_name ex) -> migrate_text printable format_float md5 DPostgres t model pk ex = Panic).
Proof.
  intros I D. assert (P : all_formatted format_float model = Panic).
  { induction model as [|x model IH]; [contradiction|]. cbn [all_formatted]. destruct I as [->|I]; [unfold formatted; rewrite D; reflexivity|]. rewrite IH by exact I. destruct (formatted format_float x) as [m| |] eqn:F; [reflexivity| |reflexivity].
    exfalso. unfold formatted in F. destruct (g_default x) as [v|]; [|discriminate]. destruct v; discriminate F. }
  unfold migrate_text. rewrite P. split; [reflexivity|]. intros NI. cbn [bind].
  assert (X : forall ex', ~ In (g_name g) (map t_name ex') -> snd (fst (compare_cols (map (fun g => MCol (g_name g) (g_type g) (g_null g) None) model) ex')) <> []).
  { clear -I. induction model as [|x model IH]; [contradiction|]. intros ex' NI. cbn [map compare_cols m_name]. destruct (take_col (g_name x) ex') as [[c r]|] eqn:T.
    - destruct I as [->|I]; [exfalso; rewrite (proj2 (take_none _ _) NI) in T; discriminate|]. assert (NI' : ~ In (g_name g) (map t_name r)) by (intros J; apply NI; destruct (take_incl _ _ _ _ T) as (_ & A); apply in_map_iff in J as (y & <- & J); apply in_map, A, J).
      specialize (IH I r NI'). destruct (compare_cols (map (fun g0 => MCol (g_name g0) (g_type g0) (g_null g0) None) model) r) as [[u n] l]. destruct (bseq _ _ && _); exact IH.
    - destruct (compare_cols (map (fun g0 => MCol (g_name g0) (g_type g0) (g_null g0) None) model) ex') as [[u n] l]. discriminate. }
  specialize (X (map existing ex)). destruct (compare_cols _ (map existing ex)) as [[u n] l]. assert (N : n <> []) by (apply X; intros J; apply NI; rewrite map_map in J; exact J). destruct u, n; try contradiction; reflexivity.
Qed.
Print Assumptions C80_bytes_default_refuted.
(** SQLite: nothing is written, whatever the model and the table *)
Theorem C80_sqlite_refuted printable format_float md5 t model pk ex text up down : migrate_text printable format_float md5 DSQLite t model pk ex = Ok (Some text) -> text = [] /\ ~ sections text up down.
Proof. intros E. injection E as <-. split; [reflexivity|]. intros (H & _). revert H. unfold lines. vm_compute. intros H. discriminate H. Qed.
Print Assumptions C80_sqlite_refuted.

(** ** Cases *)
Definition script_model : list gcol := [GCol (B "id") (B "int8") false None; GCol (B "name") (B "varchar(255)") false (Some (DStr (B "a;b")) ); GCol (B "amount") (B "decimal(10,2)") true (Some (DInt (-5)))].
Definition script_table : list ecol := [ECol (B "id") (B "int4") false None None None; ECol (B "name") (B "varchar") true (Some (B "'x'::text")) (Some 64%Z) None].
(** Names of letters, digits and underscores *)
Lemma word_name printable d n : n <> [] -> forallb (fun c => is_alnum c || beq c "_") n = true -> name_ok printable d n.
Proof.
  intros NE F. rewrite forallb_forall in F. assert (R : forall c, In c n -> (48 <= code c <= 122)%N /\ code c <> 96%N /\ code c <> 92%N).
  { intros c I. specialize (F c I). apply orb_true_iff in F as [H|H]; [|apply beq_eq in H as ->; split; [split; discriminate|split; discriminate]]. unfold is_alnum, is_alpha, is_upper, is_lower, is_digit, in_range in H. rewrite !orb_true_iff, !andb_true_iff, !N.leb_le in H. lia. }
  assert (AS : Forall (fun c => (code c < 128)%N) n) by (apply Forall_forall; intros c I; pose proof (R c I); lia). destruct (ascii_utf8 n AS) as (E & SC).
  exists (map code n). split; [destruct n; [contradiction|discriminate]|]. split; [exact E|]. split; [exact SC|]. split; [intros I; apply in_map_iff in I as (c & X & I); pose proof (R c I); lia|].
  destruct d; [intros I; apply in_map_iff in I as (c & X & I); pose proof (R c I); change (code backtick) with 96%N in X; lia| |].
  all: apply Forall_forall; intros u I; rewrite Forall_forall in SC; pose proof (SC u I); apply in_map_iff in I as (c & <- & I); pose proof (R c I); split; [assumption|]; repeat split; lia.
Qed.
Ltac type_case := eexists; split; [vm_compute; intuition discriminate|]; split; [vm_compute; reflexivity|]; split; [discriminate|]; split; [vm_compute; reflexivity|]; repeat (constructor; [vm_compute; reflexivity|]); constructor.
Ltac default_case := eexists; split; [vm_compute; intuition discriminate|]; split; [vm_compute; reflexivity|]; split; [discriminate|vm_compute; reflexivity].
Example C80_pg_hyps : name_ok (fun _ => true) DPostgres (B "users") /\ Forall (name_ok (fun _ => true) DPostgres) [B "id"] /\ Forall (column_ok (fun _ => true) (fun _ => []) DPostgres) script_model /\ Forall (row_ok (fun _ => true) DPostgres) script_table /\
  NoDup (map e_name script_table) /\ NoDup (map g_name script_model) /\ (forall e, In e script_table -> In (e_name e) (map g_name script_model)).
Proof.
  split; [apply word_name; [discriminate|reflexivity]|]. split; [constructor; [apply word_name; [discriminate|reflexivity]|constructor]|]. split; [|split; [|split; [|split]]].
  - constructor; [split; [apply word_name; [discriminate|reflexivity]|split; [type_case|exact I]]|]. constructor; [split; [apply word_name; [discriminate|reflexivity]|split; [type_case|]]|]. { split; [vm_compute; intuition discriminate|split; [vm_compute; intuition discriminate|discriminate]]. } constructor; [split; [apply word_name; [discriminate|reflexivity]|split; [type_case|exact I]]|constructor].
  - constructor; [split; [apply word_name; [discriminate|reflexivity]|split; [type_case|exact I]]|]. constructor; [split; [apply word_name; [discriminate|reflexivity]|split; [type_case|default_case]]|constructor].
  - repeat (constructor; [vm_compute; intuition discriminate|]). constructor.
  - repeat (constructor; [vm_compute; intuition discriminate|]). constructor.
  - intros e [<-|[<-|[]]]; vm_compute; auto.
Qed.
Example C80_pg_case : exists text up down us ds, migrate_text (fun _ => true) (fun _ => []) (fun _ => []) DPostgres (B "users") script_model [B "id"] script_table = Ok (Some text) /\ sections text up down /\
  read_section false up = Some us /\ read_section false down = Some ds /\ length us = 2 /\
  ds = [SAlter (B "users") [SSetType (B "id") [Wd (B "int4")]; SSetNotNull (B "id"); SSetType (B "name") [Wd (B "varchar"); Sy "("; Wd (B "64"); Sy ")"]; SSetDefault (B "name") [St (B "x"); Sy ":"; Sy ":"; Wd (B "text")]; SDrop (B "amount")]].
Proof.
  eexists. exists [B "-- SQL in section 'Up' is executed when this migration is applied"; B "CREATE TABLE IF NOT EXISTS ""users"" ("; chr 9 :: B """id"" int8 NOT NULL,"; chr 9 :: B """name"" varchar(255) NOT NULL DEFAULT 'a;b',"; chr 9 :: B """amount"" decimal(10,2) DEFAULT -5,"; chr 9 :: B "CONSTRAINT ""PK_"" PRIMARY KEY (""id"")"; B ");";
    B "ALTER TABLE ""users"""; chr 9 :: B "ALTER ""id"" SET DATA TYPE int8,"; chr 9 :: B "ALTER ""name"" SET DATA TYPE varchar(255),"; chr 9 :: B "ADD COLUMN ""amount"" decimal(10,2) DEFAULT -5;"; []].
  exists [B "-- SQL section 'Down' is executed when this migration is rolled back"; B "ALTER TABLE ""users"""; chr 9 :: B "ALTER ""id"" SET DATA TYPE int4,"; chr 9 :: B "ALTER ""id"" SET NOT NULL,"; chr 9 :: B "ALTER ""name"" SET DATA TYPE varchar(64),"; chr 9 :: B "ALTER ""name"" SET DEFAULT 'x'::text,"; chr 9 :: B "DROP COLUMN ""amount"";"].
  do 2 eexists. split; [vm_compute; reflexivity|]. split; [split; [vm_compute; reflexivity|]; repeat (constructor; [vm_compute; reflexivity|]); constructor|]. split; [vm_compute; reflexivity|]. split; [vm_compute; reflexivity|]. split; reflexivity.
Qed.
(** With one column less in the model, the down section adds a column without a type *)
Example C80_pg_down_case : exists text e, migrate_text (fun _ => true) (fun _ => []) (fun _ => []) DPostgres (B "users") [GCol (B "id") (B "int8") false None] [B "id"] script_table = Ok (Some text) /\ In e script_table /\ ~ In (e_name e) [B "id"].
Proof. do 2 eexists. split; [vm_compute; reflexivity|]. split; [right; left; reflexivity|]. vm_compute. intuition discriminate. Qed.
Example C80_mysql_hyps : name_ok (fun _ => true) DMySQL (B "users") /\ Forall (name_ok (fun _ => true) DMySQL) [B "id"] /\ Forall (column_ok (fun _ => true) (fun _ => []) DMySQL) script_model /\ Forall (row_ok (fun _ => true) DMySQL) script_table.
Proof.
  split; [apply word_name; [discriminate|reflexivity]|]. split; [constructor; [apply word_name; [discriminate|reflexivity]|constructor]|]. split.
  - constructor; [split; [apply word_name; [discriminate|reflexivity]|split; [type_case|exact I]]|]. constructor; [split; [apply word_name; [discriminate|reflexivity]|split; [type_case|]]|]. { split; [vm_compute; intuition discriminate|split; [vm_compute; intuition discriminate|intros _; vm_compute; intuition discriminate]]. } constructor; [split; [apply word_name; [discriminate|reflexivity]|split; [type_case|exact I]]|constructor].
  - constructor; [split; [apply word_name; [discriminate|reflexivity]|split; [type_case|exact I]]|]. constructor; [split; [apply word_name; [discriminate|reflexivity]|split; [type_case|default_case]]|constructor].
Qed.
Example C80_plain_case : plain_string true (B "it is") /\ ~ plain_string true (B "a\b") /\ plain_string false (B "a\b") /\ ~ plain_string false (B "it's").
Proof. repeat split; try discriminate; vm_compute; intuition (try discriminate; auto). Qed.
Example C80_bytes_case : exists g, In g [GCol (B "b") (B "blob") false (Some (DBytes (B "x")))] /\ g_default g = Some (DBytes (B "x")) /\ ~ In (g_name g) (map e_name script_table).
Proof. eexists. split; [left; reflexivity|]. split; [reflexivity|]. vm_compute. intuition discriminate. Qed.
