(** C85: the tables of several migrations can be created in one database. *)
From Coq Require Import List Bool ZArith Lia.
From Verif Require Import SpecSql Base LemmasBase ModelStrconv ModelUtf8 LemmasUtf8 LemmasGen LemmasGen3 ModelGen ModelMigration ModelScript SpecScript SpecScript2 SpecMigration PropMigration LemmasScript LemmasScript2 LemmasScript3 LemmasScript4 LemmasScript5 PropScript SpecRelations.
Import ListNotations.

(** A table to be created: its name, its columns, the columns of its key *)
Record table := Table { tb_name : bytes; tb_model : list gcol; tb_key : list bytes }.
(** Names of relations that are no names of keys *)
Definition free_name (n : bytes) : Prop := has_prefix n (B "PK_") = false.
Section Names.
Variable printable : N -> bool.
Variable format_float : N -> bytes.
Variable md5 : bytes -> bytes.
Definition table_ok (d : driver) (b : table) : Prop :=
  name_ok printable d (tb_name b) /\ Forall (name_ok printable d) (tb_key b) /\ tb_model b <> [] /\ Forall (column_ok printable format_float d) (tb_model b).
(** The first statement of the migration that is written for a table that does not exist *)
Definition written (d : driver) (b : table) (s : sstmt) : Prop :=
  exists text up down rest, migrate_text printable format_float md5 d (tb_name b) (tb_model b) (tb_key b) [] = Ok (Some text) /\ sections text up down /\ read_section (my_of d) up = Some (s :: rest).
(** What the name of a key depends on: the digest of the names of its columns, with commas between them *)
Definition digest (b : table) : list bytes := match tb_key b with [] => [] | k => [md5 (join (B ",") k)] end.

Lemma compare_fresh cols : compare_cols cols [] = ([], cols, []).
Proof. induction cols as [|c cols IH]; [reflexivity|]. cbn [compare_cols take_col]. rewrite IH. reflexivity. Qed.
Lemma first_stmt d b : d <> DSQLite -> table_ok d b -> exists cs, written d b (SCreate (tb_name b) cs (key_of md5 (tb_key b))).
Proof.
  intros ND (NT & NP & NM & CO). destruct (columns_formatted printable format_float d _ CO) as (cols & EF & IS & GC). assert (NC : cols <> []) by (intros ->; inversion IS; subst; congruence).
  assert (FR : exists text up down us, migrate_text printable format_float md5 d (tb_name b) (tb_model b) (tb_key b) [] = Ok (Some text) /\ sections text up down /\ read_section (my_of d) up = Some us /\ exists cs as', us = [SCreate (tb_name b) cs (key_of md5 (tb_key b)); SAlter (tb_name b) as']).
  { destruct d; [| |contradiction].
    - destruct (text_reads printable md5 DMySQL (tb_name b) cols (tb_key b) [] [] [] [] NT NP NC GC (Forall_nil _) ltac:(intros o m []) ltac:(intros m []) (incl_refl _) ltac:(discriminate)) as (up & down & us & S1 & S2 & _ & _ & _ & K).
      eexists. exists up, down, us. split; [unfold migrate_text; rewrite EF; reflexivity|]. auto.
    - destruct (text_reads printable md5 DPostgres (tb_name b) cols (tb_key b) [] [] cols [] NT NP NC GC (Forall_nil _) ltac:(intros o m []) (incl_refl _) (incl_refl _) ltac:(auto)) as (up & down & us & S1 & S2 & _ & _ & _ & K).
      eexists. exists up, down, us. split; [unfold migrate_text; cbn [map]; rewrite !compare_fresh, EF; cbn [bind]; rewrite compare_fresh; destruct (tb_model b); [contradiction|reflexivity]|]. auto. }
  destruct FR as (text & up & down & us & A & C & R & cs & as' & ->). exists cs. exists text, up, down. eexists. split; [exact A|]. split; [exact C|exact R].
Qed.
End Names.
Lemma split_mark (m : bytes) u d u' d' : command m = true -> Forall (fun l => command l = false) u -> Forall (fun l => command l = false) u' -> u ++ m :: d = u' ++ m :: d' -> u = u' /\ d = d'.
Proof.
  intros C F. revert u'. induction F as [|x u X F IH]; intros u' F' E; inversion F' as [|y v Y G]; subst; cbn [app] in E.
  - injection E as ->. auto.
  - injection E as <- _. congruence.
  - injection E as -> _. congruence.
  - injection E as -> E. destruct (IH v G E) as [-> ->]. auto.
Qed.
Lemma sections_same text u d u' d' : sections text u d -> sections text u' d' -> u = u' /\ d = d'.
Proof.
  intros (A & F) (A' & F'). apply Forall_app in F as [F _]. apply Forall_app in F' as [F' _]. rewrite A in A'. injection A' as E. eapply split_mark; [|exact F|exact F'|exact E]. reflexivity.
Qed.
Lemma written_same printable ff md5 d b s s' : written printable ff md5 d b s -> written printable ff md5 d b s' -> s = s'.
Proof.
  intros (text & up & down & rest & E & S1 & R) (text' & up' & down' & rest' & E' & S' & R'). rewrite E in E'. injection E' as <-. destruct (sections_same _ _ _ _ _ S1 S') as [<- _]. rewrite R in R'. congruence.
Qed.
Lemma pk_free n md5 pk : free_name n -> n <> pk_name md5 pk.
Proof. intros F ->. discriminate F. Qed.
Lemma pk_name_same md5 k k' : pk_name md5 k = pk_name md5 k' <-> md5 (join (B ",") k) = md5 (join (B ",") k').
Proof.
  split; [|intros E; unfold pk_name; rewrite E; reflexivity]. unfold pk_name. intros E. apply app_inv_head in E. apply app_inv_head in E. apply (f_equal hex_decode) in E. rewrite !hex_roundtrip in E. congruence.
Qed.
(** The names in use after some tables were created, and the keys among them *)
Lemma creates_pg md5 (tables : list table) (stmts : list sstmt) :
  Forall2 (fun b s => exists cs, s = SCreate (tb_name b) cs (key_of md5 (tb_key b))) tables stmts -> NoDup (map tb_name tables) -> Forall free_name (map tb_name tables) ->
  forall rels, (forall n, In n rels -> ~ In n (map tb_name tables)) ->
  ((exists r, creates false rels stmts = Some r) <-> NoDup (flat_map (digest md5) tables) /\ forall b, In b tables -> tb_key b <> [] -> ~ In (pk_name md5 (tb_key b)) rels) /\
  (forall r, creates false rels stmts = Some r -> incl (map tb_name tables ++ rels) r).
Proof.
  induction 1 as [|b s tables stmts (cs & ->) F IH]; intros ND FN rels D; cbn [map flat_map creates] in *.
  - split; [|intros r [= <-]; apply incl_refl]. split; [|eauto]. intros _. split; [constructor|intros b []].
  - inversion ND as [|x y NI ND']; subst. inversion FN as [|x y FB FN']; subst. cbn [create].
    assert (NB : bmem (tb_name b) rels = false) by (apply bmem_not_In; intros I; apply (D _ I); left; reflexivity). rewrite NB. unfold digest at 1. unfold key_of.
    assert (NK : forall b', In b' tables -> forall k, tb_name b' <> pk_name md5 k) by (intros b' I k; apply pk_free; rewrite Forall_forall in FN'; apply FN', in_map, I).
    destruct (tb_key b) as [|k ks] eqn:K.
    + destruct (IH ND' FN' (tb_name b :: rels)) as (IA & IB); [intros n [<-|I]; [exact NI|intros J; apply (D _ I); right; exact J]|]. cbn [app]. split.
      * rewrite IA. split; intros (A & C); (split; [exact A|]).
        -- intros b' [<-|I] N; [congruence|]. intros J. apply (C b' I N). right. exact J.
        -- intros b' I N [J|J]; [revert J; apply pk_free, FB|]. apply (C b' (or_intror I) N J).
      * intros r E. specialize (IB r E). intros n [<-|I]; [apply IB, in_app_iff; right; left; reflexivity|]. apply IB. apply in_app_iff in I as [I|I]; apply in_app_iff; [left; exact I|right; right; exact I].
    + remember (k :: ks) as key eqn:KE. set (kn := pk_name md5 key). assert (NKB : tb_name b <> kn) by (apply pk_free, FB).
      destruct (bmem kn (tb_name b :: rels)) eqn:M.
      * split; [|discriminate]. apply bmem_In in M as [M|M]; [contradiction|]. split; [intros (r & E); discriminate|]. intros (_ & C). exfalso. apply (C b (or_introl eq_refl)); [congruence|]. rewrite K. exact M.
      * apply bmem_not_In in M. destruct (IH ND' FN' (tb_name b :: kn :: rels)) as (IA & IB).
        { intros n [<-|[<-|I]]; [exact NI| |intros J; apply (D _ I); right; exact J]. intros J. apply in_map_iff in J as (b' & E & I). exact (NK b' I _ E). }
        cbn [app]. split.
        -- rewrite IA. split; intros (A & C).
           ++ split; [constructor; [|exact A]|].
              ** intros I. apply in_flat_map in I as (b' & I & J). unfold digest in J. destruct (tb_key b') as [|k' ks'] eqn:K'; [contradiction|]. destruct J as [J|[]]. apply (C b' I); [congruence|]. right. left. unfold kn. apply pk_name_same. rewrite K'. symmetry. exact J.
              ** intros b' [<-|I] N; [rewrite K; intros J; apply M; right; exact J|]. intros J. apply (C b' I N). right. right. exact J.
           ++ inversion A as [|x y NA A']; subst x y. split; [exact A'|]. intros b' I N [J|[J|J]].
              ** revert J. apply pk_free, FB.
              ** apply NA. apply in_flat_map. exists b'. split; [exact I|]. unfold kn in J. apply pk_name_same in J. unfold digest. destruct (tb_key b'); [contradiction|]. left. symmetry. exact J.
              ** apply (C b' (or_intror I) N J).
        -- intros r E. specialize (IB r E). intros n [<-|I]; [apply IB, in_app_iff; right; left; reflexivity|]. apply IB. apply in_app_iff in I as [I|I]; apply in_app_iff; [left; exact I|right; right; right; exact I].
Qed.
Lemma creates_my key (tables : list table) (stmts : list sstmt) : Forall2 (fun b s => exists cs, s = SCreate (tb_name b) cs (key (tb_key b))) tables stmts ->
  forall rels, exists r, creates true rels stmts = Some r /\ incl (map tb_name tables ++ rels) r.
Proof.
  induction 1 as [|b s tables stmts (cs & ->) F IH]; intros rels; cbn [map creates create app]; [exists rels; split; [reflexivity|apply incl_refl]|].
  assert (X : exists r0, (if bmem (tb_name b) rels then Some rels else match key (tb_key b) with Some (_, _) => Some (tb_name b :: rels) | None => Some (tb_name b :: rels) end) = Some r0 /\ In (tb_name b) r0 /\ incl rels r0).
  { destruct (bmem (tb_name b) rels) eqn:M; [exists rels; split; [reflexivity|]; split; [apply bmem_In, M|apply incl_refl]|]. exists (tb_name b :: rels). split; [destruct (key (tb_key b)) as [[a c]|]; reflexivity|]. split; [left; reflexivity|apply incl_tl, incl_refl]. }
  destruct X as (r0 & E & I0 & L0). rewrite E. destruct (IH r0) as (r & R & L). exists r. split; [exact R|]. intros n [<-|I]; [apply L, in_app_iff; right; exact I0|]. apply L. apply in_app_iff in I as [I|I]; apply in_app_iff; [left; exact I|right; apply L0, I].
Qed.
Lemma all_written printable ff md5 d tables stmts : d <> DSQLite -> Forall (table_ok printable ff d) tables -> Forall2 (written printable ff md5 d) tables stmts ->
  Forall2 (fun b s => exists cs, s = SCreate (tb_name b) cs (key_of md5 (tb_key b))) tables stmts.
Proof.
  intros ND F W. induction W as [|b s tables stmts H W IH]; [constructor|]. inversion F as [|x y A C]; subst. constructor; [|apply IH, C]. destruct (first_stmt printable ff md5 d b ND A) as (cs & G). exists cs. exact (written_same _ _ _ _ _ _ _ H G).
Qed.

(** ** C85, PostgreSQL. The tables are created exactly when no two keys have the same digest, and then all are there.
    Missing: tables with the same key columns (refuted below). *)
Theorem C85_pg_partial printable format_float md5 tables stmts rels :
  Forall (table_ok printable format_float DPostgres) tables -> Forall2 (written printable format_float md5 DPostgres) tables stmts ->
  NoDup (map tb_name tables) -> Forall free_name (map tb_name tables ++ rels) -> (forall n, In n rels -> ~ In n (map tb_name tables)) ->
  ((exists r, creates false rels stmts = Some r) <-> NoDup (flat_map (digest md5) tables)) /\
  (forall r, creates false rels stmts = Some r -> incl (map tb_name tables ++ rels) r).
Proof.
  intros F W ND FN D. apply Forall_app in FN as [FN FR]. destruct (creates_pg md5 tables stmts (all_written _ _ md5 DPostgres _ _ ltac:(discriminate) F W) ND FN rels D) as (A & C). split; [|exact C]. rewrite A. split; [intros (X & _); exact X|]. intros X. split; [exact X|].
  intros b I N J. rewrite Forall_forall in FR. exact (pk_free _ _ _ (FR _ J) eq_refl).
Qed.
(** Such statements are written for every such table *)
Theorem C85_written printable format_float md5 d b : d = DPostgres \/ d = DMySQL -> table_ok printable format_float d b -> exists s, written printable format_float md5 d b s.
Proof. intros D H. destruct (first_stmt printable format_float md5 d b) as (cs & W); [destruct D; congruence|exact H|]. eexists. exact W. Qed.
(** Two tables with the same columns in their keys, say id: the second is not created, an error is given *)
Theorem C85_same_key_refuted printable format_float md5 b b' s s' rels r :
  table_ok printable format_float DPostgres b -> table_ok printable format_float DPostgres b' -> written printable format_float md5 DPostgres b s -> written printable format_float md5 DPostgres b' s' ->
  tb_key b <> [] -> join (B ",") (tb_key b') = join (B ",") (tb_key b) -> tb_key b' <> [] -> ~ In (tb_name b) rels -> create false rels s = Some r -> ~ In (tb_name b') r -> create false r s' = None.
Proof.
  intros H H' W W' N J N' NI C NI'. destruct (first_stmt printable format_float md5 DPostgres b ltac:(discriminate) H) as (cs & G). destruct (first_stmt printable format_float md5 DPostgres b' ltac:(discriminate) H') as (cs' & G').
  rewrite (written_same _ _ _ _ _ _ _ W G) in C. rewrite (written_same _ _ _ _ _ _ _ W' G'). assert (E : pk_name md5 (tb_key b') = pk_name md5 (tb_key b)) by (apply pk_name_same; rewrite J; reflexivity).
  cbn [create] in *. rewrite (proj2 (bmem_not_In _ _) NI) in C. rewrite (proj2 (bmem_not_In _ _) NI'). unfold key_of in *. destruct (tb_key b) as [|k ks]; [contradiction|]. destruct (tb_key b') as [|k' ks']; [contradiction|].
  destruct (bmem (pk_name md5 (k :: ks)) (tb_name b :: rels)); [discriminate|]. injection C as <-. rewrite E. rewrite (proj2 (bmem_In _ _)) by (right; right; left; reflexivity). reflexivity.
Qed.
(** ** MySQL: the tables are created, whatever their keys *)
Theorem C85_mysql printable format_float md5 tables stmts rels :
  Forall (table_ok printable format_float DMySQL) tables -> Forall2 (written printable format_float md5 DMySQL) tables stmts ->
  exists r, creates true rels stmts = Some r /\ incl (map tb_name tables ++ rels) r.
Proof. intros F W. apply (creates_my (key_of md5)). exact (all_written _ _ md5 DMySQL _ _ ltac:(discriminate) F W). Qed.
Print Assumptions C85_pg_partial.
Print Assumptions C85_written.
Print Assumptions C85_same_key_refuted.
Print Assumptions C85_mysql.

(** ** Cases *)
Definition users := Table (B "users") [GCol (B "id") (B "int8") false None] [B "id"].
Definition orders := Table (B "orders") [GCol (B "id") (B "int8") false None; GCol (B "user") (B "int8") false None] [B "id"].
Definition lines_of := Table (B "lines") [GCol (B "order") (B "int8") false None; GCol (B "no") (B "int8") false None] [B "order"; B "no"].
Lemma plain_table d b : (d = DPostgres \/ d = DMySQL) -> In b [users; orders; lines_of] -> table_ok (fun _ => true) (fun _ => []) d b.
Proof.
  intros [-> | ->] [<-|[<-|[<-|[]]]]; (split; [apply word_name; [discriminate|reflexivity]|]); (split; [repeat (constructor; [apply word_name; [discriminate|reflexivity]|]); constructor|]); (split; [discriminate|]);
    repeat (constructor; [split; [apply word_name; [discriminate|reflexivity]|]; split; [type_case|exact I]|]); constructor.
Qed.
(** users and lines can be created together when the digests of id and of order,no differ; users and orders cannot *)
Example C85_case : exists s s' s'', Forall2 (written (fun _ => true) (fun _ => []) (fun x => x) DPostgres) [users; lines_of; orders] [s; s'; s''] /\
  Forall (table_ok (fun _ => true) (fun _ => []) DPostgres) [users; lines_of; orders] /\ (exists r, creates false [] [s; s'] = Some r) /\ creates false [] [s; s'; s''] = None /\
  NoDup (flat_map (digest (fun x => x)) [users; lines_of]).
Proof.
  destruct (first_stmt (fun _ => true) (fun _ => []) (fun x => x) DPostgres users) as (c1 & W1); [discriminate|apply plain_table; [auto|cbn; auto]|].
  destruct (first_stmt (fun _ => true) (fun _ => []) (fun x => x) DPostgres lines_of) as (c2 & W2); [discriminate|apply plain_table; [auto|cbn; auto]|].
  destruct (first_stmt (fun _ => true) (fun _ => []) (fun x => x) DPostgres orders) as (c3 & W3); [discriminate|apply plain_table; [auto|cbn; auto]|].
  do 3 eexists. split; [constructor; [exact W1|constructor; [exact W2|constructor; [exact W3|constructor]]]|]. split; [repeat (constructor; [apply plain_table; [auto|cbn; auto]|]); constructor|].
  split; [eexists; reflexivity|]. split; [reflexivity|]. constructor; [vm_compute; intuition discriminate|]. constructor; [intros []|constructor].
Qed.
(** A name with a comma *)
Example C85_comma_case : join (B ",") [B "a,b"] = join (B ",") [B "a"; B "b"].
Proof. reflexivity. Qed.
Example C85_free_case : Forall free_name [B "users"; B "orders"] /\ ~ free_name (B "PK_x").
Proof. split; [repeat constructor|discriminate]. Qed.
