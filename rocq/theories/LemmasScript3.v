(** The whole migration file: its sections and their statements. *)
From Coq Require Import List Bool ZArith Lia.
From Verif Require Import SpecSql Base LemmasBase ModelStrconv ModelGen ModelMigration ModelScript SpecScript SpecScript2 LemmasScript LemmasScript2.
Import ListNotations.

Section Files.
Variable printable : N -> bool.
Variable md5 : bytes -> bytes.
Variable d : driver.
Notation my := (my_of d).
Notation idn := (ident printable d).
Notation good := (good printable d).
Notation act_line := (act_line printable d).
Notation act_good := (act_good printable d).
Notation col_good := (col_good printable d).
Ltac lit := first [reflexivity|unfold eats, starts, sep, opens, piece, scan; case my; reflexivity].

(** ** The texts as lines *)
Ltac tx := rewrite ?app_nil_r; unfold comma_lf; cbn [app]; rewrite <- ?app_assoc; cbn [app]; rewrite <- ?app_assoc; reflexivity.
Notation fl := (flat_map (fun a => act_line a ++ comma_lf)).
Lemma up_updated_lines p : up_updated_text printable d p = fl (up_updated p).
Proof. unfold up_updated_text, up_updated. cbn [flat_map LemmasScript2.act_line]. tx. Qed.
Lemma up_new_lines m : up_new_text printable d m = fl (up_new m).
Proof. unfold up_new_text, up_new. rewrite col_text_eq. cbn [flat_map LemmasScript2.act_line]. tx. Qed.
Lemma up_left_lines c : up_left_text printable d c = fl (up_left c).
Proof. unfold up_left_text, up_left. cbn [flat_map LemmasScript2.act_line]. tx. Qed.
Lemma down_updated_lines p : down_updated_text printable d p = fl (down_updated p).
Proof.
  unfold down_updated_text, down_updated. cbn [flat_map]. rewrite flat_map_app. f_equal; [cbn [LemmasScript2.act_line app]; rewrite <- !app_assoc; reflexivity|]. f_equal.
  - destruct (t_null (fst p)); [reflexivity|]. cbn [flat_map LemmasScript2.act_line]. tx.
  - destruct (t_default (fst p)); [|reflexivity]. cbn [flat_map LemmasScript2.act_line]. tx.
Qed.
Lemma down_new_lines m : down_new_text printable d m = fl (down_new m).
Proof. unfold down_new_text, down_new. cbn [flat_map LemmasScript2.act_line]. tx. Qed.
Lemma down_left_lines c : down_left_text printable d c = fl (down_left c).
Proof. unfold down_left_text, down_left. cbn [flat_map LemmasScript2.act_line]. tx. Qed.
Lemma flat_flat {A} (f : A -> bytes) (g : A -> list action) l : (forall x, f x = fl (g x)) -> flat_map f l = fl (flat_map g l).
Proof. intros H. induction l as [|x l IH]; [reflexivity|]. cbn [flat_map]. rewrite flat_map_app, H, IH. reflexivity. Qed.
Definition ups u n l := flat_map up_updated u ++ flat_map up_new n ++ flat_map up_left l.
Definition downs u n l := flat_map down_updated u ++ flat_map down_new n ++ flat_map down_left l.
Lemma up_lines u n l : flat_map (up_updated_text printable d) u ++ flat_map (up_new_text printable d) n ++ flat_map (up_left_text printable d) l = fl (ups u n l).
Proof. unfold ups. rewrite !flat_map_app. rewrite (flat_flat _ _ u up_updated_lines), (flat_flat _ _ n up_new_lines), (flat_flat _ _ l up_left_lines). reflexivity. Qed.
Lemma down_lines u n l : flat_map (down_updated_text printable d) u ++ flat_map (down_new_text printable d) n ++ flat_map (down_left_text printable d) l = fl (downs u n l).
Proof. unfold downs. rewrite !flat_map_app. rewrite (flat_flat _ _ u down_updated_lines), (flat_flat _ _ n down_new_lines), (flat_flat _ _ l down_left_lines). reflexivity. Qed.
(** The ALTER statement *)
Lemma lines_lf z : lines (LF :: z) = [] :: lines z. Proof. reflexivity. Qed.
Lemma alter_text t acts : good t -> trim (alter_head printable d t ++ fl acts) ++ B ";" = LF :: (B "ALTER TABLE " ++ idn t) ++ LF :: (match acts with [] => [] | _ => join comma_lf (map act_line acts) end ++ B ";").
Proof.
  intros (_ & _ & E). destruct acts as [|a acts].
  - cbn [flat_map]. rewrite app_nil_r. unfold alter_head. rewrite E. replace (LF :: B "ALTER TABLE " ++ (idq my :: t ++ [idq my]) ++ [LF]) with ((LF :: B "ALTER TABLE " ++ idq my :: t) ++ [idq my; LF]) by tx.
    rewrite trim_other by (unfold idq; destruct my; discriminate). tx.
  - assert (F : fl (a :: acts) = flat_map (fun x => x ++ comma_lf) (map act_line (a :: acts))) by (generalize (a :: acts) as l; induction l as [|x l IH]; [reflexivity|]; cbn [flat_map map]; rewrite IH; reflexivity).
    rewrite F, flat_join by discriminate. rewrite app_assoc, trim_comma. unfold alter_head. tx.
Qed.
Lemma alter_text_lines t acts : good t -> Forall one_line (map act_line acts) -> lines (trim (alter_head printable d t ++ fl acts) ++ B ";") = [] :: (B "ALTER TABLE " ++ idn t) :: ended (B ";") (map act_line acts).
Proof.
  intros G L. rewrite (alter_text t acts G). rewrite lines_lf, lines_app. rewrite (lines_one (_ ++ idn t)) by (apply lit_line; [reflexivity|apply good_line, G]). cbn [app]. do 2 f_equal.
  destruct acts as [|a acts]; [reflexivity|]. apply lines_join; [exact L|apply one_line_b; reflexivity|discriminate].
Qed.
(** The CREATE statement *)
Definition pk_lines (pk : list bytes) : list bytes :=
  match pk with [] => [] | _ => [TAB :: B "CONSTRAINT " ++ idn (pk_name md5 pk) ++ B " PRIMARY KEY (" ++ join (B ",") (map idn pk) ++ B ")"] end.
Definition body_lines (cols : list mcol) (pk : list bytes) : list bytes := map (fun m => TAB :: col_text printable d m) cols ++ pk_lines pk.
Lemma join_snoc l x : l <> [] -> join comma_lf (l ++ [x]) = join comma_lf l ++ comma_lf ++ x.
Proof.
  induction l as [|y l IH]; intros N; [contradiction|]. destruct l as [|z l]; [reflexivity|]. change (join comma_lf (y :: z :: l)) with (y ++ comma_lf ++ join comma_lf (z :: l)). change (join comma_lf ((y :: z :: l) ++ [x])) with (y ++ comma_lf ++ join comma_lf ((z :: l) ++ [x])). rewrite IH by discriminate. rewrite <- !app_assoc. reflexivity.
Qed.
Lemma create_lines t cols pk : good t -> cols <> [] -> Forall one_line (body_lines cols pk) ->
  lines (create_text printable md5 d t cols pk) = [] :: (B "CREATE TABLE IF NOT EXISTS " ++ idn t ++ B " (") :: ended [] (body_lines cols pk) ++ [B ");"].
Proof.
  intros G N L.
  assert (E : create_text printable md5 d t cols pk = [] ++ LF :: ((B "CREATE TABLE IF NOT EXISTS " ++ idn t ++ B " (") ++ LF :: ((join comma_lf (body_lines cols pk) ++ []) ++ LF :: B ");"))).
  { unfold create_text. cbn [app]. rewrite !app_nil_r, <- !app_assoc. do 4 f_equal. cbn [app]. f_equal. rewrite app_assoc. f_equal. unfold body_lines, pk_lines, pk_text. destruct pk as [|k pk]; [rewrite !app_nil_r; reflexivity|]. rewrite join_snoc by (destruct cols; [contradiction|discriminate]). reflexivity. }
  rewrite E, !lines_app, lines_join; [|exact L|intros []|unfold body_lines; destruct cols; [contradiction|discriminate]].
  rewrite (lines_one (_ ++ idn t ++ _)) by (apply lit_line; [reflexivity|]; apply one_line_app; [apply good_line, G|apply one_line_b; reflexivity]). reflexivity.
Qed.
(** ** Primary key *)
Definition names_toks (pk : list bytes) : list stok := commas (map (fun n => [Nm n]) pk).
Lemma read_names_toks pk : pk <> [] -> read_names (names_toks pk ++ [Sy ")"]) = Some pk.
Proof.
  induction pk as [|n pk IH]; intros N; [contradiction|]. destruct pk as [|k pk]; [reflexivity|]. unfold names_toks in *. cbn [map] in *. change (commas ([Nm n] :: [Nm k] :: map (fun n => [Nm n]) pk)) with (Nm n :: Sy "," :: commas ([Nm k] :: map (fun n => [Nm n]) pk)). cbn [app].
  set (r := commas ([Nm k] :: map (fun n0 => [Nm n0]) pk) ++ [Sy ")"]) in *. assert (R : r <> []) by (unfold r; destruct (commas ([Nm k] :: map (fun n0 => [Nm n0]) pk)); discriminate). destruct r as [|x r]; [contradiction|].
  change (read_names (Nm n :: Sy "," :: x :: r)) with (option_map (cons n) (read_names (x :: r))). rewrite IH by discriminate. reflexivity.
Qed.
Lemma names_calm pk : forall k b, calm (S k) b = true -> calm (S k) (names_toks pk ++ b) = true.
Proof.
  unfold names_toks. induction pk as [|n pk IH]; intros k b H; [exact H|]. destruct pk as [|m pk]; [exact H|]. exact (IH k b H).
Qed.
Lemma names_piece pk : Forall good pk -> pk <> [] -> piece my (join (B ",") (map idn pk)) = Some (names_toks pk).
Proof.
  intros F N. induction F as [|n pk G F IH]; [contradiction|]. destruct pk as [|k pk]; [apply good_piece, G|]. change (join (B ",") (map idn (n :: k :: pk))) with (idn n ++ ","%char :: join (B ",") (map idn (k :: pk))). change (names_toks (n :: k :: pk)) with ([Nm n] ++ [Sy ","] ++ names_toks (k :: pk)).
  apply piece_app; [apply good_piece, G| |apply cm_starts]. apply (eats_piece my [","%char]); [lit|]. apply IH. discriminate.
Qed.
Definition key_toks (pk : list bytes) : list stok := [Wd (B "CONSTRAINT")] ++ [Nm (pk_name md5 pk)] ++ [Wd (B "PRIMARY"); Wd (B "KEY"); Sy "("] ++ names_toks pk ++ [Sy ")"].
Lemma key_reads pk : pk <> [] -> good (pk_name md5 pk) -> Forall good pk ->
  exists x, pk_lines pk = [TAB :: x] /\ piece my (TAB :: x) = Some (key_toks pk) /\ calm 0 (key_toks pk) = true /\ read_key (key_toks pk) = Some (pk_name md5 pk, pk) /\ one_line (TAB :: x).
Proof.
  intros N G F. exists (B "CONSTRAINT " ++ idn (pk_name md5 pk) ++ B " PRIMARY KEY (" ++ join (B ",") (map idn pk) ++ B ")"). split; [destruct pk; [contradiction|reflexivity]|]. split; [|split; [|split]].
  - apply tab_piece. apply eats_piece; [lit|]. apply piece_app; [apply good_piece, G| |apply sp_starts]. apply eats_piece; [lit|]. apply piece_app; [apply names_piece; assumption|lit|apply rp_starts].
  - change (calm 1 (names_toks pk ++ [Sy ")"]) = true). apply names_calm. reflexivity.
  - change (option_map (pair (pk_name md5 pk)) (read_names (names_toks pk ++ [Sy ")"])) = Some (pk_name md5 pk, pk)). rewrite read_names_toks by exact N. reflexivity.
  - apply one_line_cons; [discriminate|]. apply lit_line; [reflexivity|]. apply one_line_app; [apply good_line, G|]. apply lit_line; [reflexivity|]. apply one_line_app; [|apply one_line_b; reflexivity].
    clear G N. induction F as [|n pk G F IH]; [intros []|]. destruct pk as [|k pk]; [apply good_line, G|]. apply one_line_app; [apply good_line, G|]. apply lit_line; [reflexivity|exact IH].
Qed.
(** ** The body of CREATE TABLE *)
Lemma read_col_key ts c : read_col ts = Some c -> read_key ts = None.
Proof. destruct ts as [|[w|n|s|x] ts]; try discriminate. reflexivity. Qed.
Lemma cols_read cols : Forall col_good cols -> exists tss cs, Forall2 (fun x ts => piece my x = Some ts) (map (fun m => TAB :: col_text printable d m) cols) tss /\ Forall (fun ts => calm 0 ts = true) tss /\
  Forall2 (fun ts c => read_col ts = Some c) tss cs /\ Forall2 (col_says my) cols cs /\ Forall one_line (map (fun m => TAB :: col_text printable d m) cols).
Proof.
  induction 1 as [|m cols G F IH]; [exists [], []; repeat constructor|]. destruct (col_reads printable d m G) as (ts & c & P & C & R & A & L). destruct IH as (tss & cs & P' & C' & R' & A' & L'). exists (ts :: tss), (c :: cs).
  split; [constructor; [apply tab_piece, P|exact P']|]. split; [constructor; assumption|]. split; [constructor; assumption|]. split; [constructor; assumption|]. constructor; [apply one_line_cons; [discriminate|exact L]|exact L'].
Qed.
Lemma read_body_cols tss cs : Forall2 (fun ts c => read_col ts = Some c) tss cs -> read_body tss = Some (cs, None).
Proof.
  induction 1 as [|ts c tss cs R F IH]; [reflexivity|]. cbn [read_body]. rewrite (read_col_key _ _ R), R, IH. destruct tss; [inversion F; subst; reflexivity|reflexivity].
Qed.
Lemma read_body_key tss cs k kt : Forall2 (fun ts c => read_col ts = Some c) tss cs -> read_key kt = Some k -> read_body (tss ++ [kt]) = Some (cs, Some k).
Proof.
  intros F K. induction F as [|ts c tss cs R F IH]; [cbn [app read_body]; rewrite K; reflexivity|]. cbn [app read_body]. rewrite R, IH. destruct (tss ++ [kt]) eqn:E; [destruct tss; discriminate|reflexivity].
Qed.
Definition key_of (pk : list bytes) : option (bytes * list bytes) := match pk with [] => None | _ => Some (pk_name md5 pk, pk) end.
Lemma body_reads cols pk : cols <> [] -> Forall col_good cols -> Forall good pk -> (pk <> [] -> good (pk_name md5 pk)) ->
  exists tss cs k, Forall2 (fun x ts => piece my x = Some ts) (body_lines cols pk) tss /\ tss <> [] /\ Forall (fun ts => calm 0 ts = true) tss /\ read_body tss = Some (cs, k) /\
    Forall2 (col_says my) cols cs /\ k = key_of pk /\ Forall one_line (body_lines cols pk) /\ Forall (fun x => exists y, x = TAB :: y) (body_lines cols pk).
Proof.
  intros N F FP GP. destruct (cols_read cols F) as (tss & cs & P & C & R & A & L).
  assert (TB : Forall (fun x => exists y, x = TAB :: y) (map (fun m => TAB :: col_text printable d m) cols)) by (apply Forall_forall; intros x I; apply in_map_iff in I as (m & <- & _); eexists; reflexivity).
  assert (NT : tss <> []) by (destruct cols; [contradiction|]; inversion P; discriminate).
  unfold body_lines. destruct pk as [|k pk].
  - exists tss, cs, None. cbn [pk_lines]. rewrite !app_nil_r. split; [exact P|]. split; [exact NT|]. split; [exact C|]. split; [apply read_body_cols, R|]. split; [exact A|]. split; [reflexivity|]. split; assumption.
  - destruct (key_reads (k :: pk) ltac:(discriminate) (GP ltac:(discriminate)) FP) as (x & E & KP & KC & KR & KL). rewrite E. exists (tss ++ [key_toks (k :: pk)]), cs, (Some (pk_name md5 (k :: pk), k :: pk)).
    split; [apply Forall2_app; [exact P|constructor; [exact KP|constructor]]|]. split; [destruct tss; discriminate|]. split; [apply Forall_app; split; [exact C|constructor; [exact KC|constructor]]|]. split; [apply read_body_key; assumption|]. split; [exact A|]. split; [reflexivity|].
    split; apply Forall_app; (split; [assumption|]); constructor; [exact KL|constructor|eexists; reflexivity|constructor].
Qed.
(** ** Statements *)
Lemma read_create t tss cs k : tss <> [] -> Forall (fun ts => calm 0 ts = true) tss -> read_body tss = Some (cs, k) ->
  read_stmt my ([Wd (B "CREATE"); Wd (B "TABLE"); Wd (B "IF"); Wd (B "NOT"); Wd (B "EXISTS"); Nm t; Sy "("] ++ commas tss ++ [Sy ")"]) = Some (SCreate t cs k).
Proof.
  intros N C R. unfold read_stmt. change (skip [B "CREATE"; B "TABLE"; B "IF"; B "NOT"; B "EXISTS"] _) with (Some (Nm t :: Sy "(" :: commas tss ++ [Sy ")"])). cbv iota beta. rewrite rev_app_distr. cbn [rev app sym]. rewrite !(proj2 (beq_eq _ _) eq_refl). cbn [andb]. rewrite rev_involutive, items_commas by assumption. rewrite R. reflexivity.
Qed.
Lemma read_alter t tss ss : Forall (fun ts => calm 0 ts = true) tss -> read_acts tss = Some ss -> (tss = [] -> my = true) ->
  read_stmt my ([Wd (B "ALTER"); Wd (B "TABLE"); Nm t] ++ commas tss) = Some (SAlter t ss).
Proof.
  intros C R H. unfold read_stmt. change (skip [B "CREATE"; B "TABLE"; B "IF"; B "NOT"; B "EXISTS"] _) with (@None (list stok)). change (skip [B "ALTER"; B "TABLE"] _) with (Some (Nm t :: commas tss)). cbv iota beta.
  destruct tss as [|ts tss]; [rewrite H by reflexivity; cbn in R; injection R as <-; reflexivity|]. rewrite items_commas by (discriminate || exact C). rewrite R.
  assert (NN : commas (ts :: tss) <> []). { cbn [read_acts] in R. destruct ts as [|x ts]; [discriminate|]. destruct tss; discriminate. } destruct (commas (ts :: tss)); [contradiction|reflexivity].
Qed.
(** ** The file *)
Definition up_comment : bytes := B "-- SQL in section 'Up' is executed when this migration is applied".
Definition down_comment : bytes := B "-- SQL section 'Down' is executed when this migration is rolled back".
Definition up_section t cols pk acts : list bytes :=
  up_comment :: (B "CREATE TABLE IF NOT EXISTS " ++ idn t ++ B " (") :: ended [] (body_lines cols pk) ++ B ");" :: (B "ALTER TABLE " ++ idn t) :: ended (B ";") (map act_line acts) ++ [[]].
Definition down_section t acts : list bytes := down_comment :: (B "ALTER TABLE " ++ idn t) :: ended (B ";") (map act_line acts).
Lemma act_tabs acts : Forall (fun x => exists y, x = TAB :: y) (map act_line acts).
Proof. apply Forall_forall. intros x I. apply in_map_iff in I as (a & <- & _). destruct a; eexists; reflexivity. Qed.
Lemma file_sections t cols pk u n l : good t -> cols <> [] -> Forall one_line (body_lines cols pk) -> Forall (fun x => exists y, x = TAB :: y) (body_lines cols pk) ->
  Forall one_line (map act_line (ups u n l)) -> Forall one_line (map act_line (downs u n l)) ->
  sections (file_text printable md5 d t cols pk u n l) (up_section t cols pk (ups u n l)) (down_section t (downs u n l)).
Proof.
  intros G N LB TB LU LD. split.
  - unfold file_text. rewrite up_lines, down_lines.
    assert (CR : exists x, create_text printable md5 d t cols pk = LF :: x) by (eexists; reflexivity). destruct CR as (cr & CR).
    assert (AL : forall acts, exists x, trim (alter_head printable d t ++ fl acts) ++ B ";" = LF :: x) by (intros acts; rewrite (alter_text t acts G); eexists; reflexivity).
    destruct (AL (ups u n l)) as (au & AU). destruct (AL (downs u n l)) as (ad & AD).
    pose proof (create_lines t cols pk G N LB) as LC. pose proof (alter_text_lines t _ G LU) as LAU. pose proof (alter_text_lines t _ G LD) as LAD. rewrite CR in LC. rewrite AU in LAU. rewrite AD in LAD.
    cbn [lines] in LC, LAU, LAD. rewrite (proj2 (beq_eq LF LF) eq_refl) in LC, LAU, LAD. injection LC as LC. injection LAU as LAU. injection LAD as LAD.
    rewrite CR. replace (trim (alter_head printable d t ++ fl (ups u n l)) ++ B ";" ++ [LF; LF] ++ B "-- +migrate Down" ++ LF :: B "-- SQL section 'Down' is executed when this migration is rolled back" ++ trim (alter_head printable d t ++ fl (downs u n l)) ++ B ";")
      with (LF :: au ++ LF :: [] ++ LF :: B "-- +migrate Down" ++ LF :: down_comment ++ LF :: ad) by (rewrite <- AD, app_comm_cons, <- AU, <- app_assoc; reflexivity).
    change (B "-- +migrate Up" ++ LF :: B "-- SQL in section 'Up' is executed when this migration is applied" ++ ?x) with (B "-- +migrate Up" ++ LF :: up_comment ++ x). cbn [app].
    rewrite !lines_app, lines_lf, !lines_app, LC, LAU, LAD.
    change (lines (B "-- +migrate Up")) with [B "-- +migrate Up"]. change (lines (B "-- +migrate Down")) with [B "-- +migrate Down"]. change (lines up_comment) with [up_comment]. change (lines down_comment) with [down_comment].
    unfold up_section, down_section. cbn [app]. rewrite <- !app_assoc. cbn [app]. rewrite <- !app_assoc. reflexivity.
  - unfold up_section, down_section. cbn [app]. repeat (constructor; [reflexivity|]). rewrite <- !app_assoc. apply Forall_app. split; [apply ended_commands; [reflexivity|exact TB]|]. cbn [app]. repeat (constructor; [reflexivity|]). apply Forall_app. split; [apply Forall_app; split; [apply ended_commands; [reflexivity|apply act_tabs]|repeat constructor]|].
    repeat (constructor; [reflexivity|]). apply ended_commands; [reflexivity|apply act_tabs].
Qed.
Lemma alter_toks t acts tss : good t -> Forall2 (fun a ts => piece my (act_line a) = Some ts) acts tss ->
  exists uss, Forall2 (fun x us => eats my (x ++ [LF]) us) ((B "ALTER TABLE " ++ idn t) :: ended (B ";") (map act_line acts)) uss /\ concat uss = ([Wd (B "ALTER"); Wd (B "TABLE"); Nm t] ++ commas tss) ++ [Sy ";"].
Proof.
  intros G F. assert (F' : Forall2 (fun x ts => piece my x = Some ts) (map act_line acts) tss) by (induction F; constructor; assumption). destruct (ended_semi d _ _ F') as (uss & A & E).
  exists ([Wd (B "ALTER"); Wd (B "TABLE"); Nm t] :: uss). split; [constructor; [|exact A]|cbn [concat]; rewrite E, <- app_assoc; reflexivity].
  apply piece_line. change [Wd (B "ALTER"); Wd (B "TABLE"); Nm t] with ([Wd (B "ALTER"); Wd (B "TABLE")] ++ [Nm t]). apply eats_piece; [lit|apply good_piece, G].
Qed.
Lemma alter_quiet t tss : Forall (fun ts => calm 0 ts = true) tss -> quiet ([Wd (B "ALTER"); Wd (B "TABLE"); Nm t] ++ commas tss).
Proof. intros C. apply Forall_app. split; [repeat constructor|]. apply commas_quiet. eapply Forall_impl; [|exact C]. intros ts. apply calm_quiet. Qed.
Lemma down_reads t acts : good t -> Forall act_good acts -> (acts = [] -> my = true) -> exists ss, read_section my (down_section t acts) = Some [SAlter t ss] /\ Forall2 (act_says my) acts ss.
Proof.
  intros G F H. destruct (acts_read printable d acts F) as (tss & ss & P & C & R & A & L). destruct (alter_toks t acts tss G P) as (uss & FU & E). exists ss. split; [|exact A].
  unfold read_section, down_section. rewrite (section_tokens my (down_comment :: (B "ALTER TABLE " ++ idn t) :: ended (B ";") (map act_line acts)) ([] :: uss)) by (constructor; [lit|exact FU]). cbn [concat app]. rewrite E.
  rewrite (statements_quiet _ [] [] (alter_quiet t tss C)). cbn [statements option_map app]. cbn [read_stmts]. change (Wd (B "ALTER") :: Wd (B "TABLE") :: Nm t :: commas tss) with ([Wd (B "ALTER"); Wd (B "TABLE"); Nm t] ++ commas tss).
  rewrite (read_alter t tss ss C R); [reflexivity|]. intros ->. apply H. inversion P. reflexivity.
Qed.
Lemma up_reads t cols pk acts : good t -> cols <> [] -> Forall col_good cols -> Forall good pk -> (pk <> [] -> good (pk_name md5 pk)) -> Forall act_good acts -> (acts = [] -> my = true) ->
  exists ss, read_section my (up_section t cols pk acts) = Some ss /\ Forall2 (stmt_says my t) [Create cols pk; Alter acts] ss /\ exists cs as', ss = [SCreate t cs (key_of pk); SAlter t as'].
Proof.
  intros G N FC FP GP F H. destruct (acts_read printable d acts F) as (tss & ss & P & C & R & A & L). destruct (alter_toks t acts tss G P) as (uss & FU & E).
  destruct (body_reads cols pk N FC FP GP) as (bts & cs & k & BP & BN & BC & BR & BS & BK & _ & _). destruct (ended_none d _ _ BP) as (bus & BFU & BE).
  exists [SCreate t cs k; SAlter t ss]. split.
  - unfold read_section, up_section.
    rewrite (section_tokens my _ ([] :: [Wd (B "CREATE"); Wd (B "TABLE"); Wd (B "IF"); Wd (B "NOT"); Wd (B "EXISTS"); Nm t; Sy "("] :: bus ++ [Sy ")"; Sy ";"] :: uss ++ [[]])).
    + cbn [concat app]. rewrite concat_app. cbn [concat]. rewrite concat_app, BE, E. cbn [concat app].
      match goal with |- context [statements [] ?x] => replace x
        with (([Wd (B "CREATE"); Wd (B "TABLE"); Wd (B "IF"); Wd (B "NOT"); Wd (B "EXISTS"); Nm t; Sy "("] ++ commas bts ++ [Sy ")"]) ++ Sy ";" :: (([Wd (B "ALTER"); Wd (B "TABLE"); Nm t] ++ commas tss) ++ Sy ";" :: [])) by (cbn [app]; rewrite <- ?app_assoc, ?app_nil_r; cbn [app]; rewrite <- ?app_assoc; reflexivity) end.
      rewrite statements_quiet; [|apply Forall_app; split; [repeat constructor|]; apply Forall_app; split; [|repeat constructor]; apply commas_quiet; eapply Forall_impl; [|exact BC]; intros ts; apply calm_quiet].
      rewrite (statements_quiet _ [] [] (alter_quiet t tss C)). cbn [statements option_map]. rewrite !app_nil_l. cbn [read_stmts]. rewrite (read_create t bts cs k BN BC BR), (read_alter t tss ss C R); [reflexivity|]. intros ->. apply H. inversion P. reflexivity.
    + constructor; [lit|]. constructor.
      * change [Wd (B "CREATE"); Wd (B "TABLE"); Wd (B "IF"); Wd (B "NOT"); Wd (B "EXISTS"); Nm t; Sy "("] with ([Wd (B "CREATE"); Wd (B "TABLE"); Wd (B "IF"); Wd (B "NOT"); Wd (B "EXISTS")] ++ [Nm t] ++ [Sy "("]). apply piece_line. apply eats_piece; [lit|]. apply piece_app; [apply good_piece, G|lit|apply sp_starts].
      * apply Forall2_app; [exact BFU|]. constructor; [lit|]. change ((B "ALTER TABLE " ++ idn t) :: ended (B ";") (map act_line acts) ++ [[]]) with (((B "ALTER TABLE " ++ idn t) :: ended (B ";") (map act_line acts)) ++ [[]]). apply Forall2_app; [exact FU|]. constructor; [lit|constructor].
  - split; [|subst k; do 2 eexists; reflexivity]. constructor; [|constructor; [|constructor]]; [split; [reflexivity|]; split; [assumption|]; subst k; destruct pk; [reflexivity|eexists; reflexivity]|]. split; [reflexivity|exact A].
Qed.
Theorem file_reads t cols pk u n l : good t -> cols <> [] -> Forall col_good cols -> Forall good pk -> (pk <> [] -> good (pk_name md5 pk)) -> Forall act_good (ups u n l) -> (ups u n l = [] -> my = true) ->
  Forall act_good (downs u n l) -> (downs u n l = [] -> my = true) ->
  exists up down us ds, sections (file_text printable md5 d t cols pk u n l) up down /\ read_section my up = Some us /\ Forall2 (stmt_says my t) [Create cols pk; Alter (ups u n l)] us /\
    read_section my down = Some ds /\ Forall2 (stmt_says my t) [Alter (downs u n l)] ds.
Proof.
  intros G N FC FP GP FU HU FD HD. destruct (up_reads t cols pk _ G N FC FP GP FU HU) as (us & RU & SU & _). destruct (down_reads t _ G FD HD) as (ds & RD & SD).
  destruct (body_reads cols pk N FC FP GP) as (_ & _ & _ & _ & _ & _ & _ & _ & _ & LB & TB). destruct (acts_read printable d _ FU) as (_ & _ & _ & _ & _ & _ & LU). destruct (acts_read printable d _ FD) as (_ & _ & _ & _ & _ & _ & LD).
  do 4 eexists. split; [apply file_sections; eassumption|]. split; [exact RU|]. split; [exact SU|]. split; [exact RD|]. constructor; [|constructor]. split; [reflexivity|exact SD].
Qed.
End Files.
