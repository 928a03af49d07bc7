(** Names, defaults and columns of migration files. *)
From Coq Require Import List Bool ZArith Lia.
From Verif Require Import SpecSql Base LemmasBase ModelStrconv ModelUtf8 LemmasUtf8 LemmasGen LemmasGen3 ModelGen ModelMigration ModelScript SpecScript SpecScript2 SpecMigration PropMigration LemmasScript LemmasScript2 LemmasScript3 LemmasScript4.
Import ListNotations.

Section Files.
Variable printable : N -> bool.
Variable format_float : N -> bytes.
Variable md5 : bytes -> bytes.
Variable d : driver.
Notation my := (my_of d).
Notation name_ok := (name_ok printable d).
Notation value_ok := (value_ok format_float d).
Notation denotes := (denotes format_float d).
Notation column_ok := (column_ok printable format_float d).
Notation column_is := (column_is format_float d).
Notation row_ok := (row_ok printable d).
Notation good := (good printable d).
Notation act_line := (act_line printable d).
Notation act_good := (act_good printable d).
Notation col_good := (col_good printable d).

(** ** Names *)
Lemma name_good n : name_ok n -> good n.
Proof.
  intros (us & _ & -> & SC & NL & H). assert (NQ : ~ In (code (idq my)) us).
  { unfold idq, my_of. destruct d; [exact H| |]; intros I; rewrite Forall_forall in H; destruct (H _ I) as (_ & X & _); apply X; reflexivity. }
  assert (CL : (code (idq my) < 128)%N) by (unfold idq; destruct my; reflexivity).
  split; [|split].
  - intros I. pose proof (utf8_no_char us (idq my) CL SC NQ) as F. rewrite Forall_forall in F. exact (F _ I eq_refl).
  - intros I. pose proof (utf8_no_char us LF eq_refl SC NL) as F. rewrite Forall_forall in F. exact (F _ I eq_refl).
  - unfold ident, dialect_quote, idq, my_of. destruct d; [reflexivity| |]; apply go_quote_sayable; exact H.
Qed.
(** Letters, digits and underscores *)
Lemma word_good n : Forall (fun c => is_alnum c || beq c "_" = true) n -> good n.
Proof.
  intros F. assert (R : forall c, is_alnum c || beq c "_" = true -> (48 <= code c <= 122)%N /\ code c <> 96%N /\ code c <> 92%N).
  { intros c H. apply orb_true_iff in H as [H|H]; [|apply beq_eq in H as ->; split; [split; discriminate|split; discriminate]]. unfold is_alnum, is_alpha, is_upper, is_lower, is_digit, in_range in H. rewrite !orb_true_iff, !andb_true_iff, !N.leb_le in H. lia. }
  assert (AS : Forall (fun c => (code c < 128)%N) n) by (eapply Forall_impl; [|exact F]; intros c H; pose proof (R c H); cbv beta; lia).
  assert (NI : forall c, (code c < 48)%N \/ code c = 96%N -> ~ In c n) by (intros c H I; rewrite Forall_forall in F; pose proof (R c (F c I)); lia).
  destruct (ascii_utf8 n AS) as (E & SC). split; [|split].
  - apply NI. unfold idq. destruct my; [right; reflexivity|left; reflexivity].
  - apply NI. left. reflexivity.
  - unfold ident, dialect_quote, idq, my_of. destruct d; [reflexivity| |].
    all: rewrite E at 1; rewrite go_quote_sayable; [rewrite <- E; reflexivity|]; rewrite Forall_forall; intros u I; apply in_map_iff in I as (c & <- & I); rewrite Forall_forall in F, SC; pose proof (R c (F c I)) as X; split; [apply SC, in_map, I|]; split; [lia|]; split; [lia|]; split; [lia|lia].
Qed.
Lemma pk_name_good pk : good (pk_name md5 pk).
Proof.
  apply word_good. unfold pk_name. apply Forall_app. split; [repeat constructor|]. apply Forall_app. split; [repeat constructor|]. eapply Forall_impl; [|apply hex_encode_is_hex]. intros c H. unfold is_hex in H. apply orb_true_iff in H. unfold is_alnum, is_alpha. apply orb_true_iff. left. rewrite !orb_true_iff.
  destruct H as [H|H]; [right; exact H|left; right]. unfold is_lower, in_range in *. rewrite andb_true_iff, !N.leb_le in *. lia.
Qed.
(** ** Defaults *)
Lemma digits_word n : Forall (fun c => word_char c = true) (format_uint n).
Proof. eapply Forall_impl; [|apply format_uint_digits]. intros c H. cbv beta in H. unfold word_char, is_alnum. rewrite H, orb_true_r. reflexivity. Qed.
Lemma digits_line n : one_line (format_uint n).
Proof. intros I. pose proof (format_uint_digits n) as F. unfold all_digits in F. rewrite Forall_forall in F. specialize (F _ I). discriminate F. Qed.
Lemma number_of_uint n : SpecSql.number_of (format_uint n) = n.
Proof. unfold SpecSql.number_of. rewrite (number_of_digits _ _ n); [reflexivity|apply digits_val_format]. Qed.
Lemma format_denotes v : value_ok v -> exists x ts, format format_float v = Ok x /\ default_text my x ts /\ denotes v ts.
Proof.
  destruct v as [s|b|z|f|s|s|]; cbn [SpecScript2.value_ok format SpecScript2.denotes]; intros H; try contradiction.
  - destruct H as (L & P). do 2 eexists. split; [reflexivity|]. split; [|reflexivity]. split; [apply one_line_cons; [discriminate|]; apply one_line_app; [exact L|apply one_line_b; reflexivity]|]. split; [apply piece_string, P|]. split; [discriminate|reflexivity].
  - do 2 eexists. split; [reflexivity|]. split; [|reflexivity]. split; [destruct b; apply one_line_b; reflexivity|]. split; [apply piece_word; destruct b; first [discriminate|repeat constructor]|]. split; [discriminate|reflexivity].
  - unfold format_int. destruct z as [|p|p].
    + do 2 eexists. split; [reflexivity|]. split; [split; [apply digits_line|]; split; [apply piece_word; [apply format_uint_nonempty|apply digits_word]|]; split; [discriminate|reflexivity]|]. exists (format_uint 0). split; [apply format_uint_digits|]. split; [apply number_of_uint|reflexivity].
    + do 2 eexists. split; [reflexivity|]. split; [split; [apply digits_line|]; split; [apply piece_word; [apply format_uint_nonempty|apply digits_word]|]; split; [discriminate|reflexivity]|]. eexists. split; [apply format_uint_digits|]. split; [apply number_of_uint|reflexivity].
    + do 2 eexists. split; [reflexivity|]. split; [split; [apply one_line_cons; [discriminate|apply digits_line]|]; split; [apply piece_minus; [apply format_uint_nonempty|apply digits_word]|]; split; [discriminate|reflexivity]|]. eexists. split; [apply format_uint_digits|]. split; [apply number_of_uint|reflexivity].
  - destruct H as (ts & H). do 2 eexists. split; [reflexivity|]. split; [exact H|]. apply H.
  - destruct H as (ts & H). do 2 eexists. split; [reflexivity|]. split; [exact H|]. apply H.
Qed.
(** ** Columns of the model *)
Lemma columns_formatted model : Forall column_ok model -> exists cols, all_formatted format_float model = Ok cols /\ Forall2 column_is model cols /\ Forall col_good cols.
Proof.
  induction 1 as [|g model (GN & GT & GD) F IH]; [exists []; repeat constructor|]. destruct IH as (cols & E & A & C). cbn [all_formatted]. unfold formatted. destruct (g_default g) as [v|] eqn:ED.
  - destruct (format_denotes v GD) as (x & ts & FE & DT & DN). rewrite FE. cbn [bind]. rewrite E. cbn [bind]. eexists. split; [reflexivity|]. split; constructor; try assumption.
    + split; [reflexivity|]. split; [reflexivity|]. split; [reflexivity|]. rewrite ED. cbn [m_default]. exists ts. split; assumption.
    + split; [apply name_good, GN|]. split; [exact GT|]. cbn [m_default]. exists ts. exact DT.
  - cbn [bind]. rewrite E. cbn [bind]. eexists. split; [reflexivity|]. split; constructor; try assumption.
    + split; [reflexivity|]. split; [reflexivity|]. split; [reflexivity|]. rewrite ED. exact I.
    + split; [apply name_good, GN|]. split; [exact GT|]. exact I.
Qed.
(** ** The comparison looks at names, types and NULL only *)
Lemma compare_same a b : Forall2 (fun x y => m_name x = m_name y /\ m_type x = m_type y /\ m_null x = m_null y) a b -> forall ex,
  let '(u, n, l) := compare_cols a ex in let '(u', n', l') := compare_cols b ex in length u = length u' /\ length n = length n' /\ l = l'.
Proof.
  induction 1 as [|x y a b (EN & ET & EU) F IH]; intros ex; [cbn; auto|]. cbn [compare_cols]. rewrite EN. destruct (take_col (m_name y) ex) as [[c r]|].
  - specialize (IH r). destruct (compare_cols a r) as [[u n] l]. destruct (compare_cols b r) as [[u' n'] l']. destruct IH as (A & C & D). rewrite ET, EU. destruct (bseq (m_type y) (t_type c) && Bool.eqb (m_null y) (t_null c)); cbn [length]; auto.
  - specialize (IH ex). destruct (compare_cols a ex) as [[u n] l]. destruct (compare_cols b ex) as [[u' n'] l']. destruct IH as (A & C & D). cbn [length]. auto.
Qed.
Lemma take_incl n ex c r : take_col n ex = Some (c, r) -> In c ex /\ incl r ex.
Proof.
  revert c r. induction ex as [|x ex IH]; intros c r E; [discriminate|]. cbn [take_col] in E. destruct (bseq (t_name x) n); [injection E as <- <-; split; [left; reflexivity|intros y I; right; exact I]|].
  destruct (take_col n ex) as [[y r']|]; [|discriminate]. injection E as <- <-. destruct (IH y r' eq_refl) as (A & C). split; [right; exact A|]. intros z [->|I]; [left; reflexivity|right; apply C, I].
Qed.
Lemma compare_incl a : forall ex u n l, compare_cols a ex = (u, n, l) -> (forall o m, In (o, m) u -> In o ex /\ In m a) /\ incl n a /\ incl l ex.
Proof.
  induction a as [|x a IH]; intros ex u n l E; [injection E as <- <- <-; split; [intros o m []|]; split; [intros y []|apply incl_refl]|]. cbn [compare_cols] in E. destruct (take_col (m_name x) ex) as [[c r]|] eqn:ET.
  - destruct (take_incl _ _ _ _ ET) as (Ic & Ir). destruct (compare_cols a r) as [[u' n'] l'] eqn:EC. destruct (IH _ _ _ _ EC) as (A & C & D). destruct (bseq (m_type x) (t_type c) && Bool.eqb (m_null x) (t_null c)); injection E as <- <- <-.
    + split; [intros o m I; destruct (A o m I); split; [apply Ir; assumption|right; assumption]|]. split; [intros y I; right; apply C, I|intros y I; apply Ir, D, I].
    + split; [intros o m [X|I]; [injection X as <- <-; split; [exact Ic|left; reflexivity]|destruct (A o m I); split; [apply Ir; assumption|right; assumption]]|]. split; [intros y I; right; apply C, I|intros y I; apply Ir, D, I].
  - destruct (compare_cols a ex) as [[u' n'] l'] eqn:EC. destruct (IH _ _ _ _ EC) as (A & C & D). injection E as <- <- <-. split; [intros o m I; destruct (A o m I); split; [assumption|right; assumption]|]. split; [intros y [->|I]; [left; reflexivity|right; apply C, I]|exact D].
Qed.
(** ** Actions *)
Definition row_good (c : tcol) : Prop := good (t_name c) /\ (exists ts, type_text my (t_type c) ts) /\ match t_default c with Some x => exists ts, default_text my x ts | None => True end.
Lemma ups_good u n l : (forall o m, In (o, m) u -> col_good m) -> Forall col_good n -> Forall (fun c => good (t_name c)) l -> Forall act_good (ups u n l).
Proof.
  intros HU HN HL. unfold ups. apply Forall_app. split; [|apply Forall_app; split].
  - apply Forall_forall. intros a I. apply in_flat_map in I as ([o m] & I & [<-|[]]). destruct (HU o m I) as (A & C & _). split; assumption.
  - apply Forall_forall. intros a I. apply in_flat_map in I as (m & I & [<-|[]]). rewrite Forall_forall in HN. destruct (HN m I) as (A & C & D). split; [exact A|]. split; assumption.
  - apply Forall_forall. intros a I. apply in_flat_map in I as (c & I & [<-|[]]). rewrite Forall_forall in HL. exact (HL c I).
Qed.
Lemma downs_good u n : (forall o m, In (o, m) u -> row_good o) -> Forall col_good n -> Forall act_good (downs u n []).
Proof.
  intros HU HN. unfold downs. apply Forall_app. split; [|apply Forall_app; split; [|constructor]].
  - apply Forall_forall. intros a I. apply in_flat_map in I as ([o m] & I & J). destruct (HU o m I) as (A & C & D). unfold down_updated in J. cbn [fst] in J. destruct J as [<-|J]; [split; assumption|]. apply in_app_iff in J as [J|J].
    + destruct (t_null o); [contradiction|]. destruct J as [<-|[]]. exact A.
    + destruct (t_default o); [|contradiction]. destruct J as [<-|[]]. split; assumption.
  - apply Forall_forall. intros a I. apply in_flat_map in I as (m & I & [<-|[]]). rewrite Forall_forall in HN. destruct (HN m I) as (A & _). exact A.
Qed.
(** ** Columns that are added without a type *)
Definition act_fine (a : action) : Prop :=
  match a with
  | Add n None _ x => good n /\ match x with Some x => exists ts, default_text my x ts | None => True end
  | _ => act_good a
  end.
Definition typeless (a : action) : bool := match a with Add _ None _ _ => true | _ => false end.
Lemma fine_reads a : act_fine a -> exists ts, piece my (act_line a) = Some ts /\ calm 0 ts = true /\ one_line (act_line a) /\ ts <> [] /\ (typeless a = true -> read_act ts = None).
Proof.
  intros F. destruct (typeless a) eqn:T.
  - destruct a as [| | |n [ty|] b x|]; try discriminate. cbn [act_fine] in F. destruct F as (G & D).
    assert (DT : exists dt, default_ok d x dt) by (destruct x as [x|]; [destruct D as (ts & D); exists (Some ts); exact D|exists None; exact I]). destruct DT as (dt & DO).
    destruct (def_piece d _ _ [] [] DO (piece_nil my) I) as [P1 S1]. rewrite app_nil_r in P1, S1. rewrite app_nil_r in P1. destruct (null_piece d b _ _ P1 S1) as [P2 S2].
    exists ([Wd (B "ADD"); Wd (B "COLUMN")] ++ [Nm n] ++ null_toks b ++ def_toks dt). cbn [LemmasScript2.act_line]. split; [|split; [|split; [|split; [discriminate|]]]].
    + apply tab_piece. apply eats_piece; [reflexivity|]. apply piece_app; [apply good_piece, G|exact P2|exact S2].
    + cbn [app calm sym]. apply calm_app; [apply calm_null|apply (calm_def d _ _ DO)].
    + apply one_line_cons; [discriminate|]. apply lit_line; [reflexivity|]. apply one_line_app; [apply good_line, G|]. cbn [app]. apply one_line_app; [destruct b; apply one_line_b; reflexivity|]. destruct x as [x|], dt as [dt|]; try contradiction; [|intros []]. destruct DO as (L & _). apply one_line_app; [apply one_line_b; reflexivity|exact L].
    + intros _. change (option_map SAdd (read_col (Nm n :: null_toks b ++ def_toks dt)) = None). cbn [read_col]. replace (until_clause (null_toks b ++ def_toks dt)) with (@nil stok, null_toks b ++ def_toks dt) by (destruct b, dt; reflexivity).
      destruct (skip [B "NOT"; B "NULL"] (null_toks b ++ def_toks dt)); reflexivity.
  - destruct (act_reads printable d a) as (ts & s & P & C & R & A & L); [destruct a as [| | |n [ty|] b x|]; try exact F; discriminate|]. exists ts. split; [exact P|]. split; [exact C|]. split; [exact L|]. split; [intros ->; discriminate R|discriminate].
Qed.
Lemma fines_read acts : Forall act_fine acts -> exists tss, Forall2 (fun a ts => piece my (act_line a) = Some ts) acts tss /\ Forall (fun ts => calm 0 ts = true) tss /\ Forall one_line (map act_line acts) /\ Forall (fun ts => ts <> []) tss /\ (existsb typeless acts = true -> read_acts tss = None).
Proof.
  induction 1 as [|a acts G F IH]; [exists []; repeat constructor; discriminate|]. destruct (fine_reads a G) as (ts & P & C & L & NE & T). destruct IH as (tss & P' & C' & L' & NE' & T'). exists (ts :: tss).
  split; [constructor; assumption|]. split; [constructor; assumption|]. split; [constructor; assumption|]. split; [constructor; assumption|]. cbn [existsb read_acts]. intros H. apply orb_true_iff in H as [H|H]; [rewrite T by exact H; reflexivity|]. rewrite T' by exact H. destruct (read_act ts); reflexivity.
Qed.
Lemma down_rejected t acts : good t -> Forall act_fine acts -> existsb typeless acts = true -> read_section my (down_section printable d t acts) = None.
Proof.
  intros G F H. destruct (fines_read acts F) as (tss & P & C & L & NE & T). specialize (T H). destruct (alter_toks printable d t acts tss G P) as (uss & FU & E).
  unfold read_section, down_section. rewrite (section_tokens my (down_comment :: (B "ALTER TABLE " ++ ident printable d t) :: ended (B ";") (map act_line acts)) ([] :: uss)) by (constructor; [unfold eats, scan; case my; reflexivity|exact FU]). cbn [concat app]. rewrite E.
  rewrite (statements_quiet _ [] [] (alter_quiet t tss C)). cbn [statements option_map app read_stmts]. replace (read_stmt my (Wd (B "ALTER") :: Wd (B "TABLE") :: Nm t :: commas tss)) with (@None sstmt); [reflexivity|].
  unfold read_stmt. change (skip [B "CREATE"; B "TABLE"; B "IF"; B "NOT"; B "EXISTS"] _) with (@None (list stok)). change (skip [B "ALTER"; B "TABLE"] _) with (Some (Nm t :: commas tss)). cbv iota beta.
  destruct tss as [|ts tss]; [discriminate T|]. rewrite items_commas by (discriminate || exact C). rewrite T.
  assert (NN : commas (ts :: tss) <> []) by (inversion NE as [|? ? N1 _]; subst; destruct ts; [contradiction|]; destruct tss; discriminate).
  destruct (commas (ts :: tss)); [contradiction|]. reflexivity.
Qed.
End Files.
