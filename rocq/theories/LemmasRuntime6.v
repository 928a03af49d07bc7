(** Statements whose rows do not fit their columns; the models that are generated. *)
From Coq Require Import Sorted.
From Verif Require Import Base ModelStrconv ModelUtf8 ModelCompiler ModelGen ModelRuntime SpecSql SpecGen SpecRuntime
  LemmasBase LemmasSql LemmasSql2 LemmasSql3 LemmasSql4 LemmasCompiler LemmasGen LemmasGen2 LemmasGen3
  LemmasRuntime LemmasRuntime2 LemmasRuntime3 LemmasRuntime4 LemmasRuntime5.

Section R.
Context {V : Type}.
Notation tok := (tok V).

Lemma concat_length_all {A} (k : nat) (vss : list (list A)) : (forall vs, In vs vss -> length vs = k) -> length (concat vss) = length vss * k.
Proof.
  induction vss as [|vs vss IH]; intros L; [reflexivity|]. cbn [concat length]. rewrite app_length, IH by (intros x I; apply L; now right).
  rewrite (L vs (or_introl eq_refl)). lia.
Qed.

(** ** Rows of the wrong length *)
Lemma rows_refused fl tbl (tt : list tok) q texts cs rows k lv (valss : list (list V)) (v0 : V) tail (tts : list tok) :
  qname tt = Some q -> (forall n, spells fl n tbl [] tt) ->
  Forall2 (denotes (V:=V) fl) texts cs -> NoDup cs -> cs <> [] ->
  (forall vss : list (list V), length vss = length valss -> (forall vs, In vs vss -> length vs = k) ->
     spells_all fl 0 rows vss (map row_toks (row_vals vss))) ->
  0 < k -> valss <> [] -> (forall vs, In vs valss -> length vs = lv) ->
  (forall n, spells fl n tail [] tts) -> headed tail = true -> tail <> [] -> stops tts ->
  lv <> k \/ k <> length cs ->
  read fl (B "INSERT INTO " ++ tbl ++ B " (" ++ join (B ",") texts ++ B ") VALUES " ++ join (B ",") rows ++ tail) (concat valss) = None.
Proof.
  intros Q T C ND NE R POS VN LV TL H TNE ST BAD. destruct (Nat.eq_dec lv k) as [E|E].
  - subst lv. destruct BAD as [BAD|BAD]; [contradiction|].
    destruct (read _ _ _) as [s|] eqn:RD; [exfalso|reflexivity].
    apply insert_needs with (tt := tt) (q := q) (cs := cs) (tts := tts) in RD; try assumption; [|apply R; [reflexivity|exact LV]|].
    + destruct RD as [RD _]. destruct valss as [|vs valss]; [contradiction|]. apply BAD. rewrite <- (RD vs (or_introl eq_refl)).
      symmetry. apply LV. now left.
    + intros vs I Z. specialize (LV vs I). subst vs. cbn in LV. lia.
  - set (dummy := repeat (repeat v0 k) (length valss)).
    assert (DL : forall vs, In vs dummy -> length vs = k) by (intros vs I; apply repeat_spec in I; subst vs; apply repeat_length).
    assert (DN : length dummy = length valss) by apply repeat_length.
    eapply spells_count.
    + eapply insert_spells with (kts := [Kw (B "INSERT"); Kw (B "INTO")]); try eassumption; [sconst|reflexivity|apply (R dummy DN DL)].
    + rewrite (concat_length_all lv valss LV), (concat_length_all k dummy DL), DN.
      destruct valss as [|x valss]; [contradiction|]. cbn [length]. intros X. apply Nat.mul_cancel_l in X; [contradiction|discriminate].
Qed.

(** ** Values removed at a position, or not at all *)
Definition shorter (a : option nat) (lv : nat) : nat := match a with Some _ => lv - 1 | None => lv end.
Lemma without_length {A} a (l l' : list A) : without a l = Ok l' -> length l' = shorter a (length l).
Proof.
  destruct a as [i|]; cbn [without shorter]; [|intros E; congruence]. intros E. destruct (remove_at_is _ _ _ E) as (_ & L & _). lia.
Qed.
Lemma map_without a lv (l : list (model V)) : (forall x, In x l -> length (m_values x) = lv) -> forall valss,
  map_res (fun x => without a (m_values x)) l = Ok valss ->
  length valss = length l /\ forall vs, In vs valss -> length vs = shorter a lv.
Proof.
  induction l as [|x l IH]; intros LL valss; cbn [map_res].
  - intros E. injection E as <-. split; [reflexivity|intros ? []].
  - destruct (without a (m_values x)) as [y| |] eqn:W; try discriminate. cbn [bind].
    destruct (map_res _ l) as [ys| |]; try discriminate. cbn [bind]. intros E. injection E as <-.
    destruct (IH (fun z I => LL z (or_intror I)) ys eq_refl) as [G1 G2]. split; [cbn; congruence|].
    intros vs [<-|I]; [rewrite (without_length _ _ _ W), (LL x (or_introl eq_refl)); reflexivity|apply G2, I].
Qed.
Lemma without_ok {A} a (l : list A) : without a l = Ok (omit_at a l) \/ without a l = Panic.
Proof. destruct a as [i|]; cbn [without omit_at]; [|now left]. unfold remove_at. destruct (Nat.ltb _ _); [now left|now right]. Qed.
Lemma map_without_ok a (l : list (model V)) : (exists valss, map_res (fun x => without a (m_values x)) l = Ok valss) \/ map_res (fun x => without a (m_values x)) l = Panic.
Proof.
  induction l as [|x l IH]; cbn [map_res]; [left; eexists; reflexivity|].
  destruct (without_ok a (m_values x)) as [->| ->]; [|now right]. cbn [bind]. destruct IH as [[ys ->]| ->]; [left; eexists; reflexivity|now right].
Qed.

(** ** Insert *)
Section Insert.
Variables (d : driver) (m : model V) (data : list (model V)) (q cols : list bytes) (items : list (expr V)) (v0 : V) (k lv : nat).
Notation fl := (flavour_of d).
Let a := generated_at m.
Hypothesis D : described fl m q cols items.
Hypothesis NE : omit_at a cols <> [].
Hypothesis L : forall x, In x (m :: data) -> length (m_values x) = lv.
Hypothesis K : match d with DPostgres => numbered fl m k | _ => k = length (omit_at a cols) end.
Hypothesis POS : 0 < k.
Hypothesis BAD : shorter a lv <> k \/ k <> length (omit_at a cols).

Lemma insert_refused : insert d (m :: data) = Panic \/
  exists text args, insert d (m :: data) = Ok (Some (text, args)) /\ read fl text args = None.
Proof.
  unfold insert. change (auto_idx m) with a.
  destruct (without_ok a (m_columns m)) as [-> | ->]; [|now left]. cbn [bind].
  assert (F2 : Forall2 (denotes (V:=V) fl) (omit_at a (m_columns m)) (omit_at a cols)) by apply omit_Forall2, D.
  assert (ND : NoDup (omit_at a cols)) by (eapply sublist_NoDup; [apply sublist_omit|apply D]).
  assert (LC : length (omit_at a (m_columns m)) = length (omit_at a cols)) by (apply omit_length, (cols_length _ _ _ _ _ D)).
  destruct (table_spells _ _ _ _ _ D) as (tt & Q & T).
  assert (ST : repeat_tail (B "," ++ B "?") (length (omit_at a cols)) = Ok (join (B ",") (repeat (B "?") (length (omit_at a cols))))).
  { change (B "," ++ B "?") with (B ",?"). rewrite (repeat_tail_places MySQL 0); [|discriminate|destruct (omit_at a cols); [contradiction|cbn; lia]]. rewrite static_places by discriminate. reflexivity. }
  assert (TL : forall n, spells fl n (ret_tail d m) [] (ret_toks d items)) by (intros n; eapply ret_spells, D).
  destruct (map_without_ok a (m :: data)) as [[valss MV]|MV].
  2:{ left. rewrite MV, LC. clear - ST. destruct d; cbn [bind]; unfold quote_var; rewrite ?ST; reflexivity. }
  right. destruct (map_without a lv _ L _ MV) as [LN LVS]. rewrite MV, LC.
  assert (VN : valss <> []) by (destruct valss; [discriminate|discriminate]).
  set (rows := match d with DPostgres => map (m_places m) (seq 0 (length (m :: data)))
           | _ => repeat (B "(" ++ join (B ",") (repeat (B "?") (length (omit_at a cols))) ++ B ")") (length (m :: data)) end).
  exists (B "INSERT INTO " ++ db_table m ++ B " (" ++ join (B ",") (omit_at a (m_columns m)) ++ B ") VALUES " ++ join (B ",") rows ++ ret_tail d m), (concat valss).
  split.
  - unfold rows. clear - ST. destruct d; cbn [bind]; unfold quote_var, ret_tail; rewrite ?ST; cbn [bind]; rewrite <- ?app_assoc; reflexivity.
  - eapply (rows_refused fl (db_table m) tt q _ (omit_at a cols) rows k (shorter a lv) valss v0); try eassumption.
    + intros vss LE LK. unfold rows. rewrite <- LN, <- LE. clear - K LK.
      destruct d; [rewrite <- K; apply spells_static; [discriminate|exact LK]|apply (spells_numbered Postgres m k K vss 0 LK)|rewrite <- K; apply spells_static; [discriminate|exact LK]].
    + unfold ret_tail. clear. destruct d; reflexivity.
    + unfold ret_tail. clear. destruct d; discriminate.
    + unfold ret_toks. clear. destruct d; split; reflexivity.
Qed.
End Insert.

(** ** Upsert, PostgreSQL *)
Section UpsertPg.
Variables (m : model V) (data : list (model V)) (q cols : list bytes) (items : list (expr V)) (o : upsert_opts) (tgt : list bytes) (v0 : V) (k lv : nat).
Let a := generated_at m.
Hypothesis D : described Postgres m q cols items.
Hypothesis KEY : m_key m <> NoKey.
Hypothesis TGT : Forall2 (denotes (V:=V) Postgres) (target_texts m o) tgt.
Hypothesis IN : forall i, a = Some i -> i < length cols.
Hypothesis NE : omit_at a cols <> [].
Hypothesis NUM : numbered Postgres m k.
Hypothesis POS : 0 < k.
Hypothesis BAD : shorter a lv <> k \/ k <> length (omit_at a cols).

Lemma upsert_shape_refused (valss : list (list V)) columns cs tail : Forall2 (denotes (V:=V) Postgres) columns cs -> conflict_text m o columns = Ok tail ->
  valss <> [] -> (forall vs, In vs valss -> length vs = shorter a lv) ->
  read Postgres (B "INSERT INTO " ++ db_table m ++ B " (" ++ join (B ",") (omit_at a (m_columns m)) ++ B ") VALUES "
    ++ join (B ",") (map (m_places m) (seq 0 (length valss))) ++ tail) (concat valss) = None.
Proof.
  intros F E VN LV. destruct (conflict_spells m q cols items o tgt a D KEY TGT eq_refl IN NE columns cs F) as (tail' & sets & E' & H & TN & SP & _).
  assert (tail' = tail) by congruence. subst tail'.
  assert (F2 : Forall2 (denotes (V:=V) Postgres) (omit_at a (m_columns m)) (omit_at a cols)) by apply omit_Forall2, D.
  assert (ND : NoDup (omit_at a cols)) by (eapply sublist_NoDup; [apply sublist_omit|apply D]).
  destruct (table_spells _ _ _ _ _ D) as (tt & Q & T).
  eapply (rows_refused Postgres (db_table m) tt q _ (omit_at a cols) _ k (shorter a lv) valss v0); try eassumption.
  - intros vss LE LK. rewrite <- LE. apply (spells_numbered Postgres m k NUM vss 0 LK).
  - unfold conflict_toks. split; reflexivity.
Qed.

Lemma upsert_one_pg_refused : length (m_values m) = lv ->
  upsert_one_pg m o = Panic \/ exists text args, upsert_one_pg m o = Ok (text, args) /\ read Postgres text args = None.
Proof.
  intros L. unfold upsert_one_pg. change (auto_idx m) with a.
  destruct (without_ok a (m_columns m)) as [-> | ->]; [|now left]. cbn [bind].
  assert (LL : forall y, without a (m_values m) = Ok y -> length y = shorter a lv) by (intros y E; rewrite (without_length _ _ _ E), L; reflexivity).
  destruct (without_ok a (m_values m)) as [W|W]; rewrite W; [|now left]. cbn [bind]. specialize (LL _ W).
  assert (F2 : Forall2 (denotes (V:=V) Postgres) (omit_at a (m_columns m)) (omit_at a cols)) by apply omit_Forall2, D.
  destruct (conflict_spells m q cols items o tgt a D KEY TGT eq_refl IN NE _ _ F2) as (tail & sets & E & _). rewrite E. cbn [bind]. right.
  do 2 eexists. split; [reflexivity|].
  pose proof (upsert_shape_refused [omit_at a (m_values m)] _ _ _ F2 E) as R. cbn [length seq map concat join] in R. rewrite app_nil_r in R.
  apply R; [discriminate|]. intros vs [<-|[]]. exact LL.
Qed.

Lemma upsert_pg_refused : (forall x, In x (m :: data) -> length (m_values x) = lv) ->
  upsert_pg (m :: data) o = Panic \/ exists text args, upsert_pg (m :: data) o = Ok (Some (text, args)) /\ read Postgres text args = None.
Proof.
  intros L. unfold upsert_pg. change (auto_idx m) with a.
  destruct (without_ok a (m_columns m)) as [-> | ->]; [|now left]. cbn [bind].
  destruct (map_without_ok a (m :: data)) as [[valss MV]|MV]; rewrite MV; [|now left]. cbn [bind].
  destruct (map_without a lv _ L _ MV) as [LN LVS].
  destruct (conflict_spells m q cols items o tgt a D KEY TGT eq_refl IN NE _ _ (d_columns _ _ _ _ _ D)) as (tail & sets & E & _). rewrite E. cbn [bind]. right.
  do 2 eexists. split; [reflexivity|].
  rewrite <- LN. eapply upsert_shape_refused; [apply D|exact E|intros ->; discriminate|exact LVS].
Qed.
End UpsertPg.

(** ** Upsert, other dialects *)
Section UpsertMy.
Variables (fl : flavour) (m : model V) (q cols : list bytes) (items : list (expr V)).
Hypothesis NP : fl <> Postgres.
Hypothesis D : described fl m q cols items.

(** UpsertOne holds a placeholder per column *)
Lemma upsert_one_my_refused override omitted k : key_texts m = [k] -> (forall ns is vs, m_key m <> CompKey ns is vs) ->
  length (m_values m) <> length cols ->
  exists text, upsert_one_my m override omitted = Ok (text, m_values m) /\ read fl text (m_values m) = None.
Proof.
  intros K NC L.
  assert (CL := cols_length _ _ _ _ _ D). assert (CP : cols <> []) by apply D.
  assert (RT : repeat_tail (B ",?") (length (m_columns m)) = Ok (join (B ",") (repeat (B "?") (length (m_columns m))))).
  { rewrite (repeat_tail_places MySQL 0); [|discriminate|rewrite CL; destruct cols; [contradiction|cbn; lia]]. rewrite static_places by discriminate. reflexivity. }
  destruct (kept_Forall2 (k :: omitted) (m_columns m) cols (d_columns _ _ _ _ _ D)) as (sets & F & _).
  exists (insert_head override m (m_columns m) ++ (B "(" ++ join (B ",") (repeat (B "?") (length (m_columns m))) ++ B ")")
     ++ my_tail override (B " =") (kept (k :: omitted) (m_columns m)) (negb override)). split.
  - unfold upsert_one_my, key_texts in *. rewrite RT. cbn [bind].
    destruct (m_key m) as [|pk i v|pk i v|ns is vs] eqn:MK; [discriminate| | |exfalso; exact (NC _ _ _ eq_refl)];
      injection K as ->; unfold my_tail; clear; destruct override; cbn [negb]; rewrite ?app_nil_r, <- ?app_assoc; reflexivity.
  - assert (v0 : V).
    { unfold key_texts in K. destruct (m_key m) as [|pk i v|pk i v|ns is vs]; [discriminate|exact v|exact v|]. exfalso. exact (NC _ _ _ eq_refl). }
    set (vs0 := repeat v0 (length cols)).
    assert (SA : spells_all fl 0 [B "(" ++ join (B ",") (repeat (B "?") (length (m_columns m))) ++ B ")"] [vs0] (map row_toks (row_vals [vs0]))).
    { apply (spells_static fl (length (m_columns m)) NP [vs0] 0). intros x [<-|[]]. unfold vs0. rewrite repeat_length, CL. reflexivity. }
    assert (TL : forall z, spells fl z (my_tail override (B " =") (kept (k :: omitted) (m_columns m)) (negb override)) [] (my_toks override sets (negb override)))
      by (intros z; apply my_tail_spells; [now left|exact F]).
    destruct (table_spells _ _ _ _ _ D) as (tt & Q & T).
    assert (LEN : length (m_values m) <> length (concat [vs0])) by (cbn [concat]; rewrite app_nil_r; unfold vs0; rewrite repeat_length; exact L).
    change (insert_head override m (m_columns m) ++ (?r) ++ ?t) with (insert_head override m (m_columns m) ++ join (B ",") [r] ++ t).
    destruct override.
    + eapply spells_count; [|exact LEN]. unfold insert_head. rewrite <- !app_assoc.
      eapply insert_spells with (kts := [Kw (B "INSERT"); Kw (B "INTO")]); [sconst|reflexivity|exact T|apply D|exact SA|exact TL|reflexivity|discriminate].
    + eapply spells_count; [|exact LEN]. unfold insert_head. rewrite <- !app_assoc.
      eapply insert_spells with (kts := [Kw (B "INSERT"); Kw (B "IGNORE"); Kw (B "INTO")]); [sconst|reflexivity|exact T|apply D|exact SA|exact TL|reflexivity|discriminate].
Qed.

(** UpsertOne of a composite key looks up a position past the end of the omitted fields *)
Lemma upsert_one_my_comp_panics omitted ns is vs : m_key m = CompKey ns is vs -> ns <> [] -> upsert_one_my m true omitted = Panic.
Proof. intros K NE. unfold upsert_one_my. rewrite K. destruct ns; [contradiction|reflexivity]. Qed.
End UpsertMy.

(** ** SQLite reads neither INSERT IGNORE nor ON DUPLICATE KEY UPDATE *)
Lemma chunks {A} k : forall n (l : list A), length l = n * k -> exists ls, concat ls = l /\ length ls = n /\ forall x, In x ls -> length x = k.
Proof.
  induction n as [|n IH]; intros l L.
  - exists []. destruct l; [|discriminate]. repeat split. intros ? [].
  - destruct (IH (skipn k l)) as (ls & E & N & F); [rewrite skipn_length; lia|].
    exists (firstn k l :: ls). cbn [concat length]. rewrite E, firstn_skipn, N. repeat split.
    intros x [<-|I]; [apply firstn_length_le; lia|apply F, I].
Qed.

Section SQLite.
Variables (m : model V) (q cols : list bytes) (items : list (expr V)) (v0 : V).
Hypothesis D : described SQLite m q cols items.

Lemma sqlite_refused rows n k columns cs override eq texts sets semi (args : list V) :
  Forall2 (denotes (V:=V) SQLite) columns cs -> NoDup cs -> cs <> [] ->
  (forall vss : list (list V), length vss = n -> (forall vs, In vs vss -> length vs = k) -> spells_all SQLite 0 rows vss (map row_toks (row_vals vss))) ->
  0 < n -> 0 < k -> (eq = B " =" \/ eq = B "=") -> Forall2 (denotes (V:=V) SQLite) texts sets -> override || semi = true ->
  read SQLite (insert_head override m columns ++ join (B ",") rows ++ my_tail override eq texts semi) args = None.
Proof.
  intros F ND NE R NP KP EQ FS OS. destruct (table_spells _ _ _ _ _ D) as (tt & Q & T).
  assert (TL : forall z, spells SQLite z (my_tail override eq texts semi) [] (my_toks override sets semi)) by (intros z; apply my_tail_spells; idtac; [exact EQ|exact FS]).
  assert (H : headed (my_tail override eq texts semi) = true /\ my_tail override eq texts semi <> []).
  { unfold my_tail. destruct override; [split; [reflexivity|discriminate]|]. destruct semi; [split; [reflexivity|discriminate]|discriminate]. }
  destruct H as [H TN]. unfold insert_head. rewrite <- !app_assoc.
  destruct (Nat.eq_dec (length args) (n * k)) as [E|E].
  - destruct (chunks k n args E) as (vss & <- & LN & LK). assert (SA := R vss LN LK).
    destruct override.
    + destruct (read _ _ _) as [s|] eqn:RD; [exfalso|reflexivity].
      apply insert_needs with (tt := tt) (q := q) (cs := cs) (tts := my_toks true sets semi) in RD; try assumption.
      * destruct RD as [_ C]. apply C. apply sqlite_conflict_refused.
      * intros ->. cbn in LN. lia.
      * intros vs I ->. specialize (LK _ I). cbn in LK. lia.
      * apply stops_my. reflexivity.
    + erewrite spells_read; [|eapply insert_spells with (kts := [Kw (B "INSERT"); Kw (B "IGNORE"); Kw (B "INTO")]); try eassumption; [sconst|reflexivity]].
      reflexivity.
  - set (dummy := repeat (repeat v0 k) n).
    assert (DL : forall vs, In vs dummy -> length vs = k) by (intros vs I; apply repeat_spec in I; subst vs; apply repeat_length).
    assert (DN : length dummy = n) by apply repeat_length.
    assert (SA := R dummy DN DL). rewrite <- DN, <- (concat_length_all k dummy DL) in E.
    destruct override; (eapply spells_count; [|exact E]).
    + eapply insert_spells with (kts := [Kw (B "INSERT"); Kw (B "INTO")]); [sconst|reflexivity|exact T|exact F|exact SA|exact TL|exact H|exact TN].
    + eapply insert_spells with (kts := [Kw (B "INSERT"); Kw (B "IGNORE"); Kw (B "INTO")]); [sconst|reflexivity|exact T|exact F|exact SA|exact TL|exact H|exact TN].
Qed.

Lemma sqlite_cols : 0 < length (m_columns m) /\ length (m_columns m) = length cols.
Proof. rewrite (cols_length _ _ _ _ _ D). destruct D as [_ _ _ NE _]. destruct cols; [contradiction|cbn; lia]. Qed.
Lemma sqlite_tail : repeat_tail (B ",?") (length (m_columns m)) = Ok (join (B ",") (repeat (B "?") (length (m_columns m)))).
Proof. rewrite (repeat_tail_places MySQL 0); [|discriminate|apply sqlite_cols]. rewrite static_places by discriminate. reflexivity. Qed.
Lemma sqlite_static n (vss : list (list V)) : length vss = n -> (forall vs, In vs vss -> length vs = length (m_columns m)) ->
  spells_all SQLite 0 (repeat (B "(" ++ join (B ",") (repeat (B "?") (length (m_columns m))) ++ B ")") n) vss (map row_toks (row_vals vss)).
Proof. intros <- L. apply spells_static; [discriminate|exact L]. Qed.

Lemma upsert_one_sqlite_refused override omitted : key_texts m <> [] ->
  upsert_one_my m override omitted = Panic \/
  exists text args, upsert_one_my m override omitted = Ok (text, args) /\ read SQLite text args = None.
Proof.
  unfold key_texts. intros KEY. unfold upsert_one_my. rewrite sqlite_tail.
  assert (COLS := d_columns _ _ _ _ _ D). assert (ND := d_distinct _ _ _ _ _ D). assert (NE := d_some _ _ _ _ _ D).
  assert (G : forall override columns sets, Forall2 (denotes (V:=V) SQLite) columns sets ->
    read SQLite (insert_head override m (m_columns m) ++ B "(" ++ join (B ",") (repeat (B "?") (length (m_columns m))) ++ B ")"
      ++ (if override then B " ON DUPLICATE KEY UPDATE " ++ values_list (B " =") columns else B ";")) (m_values m) = None).
  { intros ov columns sets F.
    pose proof (sqlite_refused [B "(" ++ join (B ",") (repeat (B "?") (length (m_columns m))) ++ B ")"] 1 (length (m_columns m)) (m_columns m) cols ov (B " =") columns sets (negb ov) (m_values m)
      COLS ND NE (sqlite_static 1) ltac:(lia) (proj1 sqlite_cols) (or_introl eq_refl) F ltac:(destruct ov; reflexivity)) as R.
    cbn [join] in R. revert R. unfold my_tail. clear. destruct ov; cbn [negb]; rewrite ?app_nil_r, <- ?app_assoc; exact (fun x => x). }
  destruct (m_key m) as [|pk i v|pk i v|ns is vs]; [contradiction| | |].
  - right. cbn [bind]. do 2 eexists. split; [reflexivity|].
    destruct (kept_Forall2 (pk :: omitted) (m_columns m) cols COLS) as (sets & F & _). eapply G, F.
  - right. cbn [bind]. do 2 eexists. split; [reflexivity|].
    destruct (kept_Forall2 (pk :: omitted) (m_columns m) cols COLS) as (sets & F & _). eapply G, F.
  - destruct override.
    + left. destruct ns; [contradiction|reflexivity].
    + right. cbn [bind]. do 2 eexists. split; [reflexivity|]. apply (G false [] []). constructor.
Qed.

Lemma upsert_sqlite_refused data override omitted k : key_texts m <> [] -> omit_at (generated_at m) cols <> [] -> numbered SQLite m k -> 0 < k ->
  upsert_my (m :: data) override omitted = Panic \/
  exists text args, upsert_my (m :: data) override omitted = Ok (Some (text, args)) /\ read SQLite text args = None.
Proof.
  unfold key_texts, generated_at. intros KEY OM NUM KP. unfold upsert_my.
  assert (COLS := d_columns _ _ _ _ _ D). assert (ND := d_distinct _ _ _ _ _ D). assert (NE := d_some _ _ _ _ _ D).
  assert (LP : 0 < length (m :: data)) by (cbn; lia).
  assert (G : forall columns sets (args : list V), Forall2 (denotes (V:=V) SQLite) columns sets ->
    read SQLite (insert_head override m (m_columns m) ++ join (B ",") (map (m_places m) (seq 0 (length (m :: data))))
      ++ (if override then B " ON DUPLICATE KEY UPDATE " ++ values_list (B "=") columns else []) ++ B ";") args = None).
  { intros columns sets args F.
    apply (sqlite_refused (map (m_places m) (seq 0 (length (m :: data)))) (length (m :: data)) k (m_columns m) cols override (B "=") columns sets true args COLS ND NE);
      [|exact LP|exact KP|now right|exact F|destruct override; reflexivity].
    intros vss <- LK. apply (spells_numbered SQLite m k NUM vss 0 LK). }
  destruct (m_key m) as [|pk i v|pk i v|ns is vs]; [contradiction| | |].
  - destruct (remove_at i (m_columns m)) as [columns| |] eqn:RC; [|exfalso|now left].
    2:{ unfold remove_at in RC. destruct (Nat.ltb _ _); discriminate. }
    cbn [bind]. rewrite sqlite_tail. cbn [bind].
    destruct (map_without_ok (Some i) (m :: data)) as [[valss MV]|MV]; cbn [without] in MV; rewrite MV; [|now left]. cbn [bind]. right.
    do 2 eexists. split; [reflexivity|].
    destruct (remove_at_is _ _ _ RC) as (RI & LL & CE).
    assert (F2 : Forall2 (denotes (V:=V) SQLite) columns (omit_at (Some i) cols)) by (subst columns; apply omit_Forall2, D).
    assert (ND2 : NoDup (omit_at (Some i) cols)) by (eapply sublist_NoDup; [apply sublist_omit|apply D]).
    destruct (kept_Forall2 (omitted ++ [pk]) columns _ F2) as (sets & F & _).
    apply (sqlite_refused (repeat (B "(" ++ join (B ",") (repeat (B "?") (length (m_columns m))) ++ B ")") (length (m :: data))) (length (m :: data)) (length (m_columns m)) columns (omit_at (Some i) cols) override (B "=") _ sets true (concat valss) F2 ND2 OM);
        [apply sqlite_static|exact LP|apply sqlite_cols|now right|exact F|destruct override; reflexivity].
  - cbn [bind]. right. do 2 eexists. split; [reflexivity|].
    destruct (kept_Forall2 (omitted ++ [pk]) (m_columns m) cols COLS) as (sets & F & _). eapply G, F.
  - assert (RA : (exists columns, remove_all is (m_columns m) = Ok columns) \/ remove_all is (m_columns m) = Panic).
    { clear. induction is as [|i is IH]; cbn [remove_all fold_right]; [left; eexists; reflexivity|]. fold (remove_all is (m_columns m)).
      destruct IH as [[l ->]| ->]; [|now right]. cbn [bind]. unfold remove_at. destruct (Nat.ltb _ _); [left; eexists; reflexivity|now right]. }
    destruct RA as [[columns RA]|RA]; rewrite RA; [|now left]. cbn [bind]. right. do 2 eexists. split; [reflexivity|].
    destruct (remove_all_Forall2 _ _ _ COLS _ _ RA) as (cs & _ & F1 & _).
    destruct (kept_Forall2 omitted columns cs F1) as (sets & F & _). eapply G, F.
Qed.
End SQLite.

(** ** MySQL rows that do not fit *)
Lemma my_rows_refused (m : model V) q cols items columns cs rows k lv (valss : list (list V)) (v0 : V) override eq texts sets semi :
  described MySQL m q cols items -> Forall2 (denotes (V:=V) MySQL) columns cs -> NoDup cs -> cs <> [] ->
  (forall vss : list (list V), length vss = length valss -> (forall vs, In vs vss -> length vs = k) ->
     spells_all MySQL 0 rows vss (map row_toks (row_vals vss))) ->
  0 < k -> valss <> [] -> (forall vs, In vs valss -> length vs = lv) ->
  (eq = B " =" \/ eq = B "=") -> Forall2 (denotes (V:=V) MySQL) texts sets -> override || semi = true ->
  lv <> k \/ k <> length cs ->
  read MySQL (insert_head override m columns ++ join (B ",") rows ++ my_tail override eq texts semi) (concat valss) = None.
Proof.
  intros D C ND NE R POS VN LV EQ FS OS BAD.
  destruct (table_spells _ _ _ _ _ D) as (tt & Q & T).
  assert (TL : forall z, spells MySQL z (my_tail override eq texts semi) [] (my_toks override sets semi)) by (intros z; apply my_tail_spells; [exact EQ|exact FS]).
  assert (H : headed (my_tail override eq texts semi) = true /\ my_tail override eq texts semi <> []).
  { unfold my_tail. destruct override; [split; [reflexivity|discriminate]|]. destruct semi; [split; [reflexivity|discriminate]|discriminate]. }
  destruct H as [H TN]. unfold insert_head. rewrite <- !app_assoc.
  assert (ST := stops_my (V:=V) override sets semi OS).
  destruct override.
  - eapply (rows_refused MySQL (db_table m) tt q columns cs rows k lv valss v0); eassumption.
  - destruct (Nat.eq_dec lv k) as [E|E].
    + subst lv. destruct BAD as [BAD|BAD]; [contradiction|].
      erewrite spells_read; [|eapply insert_spells with (kts := [Kw (B "INSERT"); Kw (B "IGNORE"); Kw (B "INTO")]); try eassumption; [sconst|reflexivity|apply R; [reflexivity|exact LV]]].
      unfold parse. cbn [app].
      match goal with |- match strip _ (_ :: _ :: _ :: ?r) with _ => _ end = _ => change (parse_insert MySQL true r = None) end.
      destruct (parse_insert _ _ _) as [s|] eqn:PI; [exfalso|reflexivity].
      apply parse_insert_needs with (q := q) in PI; auto.
      * destruct PI as [PL _]. destruct valss as [|vs valss]; [contradiction|]. apply BAD. rewrite <- (PL (vals vs) (or_introl eq_refl)), vals_length.
        symmetry. apply LV. now left.
      * unfold row_vals. destruct valss; [contradiction|discriminate].
      * intros x I. unfold row_vals in I. apply in_map_iff in I. destruct I as (vs & <- & I). split; [|apply vals_exprs].
        specialize (LV vs I). destruct vs; [cbn in LV; lia|discriminate].
    + set (dummy := repeat (repeat v0 k) (length valss)).
      assert (DL : forall vs, In vs dummy -> length vs = k) by (intros vs I; apply repeat_spec in I; subst vs; apply repeat_length).
      assert (DN : length dummy = length valss) by apply repeat_length.
      eapply spells_count.
      * eapply insert_spells with (kts := [Kw (B "INSERT"); Kw (B "IGNORE"); Kw (B "INTO")]); try eassumption; [sconst|reflexivity|apply (R dummy DN DL)].
      * rewrite (concat_length_all lv valss LV), (concat_length_all k dummy DL), DN.
        destruct valss as [|x valss]; [contradiction|]. cbn [length]. intros X. apply Nat.mul_cancel_l in X; [contradiction|discriminate].
Qed.

(** Upsert by a single or composite key: [k] placeholders per row *)
Lemma upsert_my_short (m : model V) data q cols items override omitted k lv (v0 : V) : described MySQL m q cols items ->
  match m_key m with SingleKey _ _ _ | CompKey _ _ _ => True | _ => False end ->
  numbered MySQL m k -> 0 < k -> (forall x, In x (m :: data) -> length (m_values x) = lv) -> lv <> k \/ k <> length cols ->
  upsert_my (m :: data) override omitted = Panic \/
  exists text args, upsert_my (m :: data) override omitted = Ok (Some (text, args)) /\ read MySQL text args = None.
Proof.
  intros D KEY NUM POS L BAD. unfold upsert_my.
  assert (COLS := d_columns _ _ _ _ _ D). assert (ND := d_distinct _ _ _ _ _ D). assert (NE := d_some _ _ _ _ _ D).
  assert (G : forall columns sets, Forall2 (denotes (V:=V) MySQL) columns sets ->
    read MySQL (insert_head override m (m_columns m) ++ join (B ",") (map (m_places m) (seq 0 (length (m :: data))))
      ++ (if override then B " ON DUPLICATE KEY UPDATE " ++ values_list (B "=") columns else []) ++ B ";") (concat (map m_values (m :: data))) = None).
  { intros columns sets F.
    apply (my_rows_refused m q cols items (m_columns m) cols (map (m_places m) (seq 0 (length (m :: data)))) k lv (map m_values (m :: data)) v0 override (B "=") columns sets true D COLS ND NE);
      [|exact POS|discriminate| |now right|exact F|destruct override; reflexivity|exact BAD].
    - intros vss LE LK. rewrite map_length in LE. rewrite <- LE. apply (spells_numbered MySQL m k NUM vss 0 LK).
    - intros vs I. apply in_map_iff in I. destruct I as (x & <- & I). apply L, I. }
  destruct (m_key m) as [|pk i v|pk i v|ns is vs]; try contradiction.
  - right. do 2 eexists. split; [reflexivity|].
    destruct (kept_Forall2 (omitted ++ [pk]) (m_columns m) cols COLS) as (sets & F & _). eapply G, F.
  - assert (RA : (exists columns, remove_all is (m_columns m) = Ok columns) \/ remove_all is (m_columns m) = Panic).
    { clear. induction is as [|i is IH]; cbn [remove_all fold_right]; [left; eexists; reflexivity|]. fold (remove_all is (m_columns m)).
      destruct IH as [[l ->]| ->]; [|now right]. cbn [bind]. unfold remove_at. destruct (Nat.ltb _ _); [left; eexists; reflexivity|now right]. }
    destruct RA as [[columns RA]|RA]; rewrite RA; [|now left]. cbn [bind]. right. do 2 eexists. split; [reflexivity|].
    destruct (remove_all_Forall2 _ _ _ COLS _ _ RA) as (cs & _ & F1 & _).
    destruct (kept_Forall2 omitted columns cs F1) as (sets & F & _). eapply G, F.
Qed.

(** UpsertOne by a composite key, not overriding *)
Lemma upsert_one_my_comp_short (m : model V) q cols items omitted ns is vs (v0 : V) : described MySQL m q cols items ->
  m_key m = CompKey ns is vs -> length (m_values m) <> length cols ->
  exists text, upsert_one_my m false omitted = Ok (text, m_values m) /\ read MySQL text (m_values m) = None.
Proof.
  intros D K L. assert (CL := cols_length _ _ _ _ _ D). assert (CP := d_some _ _ _ _ _ D).
  assert (POS : 0 < length (m_columns m)) by (rewrite CL; destruct cols; [contradiction|cbn; lia]).
  assert (RT : repeat_tail (B ",?") (length (m_columns m)) = Ok (join (B ",") (repeat (B "?") (length (m_columns m))))).
  { rewrite (repeat_tail_places MySQL 0); [|discriminate|exact POS]. rewrite static_places by discriminate. reflexivity. }
  unfold upsert_one_my. rewrite K, RT. cbn [bind]. eexists. split; [reflexivity|].
  pose proof (my_rows_refused m q cols items (m_columns m) cols [B "(" ++ join (B ",") (repeat (B "?") (length (m_columns m))) ++ B ")"] (length (m_columns m)) (length (m_values m)) [m_values m] v0 false (B " =") [] [] true
    D (d_columns _ _ _ _ _ D) (d_distinct _ _ _ _ _ D) CP) as R.
  cbn [join concat] in R. rewrite app_nil_r, <- ?app_assoc in R. apply R; try reflexivity; try assumption; try discriminate.
  - intros vss LE LK. cbn [length] in LE. pose proof (spells_static MySQL (length (m_columns m)) ltac:(discriminate) vss 0 LK) as SS. rewrite LE in SS. exact SS.
  - intros x [<-|[]]. reflexivity.
  - now left.
  - constructor.
  - left. rewrite CL. exact L.
Qed.
End R.
