(** The statements of the data-access functions, read back. *)
From Verif Require Import Base ModelStrconv ModelCompiler ModelGen ModelRuntime SpecSql SpecGen SpecRuntime
  LemmasBase LemmasSql LemmasSql2 LemmasSql3 LemmasGen LemmasGen2 LemmasGen3 LemmasSql4.

Section R.
Context {V : Type}.
Notation tok := (tok V).

Lemma listed_commas (l : list (list tok)) : listed l = commas l.
Proof. induction l as [|x l IH]; [reflexivity|]. destruct l; [reflexivity|]. cbn [listed commas] in *. rewrite IH. reflexivity. Qed.

Lemma denotes_spells fl n text c : denotes (V:=V) fl text c -> spells (V:=V) fl n text [] [Name c].
Proof. intros D. apply spells_lex; [exact D|reflexivity]. Qed.
Lemma denotes_list fl n texts cs : Forall2 (denotes (V:=V) fl) texts cs ->
  spells (V:=V) fl n (join (B ",") texts) [] (commas (name_toks cs)).
Proof.
  intros F. apply spells_list2. unfold name_toks. induction F; cbn [map]; constructor; auto.
  intros m. apply denotes_spells. assumption.
Qed.
Lemma inert_of (e : list tok) : no_placeholder e -> ~ In Bad e -> forallb inert e = true.
Proof.
  intros P NB. apply forallb_forall. intros t I. destruct t; try reflexivity; [|contradiction]. exfalso. exact (P _ I).
Qed.
Lemma itemises_spells fl n text e : itemises (V:=V) fl text e -> spells fl n text [] e.
Proof. intros (L & _ & P & NB). apply spells_lex; [exact L|apply inert_of; assumption]. Qed.

Section Model.
Variables (fl : flavour) (m : model V) (q cols : list bytes) (items : list (expr V)).
Hypothesis D : described fl m q cols items.

Lemma table_spells : exists tt : list tok, qname tt = Some q /\ forall n, spells fl n (db_table m) [] tt.
Proof.
  destruct D as [T _ _ _ _]. unfold locates in T. exists (lex fl (db_table m)). split; [exact T|]. intros n.
  destruct (qname_plain _ _ (fun _ => false) T) as (_ & _ & P & NB & _); [reflexivity|reflexivity|].
  apply spells_lex; [reflexivity|]. apply inert_of; [|apply bads_In; exact NB]. intros k I. apply plist_In in I. unfold db_table in I. rewrite P in I. exact I.
Qed.
Lemma cols_length : length (m_columns m) = length cols.
Proof. destruct D as [_ C _ _ _]. clear - C. induction C; cbn; congruence. Qed.
Lemma items_some : items <> [].
Proof.
  destruct D as [_ _ _ S I]. destruct (m_sqlcolumns m).
  - destruct I as [NE F]. destruct F; [contradiction|discriminate].
  - subst. destruct cols; [contradiction|discriminate].
Qed.
Lemma items_are_exprs : forallb is_expr items = true.
Proof.
  destruct D as [_ _ _ S I]. destruct (m_sqlcolumns m).
  - destruct I as [_ F]. clear -F. induction F as [|x y l l' H F IH]; [reflexivity|]. cbn. rewrite IH. destruct H as (_ & -> & _). reflexivity.
  - subst. clear. induction cols; cbn; auto.
Qed.
Lemma items_spells n : spells fl n (join (B ",") (table_columns m)) [] (commas items).
Proof.
  unfold table_columns. destruct D as [_ C _ S I]. destruct (m_sqlcolumns m).
  - destruct I as [_ F]. apply spells_list2. clear -F. induction F; constructor; auto. intros. apply itemises_spells. assumption.
  - subst. apply denotes_list. exact C.
Qed.
End Model.

(** ** Placeholders *)
Lemma quote_var_place d n : quote_var d n = placeholder (flavour_of d) n.
Proof. destruct d; reflexivity. Qed.
Lemma static_places fl n k : fl <> Postgres -> places fl n k = repeat (B "?") k.
Proof.
  intros NP. unfold places. generalize 1. induction k as [|k IH]; intros a; [reflexivity|]. cbn [seq map repeat]. rewrite IH.
  f_equal. destruct fl; try reflexivity. contradiction.
Qed.
Lemma repeat_tail_places fl n k : fl <> Postgres -> 0 < k -> repeat_tail (B ",?") k = Ok (join (B ",") (places fl n k)).
Proof.
  intros NP POS. unfold repeat_tail. destruct k as [|k]; [lia|]. f_equal.
  change (B ",?") with (B "," ++ B "?"). rewrite tl_repeat_join, static_places by exact NP. reflexivity.
Qed.
Lemma repeat_pred_places fl n k : fl <> Postgres -> 0 < k ->
  exists r, repeat_pred (B "?,") k = Ok r /\ r ++ B "?" = join (B ",") (places fl n k).
Proof.
  intros NP POS. destruct k as [|k]; [lia|]. exists (repeat_bytes (B "?,") k). split; [reflexivity|]. rewrite static_places by exact NP.
  induction k as [|k IH]; [reflexivity|]. cbn [repeat_bytes repeat]. rewrite join_cons. cbn [repeat] in IH. rewrite <- IH by lia. reflexivity.
Qed.
Lemma repeat_pred_places2 fl n k : fl <> Postgres -> 0 < k ->
  exists r, repeat_pred (B ",?") k = Ok r /\ B "?" ++ r = join (B ",") (places fl n k).
Proof.
  intros NP POS. destruct k as [|k]; [lia|]. exists (repeat_bytes (B ",?") k). split; [reflexivity|]. rewrite static_places by exact NP.
  induction k as [|k IH]; [reflexivity|]. cbn [repeat_bytes repeat]. rewrite join_cons. cbn [repeat] in IH. rewrite <- IH by lia. reflexivity.
Qed.
Lemma more_vars_places off k : 0 < k ->
  quote_var DPostgres (off + 1) ++ more_vars off k = join (B ",") (places Postgres off k).
Proof.
  intros POS. destruct k as [|k]; [lia|]. unfold more_vars. cbn [Nat.sub]. rewrite Nat.sub_0_r. rewrite places_S.
  rewrite Nat.add_1_r.
  assert (G : forall o a, a = S o ->
    join (B ",") (placeholder Postgres a :: places Postgres a k)
    = placeholder Postgres a ++ concat (map (fun i => B "," ++ quote_var DPostgres (o + i + 1)) (seq 1 k))).
  { induction k as [|k IH]; intros o a ->; [cbn; rewrite app_nil_r; reflexivity|].
    rewrite places_S, join_cons. f_equal. cbn [seq map concat]. rewrite (IH ltac:(lia) (S o) (S (S o)) eq_refl).
    rewrite <- (seq_shift k 1), map_map. rewrite <- !app_assoc.
    replace (o + 1 + 1) with (S (S o)) by lia. f_equal. f_equal. f_equal. apply map_ext. intros i. do 2 f_equal. lia. }
  rewrite (G off (S off) eq_refl). reflexivity.
Qed.

(** ** INSERT *)
Lemma reassoc {A} (a b c : list A) : (a ++ b) ++ c = a ++ b ++ c.
Proof. symmetry. apply app_assoc. Qed.

Lemma insert_spells fl kw (kts : list tok) tbl (tt : list tok) texts cs rows vss rts tail (tts : list tok) :
  spells fl 0 kw [] kts -> tailed kw = true -> (forall n, spells fl n tbl [] tt) ->
  Forall2 (denotes (V:=V) fl) texts cs ->
  spells_all fl 0 rows vss rts -> (forall n, spells fl n tail [] tts) -> headed tail = true -> tail <> [] ->
  spells fl 0 (kw ++ tbl ++ B " (" ++ join (B ",") texts ++ B ") VALUES " ++ join (B ",") rows ++ tail) (concat vss)
    (kts ++ tt ++ Sym "(" :: commas (name_toks cs) ++ Sym ")" :: Kw (B "VALUES") :: commas rts ++ tts).
Proof.
  intros K KT T C R TL H NE.
  apply spells_lr; [exact K| |exact KT].
  apply spells_rr; [apply T| |reflexivity|discriminate].
  change (Sym "(" :: ?x) with ([Sym (V:=V) "("] ++ x). apply spells_lr; [sconst| |reflexivity].
  apply spells_rr; [apply denotes_list, C| |reflexivity|discriminate].
  change (Sym ")" :: Kw (B "VALUES") :: ?x) with ([Sym (V:=V) ")"; Kw (B "VALUES")] ++ x). apply spells_lr; [sconst| |reflexivity].
  eapply spells_eq; [apply spells_app_r with (vs1 := concat vss) (vs2 := [])|reflexivity|apply app_nil_r|reflexivity].
  - apply spells_join, R.
  - apply TL.
  - exact H.
  - exact NE.
Qed.

Definition row_vals (vss : list (list V)) : list (list (list tok)) := map vals vss.

Lemma insert_parsed fl kw ig tbl (tt : list tok) q texts cs rows (vss : list (list V)) tail (tts : list tok) c rest2 rest3 ret :
  (kw = B "INSERT INTO " /\ ig = false \/ kw = B "INSERT IGNORE INTO " /\ ig = true /\ fl = MySQL) ->
  qname tt = Some q -> (forall n, spells fl n tbl [] tt) ->
  Forall2 (denotes (V:=V) fl) texts cs -> NoDup cs -> cs <> [] ->
  spells_all fl 0 rows vss (map row_toks (row_vals vss)) -> vss <> [] -> (forall vs, In vs vss -> length vs = length cs) ->
  (forall n, spells fl n tail [] tts) -> headed tail = true -> tail <> [] ->
  stops tts -> conflict_p fl ig tts = Some (c, rest2) ->
  clause [B "RETURNING"] exprs rest2 = Some (ret, rest3) -> the_end rest3 = true -> (fl = MySQL -> ret = None) ->
  read fl (kw ++ tbl ++ B " (" ++ join (B ",") texts ++ B ") VALUES " ++ join (B ",") rows ++ tail) (concat vss)
  = Some (Insert q cs (row_vals vss) c (opt_list ret)).
Proof.
  intros K Q T C ND NE R RN L TL H TNE ST CP CL TE MY.
  assert (PI : parse_insert fl ig (tt ++ Sym "(" :: commas (name_toks cs) ++ Sym ")" :: Kw (B "VALUES") :: commas (map row_toks (row_vals vss)) ++ tts)
    = Some (Insert q cs (row_vals vss) c (opt_list ret))).
  { apply parse_insert_shape with (rest2 := rest2) (rest3 := rest3); auto.
    - unfold row_vals. destruct vss; [contradiction|discriminate].
    - intros x I. unfold row_vals in I. apply in_map_iff in I. destruct I as (vs & <- & I). rewrite vals_length. split; [apply L, I|apply vals_exprs]. }
  destruct K as [[-> ->]|(-> & -> & ->)].
  - erewrite spells_read; [|eapply insert_spells with (kts := [Kw (B "INSERT"); Kw (B "INTO")]); eauto; sconst].
    unfold parse. cbn [app].
    match goal with |- match strip _ (_ :: _ :: ?r) with _ => _ end = _ => change (parse_insert fl false r = Some (Insert q cs (row_vals vss) c (opt_list ret))) end.
    exact PI.
  - erewrite spells_read; [|eapply insert_spells with (kts := [Kw (B "INSERT"); Kw (B "IGNORE"); Kw (B "INTO")]); eauto; sconst].
    unfold parse. cbn [app].
    match goal with |- match strip _ (_ :: _ :: _ :: ?r) with _ => _ end = _ => change (parse_insert MySQL true r = Some (Insert q cs (row_vals vss) c (opt_list ret))) end.
    exact PI.
Qed.

(** ** Lists of rows *)
Lemma spells_numbered fl (m : model V) k : numbered fl m k -> forall vss row, (forall vs, In vs vss -> length vs = k) ->
  spells_all fl (row * k) (map (m_places m) (seq row (length vss))) vss (map row_toks (row_vals vss)).
Proof.
  intros N. induction vss as [|vs vss IH]; intros row L; cbn [length seq map row_vals]; constructor.
  - apply spells_given_row. rewrite (L vs (or_introl eq_refl)). rewrite N. rewrite listed_commas. reflexivity.
  - rewrite (L vs (or_introl eq_refl)). replace (row * k + k) with (S row * k) by lia. apply IH. intros x I. apply L. now right.
Qed.
Lemma spells_static fl k : fl <> Postgres -> forall vss n, (forall vs, In vs vss -> length vs = k) ->
  spells_all fl n (repeat (B "(" ++ join (B ",") (repeat (B "?") k) ++ B ")") (length vss)) vss (map row_toks (row_vals vss)).
Proof.
  intros NP. induction vss as [|vs vss IH]; intros n L; cbn [length repeat map row_vals]; constructor.
  - rewrite <- (static_places fl n k NP), <- (L vs (or_introl eq_refl)). apply spells_row.
  - apply IH. intros x I. apply L. now right.
Qed.

(** ** Omitting a position *)
Lemma without_omit {A} a (l : list A) : (forall i, a = Some i -> i < length l) -> without a l = Ok (omit_at a l).
Proof.
  intros H. destruct a as [i|]; [|reflexivity]. cbn. unfold remove_at. specialize (H i eq_refl). apply Nat.ltb_lt in H. rewrite H. reflexivity.
Qed.
Lemma map_res_ok {A C} (f : A -> res C) g l : (forall x, In x l -> f x = Ok (g x)) -> map_res f l = Ok (map g l).
Proof.
  induction l as [|x l IH]; intros H; [reflexivity|]. cbn [map_res map]. rewrite (H x (or_introl eq_refl)). cbn [bind].
  rewrite IH by (intros y I; apply H; now right). reflexivity.
Qed.
Lemma omit_length {A C} a (l : list A) (l' : list C) : length l = length l' -> length (omit_at a l) = length (omit_at a l').
Proof. intros H. destruct a; [|exact H]. cbn [omit_at]. rewrite !app_length, !firstn_length, !skipn_length, H. reflexivity. Qed.
Lemma Forall2_firstn {A C} (P : A -> C -> Prop) l l' : Forall2 P l l' -> forall i, Forall2 P (firstn i l) (firstn i l').
Proof. induction 1; intros [|i]; cbn; constructor; auto. Qed.
Lemma Forall2_skipn {A C} (P : A -> C -> Prop) l l' : Forall2 P l l' -> forall i, Forall2 P (skipn i l) (skipn i l').
Proof. induction 1; intros [|i]; cbn; auto. Qed.
Lemma omit_Forall2 {A C} (P : A -> C -> Prop) a l l' : Forall2 P l l' -> Forall2 P (omit_at a l) (omit_at a l').
Proof. intros F. destruct a; [|exact F]. apply Forall2_app; [apply Forall2_firstn, F|apply (Forall2_skipn P l l' F (S n))]. Qed.
Lemma sublist_omit {A} a (l : list A) : sublist (omit_at a l) l.
Proof.
  assert (R : forall l : list A, sublist l l) by (intros x; induction x; constructor; auto).
  destruct a as [i|]; [|apply R]. cbn [omit_at]. revert l. induction i as [|i IH]; intros [|x l]; cbn; try constructor; auto. apply IH.
Qed.
Lemma sublist_NoDup {A} (l l' : list A) : sublist l l' -> NoDup l' -> NoDup l.
Proof.
  induction 1 as [|x l m S IH|x l m S IH]; intros ND; [constructor| |]; inversion ND; subst; auto. constructor; auto.
  intros I. apply H1. clear -S I. induction S; [contradiction|destruct I; [now left|right; auto]|right; auto].
Qed.

(** The end of an insert statement *)
Definition ret_tail (d : driver) (m : model V) : bytes :=
  match d with DPostgres => B " RETURNING " ++ join (B ",") (table_columns m) ++ B ";" | _ => B ";" end.
Definition ret_toks (d : driver) (items : list (list tok)) : list tok :=
  match d with DPostgres => Kw (B "RETURNING") :: commas items ++ [Sym ";"] | _ => [Sym ";"] end.

Lemma returning_spells fl m q cols items n : described (V:=V) fl m q cols items ->
  spells fl n (B " RETURNING " ++ join (B ",") (table_columns m) ++ B ";") [] (Kw (B "RETURNING") :: commas items ++ [Sym ";"]).
Proof.
  intros D. change (Kw (B "RETURNING") :: ?x) with ([Kw (V:=V) (B "RETURNING")] ++ x).
  apply spells_lr; [sconst| |reflexivity]. apply spells_rr; [eapply items_spells; exact D|sconst|reflexivity|discriminate].
Qed.
Lemma returning_clause fl m q cols items : described (V:=V) fl m q cols items ->
  clause [B "RETURNING"] exprs (Kw (B "RETURNING") :: commas items ++ [Sym ";"]) = Some (Some items, [Sym ";"]).
Proof.
  intros D. apply (clause_some [B "RETURNING"] exprs (commas items) [Sym ";"] items).
  - apply exprs_passes_ends. eapply items_are_exprs, D.
  - split; reflexivity.
  - apply exprs_commas; [eapply items_some, D|eapply items_are_exprs, D].
Qed.
Lemma ret_spells d m q cols items n : described (V:=V) (flavour_of d) m q cols items ->
  spells (flavour_of d) n (ret_tail d m) [] (ret_toks d items).
Proof. intros D. destruct d; cbn [ret_tail ret_toks]; try sconst. eapply returning_spells. exact D. Qed.

(** *** Insert *)
Section Insert.
Variables (d : driver) (m : model V) (data : list (model V)) (q cols : list bytes) (items : list (expr V)) (a : option nat).
Notation fl := (flavour_of d).
Hypothesis D : described fl m q cols items.
Hypothesis A : a = generated_at m.
Hypothesis IN : forall i, a = Some i -> i < length cols.
Hypothesis NE : omit_at a cols <> [].

Lemma omitted_pos : 0 < length (omit_at a cols).
Proof. destruct (omit_at a cols); [contradiction|cbn; lia]. Qed.

Lemma insert_text_is : (forall x, In x (m :: data) -> length (m_values x) = length cols) ->
  exists rows, insert d (m :: data)
    = Ok (Some (B "INSERT INTO " ++ db_table m ++ B " (" ++ join (B ",") (omit_at a (m_columns m)) ++ B ") VALUES "
                ++ join (B ",") rows ++ ret_tail d m, concat (map (fun x => omit_at a (m_values x)) (m :: data)))) /\
    rows = match d with DPostgres => map (m_places m) (seq 0 (length (m :: data)))
           | _ => repeat (B "(" ++ join (B ",") (repeat (B "?") (length (omit_at a cols))) ++ B ")") (length (m :: data)) end.
Proof.
  intros L. eexists. split; [|reflexivity]. unfold insert. replace (auto_idx m) with a by (rewrite A; reflexivity).
  rewrite without_omit by (intros i E; rewrite (cols_length _ _ _ _ _ D); apply IN, E). cbn [bind].
  rewrite (map_res_ok _ (fun x => omit_at a (m_values x))) by (intros x I; apply without_omit; intros i E; rewrite (L x I); apply IN, E).
  assert (LC : length (omit_at a (m_columns m)) = length (omit_at a cols)) by (apply omit_length, (cols_length _ _ _ _ _ D)).
  assert (ST : forall k, 0 < k -> repeat_tail (B "," ++ B "?") k = Ok (join (B ",") (repeat (B "?") k))).
  { intros k K. change (B "," ++ B "?") with (B ",?"). rewrite (repeat_tail_places MySQL 0) by (try discriminate; exact K). rewrite static_places by discriminate. reflexivity. }
  pose proof omitted_pos as POS. rewrite LC. clear - POS ST.
  destruct d; cbn [bind]; unfold quote_var, ret_tail; rewrite ?ST by exact POS; cbn [bind]; rewrite <- ?app_assoc; reflexivity.
Qed.

Lemma insert_reads_back : (forall x, In x (m :: data) -> length (m_values x) = length cols) ->
  (d = DPostgres -> numbered fl m (length (omit_at a cols))) ->
  exists text args, insert d (m :: data) = Ok (Some (text, args)) /\
    read fl text args = Some (Insert q (omit_at a cols) (map (fun x => row_of (omit_at a (m_values x))) (m :: data)) Fail (ret_items d items)).
Proof.
  intros L NUM. destruct (insert_text_is L) as (rows & E & R). rewrite E. do 2 eexists. split; [reflexivity|].
  destruct (table_spells _ _ _ _ _ D) as (tt & Q & T).
  set (vss := map (fun x => omit_at a (m_values x)) (m :: data)).
  assert (LV : forall vs, In vs vss -> length vs = length (omit_at a cols)).
  { intros vs I. apply in_map_iff in I. destruct I as (x & <- & I). apply omit_length, L, I. }
  assert (SA : spells_all fl 0 rows vss (map row_toks (row_vals vss))).
  { subst rows. replace (length (m :: data)) with (length vss) by (unfold vss; apply map_length).
    clear - NUM LV. destruct d.
    - apply spells_static; [discriminate|exact LV].
    - apply (spells_numbered Postgres m _ (NUM eq_refl) vss 0). exact LV.
    - apply spells_static; [discriminate|exact LV]. }
  replace (map (fun x => row_of (omit_at a (m_values x))) (m :: data)) with (row_vals vss) by (unfold row_vals, vss; rewrite map_map; reflexivity).
  pose proof (returning_clause _ _ _ _ _ D) as RC.
  replace (ret_items d items) with (opt_list (match d with DPostgres => Some items | _ => None end)) by (clear; destruct d; reflexivity).
  eapply insert_parsed with (ig := false) (tts := ret_toks d items) (rest2 := ret_toks d items) (rest3 := [Sym ";"]).
  - left. split; reflexivity.
  - exact Q.
  - exact T.
  - apply omit_Forall2, D.
  - eapply sublist_NoDup; [apply sublist_omit|apply D].
  - exact NE.
  - exact SA.
  - discriminate.
  - exact LV.
  - intros n. eapply ret_spells, D.
  - clear; destruct d; reflexivity.
  - clear; destruct d; discriminate.
  - clear; destruct d; split; reflexivity.
  - clear; destruct d; reflexivity.
  - clear - RC. destruct d; [reflexivity|exact RC|reflexivity].
  - reflexivity.
  - clear; destruct d; [reflexivity|discriminate|discriminate].
Qed.
End Insert.
End R.
