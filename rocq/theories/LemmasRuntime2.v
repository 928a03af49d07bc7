(** Keyed statements and single-row inserts, read back. *)
From Verif Require Import Base ModelStrconv ModelCompiler ModelGen ModelRuntime SpecSql SpecGen SpecRuntime
  LemmasBase LemmasSql LemmasSql2 LemmasSql3 LemmasGen LemmasGen2 LemmasGen3 LemmasSql4 LemmasRuntime.

Section R.
Context {V : Type}.
Notation tok := (tok V).

(** SELECT with an optional lock, which SQLite has not *)
Definition if_locks {A} (fl : flavour) (words : list bytes) (x : A) : option A :=
  match fl, words with SQLite, _ :: _ => None | _, _ => Some x end.
Definition lock_toks (words : list bytes) : list tok := match words with [] => [] | _ => Kw (B "FOR") :: map Kw words end.
Lemma parse_select_lock fl tbl q (items : list (list tok)) rest wh rest1 lim rest4 words :
  items <> [] -> forallb is_expr items = true -> qname tbl = Some q -> stops rest ->
  clause [B "WHERE"] where_p rest = Some (wh, rest1) ->
  clause (map B ["GROUP"; "BY"]%string) exprs rest1 = Some (None, rest1) ->
  clause (map B ["ORDER"; "BY"]%string) (order_p fl) rest1 = Some (None, rest1) ->
  clause [B "LIMIT"] number rest1 = Some (lim, rest4) ->
  rest4 = lock_toks words ++ [Sym ";"] ->
  parse_select fl (commas items ++ Kw (B "FROM") :: tbl ++ rest)
  = if_locks fl words (Select items q wh [] [] lim None words).
Proof.
  intros NE F Q ST W G O L OF. unfold parse_select.
  destruct (qname_plain tbl q ends_clause Q) as (_ & P & _ & _ & _); [reflexivity|reflexivity|].
  rewrite until_stop; [|apply exprs_passes_ends; exact F|reflexivity|reflexivity].
  cbn [obind]. rewrite exprs_commas by assumption. cbn [obind].
  change (Kw (B "FROM") :: tbl ++ rest) with (map Kw [B "FROM"] ++ tbl ++ rest). rewrite strip_kws. cbn [obind].
  rewrite until_stops by assumption. cbn [obind]. rewrite Q. cbn [obind]. rewrite W. cbn [obind].
  rewrite G. cbn [obind]. rewrite O. cbn [obind]. rewrite L. cbn [obind].
  assert (OFF : clause [B "OFFSET"] number rest4 = Some (None, rest4)) by (subst rest4; destruct words; reflexivity).
  rewrite OFF. cbn [obind].
  replace (guard _) with (Some tt) by (destruct fl, lim; reflexivity). cbn [obind].
  subst rest4. destruct words as [|w words]; [destruct fl; reflexivity|]. cbn [lock_toks app].
  change (strip [B "FOR"] (Kw (B "FOR") :: ?x)) with (Some x).
  cbv beta iota.   rewrite until_stop with (t := Sym ";") (r := []); [|clear|reflexivity|reflexivity].
  - cbn [obind]. unfold lock_p.
    replace (all_some _) with (Some (w :: words)); [destruct fl; reflexivity|].
    symmetry. rewrite map_map. rewrite (all_some_map _ (fun x => x)); [rewrite map_id; reflexivity|]. reflexivity.
  - change (map Kw (w :: words)) with (map (Kw (V:=V)) (w :: words)). induction (w :: words) as [|x l IH]; [apply passes_nil|].
    apply passes_cons; [reflexivity|reflexivity|exact IH].
Qed.

(** ** Keys *)
Section Keyed.
Variables (d : driver) (m : model V) (ks : list (bytes * V)).
Notation fl := (flavour_of d).
Hypothesis K : keyed_by fl m ks.

Definition key_toks : list tok :=
  match m_key m with
  | CompKey _ _ _ => row_toks (name_toks (map fst ks)) ++ Op (B "=") :: row_toks (vals (map snd ks))
  | _ => match ks with (k, v) :: _ => [Name k; Op (B "="); Val v] | [] => [] end
  end.

Lemma keyed_spells before bts after ats :
  spells fl 0 before [] bts -> (forall n, spells fl n after [] ats) -> headed after = true -> after <> [] ->
  exists text, keyed d m before after = Ok (text, map snd ks) /\
    spells fl 0 text (map snd ks) (bts ++ Kw (B "WHERE") :: key_toks ++ ats).
Proof.
  intros BF AF H NE. unfold keyed, keyed_by, key_toks in *.
  assert (ONE : forall n k v, denotes (V:=V) fl n k ->
    spells fl 0 (before ++ B " WHERE " ++ n ++ B " = " ++ quote_var d 1 ++ after) [v] (bts ++ Kw (B "WHERE") :: [Name k; Op (B "="); Val v] ++ ats)).
  { intros n k v DN. apply spells_rr; [exact BF| |reflexivity|discriminate].
    change (Kw (B "WHERE") :: ?x) with ([Kw (V:=V) (B "WHERE")] ++ x). apply spells_lr; [sconst| |reflexivity].
    change ([Name k; Op (B "="); Val v] ++ ats) with ([Name k] ++ [Op (B "=")] ++ [Val v] ++ ats).
    apply spells_rr; [apply denotes_spells, DN| |reflexivity|discriminate].
    apply spells_lr; [sconst| |reflexivity].
    eapply spells_eq; [eapply spells_app_r with (vs1 := [v]) (vs2 := [])|reflexivity|reflexivity|reflexivity]; [|apply AF|exact H|exact NE].
    rewrite quote_var_place. apply spells_var. }
  destruct (m_key m) as [|n i v|n i v|ns is vs].
  - contradiction.
  - destruct K as (k & DN & ->). eexists. split; [reflexivity|]. apply ONE, DN.
  - destruct K as (k & DN & ->). eexists. split; [reflexivity|]. apply ONE, DN.
  - destruct K as (KN & F & ->).
    assert (LN : length ns = length (map snd ks)) by (rewrite map_length, <- (map_length fst); clear -F; induction F; cbn; congruence).
    assert (POS : 0 < length ns) by (rewrite LN; destruct ks; [contradiction|cbn; lia]).
    assert (TV : tuple_vars d (length ns) = Ok (join (B ",") (places fl 0 (length (map snd ks))))).
    { rewrite <- LN. unfold tuple_vars. clear - POS. destruct d; cbn [flavour_of].
      - destruct (repeat_pred_places2 MySQL 0 (length ns) ltac:(discriminate) POS) as (r & E & J).
        change (B "," ++ quote_var DMySQL 1) with (B ",?"). rewrite E. cbn [bind]. rewrite <- J. reflexivity.
      - rewrite <- more_vars_places by exact POS. reflexivity.
      - destruct (repeat_pred_places2 SQLite 0 (length ns) ltac:(discriminate) POS) as (r & E & J).
        change (B "," ++ quote_var DSQLite 1) with (B ",?"). rewrite E. cbn [bind]. rewrite <- J. reflexivity. }
    rewrite TV. cbn [bind]. eexists. split; [reflexivity|].
    apply spells_rr; [exact BF| |reflexivity|discriminate].
    change (B " WHERE (") with (B " WHERE " ++ B "("). rewrite <- !app_assoc.
    change (Kw (B "WHERE") :: ?x) with ([Kw (V:=V) (B "WHERE")] ++ x). apply spells_lr; [sconst| |reflexivity].
    unfold row_toks at 1. cbn [app]. change (Sym "(" :: ?x) with ([Sym (V:=V) "("] ++ x). apply spells_lr; [sconst| |reflexivity].
    rewrite <- !app_assoc. apply spells_rr; [apply denotes_list, F| |reflexivity|discriminate].
    change (B ") = (") with (B ") = " ++ B "("). rewrite <- !app_assoc.
    change ([Sym ")"] ++ Op (B "=") :: ?x) with ([Sym (V:=V) ")"; Op (B "=")] ++ x).
    apply spells_lr; [sconst| |reflexivity].
    replace (B "(" ++ join (B ",") (places fl 0 (length (map snd ks))) ++ B ")" ++ after)
      with ((B "(" ++ join (B ",") (places fl 0 (length (map snd ks))) ++ B ")") ++ after) by (rewrite <- !app_assoc; reflexivity).
    eapply spells_eq; [eapply spells_app_r with (vs1 := map snd ks) (vs2 := [])|reflexivity|apply app_nil_r|reflexivity]; [apply spells_row|apply AF|exact H|exact NE].
Qed.

Lemma key_toks_where : where_p key_toks = Some (key_match m ks).
Proof.
  unfold key_toks, key_match, keyed_by in *. destruct (m_key m) as [|n i v|n i v|ns is vs].
  - contradiction.
  - destruct K as (k & DN & ->). apply where_one; reflexivity.
  - destruct K as (k & DN & ->). apply where_one; reflexivity.
  - destruct K as (KN & F & ->). rewrite where_tuple.
    + unfold name_toks, vals. rewrite !map_map. reflexivity.
    + destruct ks; [contradiction|discriminate].
    + rewrite vals_length, !map_length. reflexivity.
    + apply vals_exprs.
    + reflexivity.
Qed.
Lemma key_toks_passes : passes ends_clause key_toks.
Proof.
  unfold key_toks. assert (P : forall k v, passes ends_clause [Name k; Op (B "="); Val (V:=V) v]).
  { intros. repeat (apply passes_cons; [reflexivity|reflexivity|]). apply passes_nil. }
  assert (E : passes ends_clause (match ks with (k, v) :: _ => [Name k; Op (B "="); Val v] | [] => [] end)) by (destruct ks as [|[k v] l]; [apply passes_nil|apply P]).
  destruct (m_key m); try exact E. apply passes_app; [apply row_passes, names_exprs|].
  apply passes_cons; [reflexivity|reflexivity|]. apply row_passes, vals_exprs.
Qed.
End Keyed.

Section Find.
Variables (d : driver) (m : model V) (q cols : list bytes) (items : list (expr V)) (ks : list (bytes * V)).
Notation fl := (flavour_of d).
Hypothesis D : described fl m q cols items.
Hypothesis K : keyed_by fl m ks.

Lemma select_spells : exists tt : list tok, qname tt = Some q /\
  spells fl 0 (select_head m) [] (Kw (B "SELECT") :: commas items ++ Kw (B "FROM") :: tt).
Proof.
  destruct (table_spells _ _ _ _ _ D) as (tt & Q & T). exists tt. split; [exact Q|]. unfold select_head.
  change (Kw (B "SELECT") :: ?x) with ([Kw (V:=V) (B "SELECT")] ++ x). apply spells_lr; [sconst| |reflexivity].
  apply spells_rr; [eapply items_spells, D| |reflexivity|discriminate].
  change (Kw (B "FROM") :: ?x) with ([Kw (V:=V) (B "FROM")] ++ x). apply spells_lr; [sconst|apply T|reflexivity].
Qed.

Lemma select_reads_lock after words :
  (forall n, spells fl n after [] ([Kw (B "LIMIT"); Num (B "1")] ++ lock_toks words ++ [Sym ";"])) -> headed after = true -> after <> [] ->
  exists text args, keyed d m (select_head m) after = Ok (text, args) /\
  read fl text args = if_locks fl words (Select items q (Some (key_match m ks)) [] [] (Some 1%N) None words).
Proof.
  intros AF H NE. destruct select_spells as (tt & Q & S).
  destruct (keyed_spells d m ks K _ _ after _ S AF H NE) as (text & E & SP). exists text, (map snd ks). split; [exact E|].
  rewrite (spells_read _ _ _ _ SP). unfold parse. cbn [app].
  match goal with |- match strip _ (_ :: ?r) with _ => _ end = _ => transitivity (parse_select fl r); [clear; destruct d; reflexivity|] end.
  rewrite <- app_assoc. cbn [app].
  apply parse_select_lock with (rest1 := [Kw (B "LIMIT"); Num (B "1")] ++ lock_toks words ++ [Sym ";"]) (rest4 := lock_toks words ++ [Sym ";"]).
  - eapply items_some, D.
  - eapply items_are_exprs, D.
  - exact Q.
  - split; reflexivity.
  - change (Kw (B "WHERE") :: ?x ++ ?y) with (map (Kw (V:=V)) [B "WHERE"] ++ x ++ y).
    apply clause_some; [eapply key_toks_passes; exact K|split; reflexivity|eapply key_toks_where; exact K].
  - reflexivity.
  - clear; destruct d; reflexivity.
  - apply (clause_some [B "LIMIT"] number [Num (B "1")] (lock_toks words ++ [Sym ";"]) 1%N); [apply passes_one; reflexivity| |reflexivity].
    clear; destruct words; split; reflexivity.
  - reflexivity.
Qed.
Lemma select_reads_back after words : (words <> [] -> d <> DSQLite) ->
  (forall n, spells fl n after [] ([Kw (B "LIMIT"); Num (B "1")] ++ lock_toks words ++ [Sym ";"])) -> headed after = true -> after <> [] ->
  exists text args, keyed d m (select_head m) after = Ok (text, args) /\
  read fl text args = Some (Select items q (Some (key_match m ks)) [] [] (Some 1%N) None words).
Proof.
  intros SL AF H NE. destruct (select_reads_lock after words AF H NE) as (text & args & E & R). exists text, args. split; [exact E|].
  rewrite R. clear - SL. destruct words; [destruct d; reflexivity|]. specialize (SL ltac:(discriminate)). destruct d; [reflexivity..|contradiction].
Qed.

Lemma delete_reads_back : m_delete m = None ->
  exists text args, delete_by_pk d m = Ok (text, args) /\ read fl text args = Some (Delete q (Some (key_match m ks)) [] None).
Proof.
  intros N. unfold delete_by_pk. rewrite N. destruct (table_spells _ _ _ _ _ D) as (tt & Q & T).
  destruct (keyed_spells d m ks K (B "DELETE FROM " ++ db_table m) ([Kw (B "DELETE"); Kw (B "FROM")] ++ tt) (B ";") [Sym ";"]) as (text & E & SP);
    [apply spells_lr; [sconst|apply T|reflexivity]|intros; sconst|reflexivity|discriminate|].
  exists text, (map snd ks). split; [exact E|]. rewrite (spells_read _ _ _ _ SP). unfold parse. cbn [app].
  match goal with |- match strip _ (_ :: _ :: ?r) with _ => _ end = _ => transitivity (parse_delete fl r); [clear; destruct d; reflexivity|] end.
  apply parse_delete_shape; [exact Q|split; reflexivity|].
  apply parse_tail_shape with (rest1 := [Sym ";"]) (ord := None) (rest2 := [Sym ";"]) (rest3 := [Sym ";"]).
  - change (Kw (B "WHERE") :: ?x ++ ?y) with (map (Kw (V:=V)) [B "WHERE"] ++ x ++ y).
    apply clause_some; [eapply key_toks_passes; exact K|split; reflexivity|eapply key_toks_where; exact K].
  - clear; destruct d; reflexivity.
  - reflexivity.
  - reflexivity.
  - intros _. split; reflexivity.
Qed.

(** The single-row insert of a model without its own statement *)
Lemma insert_one_reads_back : m_insert m = None -> length (m_values m) = length cols ->
  exists text args, insert_one d m = Ok (text, args) /\
  read fl text args = Some (Insert q cols [row_of (m_values m)] Fail (ret_items d items)).
Proof.
  intros N L. unfold insert_one. rewrite N.
  assert (POS : 0 < length cols) by (destruct D as [_ _ _ S _]; destruct cols; [contradiction|cbn; lia]).
  pose proof (cols_length _ _ _ _ _ D) as CL.
  set (row := B "(" ++ join (B ",") (places fl 0 (length (m_values m))) ++ B ")").
  assert (E : exists text, insert_one d m = Ok (text, m_values m) /\
    text = B "INSERT INTO " ++ db_table m ++ B " (" ++ join (B ",") (m_columns m) ++ B ") VALUES " ++ join (B ",") [row] ++ ret_tail d m).
  { unfold insert_one. rewrite N. unfold row. cbn [join]. rewrite L, CL. clear - POS. destruct d.
    - destruct (repeat_pred_places MySQL 0 (length cols) ltac:(discriminate) POS) as (r & E & J). change (quote_var DMySQL 1 ++ B ",") with (B "?,").
      rewrite E. cbn [bind]. eexists. split; [reflexivity|]. cbn [ret_tail flavour_of]. rewrite <- J. rewrite <- !app_assoc. reflexivity.
    - eexists. split; [reflexivity|]. cbn [ret_tail flavour_of]. rewrite <- more_vars_places by exact POS. rewrite <- !app_assoc. reflexivity.
    - destruct (repeat_pred_places SQLite 0 (length cols) ltac:(discriminate) POS) as (r & E & J). change (quote_var DSQLite 1 ++ B ",") with (B "?,").
      rewrite E. cbn [bind]. eexists. split; [reflexivity|]. cbn [ret_tail flavour_of]. rewrite <- J. rewrite <- !app_assoc. reflexivity. }
  destruct E as (text & E & ->). unfold insert_one in E. rewrite N in E. rewrite E. do 2 eexists. split; [reflexivity|].
  destruct (table_spells _ _ _ _ _ D) as (tt & Q & T).
  pose proof (returning_clause _ _ _ _ _ D) as RC.
  replace (ret_items d items) with (opt_list (match d with DPostgres => Some items | _ => None end)) by (clear; destruct d; reflexivity).
  replace (m_values m) with (concat [m_values m]) at 1 by (cbn; apply app_nil_r).
  change [row_of (m_values m)] with (row_vals [m_values m]).
  eapply insert_parsed with (ig := false) (tts := ret_toks d items) (rest2 := ret_toks d items) (rest3 := [Sym ";"]).
  - left. split; reflexivity.
  - exact Q.
  - exact T.
  - apply D.
  - apply D.
  - apply D.
  - cbn [row_vals map]. constructor; [apply spells_row|constructor].
  - discriminate.
  - intros vs [<-|[]]. exact L.
  - intros n. eapply ret_spells, D.
  - clear; destruct d; reflexivity.
  - clear; destruct d; discriminate.
  - clear; destruct d; split; reflexivity.
  - clear; destruct d; reflexivity.
  - clear - RC. destruct d; [reflexivity|exact RC|reflexivity].
  - reflexivity.
  - clear; destruct d; [reflexivity|discriminate|discriminate].
Qed.
End Find.
End R.
