(** UpdateByPK without a generated statement. *)
From Verif Require Import Base ModelStrconv ModelCompiler ModelGen ModelRuntime SpecSql SpecGen SpecRuntime
  LemmasBase LemmasSql LemmasSql2 LemmasSql3 LemmasGen LemmasGen2 LemmasGen3 LemmasSql4 LemmasRuntime LemmasRuntime2 LemmasRuntime3 LemmasRuntime4.
From Coq Require Import Sorted.

Section R.
Context {V : Type}.
Notation tok := (tok V).

Fixpoint assigns (fl : flavour) (n : nat) (texts : list bytes) : list bytes :=
  match texts with [] => [] | c :: texts' => (c ++ B " = " ++ placeholder fl (S n)) :: assigns fl (S n) texts' end.
Lemma assigns_ne fl n texts : texts <> [] -> assigns fl n texts <> [].
Proof. destruct texts; [contradiction|discriminate]. Qed.
Lemma set_list_assigns d texts : texts <> [] -> set_list d texts = Ok (join (B ",") (assigns (flavour_of d) 0 texts)).
Proof.
  assert (ST : forall fl n texts, fl <> Postgres -> texts <> [] -> join (B " = ?,") texts ++ B " = ?" = join (B ",") (assigns fl n texts)).
  { intros fl n l NP. revert n. induction l as [|c l IH]; intros n NE; [contradiction|].
    assert (PH : forall k, placeholder fl k = B "?") by (intros k; destruct fl; [reflexivity|contradiction|reflexivity]).
    destruct l as [|c' l]; [cbn [assigns join]; rewrite PH; reflexivity|].
    assert (E := IH (S n) ltac:(discriminate)).
    change (assigns fl n (c :: c' :: l)) with ((c ++ B " = " ++ placeholder fl (S n)) :: assigns fl (S n) (c' :: l)).
    change (join (B " = ?,") (c :: c' :: l)) with (c ++ B " = ?," ++ join (B " = ?,") (c' :: l)).
    change (join (B ",") ((c ++ B " = " ++ placeholder fl (S n)) :: assigns fl (S n) (c' :: l)))
      with ((c ++ B " = " ++ placeholder fl (S n)) ++ B "," ++ join (B ",") (assigns fl (S n) (c' :: l))).
    rewrite <- E, PH, <- !app_assoc. reflexivity. }
  assert (PG : forall l c n, c ++ B " = " ++ quote_var DPostgres (S n) ++ set_vars (S n) l = join (B ",") (assigns Postgres n (c :: l))).
  { induction l as [|c' l IH]; intros c n; [cbn [set_vars assigns join]; rewrite app_nil_r; reflexivity|].
    change (assigns Postgres n (c :: c' :: l)) with ((c ++ B " = " ++ placeholder Postgres (S n)) :: assigns Postgres (S n) (c' :: l)).
    change (join (B ",") ((c ++ B " = " ++ placeholder Postgres (S n)) :: assigns Postgres (S n) (c' :: l)))
      with ((c ++ B " = " ++ placeholder Postgres (S n)) ++ B "," ++ join (B ",") (assigns Postgres (S n) (c' :: l))).
    rewrite <- IH. cbn [set_vars]. rewrite Nat.add_1_r, <- !app_assoc. reflexivity. }
  intros NE. destruct d; unfold set_list; cbn [flavour_of].
  - f_equal. apply (ST MySQL); [discriminate|exact NE].
  - destruct texts as [|c l]; [contradiction|]. f_equal. apply PG.
  - f_equal. apply (ST SQLite); [discriminate|exact NE].
Qed.

Definition sets_of (cs : list bytes) (vs : list V) : list (bytes * list tok) := combine cs (vals vs).
Lemma assigns_spells fl texts cs : Forall2 (denotes (V:=V) fl) texts cs -> forall n vs, length vs = length cs ->
  spells_all fl n (assigns fl n texts) (map (fun v => [v]) vs) (map assign_toks (sets_of cs vs)).
Proof.
  induction 1 as [|x c l l' DN F IH]; intros n [|v vs] L; try discriminate; cbn [assigns map sets_of combine vals]; constructor.
  - unfold assign_toks. cbn [fst snd]. change (Name c :: Op (B "=") :: [Val v]) with ([Name c] ++ [Op (B "=")] ++ [Val (V:=V) v]).
    apply spells_rr; [apply denotes_spells, DN| |reflexivity|discriminate].
    apply spells_lr; [sconst|apply spells_var|reflexivity].
  - cbn [length]. rewrite Nat.add_1_r. apply IH. cbn in L. lia.
Qed.

Section Update.
Variables (d : driver) (m : model V) (q cols : list bytes) (items : list (expr V)).
Notation fl := (flavour_of d).
Hypothesis D : described fl m q cols items.

Definition update_head (texts : list bytes) : bytes := B "UPDATE " ++ db_table m ++ B " SET " ++ join (B ",") (assigns fl 0 texts).
Lemma update_head_spells texts cs vs : Forall2 (denotes (V:=V) fl) texts cs -> texts <> [] -> length vs = length cs ->
  exists tt, qname tt = Some q /\ spells fl 0 (update_head texts) vs (Kw (B "UPDATE") :: tt ++ Kw (B "SET") :: commas (map assign_toks (sets_of cs vs))).
Proof.
  intros F NE L. destruct (table_spells _ _ _ _ _ D) as (tt & Q & T). exists tt. split; [exact Q|]. unfold update_head.
  change (Kw (B "UPDATE") :: ?x) with ([Kw (V:=V) (B "UPDATE")] ++ x). apply spells_lr; [sconst| |reflexivity].
  apply spells_rr; [apply T| |reflexivity|discriminate].
  change (Kw (B "SET") :: ?x) with ([Kw (V:=V) (B "SET")] ++ x). apply spells_lr; [sconst| |reflexivity].
  eapply spells_eq; [apply spells_join, assigns_spells; eassumption|reflexivity|apply concat_single|reflexivity].
Qed.

(** The statement with a single key *)
Definition single_text (texts : list bytes) (pk : bytes) (k : nat) : bytes :=
  update_head texts ++ B " WHERE " ++ pk ++ B " = " ++ quote_var d k ++ B ";".
Lemma single_spells texts cs vs pk kc v : Forall2 (denotes (V:=V) fl) texts cs -> texts <> [] -> length vs = length cs -> denotes (V:=V) fl pk kc ->
  exists tt, qname tt = Some q /\ spells fl 0 (single_text texts pk (S (length vs))) (vs ++ [v])
    ((Kw (B "UPDATE") :: tt ++ Kw (B "SET") :: commas (map assign_toks (sets_of cs vs))) ++ [Kw (B "WHERE")] ++ [Name kc] ++ [Op (B "=")] ++ [Val v] ++ [Sym ";"]).
Proof.
  intros F NE L DN. destruct (update_head_spells texts cs vs F NE L) as (tt & Q & H). exists tt. split; [exact Q|].
  unfold single_text. apply spells_app_r; [exact H| |reflexivity|discriminate].
  apply spells_lr; [sconst| |reflexivity]. apply spells_rr; [apply denotes_spells, DN| |reflexivity|discriminate].
  apply spells_lr; [sconst| |reflexivity].
  eapply spells_eq; [eapply spells_app_r with (vs1 := [v]) (vs2 := [])|reflexivity|reflexivity|reflexivity]; [|sconst|reflexivity|discriminate].
  rewrite quote_var_place. rewrite Nat.add_0_l. apply spells_var.
Qed.

(** PostgreSQL: a number is left out *)
Lemma gap_refused texts cs (vs : list V) pk kc (args : list V) : d = DPostgres -> Forall2 (denotes (V:=V) fl) texts cs -> texts <> [] -> length vs = length cs ->
  denotes (V:=V) fl pk kc -> read fl (single_text texts pk (length vs + 2)) args = None.
Proof.
  intros PG F NE L DN. destruct (update_head_spells texts cs vs F NE L) as (tt & Q & t1 & R1 & P1 & B1 & M1).
  destruct (read fl (single_text texts pk (length vs + 2)) args) eqn:RD; [exfalso|reflexivity].
  assert (RT : exists t2 n2, reads fl 0 (single_text texts pk (length vs + 2)) (t1 ++ t2) n2 /\ plist t2 = [length vs + 2]).
  { destruct (denotes_spells fl (0 + length vs) pk kc DN) as (t3 & R3 & P3 & _).
    rewrite Nat.add_0_r in R3. cbn [length] in R3.
    exists ([Kw (B "WHERE")] ++ t3 ++ [Op (B "=")] ++ [Param (length vs + 2)] ++ [Sym ";"]), (S (length vs)). split.
    - unfold single_text. eapply reads_app_r; [exact R1| |reflexivity|discriminate].
      eapply reads_app_l; [|  |reflexivity].
      { instantiate (1 := 0 + length vs). clear. destruct d; split; reflexivity || (intros; reflexivity). }
      eapply reads_app_r; [exact R3| |reflexivity|discriminate].
      eapply reads_app_l; [| |reflexivity].
      { instantiate (1 := 0 + length vs). clear. destruct d; split; reflexivity || (intros; reflexivity). }
      eapply reads_app_r; [| |reflexivity|discriminate].
      { apply reads_var_at. left. exact PG. }
      { clear. cbn [Nat.add]. destruct d; split; reflexivity || (intros; reflexivity). }
    - rewrite !plist_app. cbn in P3. rewrite P3. reflexivity. }
  destruct RT as (t2 & n2 & R & P). unfold read, lex in RD. rewrite (reads_lex _ _ _ _ _ R) in RD. unfold bind_args in RD.
  destruct (Nat.eqb_spec (highest (t1 ++ t2)) (length args)) as [E|E]; [|discriminate].
  rewrite highest_plist, plist_app, P1, P in E.
  assert (HI : length vs + 2 <= length args).
  { rewrite <- E. clear. induction (seq 1 (length vs)) as [|x l IH]; cbn [app fold_right]; lia. }
  destruct (forallb _ (seq 1 (length args))) eqn:U; [|discriminate].
  rewrite forallb_forall in U. specialize (U (S (length vs))). rewrite in_seq in U. specialize (U ltac:(lia)).
  apply existsb_exists in U. destruct U as (t & I & T).
  assert (IP : In (S (length vs)) (plist (t1 ++ t2))).
  { apply plist_In. destruct t; try discriminate. apply Nat.eqb_eq in T. subst. exact I. }
  rewrite plist_app, P1, P in IP. apply in_app_or in IP. destruct IP as [I2|[I2|[]]]; [apply in_seq in I2; lia|lia].
Qed.

(** The statement with a composite key *)
Definition comp_text (texts names : list bytes) (inner : bytes) : bytes :=
  update_head texts ++ B " WHERE (" ++ join (B ",") names ++ B ") = (" ++ inner ++ B ");".
Lemma comp_spells texts cs vs ns ks inner ivs its : Forall2 (denotes (V:=V) fl) texts cs -> texts <> [] -> length vs = length cs ->
  Forall2 (denotes (V:=V) fl) ns ks -> spells fl (length vs) inner ivs its ->
  exists tt, qname tt = Some q /\ spells fl 0 (comp_text texts ns inner) (vs ++ ivs)
    (Kw (B "UPDATE") :: tt ++ Kw (B "SET") :: commas (map assign_toks (sets_of cs vs))
     ++ Kw (B "WHERE") :: (row_toks (name_toks ks) ++ Op (B "=") :: Sym "(" :: its ++ [Sym ")"]) ++ [Sym ";"]).
Proof.
  intros F NE L DN IN. destruct (update_head_spells texts cs vs F NE L) as (tt & Q & H). exists tt. split; [exact Q|].
  unfold comp_text.
  eapply spells_eq; [apply spells_app_r with (s2 := B " WHERE (" ++ join (B ",") ns ++ B ") = (" ++ inner ++ B ");")
     (ts2 := [Kw (B "WHERE"); Sym "("] ++ commas (name_toks ks) ++ [Sym ")"; Op (B "="); Sym "("] ++ its ++ [Sym ")"; Sym ";"]); [exact H| |reflexivity|discriminate]
     |reflexivity|reflexivity|].
  - apply spells_lr; [sconst| |reflexivity]. apply spells_rr; [apply denotes_list, DN| |reflexivity|discriminate].
    apply spells_lr; [sconst| |reflexivity].
    eapply spells_eq; [eapply spells_app_r with (vs1 := ivs) (vs2 := [])|reflexivity|apply app_nil_r|reflexivity]; [exact IN|sconst|reflexivity|discriminate].
  - unfold row_toks. repeat (cbn [app]; rewrite <- ?app_assoc). reflexivity.
Qed.
End Update.

(** ** Refused conditions *)
Lemma where_tuple_refused (cs : list bytes) (inner : list tok) : balanced inner -> passes (one_of connective) (Sym "(" :: inner ++ [Sym ")"]) ->
  exprs inner = None ->
  where_p (row_toks (name_toks cs) ++ Op (B "=") :: Sym "(" :: inner ++ [Sym ")"]) = None.
Proof.
  intros BA PC NX. unfold where_p.
  replace (length (row_toks (name_toks cs) ++ Op (B "=") :: Sym "(" :: inner ++ [Sym ")"])) with
    (S (length (row_toks (name_toks cs) ++ Sym (V:=V) "(" :: inner ++ [Sym ")"]))) by (rewrite !app_length; cbn [length]; lia).
  rewrite condition_pred.
  - unfold predicate. rewrite until_stop; [|apply row_passes, names_exprs|reflexivity|reflexivity].
    destruct (parse_operand (row_toks (name_toks cs))); [|reflexivity]. cbn [obind].
    change (comparison (B "=")) with true. cbv beta iota.
    unfold parse_operand. change (beq "(" "(") with true. cbv beta iota. rewrite group_close by exact BA. rewrite NX. reflexivity.
  - eapply passes_weaken with (sep := one_of connective).
    { apply one_of_sub. intros x I. cbn in I. repeat (destruct I as [<-|I]; [cbn; tauto|]). contradiction. }
    apply passes_app; [apply row_passes, names_exprs|]. apply passes_cons; [reflexivity|reflexivity|exact PC].
  - unfold unwrapped, row_toks. cbn [app]. intros _ x. rewrite <- app_assoc. cbn [app].
    rewrite group_close by apply names_balanced. discriminate.
Qed.
Lemma parse_update_needs fl tbl q (sets : list (bytes * list tok)) rest s :
  qname tbl = Some q -> sets <> [] -> forallb (fun p => is_expr (snd p)) sets = true -> stops rest ->
  parse_update fl (tbl ++ Kw (B "SET") :: commas (map assign_toks sets) ++ rest) = Some s -> parse_tail fl rest <> None.
Proof.
  intros Q NE F ST. destruct (parse_tail fl rest) as [[[wh ord] lim]|] eqn:T; [discriminate|]. unfold parse_update.
  destruct (qname_plain tbl q ends_clause Q) as (_ & P & _ & _ & _); [reflexivity|reflexivity|].
  rewrite until_stop by (auto; reflexivity). cbn [obind]. rewrite Q. cbn [obind].
  change (Kw (B "SET") :: commas (map assign_toks sets) ++ rest) with (map Kw [B "SET"] ++ commas (map assign_toks sets) ++ rest).
  rewrite strip_kws. cbn [obind]. rewrite forallb_forall in F.
  rewrite until_stops; [|apply passes_commas; [apply ends_not_comma|]|exact ST].
  - cbn [obind]. destruct (assignments _); [|discriminate]. cbn [obind]. rewrite T. discriminate.
  - apply Forall_forall. intros x I. apply in_map_iff in I. destruct I as (p & <- & I). specialize (F _ I).
    apply passes_cons; [reflexivity|reflexivity|]. apply passes_cons; [reflexivity|reflexivity|]. apply expr_passes; [apply sep_clause|exact F].
Qed.
Lemma where_clause_refused fl (body : list tok) : passes ends_clause body -> where_p body = None -> parse_tail fl (Kw (B "WHERE") :: body ++ [Sym ";"]) = None.
Proof.
  intros P W. unfold parse_tail, clause. change (Kw (B "WHERE") :: ?x) with (map Kw [B "WHERE"] ++ x). rewrite strip_kws.
  rewrite until_stop by (auto; reflexivity). cbn [obind]. rewrite W. reflexivity.
Qed.

(** The items of the tuple that PostgreSQL is given *)
Lemma more_assigns texts n : forall j a more,
  map_res (fun i => match nth_error texts i with Some c => Ok (B "," ++ c ++ B " = " ++ quote_var DPostgres (n + i + 1)) | None => Panic end) (seq a j) = Ok more ->
  exists l, length l = j /\ incl l texts /\ concat more = concat (map (fun s => B "," ++ s) (assigns Postgres (n + a) l)).
Proof.
  induction j as [|j IH]; intros a more; cbn [seq map_res].
  - intros E. injection E as <-. exists []. split; [reflexivity|]. split; [intros x []|reflexivity].
  - destruct (nth_error texts a) as [c|] eqn:N; [|discriminate]. cbn [bind].
    destruct (map_res _ (seq (S a) j)) as [more'| |] eqn:M; try discriminate. cbn [bind].
    intros E. assert (E' : more = (B "," ++ c ++ B " = " ++ quote_var DPostgres (n + a + 1)) :: more') by congruence. subst more. clear E.
    destruct (IH (S a) more' M) as (l & L & I & C). exists (c :: l). split; [cbn; lia|]. split.
    + intros x [<-|X]; [apply nth_error_In in N; exact N|apply I, X].
    + cbn [assigns map concat]. rewrite C. replace (S (n + a)) with (n + S a) at 2 by lia.
      replace (n + a + 1) with (S (n + a)) by lia. rewrite <- !app_assoc. reflexivity.
Qed.
Lemma more_res texts n : forall j a,
  map_res (fun i => match nth_error texts i with Some c => Ok (B "," ++ c ++ B " = " ++ quote_var DPostgres (n + i + 1)) | None => Panic end) (seq a j) <> Err.
Proof.
  induction j as [|j IH]; intros a; cbn [seq map_res]; [discriminate|]. destruct (nth_error texts a); [|discriminate]. cbn [bind].
  specialize (IH (S a)). destruct (map_res _ _); cbn [bind]; congruence.
Qed.
Lemma join_concat (s : bytes) l : join (B ",") (s :: l) = s ++ concat (map (fun s => B "," ++ s) l).
Proof.
  revert s. induction l as [|x l IH]; intros s; [cbn; rewrite app_nil_r; reflexivity|].
  change (join (B ",") (s :: x :: l)) with (s ++ B "," ++ join (B ",") (x :: l)). rewrite IH. cbn [map concat]. rewrite <- !app_assoc. reflexivity.
Qed.
Lemma denotes_incl fl texts cs l : Forall2 (denotes (V:=V) fl) texts cs -> incl l texts -> exists cs', Forall2 (denotes (V:=V) fl) l cs'.
Proof.
  intros F. induction l as [|x l IH]; intros I; [exists []; constructor|]. destruct IH as (cs' & F'); [intros y Y; apply I; now right|].
  assert (X : exists c, denotes (V:=V) fl x c).
  { specialize (I x (or_introl eq_refl)). clear -F I. induction F; [contradiction|]. destruct I as [->|I]; eauto. }
  destruct X as (c & X). exists (c :: cs'). constructor; assumption.
Qed.

(** ** Removing positions from parallel lists *)
Lemma remove_at_Forall2 {A C} (P : A -> C -> Prop) i l l' r : Forall2 P l l' -> remove_at i l = Ok r ->
  exists r', remove_at i l' = Ok r' /\ Forall2 P r r' /\ S (length r) = length l.
Proof.
  intros F E. destruct (remove_at_is _ _ _ E) as (LT & L & ->).
  assert (LL : length l = length l') by (clear -F; induction F; cbn; congruence).
  exists (omit_at (Some i) l'). split; [unfold remove_at; rewrite <- LL; apply Nat.ltb_lt in LT; rewrite LT; reflexivity|].
  split; [apply omit_Forall2, F|exact L].
Qed.
Lemma remove_all_Forall2 {A C} (P : A -> C -> Prop) l l' : Forall2 P l l' -> forall idxs r, remove_all idxs l = Ok r ->
  exists r', remove_all idxs l' = Ok r' /\ Forall2 P r r' /\ length r + length idxs = length l.
Proof.
  intros F. unfold remove_all. induction idxs as [|i idxs IH]; intros r; cbn [fold_right].
  - intros E. injection E as <-. exists l'. split; [reflexivity|]. split; [exact F|cbn; lia].
  - destruct (fold_right _ _ idxs) as [r0| |]; try discriminate. cbn [bind]. intros E.
    destruct (IH r0 eq_refl) as (r0' & E0 & F0 & L0). rewrite E0. cbn [bind].
    destruct (remove_at_Forall2 P i r0 r0' r F0 E) as (r' & E' & F' & L'). exists r'. split; [exact E'|]. split; [exact F'|cbn [length]; lia].
Qed.
Lemma remove_all_err {A} idxs (l : list A) : remove_all idxs l <> Err.
Proof.
  unfold remove_all. induction idxs as [|i idxs IH]; cbn [fold_right]; [discriminate|].
  destruct (fold_right _ _ idxs); cbn [bind]; try congruence. unfold remove_at. destruct (Nat.ltb _ _); discriminate.
Qed.
Lemma same_length {A C} (l : list A) (l' : list C) : length l = length l' -> Forall2 (fun _ _ => True) l l'.
Proof. revert l'. induction l as [|x l IH]; intros [|y l'] E; try discriminate; constructor; [exact I|apply IH; cbn in E; lia]. Qed.
Lemma Forall2_length {A C} (P : A -> C -> Prop) l l' : Forall2 P l l' -> length l = length l'.
Proof. induction 1; cbn; congruence. Qed.
Lemma sort_ints_length l : length (sort_ints l) = length l.
Proof.
  induction l as [|x l IH]; [reflexivity|]. cbn [sort_ints fold_right length]. fold (sort_ints l). rewrite <- IH. generalize (sort_ints l). clear.
  induction l as [|y l IH]; [reflexivity|]. cbn [insert_sorted]. destruct (Nat.leb x y); cbn [length]; congruence.
Qed.

Section UpdateByPK.
Variables (d : driver) (m : model V) (q cols : list bytes) (items : list (expr V)).
Notation fl := (flavour_of d).
Hypothesis D : described fl m q cols items.
Hypothesis FALL : m_update m = None.
Hypothesis L : length (m_values m) = length cols.

Lemma update_single_refused pk idx v kc : (m_key m = AutoKey pk idx v \/ m_key m = SingleKey pk idx v) -> denotes (V:=V) fl pk kc ->
  idx < length cols -> 2 <= length cols ->
  exists text args, update_by_pk d m = Ok (text, args) /\ read fl text args = None.
Proof.
  intros K DN IX TWO. set (texts := omit_at (Some idx) (m_columns m)). set (vs := omit_at (Some idx) (m_values m)).
  assert (LC := cols_length _ _ _ _ _ D).
  assert (RC : remove_at idx (m_columns m) = Ok texts) by (unfold remove_at; rewrite LC; apply Nat.ltb_lt in IX; rewrite IX; reflexivity).
  assert (RV : remove_at idx (m_values m) = Ok vs) by (unfold remove_at; rewrite L; apply Nat.ltb_lt in IX; rewrite IX; reflexivity).
  destruct (remove_at_is _ _ _ RC) as (_ & LT & _). destruct (remove_at_is _ _ _ RV) as (_ & LV & _).
  assert (F : Forall2 (denotes (V:=V) fl) texts (omit_at (Some idx) cols)) by apply omit_Forall2, D.
  assert (NE : texts <> []) by (destruct texts; [cbn in LT; lia|discriminate]).
  assert (LE : length vs = length (omit_at (Some idx) cols)) by (rewrite <- (Forall2_length _ _ _ F); lia).
  assert (E : update_by_pk d m = Ok (single_text d m texts pk (match d with DPostgres => length vs + 2 | _ => 1 end), (vs ++ [v]) ++ [v])).
  { unfold update_by_pk. rewrite FALL. replace (length vs) with (length texts) by lia.
    unfold single_text, update_head. destruct K as [-> | ->]; rewrite RC; cbn [bind]; rewrite RV; cbn [bind]; rewrite set_list_assigns by exact NE; cbn [bind]; rewrite <- !app_assoc; reflexivity. }
  rewrite E. do 2 eexists. split; [reflexivity|].
  assert (G : d = DPostgres -> read fl (single_text d m texts pk (length vs + 2)) ((vs ++ [v]) ++ [v]) = None).
  { intros PG. eapply gap_refused; eassumption. }
  destruct (single_spells d m q cols items D texts _ vs pk kc v F NE LE DN) as (tt & _ & SP).
  assert (C : read fl (single_text d m texts pk (S (length vs))) ((vs ++ [v]) ++ [v]) = None).
  { eapply spells_count; [exact SP|]. rewrite !app_length. cbn [length]. lia. }
  clear - G C. destruct d; [exact C|apply G; reflexivity|exact C].
Qed.

Lemma update_comp ns idxs vs : m_key m = CompKey ns idxs vs -> length idxs < length cols ->
  update_by_pk d m = Panic \/
  exists texts cs rest, Forall2 (denotes (V:=V) fl) texts cs /\ texts <> [] /\ length rest = length cs /\
    remove_all (sort_ints idxs) (m_columns m) = Ok texts /\ remove_all (sort_ints idxs) (m_values m) = Ok rest /\ remove_all (sort_ints idxs) cols = Ok cs.
Proof.
  intros K LT. pose proof (cols_length _ _ _ _ _ D) as LC. pose proof (d_columns _ _ _ _ _ D) as DC.
  unfold update_by_pk. rewrite FALL, K.
  destruct (remove_all (sort_ints idxs) (m_columns m)) as [texts| |] eqn:RC; [|exfalso; eapply remove_all_err; exact RC|left; reflexivity].
  right. destruct (remove_all_Forall2 _ _ _ DC _ _ RC) as (cs & RCS & F & LL).
  assert (FV : Forall2 (fun (_ : bytes) (_ : V) => True) (m_columns m) (m_values m)) by (apply same_length; congruence).
  destruct (remove_all_Forall2 _ _ _ FV _ _ RC) as (rest & RV & FR & _).
  exists texts, cs, rest. split; [exact F|]. rewrite sort_ints_length in LL. split; [intros ->; cbn in LL; lia|].
  split; [rewrite <- (Forall2_length _ _ _ F); symmetry; apply (Forall2_length _ _ _ FR)|]. repeat split; assumption.
Qed.

(** MySQL and SQLite: only the key is bound *)
Lemma update_comp_static_refused ns idxs vs ks : d <> DPostgres -> m_key m = CompKey ns idxs vs -> keyed_by fl m ks -> length idxs < length cols ->
  update_by_pk d m = Panic \/ exists text args, update_by_pk d m = Ok (text, args) /\ read fl text args = None.
Proof.
  intros NP K KB LT. destruct (update_comp ns idxs vs K LT) as [P|(texts & cs & rest & F & NE & LR & RC & RV & RCS)]; [left; exact P|right].
  unfold keyed_by in KB. rewrite K in KB. destruct KB as (KN & FK & ->).
  assert (POS : 0 < length ns) by (rewrite (Forall2_length _ _ _ FK), map_length; destruct ks; [contradiction|cbn; lia]).
  assert (LN : length ns = length (map snd ks)) by (rewrite (Forall2_length _ _ _ FK), !map_length; reflexivity).
  assert (NPF : fl <> Postgres) by (clear -NP; destruct d; [discriminate|contradiction|discriminate]).
  assert (QV : quote_var d 1 = B "?") by (clear -NP; destruct d; [reflexivity|contradiction|reflexivity]).
  destruct (repeat_pred_places2 fl (length rest) (length ns) NPF POS) as (r & ER & J).
  exists (comp_text d m texts ns (join (B ",") (places fl (length rest) (length (map snd ks))))), (map snd ks). split.
  - unfold update_by_pk. rewrite FALL, K, RC. cbn [bind]. rewrite RV. cbn [bind]. rewrite set_list_assigns by exact NE. cbn [bind].
    rewrite <- LN, <- J. unfold comp_text, update_head. rewrite QV. change (B "," ++ B "?") with (B ",?").
    clear - NP ER. destruct d; [|contradiction|]; rewrite ER; cbn [bind]; rewrite <- !app_assoc; reflexivity.
  - destruct (comp_spells d m q cols items D texts cs rest ns (map fst ks) (join (B ",") (places fl (length rest) (length (map snd ks)))) (map snd ks) (commas (vals (map snd ks))) F NE LR FK (spells_vars _ _ _)) as (tt & _ & SP).
    eapply spells_count; [exact SP|]. rewrite app_length. rewrite LR, <- (Forall2_length _ _ _ F). destruct texts; [contradiction|cbn [length]; lia].
Qed.

(** PostgreSQL, two or more key columns: an assignment inside the tuple *)
Lemma update_comp_pg_refused ns idxs vs ks : d = DPostgres -> m_key m = CompKey ns idxs vs -> keyed_by fl m ks -> length idxs < length cols -> 2 <= length ks ->
  update_by_pk d m = Panic \/ exists text args, update_by_pk d m = Ok (text, args) /\ read fl text args = None.
Proof.
  intros PG K KB LT TWO. destruct (update_comp ns idxs vs K LT) as [P|(texts & cs & rest & F & NE & LR & RC & RV & RCS)]; [left; exact P|].
  unfold keyed_by in KB. rewrite K in KB. destruct KB as (KN & FK & ->).
  assert (LN : length ns = length ks) by (rewrite (Forall2_length _ _ _ FK), map_length; reflexivity).
  assert (LTX : length texts = length rest) by (rewrite LR; apply (Forall2_length _ _ _ F)).
  assert (E : update_by_pk d m = bind (map_res (fun i => match nth_error texts i with Some c => Ok (B "," ++ c ++ B " = " ++ quote_var DPostgres (length texts + i + 1)) | None => Panic end) (seq 1 (length ns - 1)))
     (fun more => Ok (comp_text d m texts ns (quote_var DPostgres (length texts + 1) ++ concat more), rest ++ map snd ks))).
  { unfold update_by_pk. rewrite FALL, K, RC. cbn [bind]. rewrite RV. cbn [bind]. rewrite set_list_assigns by exact NE. cbn [bind].
    unfold comp_text, update_head. rewrite PG. cbv beta iota zeta.
    match goal with |- bind ?x _ = bind ?y _ => change x with y; destruct y as [more| |]; cbn [bind]; [|reflexivity|reflexivity] end.
    rewrite <- !app_assoc. reflexivity. }
  rewrite E. destruct (map_res _ _) as [more| |] eqn:M; cbn [bind]; [|exfalso; eapply more_res; exact M|left; reflexivity].
  right. do 2 eexists. split; [reflexivity|].
  destruct (more_assigns texts (length texts) (length ns - 1) 1 more M) as (l & LL & IL & CM).
  destruct (denotes_incl _ _ _ l F IL) as (cs' & F').
  destruct ks as [|[k0 v0] ks]; [contradiction|].
  assert (KL : length (map snd ks) = length cs') by (rewrite <- (Forall2_length _ _ _ F'), LL, LN, map_length; cbn [length]; lia).
  assert (FLP : fl = Postgres) by (rewrite PG; reflexivity).
  assert (SI : spells fl (length rest) (quote_var DPostgres (length texts + 1) ++ concat more) (map snd ((k0, v0) :: ks))
      (commas ([Val v0] :: map assign_toks (sets_of cs' (map snd ks))))).
  { rewrite CM, <- join_concat. rewrite FLP. replace (quote_var DPostgres (length texts + 1)) with (placeholder Postgres (S (length rest))) by (rewrite <- LTX, Nat.add_1_r; reflexivity).
    eapply spells_eq; [apply spells_join with (vss := [v0] :: map (fun v => [v]) (map snd ks)); constructor; [apply spells_var|]|reflexivity| |reflexivity].
    - cbn [length]. rewrite <- LTX. rewrite FLP in F'. apply assigns_spells; assumption.
    - cbn [concat]. rewrite concat_single. reflexivity. }
  destruct (comp_spells d m q cols items D texts cs rest ns (map fst ((k0, v0) :: ks)) _ _ _ F NE LR FK SI) as (tt & Q & SP).
  rewrite (spells_read _ _ _ _ SP). set (inner := commas ([Val v0] :: map assign_toks (sets_of cs' (map snd ks)))).
  assert (PA : forall sep : tok -> bool, (forall t, sep t = true -> is_comma t = false) -> (forall x, sep (Op x) = false) -> (forall x, sep (Name x) = false) -> (forall x, sep (Val x) = false) -> passes sep inner).
  { intros sep S1 S2 S3 S4. apply passes_commas; [exact S1|]. constructor; [apply passes_one; [reflexivity|apply S4]|].
    apply Forall_forall. intros x I. apply in_map_iff in I. destruct I as ([c e] & <- & I). unfold sets_of in I.
    apply in_combine_r in I. unfold vals in I. apply in_map_iff in I. destruct I as (v & <- & _). unfold assign_toks. cbn [fst snd].
    apply passes_cons; [reflexivity|apply S3|]. apply passes_cons; [reflexivity|apply S2|]. apply passes_one; [reflexivity|apply S4]. }
  assert (BA : balanced inner) by (apply (PA (fun _ => false)); reflexivity || discriminate).
  assert (NX : exprs inner = None).
  { unfold exprs, inner. rewrite split_commas; [|discriminate|].
    - assert (SN : sets_of cs' (map snd ks) <> []).
      { destruct ks; [cbn in TWO; lia|]. destruct cs'; [cbn in KL; lia|discriminate]. }
      destruct (sets_of cs' (map snd ks)) as [|[c e] rr]; [contradiction|]. reflexivity.
    - constructor; [apply passes_one; reflexivity|]. apply Forall_forall. intros x I. apply in_map_iff in I. destruct I as ([c e] & <- & I). unfold sets_of in I.
      apply in_combine_r in I. unfold vals in I. apply in_map_iff in I. destruct I as (v & <- & _). unfold assign_toks. cbn [fst snd].
      apply passes_cons; [reflexivity|reflexivity|]. apply passes_cons; [reflexivity|reflexivity|]. apply passes_one; reflexivity. }
  destruct (parse fl _) as [s|] eqn:PS; [exfalso|reflexivity].
  unfold parse in PS. cbn [app] in PS.
  match type of PS with match strip _ (_ :: ?r) with _ => _ end = _ => assert (PU : parse_update fl r = Some s) end.
  { clear - PS. destruct fl; exact PS. }
  apply parse_update_needs with (q := q) in PU.
  - apply PU. apply where_clause_refused; [|apply where_tuple_refused; [exact BA|apply passes_paren, BA|exact NX]].
    apply passes_app; [apply row_passes, names_exprs|]. apply passes_cons; [reflexivity|reflexivity|]. apply passes_paren, BA.
  - exact Q.
  - unfold sets_of. destruct cs as [|c0 cs]; [destruct texts; [contradiction|inversion F]|]. destruct rest; [discriminate|discriminate].
  - apply forallb_forall. intros [c e] I. apply in_combine_r in I. unfold vals in I. apply in_map_iff in I. destruct I as (v & <- & _). reflexivity.
  - split; reflexivity.
Qed.

(** PostgreSQL, a composite key of one column *)
Lemma update_comp_pg_one n i v k : d = DPostgres -> m_key m = CompKey [n] [i] [v] -> denotes (V:=V) fl n k -> i < length cols -> 2 <= length cols ->
  exists text args, update_by_pk d m = Ok (text, args) /\
    read fl text args = Some (Update q (combine (omit_at (Some i) cols) (row_of (omit_at (Some i) (m_values m))))
                                (Some (Compare (Tuple [[Name k]]) (B "=") (Tuple [[Val v]]))) [] None).
Proof.
  intros PG K DN IX TWO. set (texts := omit_at (Some i) (m_columns m)). set (vs := omit_at (Some i) (m_values m)).
  assert (LC := cols_length _ _ _ _ _ D).
  assert (RC : remove_all (sort_ints [i]) (m_columns m) = Ok texts) by (cbn [sort_ints fold_right insert_sorted remove_all bind]; unfold remove_at; rewrite LC; apply Nat.ltb_lt in IX; rewrite IX; reflexivity).
  assert (RV : remove_all (sort_ints [i]) (m_values m) = Ok vs) by (cbn [sort_ints fold_right insert_sorted remove_all bind]; unfold remove_at; rewrite L; apply Nat.ltb_lt in IX; rewrite IX; reflexivity).
  assert (RC1 : remove_at i (m_columns m) = Ok texts) by exact RC. assert (RV1 : remove_at i (m_values m) = Ok vs) by exact RV.
  destruct (remove_at_is _ _ _ RC1) as (_ & LT & _). destruct (remove_at_is _ _ _ RV1) as (_ & LV & _).
  assert (F : Forall2 (denotes (V:=V) fl) texts (omit_at (Some i) cols)) by apply omit_Forall2, D.
  assert (NE : texts <> []) by (destruct texts; [cbn in LT; lia|discriminate]).
  assert (LE : length vs = length (omit_at (Some i) cols)) by (rewrite <- (Forall2_length _ _ _ F); lia).
  exists (comp_text d m texts [n] (quote_var d (length vs + 1))), (vs ++ [v]). split.
  - unfold update_by_pk. rewrite FALL, K, RC. cbn [bind]. rewrite RV. cbn [bind]. rewrite set_list_assigns by exact NE. cbn [bind].
    unfold comp_text, update_head. replace (length vs) with (length texts) by lia. rewrite PG. cbn [length Nat.sub seq map_res bind concat].
    rewrite <- !app_assoc. reflexivity.
  - assert (SI : spells fl (length vs) (quote_var d (length vs + 1)) [v] (commas (vals [v]))) by (rewrite quote_var_place, Nat.add_1_r; apply spells_var).
    assert (FK : Forall2 (denotes (V:=V) fl) [n] [k]) by (constructor; [exact DN|constructor]).
    destruct (comp_spells d m q cols items D texts _ vs [n] [k] _ _ _ F NE LE FK SI) as (tt & Q & SP).
    rewrite (spells_read _ _ _ _ SP).
    assert (PU : parse_update fl (tt ++ Kw (B "SET") :: commas (map assign_toks (sets_of (omit_at (Some i) cols) vs))
       ++ Kw (B "WHERE") :: (row_toks (name_toks [k]) ++ Op (B "=") :: Sym "(" :: commas (vals [v]) ++ [Sym ")"]) ++ [Sym ";"])
       = Some (Update q (combine (omit_at (Some i) cols) (row_of vs)) (Some (Compare (Tuple [[Name k]]) (B "=") (Tuple [[Val v]]))) [] None)).
    { apply parse_update_shape.
      - exact Q.
      - unfold sets_of. destruct (omit_at (Some i) cols) as [|c0 cs]; [destruct texts; [contradiction|inversion F]|]. destruct vs; [discriminate|discriminate].
      - apply forallb_forall. intros [c e] I. apply in_combine_r in I. unfold vals in I. apply in_map_iff in I. destruct I as (v' & <- & _). reflexivity.
      - split; reflexivity.
      - change (@nil (operand V * direction)) with (opt_list (@None (list (operand V * direction)))). eapply parse_tail_shape with (rest1 := [Sym ";"]) (rest2 := [Sym ";"]) (rest3 := [Sym ";"]); try reflexivity.
        intros _. split; reflexivity. }
    unfold parse. cbn [app]. clear - PU. destruct fl; exact PU.
Qed.
End UpdateByPK.
End R.
