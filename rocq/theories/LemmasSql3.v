(** Binding of arguments and the shapes of whole statements, for [SpecSql]. *)
From Verif Require Import Base SpecSql LemmasBase LemmasSql LemmasSql2.

Section Shape.
Context {V : Type}.
Notation tok := (tok V).
Implicit Types (ts r rest : list tok).

(** ** Binding *)
Definition plist ts : list nat := flat_map (fun t => match t with Param k => [k] | _ => [] end) ts.
Definition bads ts : bool := existsb is_bad ts.

Lemma plist_app a b : plist (a ++ b) = plist a ++ plist b.
Proof. apply flat_map_app. Qed.
Lemma plist_cons_other (t : tok) ts : (forall k, t <> Param k) -> plist (t :: ts) = plist ts.
Proof. intros H. destruct t; try reflexivity. exfalso. eapply H. reflexivity. Qed.
Lemma plist_commas (l : list (list tok)) : plist (commas l) = flat_map plist l.
Proof.
  induction l as [|x [|y l] IH]; [reflexivity|cbn; rewrite app_nil_r; reflexivity|].
  cbn [commas flat_map]. rewrite plist_app. f_equal. exact IH.
Qed.
Lemma bads_app a b : bads (a ++ b) = bads a || bads b.
Proof. apply existsb_app. Qed.
Lemma bads_commas (l : list (list tok)) : bads (commas l) = existsb bads l.
Proof.
  induction l as [|x [|y l] IH]; [reflexivity|cbn; rewrite orb_false_r; reflexivity|].
  cbn [commas existsb]. rewrite bads_app. f_equal. exact IH.
Qed.
Lemma bads_In ts : bads ts = false <-> ~ In Bad ts.
Proof.
  unfold bads. rewrite <- not_true_iff_false, existsb_exists. split; intros H I; apply H.
  - exists Bad. split; [exact I|reflexivity].
  - destruct I as (t & I & E). destruct t; try discriminate. exact I.
Qed.
Lemma map_commas (f : tok -> tok) l : f (Sym ",") = Sym "," -> map f (commas l) = commas (map (map f) l).
Proof.
  intros F. induction l as [|x [|y l] IH]; [reflexivity|reflexivity|].
  cbn [commas map]. rewrite map_app. cbn [map]. rewrite F. f_equal. f_equal. exact IH.
Qed.
Lemma highest_plist ts : highest ts = fold_right Nat.max 0 (plist ts).
Proof.
  induction ts as [|t ts IH]; [reflexivity|]. destruct t; cbn [highest fold_right plist flat_map app] in *; auto.
Qed.
Lemma max_seq n : forall a, fold_right Nat.max 0 (seq (S a) (S n)) = S a + n.
Proof.
  induction n as [|n IH]; intros a; [cbn; lia|]. change (seq (S a) (S (S n))) with (S a :: seq (S (S a)) (S n)).
  cbn [fold_right]. rewrite IH. lia.
Qed.
Lemma highest_seq ts n : plist ts = seq 1 n -> highest ts = n.
Proof. rewrite highest_plist. intros ->. destruct n; [reflexivity|]. rewrite max_seq. reflexivity. Qed.

Lemma plist_In ts k : In (Param k) ts <-> In k (plist ts).
Proof.
  unfold plist. rewrite in_flat_map. split.
  - intros I. exists (Param k). split; [exact I|left; reflexivity].
  - intros (t & I & E). destruct t; try contradiction. destruct E as [->|[]]. exact I.
Qed.

Lemma bind_none (args : list V) ts : plist ts = [] -> map (bind_tok args) ts = ts.
Proof.
  induction ts as [|t ts IH]; intros H; [reflexivity|]. destruct t; try discriminate; cbn [map bind_tok]; f_equal; apply IH; exact H.
Qed.

Lemma read_parse_gen fl text ts n' (args : list V) :
  reads fl 0 text ts n' -> highest ts = length args -> (forall k, 1 <= k <= length args -> In k (plist ts)) ->
  ~ In 0 (plist ts) -> bads ts = false ->
  read fl text args = parse fl (map (bind_tok args) ts).
Proof.
  intros R P U Z NB. unfold read, lex. rewrite (reads_lex _ _ _ _ _ R). unfold bind_args.
  rewrite P, Nat.eqb_refl. replace (forallb _ (seq 1 (length args))) with true; [cbn [andb obind]|].
  2:{ symmetry. apply forallb_forall. intros k I. apply in_seq in I. apply existsb_exists. exists (Param k).
      split; [apply plist_In, U; lia|apply Nat.eqb_refl]. }
  destruct (existsb is_bad (map (bind_tok args) ts)) eqn:E; [|reflexivity]. exfalso.
  apply existsb_exists in E. destruct E as (t & I & T). destruct t; try discriminate.
  apply in_map_iff in I. destruct I as (t & E & I). destruct t; cbn [bind_tok] in E; try discriminate.
  - destruct k as [|k]; [apply Z, plist_In; exact I|].
    destruct (nth_error args k) eqn:NE; [discriminate|]. apply nth_error_None in NE.
    assert (H : S k <= highest ts); [|lia].
    clear -I. induction ts as [|t ts IH]; [contradiction|]. destruct I as [->|I].
    { change (highest (Param (S k) :: ts)) with (Nat.max (S k) (highest ts)). lia. }
    specialize (IH I). destruct t; try exact IH. change (highest (Param k0 :: ts)) with (Nat.max k0 (highest ts)). lia.
  - apply bads_In in NB. auto.
Qed.
Lemma read_parse fl text ts n' (args : list V) :
  reads fl 0 text ts n' -> plist ts = seq 1 (length args) -> bads ts = false ->
  read fl text args = parse fl (map (bind_tok args) ts).
Proof.
  intros R P NB. eapply read_parse_gen; eauto; [apply highest_seq; exact P| |]; rewrite P.
  - intros k I. apply in_seq. lia.
  - intros I. apply in_seq in I. lia.
Qed.

(** ** Statements *)
Definition stops rest : Prop := match rest with [] => True | t :: _ => plain_tok t = true /\ ends_clause t = true end.

Lemma until_stops ts rest : passes ends_clause ts -> stops rest -> until ends_clause 0 (ts ++ rest) = Some (ts, rest).
Proof.
  intros P S. destruct rest as [|t r]; [rewrite app_nil_r; exact P|]. destruct S. apply until_stop; assumption.
Qed.

Lemma strip_kws (ws : list bytes) r : strip ws (map Kw ws ++ r) = Some r.
Proof.
  induction ws as [|w ws IH]; [reflexivity|]. cbn [map app strip is_kw]. rewrite bseq_refl. exact IH.
Qed.
Lemma clause_some {A} (ws : list bytes) (p : list tok -> option A) body rest a :
  passes ends_clause body -> stops rest -> p body = Some a ->
  clause ws p (map Kw ws ++ body ++ rest) = Some (Some a, rest).
Proof.
  intros P S E. unfold clause. rewrite strip_kws, until_stops by assumption. cbn [obind]. rewrite E. reflexivity.
Qed.

(** Qualified names. *)
Lemma qname_plain ts q (sep : tok -> bool) : qname ts = Some q -> (forall n, sep (Name n) = false) -> sep (Sym ".") = false ->
  ts <> [] /\ passes sep ts /\ plist ts = [] /\ bads ts = false /\ (forall r, cut_paren (ts ++ Sym "(" :: r) = (ts, Sym "(" :: r)).
Proof.
  intros Q N D. revert q Q. assert (G : forall m ts, length ts <= m -> forall q, qname ts = Some q ->
    ts <> [] /\ passes sep ts /\ plist ts = [] /\ bads ts = false /\ (forall r, cut_paren (ts ++ Sym "(" :: r) = (ts, Sym "(" :: r))).
  { clear ts. induction m as [|m IH]; intros ts L q Q; [destruct ts; [discriminate|cbn in L; lia]|].
    destruct ts as [|t ts]; [discriminate|]. destruct t; try discriminate.
    destruct ts as [|t2 ts].
    - split; [discriminate|]. split; [apply passes_one; [reflexivity|apply N]|]. repeat split.
    - destruct t2; try discriminate. cbn [qname] in Q. destruct (beq c ".") eqn:E; [|discriminate].
      apply beq_eq in E. subst c. destruct (qname ts) as [q'|] eqn:Q'; [|discriminate].
      destruct (IH ts ltac:(cbn in L; lia) q' Q') as (_ & P & PL & BA & C).
      split; [discriminate|]. split; [apply passes_cons; [reflexivity|apply N|]; apply passes_cons; [reflexivity|exact D|exact P]|].
      split; [exact PL|]. split; [exact BA|]. intros r. cbn [app cut_paren is_sym].
      replace (beq "(" ".") with false by reflexivity. rewrite C. reflexivity. }
  intros q Q. eapply (G (length ts)); [lia|exact Q].
Qed.

Definition row_toks (r : list (list tok)) : list tok := Sym "(" :: commas r ++ [Sym ")"].

Lemma exprs_balanced (l : list (list tok)) : forallb is_expr l = true -> balanced (commas l).
Proof.
  intros F. apply balanced_commas. apply Forall_forall. intros e I. rewrite forallb_forall in F.
  specialize (F e I). apply is_expr_passes in F. destruct F as (_ & P & _). eapply passes_balanced; eauto.
Qed.
Lemma row_passes sep (r : list (list tok)) : forallb is_expr r = true -> passes sep (row_toks r).
Proof. intros F. apply passes_paren. apply exprs_balanced. exact F. Qed.
Lemma row_value (r : list (list tok)) : r <> [] -> forallb is_expr r = true -> value_row (row_toks r) = Some r.
Proof.
  intros NE F. unfold value_row, row_toks. rewrite parens_group by (apply exprs_balanced; exact F).
  cbn [obind]. apply exprs_commas; assumption.
Qed.
Lemma names_balanced (l : list bytes) : balanced (commas (name_toks (V:=V) l)).
Proof. apply balanced_commas. apply name_toks_passes. reflexivity. Qed.

Lemma ends_not_comma (t : tok) : ends_clause t = true -> is_comma t = false.
Proof.
  intros T. destruct (is_comma t) eqn:C; [|reflexivity]. destruct t; try discriminate. unfold is_comma, is_sym in C.
  apply beq_eq in C. subst. discriminate.
Qed.

Lemma parse_insert_shape fl ig tbl q (cols : list bytes) (rows : list (list (list tok))) rest rest2 rest3 c ret :
  qname tbl = Some q -> cols <> [] -> NoDup cols -> rows <> [] ->
  (forall x : list (list tok), In x rows -> length x = length cols /\ forallb is_expr x = true) ->
  stops rest -> conflict_p fl ig rest = Some (c, rest2) ->
  clause [B "RETURNING"] exprs rest2 = Some (ret, rest3) -> the_end rest3 = true ->
  (fl = MySQL -> ret = None) ->
  parse_insert fl ig (tbl ++ Sym "(" :: commas (name_toks cols) ++ Sym ")" :: Kw (B "VALUES") :: commas (map row_toks rows) ++ rest)
  = Some (Insert q cols rows c (opt_list ret)).
Proof.
  intros Q CN ND RN R ST C RET E MY. unfold parse_insert.
  destruct (qname_plain tbl q ends_clause Q) as (_ & P & _ & _ & CUT); [reflexivity|reflexivity|].
  replace (tbl ++ Sym "(" :: commas (name_toks cols) ++ Sym ")" :: Kw (B "VALUES") :: commas (map row_toks rows) ++ rest)
    with ((tbl ++ Sym "(" :: commas (name_toks cols) ++ [Sym ")"]) ++ Kw (B "VALUES") :: commas (map row_toks rows) ++ rest)
    by (rewrite <- !app_assoc; cbn [app]; rewrite <- app_assoc; reflexivity).
  rewrite until_stop; [|apply passes_app; [exact P|apply passes_paren, names_balanced]|reflexivity|reflexivity].
  cbn [obind]. rewrite CUT, Q. cbn [obind]. rewrite parens_group by apply names_balanced. cbn [obind].
  rewrite names_commas by assumption. cbn [obind].
  change (Kw (B "VALUES") :: commas (map row_toks rows) ++ rest) with (map Kw [B "VALUES"] ++ commas (map row_toks rows) ++ rest).
  rewrite strip_kws. cbn [obind].
  rewrite until_stops; [|apply passes_commas|exact ST].
  - cbn [obind]. rewrite split_commas.
    + rewrite map_map. rewrite (all_some_map _ (fun x : list (list tok) => x) rows); [|].
      * rewrite map_id. cbn [obind].
        replace (forallb (fun r : list (expr V) => Nat.eqb (length r) (length cols)) rows) with true.
        { cbn [guard obind]. rewrite C. cbn [obind]. rewrite RET. cbn [obind]. rewrite E. cbn [guard obind].
          destruct fl; try reflexivity. rewrite MY by reflexivity. reflexivity. }
        symmetry. apply forallb_forall. intros r I. apply Nat.eqb_eq. apply R. exact I.
      * intros r I. destruct (R r I) as [L F]. apply row_value; [|exact F].
        intros ->. cbn in L. destruct cols; [contradiction|discriminate].
    + destruct rows; [contradiction|discriminate].
    + apply Forall_forall. intros x I. apply in_map_iff in I. destruct I as (r & <- & I). apply row_passes. apply R. exact I.
  - apply ends_not_comma.
  - apply Forall_forall. intros x I. apply in_map_iff in I. destruct I as (r & <- & I). apply row_passes. apply R. exact I.
Qed.

Lemma exprs_passes_ends (l : list (list tok)) : forallb is_expr l = true -> passes ends_clause (commas l).
Proof.
  intros F. apply passes_commas; [apply ends_not_comma|]. apply Forall_forall. intros x I.
  apply expr_passes; [apply sep_clause|]. rewrite forallb_forall in F. apply F. exact I.
Qed.

Lemma parse_select_shape fl tbl q (items : list (list tok)) rest wh rest1 grp rest2 ord rest3 lim rest4 off rest5 :
  items <> [] -> forallb is_expr items = true -> qname tbl = Some q -> stops rest ->
  clause [B "WHERE"] where_p rest = Some (wh, rest1) ->
  clause (map B ["GROUP"; "BY"]%string) exprs rest1 = Some (grp, rest2) ->
  clause (map B ["ORDER"; "BY"]%string) (order_p fl) rest2 = Some (ord, rest3) ->
  clause [B "LIMIT"] number rest3 = Some (lim, rest4) ->
  clause [B "OFFSET"] number rest4 = Some (off, rest5) ->
  (fl <> Postgres -> off <> None -> lim <> None) ->
  strip [B "FOR"] rest5 = None -> the_end rest5 = true ->
  parse_select fl (commas items ++ Kw (B "FROM") :: tbl ++ rest)
  = Some (Select items q wh (opt_list grp) (opt_list ord) lim off []).
Proof.
  intros NE F Q ST W G O L OF PG FR E. unfold parse_select.
  destruct (qname_plain tbl q ends_clause Q) as (_ & P & _ & _ & _); [reflexivity|reflexivity|].
  rewrite until_stop; [|apply exprs_passes_ends; exact F|reflexivity|reflexivity].
  cbn [obind]. rewrite exprs_commas by assumption. cbn [obind].
  change (Kw (B "FROM") :: tbl ++ rest) with (map Kw [B "FROM"] ++ tbl ++ rest). rewrite strip_kws. cbn [obind].
  rewrite until_stops by assumption. cbn [obind]. rewrite Q. cbn [obind]. rewrite W. cbn [obind].
  rewrite G. cbn [obind]. rewrite O. cbn [obind]. rewrite L. cbn [obind]. rewrite OF. cbn [obind].
  replace (guard _) with (Some tt).
  - cbn [obind]. rewrite FR. cbn [obind]. rewrite E. reflexivity.
  - destruct fl, off, lim; try reflexivity; exfalso; apply PG; discriminate || reflexivity.
Qed.

Definition assign_toks (p : bytes * list tok) : list tok := Name (fst p) :: Op (B "=") :: snd p.
Lemma parse_update_shape fl tbl q (sets : list (bytes * list tok)) rest wh ord lim :
  qname tbl = Some q -> sets <> [] -> forallb (fun p => is_expr (snd p)) sets = true -> stops rest ->
  parse_tail fl rest = Some (wh, ord, lim) ->
  parse_update fl (tbl ++ Kw (B "SET") :: commas (map assign_toks sets) ++ rest) = Some (Update q sets wh ord lim).
Proof.
  intros Q NE F ST T. unfold parse_update.
  destruct (qname_plain tbl q ends_clause Q) as (_ & P & _ & _ & _); [reflexivity|reflexivity|].
  rewrite until_stop by (auto; reflexivity). cbn [obind]. rewrite Q. cbn [obind].
  change (Kw (B "SET") :: commas (map assign_toks sets) ++ rest) with (map Kw [B "SET"] ++ commas (map assign_toks sets) ++ rest).
  rewrite strip_kws. cbn [obind]. rewrite forallb_forall in F.
  rewrite until_stops; [|apply passes_commas; [apply ends_not_comma|]|exact ST].
  - cbn [obind]. unfold assignments. rewrite split_commas.
    + rewrite map_map. rewrite (all_some_map _ (fun p => p)).
      * rewrite map_id. cbn [obind]. rewrite T. reflexivity.
      * intros [c e] I. unfold assign_toks, assignment. cbn [fst snd]. rewrite bseq_refl. cbn [andb].
        specialize (F _ I). cbn [snd] in F. rewrite F. reflexivity.
    + destruct sets; [contradiction|discriminate].
    + apply Forall_forall. intros x I. apply in_map_iff in I. destruct I as (p & <- & I). specialize (F _ I).
      apply passes_cons; [reflexivity|reflexivity|]. apply passes_cons; [reflexivity|reflexivity|]. apply expr_passes; [apply sep_comma|exact F].
  - apply Forall_forall. intros x I. apply in_map_iff in I. destruct I as (p & <- & I). specialize (F _ I).
    apply passes_cons; [reflexivity|reflexivity|]. apply passes_cons; [reflexivity|reflexivity|]. apply expr_passes; [apply sep_clause|exact F].
Qed.

Lemma parse_delete_shape fl tbl q rest wh ord lim :
  qname tbl = Some q -> stops rest -> parse_tail fl rest = Some (wh, ord, lim) ->
  parse_delete fl (tbl ++ rest) = Some (Delete q wh ord lim).
Proof.
  intros Q ST T. unfold parse_delete.
  destruct (qname_plain tbl q ends_clause Q) as (_ & P & _ & _ & _); [reflexivity|reflexivity|].
  rewrite until_stops by assumption. cbn [obind]. rewrite Q. cbn [obind]. rewrite T. reflexivity.
Qed.

Lemma parse_tail_shape fl rest wh rest1 ord rest2 lim rest3 :
  clause [B "WHERE"] where_p rest = Some (wh, rest1) ->
  clause (map B ["ORDER"; "BY"]%string) (order_p fl) rest1 = Some (ord, rest2) ->
  clause [B "LIMIT"] number rest2 = Some (lim, rest3) -> the_end rest3 = true ->
  (fl = Postgres -> ord = None /\ lim = None) ->
  parse_tail fl rest = Some (wh, opt_list ord, lim).
Proof.
  intros W O L E P. unfold parse_tail. rewrite W. cbn [obind]. rewrite O. cbn [obind]. rewrite L. cbn [obind]. rewrite E.
  cbn [guard obind]. destruct fl; try (destruct ord, lim; reflexivity). destruct (P eq_refl) as [-> ->]. reflexivity.
Qed.

(** ** Key conditions *)
Lemma where_compare (l r : list tok) lo ro o :
  passes pred_start l -> parse_operand l = Some lo -> parse_operand r = Some ro -> comparison o = true -> width lo = width ro ->
  passes (one_of connective) l -> passes (one_of connective) r -> unwrapped (l ++ Op o :: r) ->
  where_p (l ++ Op o :: r) = Some (Compare lo o ro).
Proof.
  intros P L R C W CL CR U. unfold where_p.
  replace (length (l ++ Op o :: r)) with (S (length l + length r)) by (rewrite app_length; cbn; lia).
  rewrite condition_pred; [apply predicate_cmp; assumption| |exact U].
  eapply passes_weaken with (sep := one_of connective).
  { apply one_of_sub. intros x I. cbn in I. repeat (destruct I as [<-|I]; [cbn; tauto|]). contradiction. }
  apply passes_app; [exact CL|]. apply passes_cons; [reflexivity|reflexivity|exact CR].
Qed.

Lemma sep_connective (t : tok) : one_of connective t = true -> separator t = true.
Proof. unfold separator. intros ->. rewrite !orb_true_r. reflexivity. Qed.
Lemma sep_pred (t : tok) : pred_start t = true -> separator t = true.
Proof.
  unfold pred_start. intros H. apply orb_true_iff in H. destruct H as [H|H].
  - unfold separator. rewrite H, orb_true_r. reflexivity.
  - apply sep_connective. revert H. apply one_of_sub. intros x I. cbn in I. repeat (destruct I as [<-|I]; [cbn; tauto|]). contradiction.
Qed.

(** [c = e] for an expression that is not wrapped in parentheses. *)
Lemma where_one (c : bytes) (t : tok) o : plain_tok t = true -> separator t = false -> comparison o = true ->
  where_p [Name c; Op o; t] = Some (Compare (One [Name c]) o (One [t])).
Proof.
  intros P S C. apply (where_compare [Name c] [t]).
  - apply passes_one; reflexivity.
  - reflexivity.
  - apply parse_operand_one; assumption.
  - exact C.
  - reflexivity.
  - apply passes_one; reflexivity.
  - apply passes_one; [exact P|]. destruct (one_of connective t) eqn:E; [|reflexivity]. apply sep_connective in E. congruence.
  - exact I.
Qed.

Lemma names_exprs (l : list bytes) : forallb is_expr (name_toks (V:=V) l) = true.
Proof. induction l; cbn; auto. Qed.

Lemma where_tuple (cs : list bytes) (es : list (list tok)) o : cs <> [] -> length es = length cs -> forallb is_expr es = true -> comparison o = true ->
  where_p (row_toks (name_toks cs) ++ Op o :: row_toks es) = Some (Compare (Tuple (name_toks cs)) o (Tuple es)).
Proof.
  intros NE L F C. apply where_compare.
  - apply row_passes, names_exprs.
  - apply parse_operand_tuple; [destruct cs; [contradiction|discriminate]|apply names_exprs].
  - apply parse_operand_tuple; [destruct es, cs; try discriminate; contradiction|exact F].
  - exact C.
  - cbn [width]. unfold name_toks. rewrite map_length. symmetry. exact L.
  - apply row_passes, names_exprs.
  - apply row_passes, F.
  - unfold unwrapped, row_toks. cbn [app]. intros _ x. rewrite <- app_assoc. cbn [app].
    rewrite group_close by apply names_balanced. discriminate.
Qed.
End Shape.
