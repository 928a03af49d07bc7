(** The statements of the pager with an ordering: a parenthesis is never closed. *)
From Verif Require Import Base ModelStrconv ModelCompiler ModelGen ModelRuntime ModelStmt ModelPager SpecSql SpecGen SpecRuntime SpecStmt SpecPager
  LemmasBase LemmasSql LemmasSql2 LemmasSql3 LemmasGen LemmasGen2 LemmasSql4 LemmasRuntime LemmasRuntime2 LemmasStmt LemmasStmt2 LemmasStmt3 LemmasStmt4 LemmasPager LemmasPager2.

Section P.
Context {V : Type}.
Notation tok := (tok V).
Notation wc := (where_clause V).
Implicit Types (fl : flavour) (ts r : list tok).

(** ** Pieces whose parentheses match *)
Lemma until_map (stop : tok -> bool) (f : tok -> tok) ts : (forall t, is_sym "(" (f t) = is_sym "(" t) -> (forall t, is_sym ")" (f t) = is_sym ")" t) ->
  (forall t, stop (f t) = stop t) ->
  forall d, until stop d (map f ts) = match until stop d ts with Some (a, b) => Some (map f a, map f b) | None => None end.
Proof.
  intros O C ST. induction ts as [|t ts IH]; intros d; [destruct d; reflexivity|]. cbn [map until]. rewrite O, C, ST.
  destruct (is_sym "(" t); [rewrite IH; destruct (until stop (S d) ts) as [[a b]|]; reflexivity|].
  destruct (is_sym ")" t); [destruct d; [reflexivity|]; rewrite IH; destruct (until stop d ts) as [[a b]|]; reflexivity|].
  destruct d; [destruct (stop t); [reflexivity|]|]; rewrite IH; match goal with |- context [until stop ?k ts] => destruct (until stop k ts) as [[a b]|]; reflexivity end.
Qed.
Lemma bind_sym (args : list V) c t : is_sym c (bind_tok args t) = is_sym c t.
Proof. destruct t as [| | | | | |[|k]| |]; try reflexivity. cbn. destruct (nth_error args k); reflexivity. Qed.
Lemma bind_kw (args : list V) l t : one_of l (bind_tok args t) = one_of l t.
Proof. destruct t as [| | | | | |[|k]| |]; try reflexivity. cbn. destruct (nth_error args k); reflexivity. Qed.
Lemma bind_ends (args : list V) t : ends_clause (bind_tok args t) = ends_clause t.
Proof. unfold ends_clause. rewrite bind_kw, bind_sym. reflexivity. Qed.
Definition mild (stop : tok -> bool) : Prop := forall args t, stop (bind_tok (V:=V) args t) = stop t.
Lemma mild_ends : mild ends_clause.
Proof. intros a t. apply bind_ends. Qed.
Lemma mild_never : mild (fun _ => false).
Proof. intros a t. reflexivity. Qed.
Lemma passes_bind stop (args : list V) ts : mild stop -> passes stop (map (bind_tok args) ts) <-> passes stop ts.
Proof.
  intros M. unfold passes. rewrite until_map; [|apply bind_sym|apply bind_sym|apply M].
  destruct (until stop 0 ts) as [[a b]|] eqn:E; [|split; discriminate]. pose proof (until_parts _ _ _ _ _ E) as P. split; intros [= Ea Eb].
  - apply map_eq_nil in Eb. subst b. rewrite app_nil_r in P. subst ts. reflexivity.
  - rewrite <- Ea, Eb. reflexivity.
Qed.

Definition lv (stop : tok -> bool) fl n (s : bytes) n' : Prop := exists ts, reads fl n s ts n' /\ passes stop ts.
Lemma lv_spells stop fl n s vs ts (pre : list V) : mild stop -> length pre = n -> spells fl n s vs ts -> passes stop ts -> lv stop fl n s (n + length vs).
Proof.
  intros M L (t0 & R & _ & _ & E) P. exists t0. split; [exact R|]. specialize (E pre [] L). rewrite <- E in P. eapply passes_bind; eassumption.
Qed.
Lemma lv_reads stop fl n s ts n' : reads fl n s ts n' -> passes stop ts -> lv stop fl n s n'.
Proof. intros R P. exists ts. auto. Qed.
Lemma lv_lex stop fl n s ts : lex fl s = ts -> forallb inert ts = true -> passes stop ts -> lv stop fl n s n.
Proof. intros L I P. destruct (inert_facts ts I) as (A & C & _). exists ts. split; [apply lex_piece; assumption|exact P]. Qed.
Lemma lv_any stop fl n s ts : lex MySQL s = ts -> lex Postgres s = ts -> lex SQLite s = ts -> forallb inert ts = true -> passes stop ts -> lv stop fl n s n.
Proof. intros. eapply lv_lex; [destruct fl; eassumption|assumption|assumption]. Qed.
Lemma lv_app_r stop fl n s1 n1 s2 n2 : lv stop fl n s1 n1 -> lv stop fl n1 s2 n2 -> headed s2 = true -> s2 <> [] -> lv stop fl n (s1 ++ s2) n2.
Proof. intros (t1 & R1 & P1) (t2 & R2 & P2) H NE. exists (t1 ++ t2). split; [eapply reads_app_r; eassumption|apply passes_app; assumption]. Qed.
Lemma lv_app_l stop fl n s1 n1 s2 n2 : lv stop fl n s1 n1 -> lv stop fl n1 s2 n2 -> tailed s1 = true -> lv stop fl n (s1 ++ s2) n2.
Proof. intros (t1 & R1 & P1) (t2 & R2 & P2) H. exists (t1 ++ t2). split; [eapply reads_app_l; eassumption|apply passes_app; assumption]. Qed.
Lemma lv_nil stop fl n : lv stop fl n [] n.
Proof. exists []. split; [split; [exact I|reflexivity]|apply passes_nil]. Qed.
Lemma lv_weaken (stop stop' : tok -> bool) fl n s n' : (forall t, stop' t = true -> stop t = true) -> lv stop fl n s n' -> lv stop' fl n s n'.
Proof. intros W (t & R & P). exists t. split; [exact R|]. eapply passes_weaken; eauto. Qed.
Lemma lv_name stop fl n s : a_name (V:=V) fl s -> (forall x, stop (Name x) = false) -> lv stop fl n s n.
Proof. intros [x L] S. eapply lv_lex; [exact L|reflexivity|]. apply passes_one; [reflexivity|apply S]. Qed.
Lemma lv_place stop d n k : (forall i, stop (Param i) = false) -> lv stop (flavour_of d) n (quote_var d k) (S n).
Proof.
  intros ST. destruct d; cbn [flavour_of].
  - exists [Param (S n)]. split; [split; [exact I|intros; reflexivity]|apply passes_one; [reflexivity|apply ST]].
  - exists [Param k]. split; [apply reads_dollar|apply passes_one; [reflexivity|apply ST]].
  - exists [Param (S n)]. split; [split; [exact I|intros; reflexivity]|apply passes_one; [reflexivity|apply ST]].
Qed.
End P.
Ltac lconst := eapply lv_any; [vm_compute; reflexivity|vm_compute; reflexivity|vm_compute; reflexivity|reflexivity|reflexivity].

Section Q.
Context {V : Type}.
Notation tok := (tok V).
Notation wc := (where_clause V).
Implicit Types (ts r : list tok) (s : sqlstmt V).
Variables (d : driver) (m : model V).
Notation fl := (flavour_of d).
Notation lv := (lv (V:=V)).

Lemma value_or_panic name : ordered_value m name = Panic \/ exists v, ordered_value m name = Ok v.
Proof. unfold ordered_value. destruct (nth_error _ _); [right; eauto|now left]. Qed.
Lemma tailed_app (a b : bytes) : b <> [] -> tailed (a ++ b) = tailed b.
Proof.
  intros NE. induction a as [|x a IH]; [reflexivity|]. cbn [app tailed]. destruct (a ++ b) eqn:E; [apply app_eq_nil in E; destruct E; contradiction|]. exact IH.
Qed.
Lemma var_step s v : in_step d s -> in_step d (fst (var d s v)).
Proof. intros IS. unfold in_step, var. cbn. intros D. rewrite app_length, IS by exact D. cbn. lia. Qed.

(** a comparison with a placeholder *)
Lemma lv_compare stop name op k n : a_name (V:=V) fl name -> (forall n, lv stop fl n op n) -> headed op = true -> op <> [] -> tailed op = true ->
  (forall x, stop (Name x) = false) -> (forall i, stop (Param i) = false) -> lv stop fl n (name ++ op ++ quote_var d k) (S n).
Proof.
  intros A O H NE T SN SP. eapply lv_app_r; [apply lv_name; assumption| |destruct op; [contradiction|exact H]|destruct op; [contradiction|discriminate]].
  eapply lv_app_l; [apply O|apply lv_place, SP|exact T].
Qed.

Notation never := (fun _ : tok => false).
Lemma prev_order_text l : Forall (fun o => a_name (V:=V) fl (fst o)) l -> forall s buf, in_step d s ->
  prev_order d m l s buf = Panic \/
  exists s' t1 t2, prev_order d m l s buf = Ok (s', buf ++ t2) /\ in_step d s' /\ s_text s' = s_text s ++ t1 /\
    length (s_args s') = length (s_args s) + length l + length l /\
    (forall n, lv ends_clause fl n t1 (n + length l)) /\ tailed t1 = true /\ (forall n, lv never fl n t2 (n + length l)) /\ tailed t2 = true.
Proof.
  induction l as [|[name asc] l IH]; intros F s buf IS.
  - right. exists s, [], []. cbn [prev_order length]. rewrite !app_nil_r. repeat split; auto; [lia| |]; intros n; rewrite Nat.add_0_r; apply lv_nil.
  - inversion F as [|? ? A F']; subst. cbn [fst] in A. cbn [prev_order]. destruct (value_or_panic name) as [->|[v ->]]; [now left|]. cbn [bind].
    unfold var at 1. cbn [put s_text s_pos s_args]. unfold var at 1. cbn [put s_text s_pos s_args].
    match goal with |- prev_order d m l ?a ?b = Panic \/ _ => set (s2 := a); set (buf2 := b) end.
    assert (IS2 : in_step d s2). { unfold in_step, s2. cbn. intros E. rewrite !app_length, IS by exact E. cbn. lia. }
    destruct (IH F' s2 buf2 IS2) as [E|(s' & t1 & t2 & E & IS' & ET & EL & L1 & T1 & L2 & T2)]; [now left|right].
    set (op1 := if asc then B " <= " else B " >= ") in *. set (op2 := if asc then B " < " else B " > ") in *.
    set (p1 := name ++ op1 ++ quote_var d (S (s_pos s)) ++ B " AND ") in *. set (p2 := name ++ op2 ++ quote_var d (S (S (s_pos s))) ++ B " OR ").
    assert (TP1 : tailed p1 = true) by (unfold p1; rewrite !app_assoc, tailed_app by discriminate; reflexivity).
    assert (TP2 : tailed p2 = true) by (unfold p2; rewrite !app_assoc, tailed_app by discriminate; reflexivity).
    exists s', (p1 ++ t1), (p2 ++ t2). split; [|split; [exact IS'|split; [|split; [|split; [|split; [|split]]]]]].
    + etransitivity; [exact E|]. unfold buf2, p2. f_equal. f_equal. rewrite <- !app_assoc. reflexivity.
    + rewrite ET. unfold s2, p1. cbn [s_text]. rewrite <- !app_assoc. reflexivity.
    + rewrite EL. unfold s2. cbn [s_args length]. rewrite !app_length. cbn. lia.
    + intros n. cbn [length]. rewrite <- Nat.add_succ_comm. eapply lv_app_l; [|apply L1|exact TP1]. unfold p1.
      replace (name ++ op1 ++ quote_var d (S (s_pos s)) ++ B " AND ") with ((name ++ op1 ++ quote_var d (S (s_pos s))) ++ B " AND ") by (rewrite <- !app_assoc; reflexivity).
      eapply lv_app_r; [apply lv_compare; try reflexivity; [exact A| | | |]; unfold op1; destruct asc; try reflexivity; try discriminate; intros; lconst|lconst|reflexivity|discriminate].
    + destruct t1; [rewrite app_nil_r; exact TP1|rewrite tailed_app by discriminate; exact T1].
    + intros n. cbn [length]. rewrite <- Nat.add_succ_comm. eapply lv_app_l; [|apply L2|exact TP2]. unfold p2.
      replace (name ++ op2 ++ quote_var d (S (S (s_pos s))) ++ B " OR ") with ((name ++ op2 ++ quote_var d (S (S (s_pos s)))) ++ B " OR ") by (rewrite <- !app_assoc; reflexivity).
      eapply lv_app_r; [apply lv_compare; try reflexivity; [exact A| | | |]; unfold op2; destruct asc; try reflexivity; try discriminate; intros; lconst|lconst|reflexivity|discriminate].
    + destruct t2; [rewrite app_nil_r; exact TP2|rewrite tailed_app by discriminate; exact T2].
Qed.

Lemma next_order_text stop sep up down : (forall n, lv stop fl n sep n) -> headed sep = true -> sep <> [] -> tailed sep = true ->
  (forall op, op = up \/ op = down -> (forall n, lv stop fl n op n) /\ headed op = true /\ op <> [] /\ tailed op = true) ->
  (forall x, stop (Name x) = false) -> (forall i, stop (Param i) = false) ->
  forall l, Forall (fun o => a_name (V:=V) fl (fst o)) l -> forall first s, in_step d s ->
  next_order d m sep up down first l s = Panic \/
  exists s' t, next_order d m sep up down first l s = Ok s' /\ in_step d s' /\ s_text s' = s_text s ++ t /\
    length (s_args s') = length (s_args s) + length l /\ (forall n, lv stop fl n t (n + length l)) /\ (first = false -> headed t = true) /\ (t = [] -> l = []).
Proof.
  intros LS HS NS TS OPS SN SP. induction l as [|[name asc] l IH]; intros F first s IS.
  - right. exists s, []. cbn [next_order length]. rewrite !app_nil_r. repeat split; auto; intros n; rewrite Nat.add_0_r; apply lv_nil.
  - inversion F as [|? ? A F']; subst. cbn [fst] in A. cbn [next_order]. destruct (value_or_panic name) as [->|[v ->]]; [now left|]. cbn [bind].
    unfold var. cbn [put s_text s_pos s_args]. set (s0 := if first then s else put s sep).
    assert (P0 : s_pos s0 = s_pos s /\ s_args s0 = s_args s /\ s_text s0 = s_text s ++ if first then [] else sep) by (unfold s0; destruct first; cbn; rewrite ?app_nil_r; auto).
    destruct P0 as (P0 & A0 & T0). rewrite P0, A0, T0.
    match goal with |- next_order _ _ _ _ _ _ l ?a = Panic \/ _ => set (s2 := a) end.
    assert (IS2 : in_step d s2). { unfold in_step, s2. cbn. intros E. rewrite !app_length, IS by exact E. cbn. lia. }
    destruct (IH F' false s2 IS2) as [E|(s' & t & E & IS' & ET & EL & L & H & N)]; [now left|right].
    set (op := if asc then up else down) in *. destruct (OPS op) as (LO & HO & NO & TO); [unfold op; destruct asc; auto|].
    set (p := name ++ op ++ quote_var d (S (s_pos s))) in *.
    assert (LP : forall n, lv stop fl n p (S n)) by (intros n; unfold p; apply lv_compare; assumption).
    assert (NP : p <> []). { unfold p. intros X. apply app_eq_nil in X. destruct X as [_ X]. apply app_eq_nil in X. destruct X as [X _]. contradiction. }
    exists s', ((if first then [] else sep) ++ p ++ t). split; [exact E|]. split; [exact IS'|]. split; [|split; [|split; [|split]]].
    + rewrite ET. unfold s2, p. cbn [put s_text]. rewrite <- !app_assoc. reflexivity.
    + rewrite EL. unfold s2. cbn [put s_args length]. rewrite app_length. cbn. lia.
    + intros n. cbn [length]. rewrite <- Nat.add_succ_comm.
      assert (LT : lv stop fl n (p ++ t) (S n + length l)).
      { destruct t as [|c t]; [rewrite N in * by reflexivity; rewrite app_nil_r; cbn [length]; rewrite Nat.add_0_r; apply LP|].
        eapply lv_app_r; [apply LP|apply L|apply H; reflexivity|discriminate]. }
      destruct first; [exact LT|]. eapply lv_app_l; [apply LS|exact LT|exact TS].
    + intros ->. destruct sep; [contradiction|exact HS].
    + intros X. exfalso. apply app_eq_nil in X. destruct X as [_ X]. apply app_eq_nil in X. destruct X as [X _]. contradiction.
Qed.
End Q.

Section R.
Context {V : Type}.
Notation tok := (tok V).
Notation wc := (where_clause V).
Implicit Types (ts r : list tok).
Variables (d : driver) (fwd : bool) (p : pager V) (m : model V) (q cols : list bytes) (items : list (expr V)) (ks : list (bytes * V)).
Notation fl := (flavour_of d).
Hypothesis D : described fl m q cols items.
Hypothesis K : keyed_by fl m ks.
Notation lv := (lv (V:=V)).
Notation never := (fun _ : tok => false).

Lemma never_closed (stop : tok -> bool) ts r : passes stop ts -> balanced r -> until stop 0 (ts ++ Sym "(" :: r) = None.
Proof.
  intros P Bl. rewrite until_app by exact P. cbn [until is_sym beq Ascii.eqb Bool.eqb].
  pose proof (until_deep stop r 0 0 [] Bl) as X. rewrite app_nil_r in X. cbn [Nat.add until] in X. rewrite X. reflexivity.
Qed.
Lemma open_parse tbl ts r : qname tbl = Some q -> passes ends_clause ts -> balanced r ->
  parse fl (ko "SELECT" :: commas items ++ ko "FROM" :: tbl ++ ko "WHERE" :: ts ++ Sym "(" :: r) = None.
Proof.
  intros Q P Bl.
  assert (PS : forall x : list tok, parse fl (ko "SELECT" :: x) = parse_select fl x) by (intros x; destruct fl; reflexivity).
  rewrite PS. clear PS. destruct (qname_plain tbl q ends_clause Q) as (_ & PT & _ & _ & _); [reflexivity|reflexivity|]. unfold parse_select.
  pose proof (items_are_exprs _ _ _ _ _ D) as FI. pose proof (items_some _ _ _ _ _ D) as NE.
  rewrite until_stop; [|apply exprs_passes_ends; exact FI|reflexivity|reflexivity].
  cbn [obind]. rewrite exprs_commas by assumption. cbn [obind].
  change (ko "FROM" :: tbl ++ ?x) with (map (Kw (V:=V)) [B "FROM"] ++ tbl ++ x). rewrite strip_kws. cbn [obind].
  rewrite until_stops; [|exact PT|split; reflexivity]. cbn [obind]. rewrite Q. cbn [obind]. unfold clause at 1.
  change (ko "WHERE" :: ?x) with (map (Kw (V:=V)) [B "WHERE"] ++ x). rewrite strip_kws. rewrite never_closed by assumption. reflexivity.
Qed.
Lemma open_rejected pre x n1 n2 (args : list V) : lv ends_clause fl 0 pre n1 -> lv never fl n1 x n2 ->
  read fl ((select_head m ++ B " WHERE ") ++ pre ++ B "(" ++ x) args = None.
Proof.
  intros (tp & RP & PP) (tx & RX & PX). destruct (LemmasRuntime2.select_spells d m q cols items D) as (tbl & Q & th & RH & PL & _ & EH).
  cbn [length seq] in RH, PL. specialize (EH [] [] eq_refl). rewrite bind_none in EH by exact PL. subst th.
  assert (SW : reads (V:=V) fl 0 (B " WHERE ") [ko "WHERE"] 0). { apply lex_piece; [clear; destruct d; vm_compute; reflexivity|cbn; intuition discriminate|].
    intros k X. cbn in X. intuition discriminate. }
  assert (SP : reads (V:=V) fl n1 (B "(") [Sym "("] n1). { apply lex_piece; [clear; destruct d; vm_compute; reflexivity|cbn; intuition discriminate|].
    intros k X. cbn in X. intuition discriminate. }
  assert (R : reads fl 0 ((select_head m ++ B " WHERE ") ++ pre ++ B "(" ++ x) ((((Kw (B "SELECT") :: commas items ++ Kw (B "FROM") :: tbl)) ++ [ko "WHERE"]) ++ tp ++ [Sym "("] ++ tx) n2).
  { eapply reads_app_l; [eapply reads_app_r; [exact RH|exact SW|reflexivity|discriminate]| |].
    - eapply reads_app_r; [exact RP| |reflexivity|discriminate]. eapply reads_app_l; [exact SP|exact RX|reflexivity].
    - rewrite tailed_app by discriminate. reflexivity. }
  unfold read. change (lex fl ?t) with (lex_from (V:=V) fl 0 t). rewrite (reads_lex _ _ _ _ _ R). unfold bind_args.
  match goal with |- obind (if ?b then _ else _) _ = _ => destruct b; [|reflexivity] end. cbn [obind].
  match goal with |- (if ?b then _ else _) = _ => destruct b; [reflexivity|] end.
  rewrite !map_app. pose proof (bind_none args _ PL) as BH. rewrite BH. cbn [map bind_tok ko].
  match goal with |- parse fl ?t = None => replace t with (ko (V:=V) "SELECT" :: commas items ++ ko "FROM" :: tbl ++ ko "WHERE" :: map (bind_tok args) tp ++ Sym "(" :: map (bind_tok args) tx) end.
  - apply open_parse; [exact Q|apply passes_bind; [apply mild_ends|exact PP]|]. apply (passes_bind never); [apply mild_never|exact PX].
  - unfold ko. cbn [app]. repeat (rewrite <- app_assoc; cbn [app]). reflexivity.
Qed.

(** The pieces after the parenthesis *)
Lemma lv_orders l n : Forall (fun o : bytes * bool => a_name (V:=V) fl (fst o)) l ->
  lv never fl n (concat (map (fun o : bytes * bool => fst o ++ if snd o : bool then B " ASC," else B " DESC,") l)) n /\
  tailed (concat (map (fun o : bytes * bool => fst o ++ if snd o : bool then B " ASC," else B " DESC,") l)) = true.
Proof.
  induction 1 as [|[name asc] l A F [IH T]]; cbn [map concat fst snd]; [split; [apply lv_nil|reflexivity]|].
  assert (TT : tailed (name ++ if asc then B " ASC," else B " DESC,") = true) by (rewrite tailed_app by (destruct asc; discriminate); destruct asc; reflexivity).
  split.
  - eapply lv_app_l; [|exact IH|exact TT].
    eapply lv_app_r; [apply lv_name; [exact A|reflexivity]|destruct asc; lconst|destruct asc; reflexivity|destruct asc; discriminate].
  - set (c := concat _) in *. destruct c; [rewrite app_nil_r; exact TT|rewrite tailed_app by discriminate; exact T].
Qed.
Lemma lv_page_order (vs : list V) : Forall (fun o => a_name (V:=V) fl (fst o)) (p_order p) -> p_order p <> [] ->
  exists o, page_order fwd m (p_order p) = Ok o /\ lv never fl (length vs) o (length vs).
Proof.
  intros F NE. unfold page_order. destruct (p_order p) as [|o l] eqn:E; [contradiction|]. rewrite <- E in *.
  set (suf := if snd (last (p_order p) ([], true)) then B " ASC" else B " DESC").
  destruct (key_order_ok d m ks K) as (t & EK). rewrite key_order_split, EK. cbn [bind]. eexists. split; [reflexivity|].
  assert (X : (match m_key m with CompKey _ _ _ => suf | _ => suf end) = suf) by (destruct (m_key m); reflexivity). rewrite X.
  destruct (lv_orders (p_order p) (length vs) F) as [L T]. eapply lv_app_l; [exact L| |exact T].
  eapply lv_app_r; [|unfold suf; destruct (snd _); lconst|unfold suf; destruct (snd _); reflexivity|unfold suf; destruct (snd _); discriminate].
  pose proof (lv_spells never fl (length vs) t [] (key_name_toks m ks) vs mild_never eq_refl (key_names_spell d m ks K _ t EK)) as Y.
  cbn [length] in Y. rewrite Nat.add_0_r in Y. apply Y. apply (names_passes d m ks K). reflexivity.
Qed.
Lemma lv_tail (vs : list V) o : lv never fl (length vs) o (length vs) -> lv never fl (length vs) (B " ORDER BY " ++ o ++ B " LIMIT " ++ format_uint (uint16 (p_limit p + 1)) ++ B ";") (length vs).
Proof.
  intros L. eapply lv_app_l; [lconst| |reflexivity]. eapply lv_app_r; [exact L| |reflexivity|discriminate].
  eapply lv_app_l; [lconst| |reflexivity]. eapply lv_app_r; [|lconst|reflexivity|discriminate].
  pose proof (lv_spells never fl (length vs) _ [] _ vs mild_never eq_refl (spells_number fl (length vs) (uint16 (p_limit p + 1)))) as Y.
  cbn [length] in Y. rewrite Nat.add_0_r in Y. apply Y. reflexivity.
Qed.
(** from the key condition on *)
Lemma lv_after (cursor : bool) s : in_step d s -> Forall (fun o => a_name (V:=V) fl (fst o)) (p_order p) -> p_order p <> [] ->
  exists x text args n, (let* s := if cursor then cursor_bound d (if fwd then B ">=" else B "<=") m s else Ok s in
    let* o := page_order fwd m (p_order p) in
    let s := put s (B " ORDER BY " ++ o ++ B " LIMIT " ++ format_uint (uint16 (p_limit p + 1)) ++ B ";") in
    Ok (s_text s, s_args s)) = Ok (text, args) /\ text = s_text s ++ x /\ lv never fl (length (s_args s)) x n /\ headed x = true /\ x <> [].
Proof.
  intros IS F NE. assert (E : exists tc s2, (if cursor then cursor_bound d (if fwd then B ">=" else B "<=") m s else Ok s) = Ok s2 /\ s_text s2 = s_text s ++ tc /\
    lv never fl (length (s_args s)) tc (length (s_args s2)) /\ headed tc = true).
  { destruct cursor.
    - destruct (bound_writes d m ks K (rel fwd)) with (s := s) as (tc & s' & E & IS' & ET & EA & SP & H & NE').
      + unfold rel. destruct fwd; reflexivity.
      + apply rel_spells.
      + exact IS.
      + exists tc, s'. split; [exact E|]. split; [exact ET|]. split; [|exact H]. rewrite EA, app_length.
        eapply lv_spells; [apply mild_never|reflexivity|exact SP|]. apply (boxed_passes d m ks K).
    - exists [], s. rewrite app_nil_r. repeat split. apply lv_nil. }
  destruct E as (tc & s2 & E2 & ET & L & H). rewrite E2. cbn [bind].
  destruct (lv_page_order (s_args s2) F NE) as (o & EO & LO). rewrite EO. cbn [bind put s_text s_args].
  set (tl := B " ORDER BY " ++ _). exists (tc ++ tl). eexists. exists (s_args s2), (length (s_args s2)). split; [reflexivity|]. split; [rewrite ET, <- app_assoc; reflexivity|].
  split; [|destruct tc; [split; [reflexivity|discriminate]|split; [exact H|discriminate]]].
  eapply lv_app_r; [exact L|apply lv_tail, LO|reflexivity|discriminate].
Qed.

Definition fails (r : res (bytes * list V)) : Prop := r = Panic \/ exists text args, r = Ok (text, args) /\ read fl text args = None.

Lemma where_grouped (w : wc) s s' : grouped w -> write_where d w s = Ok s' -> exists y, s_text s' = y ++ B ")".
Proof.
  intros G E. destruct w as [[|c cs]|[|c cs]| | | | | | | | | | | | | |]; try contradiction; rewrite ?write_and, ?write_or in E; cbn [group_of] in E;
  destruct (write_where d c _) as [s1| |]; cbn [bind] in E; try discriminate; destruct (rest_of d _ cs s1) as [s2| |]; cbn [bind] in E; try discriminate;
  injection E as <-; exists (s_text s2); reflexivity.
Qed.
Lemma where_lv s : in_step d s -> s_args s = [] -> condition_ok fl (p_where p) -> match p_where p with Some w => grouped w | None => True end ->
  (match p_where p with Some w => write_where d w s | None => Ok s end) = Panic \/
  exists s' text, (match p_where p with Some w => write_where d w s | None => Ok s end) = Ok s' /\ in_step d s' /\ s_text s' = s_text s ++ text /\
  lv ends_clause fl 0 text (length (s_args s')) /\ tailed text = true.
Proof.
  intros IS EA C G. destruct (calm_or_stormy d (p_where p)) as [CA|ST].
  2:{ left. unfold stormy in ST. destruct (p_where p) as [w|]; [|contradiction]. destruct ST as [S E]. apply (proj1 (where_total d w s) E S). }
  right. destruct (p_where p) as [w|].
  - destruct (where_spells d w C CA s IS) as (text & s' & E & IS' & ET & EA' & SP). exists s', text. rewrite EA in SP, EA'.
    split; [exact E|]. split; [exact IS'|]. split; [exact ET|]. split.
    + rewrite EA'. cbn [app]. apply (lv_spells ends_clause fl 0 text (wvals w) (wtoks fl w) [] mild_ends eq_refl SP). apply wtoks_passes, harmless_ends.
    + destruct (where_grouped w s s' G E) as (y & EY). rewrite EY in ET.
      assert (NE : text <> []). { intros ->. destruct SP as (t0 & R & _ & _ & X). apply reads_lex in R. cbn in R. specialize (X [] [] eq_refl). rewrite <- R in X. cbn in X.
        symmetry in X. apply wtoks_nil in X. destruct X; subst; contradiction. }
      rewrite <- (tailed_app (s_text s) text NE), <- ET. apply tailed_snoc.
  - exists s, []. rewrite app_nil_r, EA. repeat split; auto. apply lv_nil.
Qed.

Lemma ordered_fails (cursor : bool) : condition_ok fl (p_where p) -> match p_where p with Some w => grouped w | None => True end ->
  Forall (fun o => a_name (V:=V) fl (fst o)) (p_order p) -> p_order p <> [] -> fails (page_stmt d fwd p m cursor).
Proof.
  intros C G F NE. unfold page_stmt. set (s0 := put empty_stmt _).
  assert (IS0 : in_step d s0) by (intros _; reflexivity).
  assert (T0 : s_text s0 = select_head m ++ B " WHERE ") by (unfold s0, select_head; cbn [put empty_stmt s_text app]; rewrite <- !app_assoc; reflexivity).
  destruct (where_lv s0 IS0 eq_refl C G) as [->|(s1 & tw & E1 & IS1 & ET1 & L1 & TL1)]; [now left|]. rewrite E1. cbn [bind].
  assert (Y : (if fwd then next_conditions d m (p_order p) s1 else prev_conditions d m (p_order p) s1) = Panic \/
    exists s2 t1 t2 n, (if fwd then next_conditions d m (p_order p) s1 else prev_conditions d m (p_order p) s1) = Ok s2 /\ in_step d s2 /\
    s_text s2 = s_text s1 ++ t1 ++ B "(" ++ t2 /\ lv ends_clause fl (length (s_args s1)) t1 n /\ lv never fl n t2 (length (s_args s2)) /\ tailed t2 = true).
  { destruct fwd.
    - unfold next_conditions. destruct (p_order p) as [|o l] eqn:EO; [contradiction|]. rewrite <- EO in *.
      assert (OPS : forall stop up down, stop = ends_clause \/ stop = never -> (up = B " >= " /\ down = B " <= ") \/ (up = B " > " /\ down = B " < ") ->
        forall op, op = up \/ op = down -> (forall n, lv stop fl n op n) /\ headed op = true /\ op <> [] /\ tailed op = true).
      { intros stop up down [->| ->] [[-> ->]|[-> ->]] op [->| ->]; (split; [intros; lconst|repeat split; discriminate]). }
      destruct (next_order_text d m ends_clause (B " AND ") (B " >= ") (B " <= ")) with (l := p_order p) (first := true) (s := s1) as [E|(s2 & t & E & IS2 & ET & EL & L & _ & _)];
        try reflexivity; try discriminate; auto; [intros; lconst|apply OPS; auto|left; rewrite E; reflexivity|].
      rewrite E. cbn [bind].
      destruct (next_order_text d m never (B " OR ") (B " > ") (B " < ")) with (l := p_order p) (first := true) (s := put s2 (B " AND (")) as [E'|(s3 & t' & E' & IS3 & ET' & EL' & L' & _ & _)];
        try reflexivity; try discriminate; auto; [intros; lconst|apply OPS; auto|left; rewrite E'; reflexivity|].
      right. rewrite E'. cbn [bind]. exists (put s3 (B " OR ")), (t ++ B " AND "), (t' ++ B " OR "), (length (s_args s1) + length (p_order p)).
      split; [reflexivity|]. split; [exact IS3|]. cbn [put s_text s_args] in *. split; [rewrite ET', ET, <- !app_assoc; reflexivity|].
      split; [eapply lv_app_r; [apply L|lconst|reflexivity|discriminate]|]. split; [|rewrite tailed_app by discriminate; reflexivity].
      rewrite EL', EL. eapply lv_app_r; [apply L'|lconst|reflexivity|discriminate].
    - unfold prev_conditions. destruct (p_order p) as [|o l] eqn:EO; [contradiction|]. rewrite <- EO in *.
      destruct (prev_order_text d m (p_order p) F s1 [] IS1) as [->|(s2 & t1 & t2 & E & IS2 & ET & EL & L1' & T1 & L2 & T2)]; [now left|].
      right. rewrite E. cbn [bind fst snd app]. exists (put s2 (B "(" ++ t2)), t1, t2, (length (s_args s1) + length (p_order p)).
      split; [reflexivity|]. split; [exact IS2|]. cbn [put s_text s_args]. split; [rewrite ET, <- !app_assoc; reflexivity|].
      split; [apply L1'|]. split; [rewrite EL; apply L2|exact T2]. }
  destruct Y as [->|(s2 & t1 & t2 & n & E2 & IS2 & ET2 & LA & LB & TB)]; [now left|]. rewrite E2. cbn [bind].
  destruct (lv_after cursor s2 IS2 F NE) as (x & text & args & n3 & E3 & ET3 & LX & HX & NX). right. exists text, args. split; [exact E3|].
  rewrite ET3, ET2, ET1, T0.
  replace ((((select_head m ++ B " WHERE ") ++ tw) ++ t1 ++ B "(" ++ t2) ++ x) with ((select_head m ++ B " WHERE ") ++ (tw ++ t1) ++ B "(" ++ (t2 ++ x)) by (rewrite <- !app_assoc; reflexivity).
  eapply open_rejected; [eapply lv_app_l; eassumption|]. eapply lv_app_l; eassumption.
Qed.
End R.
