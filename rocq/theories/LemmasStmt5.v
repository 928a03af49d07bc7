(** Histories of a statement, and formatting. *)
From Verif Require Import Base ModelStrconv ModelEncoding ModelCompiler ModelGen ModelRuntime ModelStmt SpecSql SpecGen SpecRuntime SpecStmt
  LemmasBase LemmasSql LemmasSql2 LemmasSql3 LemmasGen LemmasGen2 LemmasSql4 LemmasRuntime LemmasStmt LemmasStmt2.

Section H.
Context {V : Type}.
Notation op := (op V).
Implicit Types (s : sqlstmt V) (ops : list op).

Lemma places_seq fl m : forall n, places fl n m = map (placeholder fl) (seq (S n) m).
Proof. induction m as [|m IH]; intros n; [reflexivity|]. rewrite places_S, IH. reflexivity. Qed.

Lemma vars_ok d s (vs : list V) : in_step d s -> vs <> [] \/ d = DPostgres ->
  exists s', vars d s vs = Ok (s', B "(" ++ join (B ",") (places (flavour_of d) (length (s_args s)) (length vs)) ++ B ")")
    /\ in_step d s' /\ s_text s' = s_text s /\ s_args s' = s_args s ++ vs.
Proof.
  intros IS NU. unfold vars. destruct d; cbn [flavour_of].
  - rewrite (repeat_tail_places MySQL (length (s_args s))); [|discriminate|destruct NU; [destruct vs; [contradiction|cbn; lia]|discriminate]].
    cbn [bind]. eexists. split; [reflexivity|]. split; [discriminate|]. auto.
  - exists {| s_text := s_text s; s_pos := s_pos s + length vs; s_args := s_args s ++ vs |}. split; [|split; [|split; [reflexivity|reflexivity]]].
    + do 3 f_equal. f_equal. rewrite <- IS by reflexivity. destruct vs as [|u us']; [reflexivity|]. apply pg_vars; [cbn; lia|reflexivity].
    + intros _. cbn. rewrite app_length, IS by reflexivity. reflexivity.
  - rewrite (repeat_tail_places SQLite (length (s_args s))); [|discriminate|destruct NU; [destruct vs; [contradiction|cbn; lia]|discriminate]].
    cbn [bind]. eexists. split; [reflexivity|]. split; [discriminate|]. auto.
Qed.
Definition is_reset (o : op) : bool := match o with OReset => true | _ => false end.
Lemma history_plain d ops : (forall o, In o ops -> is_reset o = false) -> (forall o, In o ops -> empty_vars o = false) \/ d = DPostgres ->
  forall s log, in_step d s -> exists s', perform_all d (s, log) ops = Ok (s', log ++ handed_out (flavour_of d) (length (s_args s)) ops) /\ in_step d s' /\
  s_text s' = s_text s ++ texts_of ops /\ s_args s' = s_args s ++ values_of ops.
Proof.
  induction ops as [|o ops IH]; intros NR NE s log IS.
  - exists s. cbn. rewrite !app_nil_r. auto.
  - assert (NR' : forall o, In o ops -> is_reset o = false) by (intros; apply NR; now right).
    assert (NE' : (forall o, In o ops -> empty_vars o = false) \/ d = DPostgres) by (destruct NE; [left; intros; auto with datatypes|now right]).
    specialize (NR o (or_introl eq_refl)). cbn [perform_all]. destruct o as [v|vs|x|]; [| | |discriminate NR].
    + cbn [perform var bind]. edestruct (IH NR' NE' {| s_text := s_text s; s_pos := S (s_pos s); s_args := s_args s ++ [v] |}) as (s' & E & IS' & ET & EA).
      { intros D. cbn. rewrite app_length, IS by exact D. cbn. lia. }
      exists s'. rewrite E. cbn [s_text s_args] in *. rewrite app_length, Nat.add_1_r. rewrite (var_text d s IS), <- app_assoc. split; [reflexivity|].
      split; [exact IS'|]. split; [exact ET|]. rewrite EA, <- app_assoc. reflexivity.
    + destruct (vars_ok d s vs IS) as (s1 & E1 & IS1 & ET1 & EA1).
      { destruct NE as [NE|NE]; [left|now right]. specialize (NE _ (or_introl eq_refl)). destruct vs; [discriminate NE|discriminate]. }
      cbn [perform]. rewrite E1. cbn [bind fst snd]. destruct (IH NR' NE' s1 (log ++ [B "(" ++ join (B ",") (places (flavour_of d) (length (s_args s)) (length vs)) ++ B ")"]) IS1) as (s' & E & IS' & ET & EA).
      exists s'. rewrite E, EA1, app_length, places_seq, <- app_assoc. split; [reflexivity|]. split; [exact IS'|].
      split; [rewrite ET, ET1; reflexivity|]. rewrite EA, EA1, <- app_assoc. reflexivity.
    + cbn [perform bind]. destruct (IH NR' NE' (put s x) log IS) as (s' & E & IS' & ET & EA). exists s'. split; [exact E|]. split; [exact IS'|].
      split; [rewrite ET; cbn [put s_text]; rewrite <- app_assoc; reflexivity|exact EA].
Qed.
Lemma since_reset_split ops : (exists pre, ops = pre ++ OReset :: since_reset ops) \/ (since_reset ops = ops /\ forall o, In o ops -> is_reset o = false).
Proof.
  induction ops as [|o ops IH]; [right; split; [reflexivity|contradiction]|]. cbn [since_reset].
  change (existsb _ ops) with (existsb is_reset ops). destruct (existsb is_reset ops) eqn:E.
  - destruct IH as [(pre & IH)|[_ N]].
    + left. exists (o :: pre). cbn [app]. f_equal. exact IH.
    + apply existsb_exists in E. destruct E as (x & I & R). rewrite (N x I) in R. discriminate.
  - assert (N : forall x, In x ops -> is_reset x = false).
    { intros x I. destruct (is_reset x) eqn:R; [|reflexivity]. rewrite <- E. symmetry. apply existsb_exists. eauto. }
    destruct o; try (right; split; [reflexivity|]; intros x [<-|I]; [reflexivity|auto]). left. exists []. reflexivity.
Qed.
Lemma since_no_reset ops : forall o, In o (since_reset ops) -> is_reset o = false.
Proof.
  induction ops as [|o ops IH]; [contradiction|]. cbn [since_reset].
  change (existsb _ ops) with (existsb is_reset ops). destruct (existsb is_reset ops) eqn:E; [exact IH|].
  assert (N : forall x, In x ops -> is_reset x = false).
  { intros x I. destruct (is_reset x) eqn:R; [|reflexivity]. rewrite <- E. symmetry. apply existsb_exists. eauto. }
  destruct o; try (intros x [<-|I]; [reflexivity|auto]). exact N.
Qed.
Lemma perform_app d (a b : list op) st : perform_all d st (a ++ b) = let* st := perform_all d st a in perform_all d st b.
Proof. revert st. induction a as [|o a IH]; intros st; [reflexivity|]. cbn [app perform_all]. destruct (perform d st o); cbn [bind]; auto. Qed.
Lemma perform_runs d ops : (forall o, In o ops -> empty_vars o = false) \/ d = DPostgres -> forall st, in_step d (fst st) ->
  exists st', perform_all d st ops = Ok st' /\ in_step d (fst st').
Proof.
  induction ops as [|o ops IH]; intros NE st IS; [exists st; auto|]. cbn [perform_all]. destruct st as [s log].
  assert (NE' : (forall o, In o ops -> empty_vars o = false) \/ d = DPostgres) by (destruct NE; [left; intros; auto with datatypes|now right]).
  destruct o as [v|vs|x|].
  - cbn [perform var bind]. apply IH; [exact NE'|]. intros D. cbn. rewrite app_length, IS by exact D. cbn. lia.
  - destruct (vars_ok d s vs IS) as (s1 & E1 & IS1 & _).
    { destruct NE as [NE|NE]; [left|now right]. specialize (NE _ (or_introl eq_refl)). destruct vs; [discriminate NE|discriminate]. }
    cbn [perform]. rewrite E1. cbn [bind fst snd]. apply IH; [exact NE'|exact IS1].
  - cbn [perform bind]. apply IH; [exact NE'|exact IS].
  - cbn [perform bind]. apply IH; [exact NE'|]. intros _. reflexivity.
Qed.
Lemma history d ops : (forall o, In o ops -> empty_vars o = false) \/ d = DPostgres ->
  exists s, perform_all d (empty_stmt (V:=V), []) ops = Ok (s, handed_out (flavour_of d) 0 (since_reset ops)) /\
  s_text s = texts_of (since_reset ops) /\ s_args s = values_of (since_reset ops).
Proof.
  intros NE. assert (NES : (forall o, In o (since_reset ops) -> empty_vars o = false) \/ d = DPostgres).
  { destruct NE as [NE|NE]; [left|now right]. intros o I. apply NE. destruct (since_reset_split ops) as [(pre & P)|[P _]]; [|rewrite P in I; exact I].
    rewrite P. apply in_or_app. right. right. exact I. }
  destruct (history_plain d (since_reset ops) (since_no_reset ops) NES empty_stmt [] (fun _ => eq_refl)) as (s & E & _ & ET & EA).
  exists s. split; [|split; [exact ET|exact EA]]. cbn [app] in E. cbn [empty_stmt s_args length] in E.
  destruct (since_reset_split ops) as [(pre & P)|[P _]]; [|rewrite P in E; rewrite P; exact E].
  rewrite P at 1. rewrite perform_app.
  destruct (perform_runs d pre) with (st := (empty_stmt (V:=V), @nil bytes)) as ([s1 log1] & -> & _).
  { destruct NE as [NE|NE]; [left|now right]. intros o I. apply NE. rewrite P. apply in_or_app. now left. }
  { intros _. reflexivity. }
  cbn [bind perform_all perform]. exact E.
Qed.
Lemma history_panics d ops : d <> DPostgres -> In (OVars []) ops -> perform_all d (empty_stmt (V:=V), []) ops = Panic.
Proof.
  intros ND. generalize (empty_stmt (V:=V), @nil bytes). induction ops as [|o ops IH]; intros st I; [contradiction|]. cbn [perform_all]. destruct st as [s log].
  destruct I as [->|I].
  - cbn [perform]. unfold vars. destruct d; [reflexivity|contradiction|reflexivity].
  - destruct o as [v|vs|x|]; cbn [perform var bind]; auto. destruct (vars d s vs) eqn:E; cbn [bind]; auto.
    unfold vars in E. destruct d; [|discriminate|]; destruct (repeat_tail (B ",?") (length vs)) eqn:R; cbn [bind] in E; try discriminate;
    unfold repeat_tail in R; destruct (length vs); discriminate.
Qed.

(** ** Formatting *)
Lemma prefix_of_spec p : forall x r, prefix_of p x = Some r <-> x = p ++ r.
Proof.
  induction p as [|c p IH]; intros x r; [cbn; split; [intros E; inversion E; reflexivity|intros ->; reflexivity]|].
  destruct x as [|e x]; cbn [prefix_of app]; [split; discriminate|]. destruct (beq c e) eqn:E.
  - apply beq_eq in E. subst e. rewrite IH. split; [intros ->; reflexivity|intros X; inversion X; reflexivity].
  - split; [discriminate|]. intros X. inversion X. subst. rewrite beq_refl in E. discriminate.
Qed.
Lemma cut_first (c : byte) p a r : ~ In c a -> cut (c :: p) (a ++ (c :: p) ++ r) = Some (a, r).
Proof.
  induction a as [|x a IH]; intros N.
  - cbn [app]. replace (cut (c :: p) (c :: p ++ r)) with (match prefix_of (c :: p) (c :: p ++ r) with Some rest => Some (@nil byte, rest) | None =>
      match cut (c :: p) (p ++ r) with Some (a, b) => Some (c :: a, b) | None => None end end) by reflexivity.
    rewrite (proj2 (prefix_of_spec (c :: p) (c :: p ++ r) r) eq_refl). reflexivity.
  - cbn [app]. replace (cut (c :: p) (x :: a ++ c :: p ++ r)) with (match prefix_of (c :: p) (x :: a ++ c :: p ++ r) with Some rest => Some (@nil byte, rest) | None =>
      match cut (c :: p) (a ++ c :: p ++ r) with Some (a, b) => Some (x :: a, b) | None => None end end) by reflexivity.
    cbn [prefix_of]. destruct (beq c x) eqn:E; [apply beq_eq in E; subst; destruct N; now left|].
    change (c :: p ++ r) with ((c :: p) ++ r). rewrite IH by (intros I; apply N; now right). reflexivity.
Qed.
Lemma cut_none (c : byte) p a : ~ In c a -> cut (c :: p) a = None.
Proof.
  induction a as [|x a IH]; intros N; [reflexivity|]. cbn [cut prefix_of].
  destruct (beq c x) eqn:E; [apply beq_eq in E; subst; destruct N; now left|]. rewrite IH by (intros I; apply N; now right). reflexivity.
Qed.
Lemma quote_var_mark d i : exists p, quote_var d i = mark (flavour_of d) :: p.
Proof. destruct d; eexists; reflexivity. Qed.

Lemma format_laced d strf (vs : list V) : forall pieces lits last i,
  length pieces = length vs -> Forall2 (fun v x => strf v = Ok x) vs lits ->
  Forall (fun p => ~ In (mark (flavour_of d)) p) pieces -> ~ In (mark (flavour_of d)) last ->
  format_loop d strf vs (laced (flavour_of d) i pieces last) i = Ok (filled (combine pieces lits) last).
Proof.
  induction vs as [|v vs IH]; intros pieces lits last i L F P N.
  - destruct pieces; [|discriminate]. cbn [laced combine filled format_loop]. destruct (quote_var_mark d i) as [p ->]. rewrite cut_none by exact N. reflexivity.
  - destruct pieces as [|a pieces]; [discriminate|]. inversion F as [|? x ? lits' E F']; subst. inversion P as [|? ? NA P']; subst.
    cbn [laced combine filled format_loop]. rewrite <- quote_var_place. destruct (quote_var_mark d i) as [p EQ]. rewrite EQ.
    rewrite cut_first by exact NA. rewrite E. cbn [bind]. rewrite (IH pieces lits' last (S i)); auto.
Qed.
(** More marks than arguments *)
Lemma format_short d strf (vs : list V) : d <> DPostgres -> forall str i, (forall v, In v vs -> strf v <> Err) ->
  length vs < length (filter (beq "?") str) -> format_loop d strf vs str i = Panic.
Proof.
  intros ND. assert (Q : forall i, quote_var d i = ["?"%char]) by (intros; destruct d; [reflexivity|contradiction|reflexivity]).
  assert (C : forall str, match cut ["?"%char] str with Some (a, b) => length (filter (beq "?") str) = S (length (filter (beq "?") b)) | None => length (filter (beq "?") str) = 0 end).
  { induction str as [|c str IH]; [reflexivity|]. cbn [cut prefix_of filter]. destruct (beq "?" c) eqn:E; [reflexivity|].
    destruct (cut ["?"%char] str) as [[a b]|]; exact IH. }
  induction vs as [|v vs IH]; intros str i NE L.
  - cbn [format_loop]. rewrite Q. specialize (C str). destruct (cut ["?"%char] str) as [[a b]|]; [reflexivity|]. cbn in L. lia.
  - cbn [format_loop]. rewrite Q. specialize (C str). destruct (cut ["?"%char] str) as [[a b]|]; [|cbn in L; lia].
    destruct (strf v) as [x| |] eqn:E; [|destruct (NE v (or_introl eq_refl) E)|reflexivity]. cbn [bind].
    rewrite IH; [reflexivity|intros; apply NE; now right|]. cbn in L. lia.
Qed.
End H.
