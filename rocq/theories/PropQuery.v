(** C87: the calls that read records return the rows that were asked for, each column in its field. *)
From Coq Require Import Sorted Permutation.
From Verif Require Import Base ModelCompiler ModelGen ModelRuntime ModelStmt ModelRows ModelQuery SpecSql SpecGen SpecRuntime SpecStmt SpecDb SpecStore SpecWhere SpecRows SpecQuery
  LemmasBase LemmasCompiler LemmasRuntime7 LemmasStore LemmasRows PropRuntime PropRows PropStmt PropGen PropWhere.
Import SpecRows ListNotations.

Section Query.
Context {V : Type}.
Variables (D : semantics V) (d : driver) (q : list bytes).
Hypothesis L : lawful D.
Notation fl := (flavour_of d).
(** The database, and how values are put into fields *)
Variables (ask : bytes -> list V -> option (rows (V:=V))) (table : list (row V)) (conv : column -> V -> option V).
Hypothesis SERVES : serves D fl q ask table.
(** The columns whose fields Addrs lists *)
Variables (cols : list column) (zero : bytes -> V).
Hypothesis PATHS : NoDup (map c_gopath cols).
Notation shown items x := (map (eval D x) items).

Lemma answered text args items wh ord lim off lock : read fl text args = Some (Select items q wh [] ord lim off lock) ->
  exists out, ask text args = Some (complete (map (fun x => shown items x) out) false) /\ answers D (fun x => x) table wh ord lim off out.
Proof.
  intros R. pose proof (SERVES text args) as H. destruct (ask text args) as [rs|].
  - destruct H as (out & (its & wh' & ord' & lim' & off' & lk & l & R' & A & ->) & ->). rewrite R in R'. injection R' as <- <- <- <- <- <-. exists l. auto.
  - exfalso. exact (H _ _ _ _ _ _ R).
Qed.
Lemma cut_rest {A} lim off (l : list A) : exists rest, Permutation (cut_to lim off l ++ rest) l /\ (lim = None -> off = None -> rest = []).
Proof.
  unfold cut_to. set (l' := match off with Some n => skipn (N.to_nat n) l | None => l end).
  assert (X : exists r, Permutation (l' ++ r) l /\ (off = None -> r = [])). { unfold l'. destruct off as [n|]; [|exists []; rewrite app_nil_r; auto]. exists (firstn (N.to_nat n) l). split; [|discriminate]. rewrite Permutation_app_comm, firstn_skipn. reflexivity. }
  destruct X as (r & P & E). destruct lim as [n|]; [|exists r; auto]. exists (skipn (N.to_nat n) l' ++ r). split; [|discriminate]. rewrite app_assoc, firstn_skipn. exact P.
Qed.
Lemma filter_rest {A} f (l : list A) : Permutation (filter f l ++ filter (fun x => negb (f x)) l) l.
Proof. induction l as [|x l IH]; [reflexivity|]. cbn [filter]. destruct (f x); cbn [negb app]; [constructor; exact IH|]. rewrite <- Permutation_middle. constructor. exact IH. Qed.
Lemma picked_by wh ord lim off out : condition_solid wh -> Forall (fun o => a_name (V:=V) fl (fst o)) ord ->
  answers D (fun x => x) table (option_map (meaning fl) wh) (map (an_order fl) ord) (given_n lim) (given_n off) out -> picked D fl table wh ord lim off out.
Proof.
  intros SO NM (l & PL & SL & ->). split; [|split; [|split]].
  - intros x I. apply cut_in in I. apply (Permutation_in _ PL) in I. apply filter_In in I as [_ C]. apply (chosen_sound D L), C.
  - apply cut_sorted. eapply sorted_weaken; [|exact SL]. intros x y. unfold not_after, may_precede. cbv beta. rewrite rank_order by exact NM. trivial.
  - intros NZ. unfold given_n at 1. destruct lim as [|p]; [contradiction|]. unfold cut_to. rewrite firstn_length. lia.
  - destruct (cut_rest (given_n lim) (given_n off) l) as (rest & P & E). exists (rest ++ filter (fun x => negb (chosen_by D (option_map (meaning fl) wh) x)) table). split.
    + rewrite app_assoc, P, PL. apply filter_rest.
    + intros -> ->. rewrite E by reflexivity. cbn [app]. intros x I N W. apply filter_In in I as [_ I]. rewrite (chosen_complete D L fl x wh SO N W) in I. discriminate I.
Qed.
Lemma read_rows items out : match query_rows conv cols zero (complete (map (fun x => shown items x) out) false) with
  | Ok recs => Forall2 (fun x rec => holds conv cols (shown items x) zero rec) out recs
  | Err => exists x, In x out /\ ~ readable_row conv cols (shown items x)
  | Panic => False
  end.
Proof.
  destruct (C38_rows_partial conv cols PATHS zero (map (fun x => shown items x) out) false) as (r & -> & _ & H). destruct (query_rows _ _ _ _) as [recs| |]; [| |exact H].
  - destruct H as [_ F]. remember (map (fun x => shown items x) out) as rows eqn:E. revert out E. induction F as [|row rec rows recs F1 F IH]; intros [|x out] E; try discriminate; [constructor|]. cbn [map] in E. injection E as -> ->. constructor; [exact F1|apply IH; reflexivity].
  - assert (DEC : forall row, readable_row conv cols row \/ ~ readable_row conv cols row).
    { intros row. clear. unfold readable_row. revert row. induction cols as [|c cs IH]; intros [|v row]; try (right; intros F; inversion F; fail); [left; constructor|]. destruct (conv c v) eqn:E; [|right; intros F; inversion F; congruence].
      destruct (IH row) as [F|F]; [left; constructor; [congruence|exact F]|right; intros G; inversion G; contradiction]. }
    induction out as [|x out IH]; [exfalso; apply H; constructor|]. destruct (DEC (shown items x)) as [R|R]; [|exists x; split; [left; reflexivity|exact R]].
    destruct IH as (y & I & N); [intros F; apply H; cbn [map]; constructor; assumption|]. exists y. split; [right; exact I|exact N].
Qed.
Lemma read_row items out x0 : match row_scan conv cols x0 (complete (map (fun x => shown items x) out) false) with
  | (rec, Ok tt) => exists x rest, out = x :: rest /\ holds conv cols (shown items x) x0 rec
  | (_, Err) => out = [] \/ exists x rest, out = x :: rest /\ ~ readable_row conv cols (shown items x)
  | (_, Panic) => False
  end.
Proof.
  pose proof (C38_one_row_partial conv cols PATHS x0 (complete (map (fun x => shown items x) out) false)) as H. destruct (row_scan _ _ _ _) as [rec [[]| |]]; [| |exact H].
  - destruct H as (row & rest & E & HO). destruct out as [|x out]; [discriminate|]. injection E as <- _. eauto.
  - destruct H as [E|[E|(row & rest & E & N)]]; [left; destruct out; [reflexivity|discriminate]|discriminate E|right]. destruct out as [|x out]; [discriminate|]. injection E as <- _. eauto.
Qed.

Lemma row_by items c (P : row V -> Prop) text args lock x0 : (forall x, chosen_by D (Some c) x = true <-> P x) -> read fl text args = Some (Select items q (Some c) [] [] (Some 1%N) None lock) ->
  match run_row conv ask (Ok (text, args)) cols x0 with
  | (rec, Ok tt) => exists x, In x table /\ P x /\ holds conv cols (shown items x) x0 rec
  | (_, Err) => (forall x, In x table -> ~ P x) \/ exists x, In x table /\ P x /\ ~ readable_row conv cols (shown items x)
  | (_, Panic) => False
  end.
Proof.
  intros CP R. unfold run_row. destruct (answered _ _ _ _ _ _ _ _ R) as (out & -> & (l & PL & _ & EO)). cbn [cut_to N.to_nat] in EO. change (Pos.to_nat 1) with 1 in EO.
  assert (F : forall x, In x l <-> In x table /\ P x). { intros x. rewrite <- CP. rewrite <- (filter_In (fun x => chosen_by D (Some c) x)). split; apply Permutation_in; [exact PL|apply Permutation_sym, PL]. }
  pose proof (read_row items out x0) as H. destruct (row_scan _ _ _ _) as [rec [[]| |]]; [| |exact H].
  - destruct H as (x & rest & E & HO). rewrite E in EO. destruct l as [|x' l]; [discriminate|]. injection EO as -> _. exists x'. destruct (proj1 (F x') (or_introl eq_refl)). auto.
  - destruct H as [->|(x & rest & E & N)].
    + left. intros x I HK. assert (J : In x l) by (apply F; auto). destruct l; [exact J|discriminate].
    + right. rewrite E in EO. destruct l as [|x' l]; [discriminate|]. injection EO as -> _. exists x'. destruct (proj1 (F x') (or_introl eq_refl)). auto.
Qed.

(** ** Queries *)
Variables (m : model V) (names : list bytes) (items : list (expr V)).
Hypothesis DES : described fl m q names items.
Lemma its_settled ts : no_placeholder (V:=V) ts -> ~ In Bad ts -> forallb settled ts = true.
Proof. intros N B0. apply forallb_forall. intros x I; destruct x; try reflexivity; [exfalso; exact (N _ I)|contradiction]. Qed.
Lemma described_items : map (lex fl) (table_columns m) = items /\ Forall (an_expr (V:=V) fl) (table_columns m) /\ table_columns m <> [].
Proof.
  destruct DES as [_ DC _ DS DI]. clear DES. unfold table_columns. destruct (m_sqlcolumns m) as [texts|].
  - destruct DI as (NE & F). split; [|split; [|exact NE]].
    + clear NE. induction F as [|t i ts is (E & _) F IH]; [reflexivity|]. cbn [map]. rewrite E, IH. reflexivity.
    + clear NE. induction F as [|t i ts is (E & X & P & NB) F IH]; constructor; [|exact IH]. split; [rewrite E; exact X|]. rewrite E. apply its_settled; assumption.
  - rewrite DI. clear DI. split; [|split].
    + clear DS. induction DC as [|t c ts cs E F IH]; [reflexivity|]. cbn [map]. rewrite IH. unfold denotes in E. rewrite E. reflexivity.
    + clear DS. induction DC as [|t c ts cs E F IH]; constructor; [|exact IH]. unfold denotes in E. split; rewrite E; reflexivity.
    + intros E. rewrite E in DC. inversion DC. congruence.
Qed.
Lemma whole_parts (st : select_stmt V) : q_select st = [] -> q_from st = [] -> condition_ok fl (q_where st) -> q_group st = [] -> Forall (fun o => a_name (V:=V) fl (fst o)) (q_order st) ->
  parts_ok fl (target_of m) st q /\ map (lex (V:=V) fl) (projection (target_of m) st) = items.
Proof.
  intros SE FR CO GR NM. destruct described_items as (E & F & NE). unfold parts_ok, projection, from_table. rewrite SE, FR, GR. cbn [target_of g_columns g_table g_db option_map]. split; [|exact E]. repeat split; auto.
  exists (in_db (target_of m) (m_table m)). split; [reflexivity|]. exact (d_table _ _ _ _ _ DES).
Qed.
(** QueryStmt for whole records.  An error means that a row that was wanted cannot be read.
    Missing: chosen columns (refuted below), GROUP BY, other tables, conditions with empty groups and OFFSET alone (C32), a stream that breaks off (C38). *)
Theorem C87_query_partial (st : select_stmt V) : q_select st = [] -> q_from st = [] -> q_group st = [] -> condition_ok fl (q_where st) -> condition_solid (q_where st) -> Forall (fun o => a_name (V:=V) fl (fst o)) (q_order st) ->
  d = DPostgres \/ q_limit st <> 0%N \/ q_offset st = 0%N ->
  match run_query conv ask d m st cols zero with
  | Ok recs => exists out, picked D fl table (q_where st) (q_order st) (q_limit st) (q_offset st) out /\ Forall2 (fun x rec => holds conv cols (shown items x) zero rec) out recs
  | Err => exists x, In x table /\ wants D fl x (q_where st) /\ ~ readable_row conv cols (shown items x)
  | Panic => False
  end.
Proof.
  intros SE FR GR CO SO NM O. destruct (whole_parts st SE FR CO GR NM) as (P & IT). destruct (C32_query_partial d (target_of m) st q P SO O) as (text & args & E & R). unfold run_query. rewrite E.
  unfold asked in R. rewrite GR, IT in R. destruct (answered _ _ _ _ _ _ _ _ R) as (out & -> & A). apply (picked_by _ _ _ _ _ SO NM) in A. pose proof (read_rows items out) as H. destruct (query_rows _ _ _ _) as [recs| |]; [eauto| |exact H].
  destruct H as (x & I & N). exists x. destruct A as (W & _ & _ & rest & PE & _). split; [apply (Permutation_in _ PE), in_app_iff; left; exact I|]. split; [apply W, I|exact N].
Qed.
(** QueryOneStmt: a wanted record that no other must precede; an error if there is none *)
Theorem C87_query_one_partial (st : select_stmt V) : q_select st = [] -> q_from st = [] -> q_group st = [] -> condition_ok fl (q_where st) -> condition_solid (q_where st) -> Forall (fun o => a_name (V:=V) fl (fst o)) (q_order st) ->
  match run_query_one conv ask d m st cols zero with
  | Ok rec => exists x, picked D fl table (q_where st) (q_order st) 1 0 [x] /\ holds conv cols (shown items x) zero rec /\
      forall y, In y table -> clear_of_null D fl y (q_where st) -> wants D fl y (q_where st) -> y = x \/ may_precede D fl (q_order st) x y
  | Err => (forall x, In x table -> clear_of_null D fl x (q_where st) -> ~ wants D fl x (q_where st)) \/
      exists x, In x table /\ wants D fl x (q_where st) /\ ~ readable_row conv cols (shown items x)
  | Panic => False
  end.
Proof.
  intros SE FR GR CO SO NM. destruct (whole_parts st SE FR CO GR NM) as (P & IT). destruct (C32_query_one_partial d (target_of m) st q P SO) as (text & args & E & R). unfold run_query_one, run_row. rewrite E.
  unfold asked in R. rewrite GR, IT in R. destruct (answered _ _ _ _ _ _ _ _ R) as (out & -> & A). pose proof (picked_by _ _ 1 0 _ SO NM A) as PK. destruct A as (l & PL & SL & EO).
  assert (K : forall x, In x table -> clear_of_null D fl x (q_where st) -> wants D fl x (q_where st) -> In x l). { intros x I N W. apply (Permutation_in _ (Permutation_sym PL)). apply filter_In. split; [exact I|]. apply (chosen_complete D L); assumption. }
  cbn [cut_to N.to_nat] in EO. change (Pos.to_nat 1) with 1 in EO. pose proof (read_row items out zero) as H. destruct (row_scan _ _ _ _) as [rec [[]| |]]; [| |exact H].
  - destruct H as (x & rest & -> & HO). destruct l as [|x' l]; [discriminate|]. cbn [firstn] in EO. injection EO as -> ->. exists x'. split; [exact PK|]. split; [exact HO|]. intros y I N W. destruct (K y I N W) as [->|J]; [left; reflexivity|right].
    inversion SL as [|? ? _ F]; subst. rewrite Forall_forall in F. specialize (F y J). unfold not_after in F. unfold may_precede. rewrite <- rank_order by exact NM. exact F.
  - destruct H as [->|(x & rest & -> & N)].
    + left. intros x I N W. specialize (K x I N W). destruct l; [exact K|discriminate].
    + right. exists x. destruct PK as (W & _ & _ & more & PE & _). split; [apply (Permutation_in _ PE); left; reflexivity|]. split; [apply W; left; reflexivity|exact N].
Qed.
(** Chosen columns: fields are filled by position, whatever the names, and there must be as many as the model has. *)
Theorem C87_select_count_refuted (st : select_stmt V) : parts_ok fl (target_of m) st q -> q_select st <> [] -> length (q_select st) <> length cols -> q_group st = [] -> condition_solid (q_where st) -> q_limit st = 0%N -> q_offset st = 0%N ->
  (exists x, In x table /\ clear_of_null D fl x (q_where st) /\ wants D fl x (q_where st)) ->
  run_query conv ask d m st cols zero = Err.
Proof.
  intros P SE LN GR SO LM OF (x & I & N & W). destruct (C32_query_partial d (target_of m) st q P SO (or_intror (or_intror OF))) as (text & args & E & R). unfold run_query. rewrite E.
  unfold asked in R. rewrite GR in R. assert (PR : projection (target_of m) st = q_select st) by (unfold projection; destruct (q_select st); [contradiction|reflexivity]). rewrite PR in R.
  destruct (answered _ _ _ _ _ _ _ _ R) as (out & -> & A). assert (NM : Forall (fun o => a_name (V:=V) fl (fst o)) (q_order st)) by apply P. apply (picked_by _ _ _ _ _ SO NM) in A.
  pose proof (read_rows (map (lex fl) (q_select st)) out) as H. destruct (query_rows _ _ _ _) as [recs| |]; [exfalso|reflexivity|contradiction H].
  destruct A as (_ & _ & _ & rest & PE & C). apply (Permutation_in _ (Permutation_sym PE)) in I. apply in_app_iff in I as [I|I]; [|exact (C LM OF x I N W)].
  clear -I H LN. induction H as [|y rec ys recs (F & _) H IH]; [contradiction|]. destruct I as [->|I]; [|apply IH, I]. assert (LE : length cols = length (map (eval D x) (map (lex fl) (q_select st)))) by (clear -F; induction F; cbn [length]; congruence). rewrite !map_length in LE. congruence.
Qed.
Theorem C87_select_refuted (st : select_stmt V) (asked_names : list bytes) recs : parts_ok fl (target_of m) st q -> q_select st <> [] -> q_group st = [] -> condition_solid (q_where st) -> q_offset st = 0%N ->
  map (lex (V:=V) fl) (q_select st) = map (fun n => [Name n]) asked_names -> run_query conv ask d m st cols zero = Ok recs ->
  exists out, picked D fl table (q_where st) (q_order st) (q_limit st) 0 out /\ Forall2 (fun x rec => Forall2 (fun c n => conv c (x n) = Some (rec (c_gopath c))) cols asked_names) out recs.
Proof.
  intros P SE GR SO OF NA. destruct (C32_query_partial d (target_of m) st q P SO (or_intror (or_intror OF))) as (text & args & E & R). unfold run_query. rewrite E.
  unfold asked in R. rewrite GR in R. assert (PR : projection (target_of m) st = q_select st) by (unfold projection; destruct (q_select st); [contradiction|reflexivity]). rewrite PR, NA in R.
  destruct (answered _ _ _ _ _ _ _ _ R) as (out & -> & A). assert (NM : Forall (fun o => a_name (V:=V) fl (fst o)) (q_order st)) by apply P. apply (picked_by _ _ _ _ _ SO NM) in A. rewrite OF in A.
  pose proof (read_rows (map (fun n => [Name n]) asked_names) out) as H. intros EQ. rewrite EQ in H. exists out. split; [exact A|]. clear -H. induction H as [|x rec xs recs (F & _) H IH]; constructor; [|exact IH].
  clear -F. rewrite map_map in F. revert F. generalize cols. induction asked_names as [|n l IH]; intros cs F; inversion F; subst; constructor; [assumption|apply IH; assumption].
Qed.

(** ** By key *)
Variable ks : list (bytes * V).
Hypothesis K : keyed_by fl m ks.
Definition has_keys (x : row V) : Prop := forall k v, In (k, v) ks -> cmp D (x k) v = Some Eq.
Lemma key_chosen x : chosen_by D (Some (key_match m ks)) x = true <-> has_keys x.
Proof.
  assert (X : chosen_by D (Some (key_match m ks)) x = true <-> equal_rows D (map x (map fst ks)) (map snd ks) = Some true).
  { unfold keyed_by in K. unfold chosen_by, key_match. destruct (m_key m) as [|n i v|n i v|ns is vs]; [contradiction| | |].
    - destruct K as (k & _ & ->). cbn. unfold compare_by. cbn. destruct (option_map _ (cmp D (x k) v)) as [[]|]; cbn; split; congruence.
    - destruct K as (k & _ & ->). cbn. unfold compare_by. cbn. destruct (option_map _ (cmp D (x k) v)) as [[]|]; cbn; split; congruence.
    - cbn [truth evals]. unfold compare_by. rewrite (bseq_refl (B "=")), !map_map. cbn [eval]. destruct (equal_rows D _ _) as [[]|]; split; congruence. }
  rewrite X. unfold has_keys. clear X K. induction ks as [|[k v] l IH]; [split; [intros _ k v []|reflexivity]|]. cbn [map equal_rows fst snd]. rewrite and3_true, IH. clear. split.
  - intros (E & H) k' v' [E'|I]; [|apply H, I]. injection E' as <- <-. destruct (cmp D (x k) v) as [[]|]; cbn in E; congruence.
  - intros H. split; [rewrite (H k v (or_introl eq_refl)); reflexivity|]. intros k' v' I. apply H. right. exact I.
Qed.
(** FindByPK and LockByPK fill the record from a row with its key. (Models with a statement of their own: below.) *)
Theorem C87_find_partial x0 : m_find m = None ->
  match run_find conv ask d m cols x0 with
  | (rec, Ok tt) => exists x, In x table /\ has_keys x /\ holds conv cols (shown items x) x0 rec
  | (_, Err) => (forall x, In x table -> ~ has_keys x) \/ exists x, In x table /\ has_keys x /\ ~ readable_row conv cols (shown items x)
  | (_, Panic) => False
  end.
Proof. intros N. destruct (C29_find_partial d m q names items DES ks K N) as (text & args & E & R). unfold run_find. rewrite E. eapply row_by, R. apply key_chosen. Qed.
Theorem C87_lock_partial mode x0 : In mode (lock_modes d) -> d <> DSQLite ->
  match run_lock conv ask d m mode cols x0 with
  | (rec, Ok tt) => exists x, In x table /\ has_keys x /\ holds conv cols (shown items x) x0 rec
  | (_, Err) => (forall x, In x table -> ~ has_keys x) \/ exists x, In x table /\ has_keys x /\ ~ readable_row conv cols (shown items x)
  | (_, Panic) => False
  end.
Proof. intros IM NS. destruct (C29_lock_partial d m q names items DES ks K mode IM NS) as (words & _ & text & args & E & R). unfold run_lock. rewrite E. eapply row_by, R. apply key_chosen. Qed.
End Query.

(** ** Generated models *)
Section Generated.
Context {V : Type}.
Variables (printable : N -> bool) (rename : bytes -> bytes) (wrap unwrap : gotype -> bytes * bytes).
Variables (sname : bytes) (ro : bool) (fs : list sfield) (t : table).
Hypothesis BUILT : build_table rename wrap unwrap sname ro fs = Ok t.
Variables (D : semantics V) (d : driver) (q : list bytes).
Hypothesis L : lawful D.
Notation fl := (flavour_of d).
Variables (ask : bytes -> list V -> option (rows (V:=V))) (table : list (row V)) (conv : column -> V -> option V).
Hypothesis SERVES : serves D fl q ask table.
Variable zero : bytes -> V.
Hypothesis PATHS : NoDup (map c_gopath (t_columns t)).
(** Each field has the value of its column, and no other field is touched *)
Definition filled (x : row V) (old rec : bytes -> V) : Prop :=
  (forall c, In c (t_columns t) -> conv c (x (c_name c)) = Some (rec (c_gopath c))) /\ (forall path, ~ In path (map c_gopath (t_columns t)) -> rec path = old path).
Definition unreadable (x : row V) : Prop := exists c, In c (t_columns t) /\ conv c (x (c_name c)) = None.
Lemma holds_filled x old rec : holds conv (gen_addrs t) (map (eval D x) (map (fun c => [Name (c_name c)]) (t_columns t))) old rec <-> filled x old rec.
Proof.
  unfold holds, filled, gen_addrs. rewrite map_map. cbn [eval]. enough (X : Forall2 (fun c v => conv c v = Some (rec (c_gopath c))) (t_columns t) (map (fun c => x (c_name c)) (t_columns t)) <-> forall c, In c (t_columns t) -> conv c (x (c_name c)) = Some (rec (c_gopath c))) by (rewrite X; reflexivity).
  clear PATHS. induction (t_columns t) as [|c l IH]; [split; [intros _ c []|constructor]|]. cbn [map]. split.
  - intros F. inversion F as [|a b l1 l2 H1 H2]. intros c' [<-|I]; [exact H1|apply IH; assumption].
  - intros H. constructor; [apply H; left; reflexivity|]. apply IH. intros c' I. apply H. right. exact I.
Qed.
Lemma not_readable x : ~ readable_row conv (gen_addrs t) (map (eval D x) (map (fun c => [Name (c_name c)]) (t_columns t))) <-> unreadable x.
Proof.
  unfold readable_row, unreadable, gen_addrs. rewrite map_map. cbn [eval]. clear PATHS. induction (t_columns t) as [|c l IH]; cbn [map].
  - split; [intros H; destruct H; constructor|intros (c & [] & _)].
  - destruct (conv c (x (c_name c))) eqn:E.
    + transitivity (~ Forall2 (fun c v => conv c v <> None) l (map (fun c => x (c_name c)) l)).
      * split; intros H F; apply H; [constructor; [congruence|exact F]|inversion F; assumption].
      * rewrite IH. split; [intros (c' & I & N); exists c'; split; [right; exact I|exact N]|intros (c' & [->|I] & N); [congruence|eauto]].
    + split; [intros _; exists c; split; [left; reflexivity|exact E]|intros _ F; inversion F; congruence].
Qed.
Variables (on : bool) (db : option bytes) (tn : bytes) (dup omit : option (list bytes)) (ins find upd : (column -> V) -> option (request V)).
Hypothesis U : usable (V:=V) d on t db tn None q (map (fun c => [Name (c_name c)]) (t_columns t)).
Notation model_of := (record_model printable t d on db tn None dup omit ins find upd).
Let W : wf t := build_table_wf _ _ _ _ _ _ _ BUILT.
Lemma model_described r : described fl (model_of r) q (map c_name (t_columns t)) (map (fun c => [Name (c_name c)]) (t_columns t)).
Proof. apply (gen_described printable d on t db tn None dup omit ins find upd q _ W (u_names _ _ _ _ _ _ _ _ U) (u_table _ _ _ _ _ _ _ _ U)); [rewrite map_map; reflexivity|apply (u_insert _ _ _ _ _ _ _ _ U)]. Qed.
(** Columns without a function for reading: what every field of the records holds. *)
Theorem C87_generated_query_partial (st : select_stmt V) : q_select st = [] -> q_from st = [] -> q_group st = [] -> condition_ok fl (q_where st) -> condition_solid (q_where st) -> Forall (fun o => a_name (V:=V) fl (fst o)) (q_order st) ->
  d = DPostgres \/ q_limit st <> 0%N \/ q_offset st = 0%N ->
  match run_query conv ask d (model_of zero) st (gen_addrs t) zero with
  | Ok recs => exists out, picked D fl table (q_where st) (q_order st) (q_limit st) (q_offset st) out /\ Forall2 (fun x rec => filled x zero rec) out recs
  | Err => exists x, In x table /\ wants D fl x (q_where st) /\ unreadable x
  | Panic => False
  end.
Proof.
  intros SE FR GR CO SO NM O. pose proof (C87_query_partial D d q L ask table conv SERVES (gen_addrs t) zero PATHS (model_of zero) _ _ (model_described zero) st SE FR GR CO SO NM O) as H.
  destruct (run_query _ _ _ _ _ _ _) as [recs| |]; [| |exact H].
  - destruct H as (out & P & F). exists out. split; [exact P|]. clear -F. induction F as [|x rec xs recs F1 F IH]; constructor; [apply holds_filled, F1|exact IH].
  - destruct H as (x & I & WX & N). exists x. rewrite <- not_readable. auto.
Qed.
Section Own.
Variables (before after item : column -> list (tok V)) (own : bool).
Hypothesis READ : readable d t before after item.
Hypothesis ADR : addresses (V:=V) d own t tn q.
Hypothesis BARE : forall k, In k (key_of t) -> before k = [] /\ after k = [].
(** FindByPK with the generated statement: [sent] is what FindOneByPKStmt of the record returns. *)
Theorem C87_own_find_partial pf cf text (r : bytes -> V) (m : model V) : gen_find_by_pk printable d own t = Some (pf, cf) -> eval_pieces tn pf = Some text -> m_find m = Some (text, map (fun c => r (c_gopath c)) cf) ->
  match run_find conv ask d m (gen_addrs t) r with
  | (rec, Ok tt) => exists x, In x table /\ has_key D t x (fun c => r (c_gopath c)) /\ holds conv (gen_addrs t) (map (fun c => eval D x (item c)) (gen_addrs t)) r rec
  | (_, Err) => (forall x, In x table -> ~ has_key D t x (fun c => r (c_gopath c))) \/
      exists x, In x table /\ has_key D t x (fun c => r (c_gopath c)) /\ ~ readable_row conv (gen_addrs t) (map (fun c => eval D x (item c)) (gen_addrs t))
  | (_, Panic) => False
  end.
Proof.
  intros G EP MF. destruct (C19_find_by_pk_partial printable rename wrap unwrap sname ro fs t BUILT d before after item READ own tn q ADR pf cf G) as (-> & text' & E & R). assert (text' = text) as -> by congruence.
  assert (NE : key_of t <> []). { clear - G. unfold gen_find_by_pk, has_pk in G. unfold key_of. destruct (t_auto t); [discriminate|]. destruct (t_keys t); [discriminate|discriminate]. }
  unfold run_find, find_by_pk. rewrite MF.
  pose proof (row_by D d q ask table conv SERVES (gen_addrs t) PATHS _ _ (fun x => has_key D t x (fun c => r (c_gopath c))) text _ [] r (fun x => chosen_key D t before after x (fun c => r (c_gopath c)) NE BARE) (R r)) as H. cbv beta in H.
  destruct (run_row _ _ _ _ _) as [rec [[]| |]]; [| |exact H].
  - destruct H as (x & I & K & HO). exists x. rewrite map_map in HO. auto.
  - destruct H as [H|(x & I & K & N)]; [left; exact H|right]. exists x. rewrite map_map in N. auto.
Qed.
End Own.
End Generated.

(** ** A concrete case: a database that answers by sorting *)
Definition same_words (a b : list bytes) : bool := if list_eq_dec (list_eq_dec ascii_dec) a b then true else false.
Definition serving (fl : flavour) (q : list bytes) (table : list (row nat)) (text : bytes) (args : list nat) : option (rows (V:=nat)) :=
  match read fl text args with
  | Some (Select its q' wh [] ord lim off lock) => if same_words q' q then Some (complete (map (fun x => map (eval nums x) its) (LemmasAnswers.answer nums (fun x => x) table wh ord lim off)) false) else None
  | _ => None
  end.
Example C87_served fl q table : serves nums fl q (serving fl q table) table.
Proof.
  intros text args. unfold serving. destruct (read fl text args) as [s|] eqn:R; [|discriminate]. destruct s as [|its q' wh grp ord lim off lock| |]; try discriminate. destruct grp; [|discriminate].
  unfold same_words. destruct (list_eq_dec _ q' q) as [->|N].
  - eexists. split; [|reflexivity]. do 7 eexists. split; [exact R|]. split; [|reflexivity]. apply (LemmasAnswers.answered nums Z.of_nat). intros x y. symmetry. apply Nat2Z.inj_compare.
  - intros its' wh' ord' lim' off' lock' E. injection E as _ E _ _ _ _ _. contradiction.
Qed.
Definition q_conv (_ : column) (v : nat) : option nat := if Nat.ltb v 100 then Some v else None.
Definition q_model (d : driver) (r : bytes -> nat) : model nat := record_model (fun _ => true) t_one d false None (B "users") None None None ex_none ex_none ex_none r.
Definition q_row (i n a : nat) : row nat := fun c => if bseq c (B "id") then i else if bseq c (B "name") then n else if bseq c (B "age") then a else 0.
Definition q_table := [q_row 1 5 50; q_row 2 6 60; q_row 3 7 70].
Definition q_show (x : bytes -> nat) : list nat := [x (B ".ID"); x (B ".Name"); x (B ".Age")].
Definition q_older (sel : list bytes) : select_stmt nat :=
  {| q_select := sel; q_from := []; q_where := Some (WGreaterThan (Basic (B "age")) 55); q_order := [(B "id", false)]; q_group := []; q_offset := 0; q_limit := 0 |}.
Definition q_run (d : driver) (sel : list bytes) := run_query q_conv (serving (flavour_of d) [B "users"] q_table) d (q_model d (fun _ => 0)) (q_older sel) (gen_addrs t_one) (fun _ => 0).
Definition q_shown (r : res (list (bytes -> nat))) : res (list (list nat)) := match r with Ok l => Ok (map q_show l) | Err => Err | Panic => Panic end.
Example C87_hypotheses : forall d, ex_build ex_one = Ok t_one /\ NoDup (map c_gopath (t_columns t_one)) /\ usable d false t_one None (B "users") None [B "users"] (map (fun c => [Name (c_name c)] : expr nat) (t_columns t_one)) /\
  condition_ok (flavour_of d) (q_where (q_older [])) /\ condition_solid (q_where (q_older [])) /\ Forall (fun o => a_name (V:=nat) (flavour_of d) (fst o)) (q_order (q_older [])) /\
  keyed_by (flavour_of d) (q_model d (fun _ => 2)) [(B "id", 2)] /\ parts_ok (flavour_of d) (target_of (q_model d (fun _ => 0))) (q_older [B "age"]) [B "users"].
Proof.
  intros d. split; [reflexivity|]. split; [repeat constructor; cbn; intuition discriminate|]. split; [unfold t_one; destruct d; ex_usable; (eexists; split; [right; left; reflexivity|split; [reflexivity|discriminate]])|].
  split; [destruct d; columns|]. split; [exact I|]. split; [repeat constructor; destruct d; eexists; reflexivity|]. split; [exists (B "id"); split; [destruct d; reflexivity|reflexivity]|].
  split; [discriminate|]. split; [repeat constructor; destruct d; reflexivity|]. split; [eexists; split; [reflexivity|]; destruct d; reflexivity|]. split; [destruct d; columns|]. split; [constructor|]. repeat constructor; destruct d; eexists; reflexivity.
Qed.
(** All columns; too few columns; the columns in another order, which end up in the wrong fields *)
Example C87_case : forall d, q_shown (q_run d []) = Ok [[3; 7; 70]; [2; 6; 60]] /\ q_run d [B "id"; B "age"] = Err /\ q_shown (q_run d [B "age"; B "id"; B "name"]) = Ok [[70; 3; 7]; [60; 2; 6]].
Proof. intros []; repeat split; vm_compute; reflexivity. Qed.
Example C87_find_case : forall d, let r := run_find q_conv (serving (flavour_of d) [B "users"] q_table) d (q_model d (fun _ => 2)) (gen_addrs t_one) (fun _ => 2) in
  q_show (fst r) = [2; 6; 60] /\ snd r = Ok tt /\ snd (run_find q_conv (serving (flavour_of d) [B "users"] q_table) d (q_model d (fun _ => 9)) (gen_addrs t_one) (fun _ => 9)) = Err.
Proof. intros []; repeat split; vm_compute; reflexivity. Qed.
Example C87_own_case : forall d, readable (V:=nat) d ex_t2 (ex_before d) ex_after (ex_item d) /\ addresses (V:=nat) d false ex_t2 [] [B "Users"] /\ NoDup (map c_gopath (t_columns ex_t2)) /\
  (forall k, In k (key_of ex_t2) -> ex_before (V:=nat) d k = [] /\ ex_after (V:=nat) k = []) /\
  exists pf cf text, gen_find_by_pk (fun _ => true) d false ex_t2 = Some (pf, cf) /\ eval_pieces [] pf = Some text.
Proof.
  intros d. split; [ex_columns|]. split; [split; [apply plain_nameb; reflexivity|reflexivity]|]. split; [repeat constructor; cbn; intuition discriminate|]. split; [intros k [<-|[]]; split; reflexivity|].
  destruct d; (do 3 eexists; split; [reflexivity|vm_compute; reflexivity]).
Qed.
(** ** Errors of the database *)
(** A call succeeds only if the database answered the text that it sent; otherwise FindByPK and LockByPK leave the record as it was. *)
Section Refused.
Context {V : Type}.
Variables (ask : bytes -> list V -> option (rows (V:=V))) (conv : column -> V -> option V) (cols : list column).
Lemma row_refused r x : match run_row conv ask r cols x with
  | (x', Ok tt) => exists text args rs, r = Ok (text, args) /\ ask text args = Some rs
  | (x', _) => (forall text args, r = Ok (text, args) -> ask text args = None) -> x' = x
  end.
Proof.
  unfold run_row. destruct r as [[text args]| |]; [|reflexivity|reflexivity]. destruct (ask text args) as [rs|] eqn:A; [|reflexivity].
  destruct (row_scan conv cols x rs) as [x' [[]| |]]; [eauto|intros N; specialize (N text args eq_refl); congruence|intros N; specialize (N text args eq_refl); congruence].
Qed.
Theorem C87_refused (d : driver) (m : model V) :
  (forall st zero recs, run_query conv ask d m st cols zero = Ok recs -> exists text args rs, query_stmt d (target_of m) st = Ok (text, args) /\ ask text args = Some rs) /\
  (forall st zero rec, run_query_one conv ask d m st cols zero = Ok rec -> exists text args rs, query_one_stmt d (target_of m) st = Ok (text, args) /\ ask text args = Some rs) /\
  (forall x x' r, run_find conv ask d m cols x = (x', r) ->
     (r = Ok tt -> exists text args rs, find_by_pk d m = Ok (text, args) /\ ask text args = Some rs) /\ ((forall text args, ask text args = None) -> x' = x)) /\
  (forall mode x x' r, run_lock conv ask d m mode cols x = (x', r) ->
     (r = Ok tt -> exists text args rs, lock_by_pk d m mode = Ok (text, args) /\ ask text args = Some rs) /\ ((forall text args, ask text args = None) -> x' = x)).
Proof.
  split; [|split; [|split]].
  - intros st zero recs. unfold run_query. destruct (query_stmt d (target_of m) st) as [[text args]| |]; [|discriminate|discriminate]. destruct (ask text args) as [rs|] eqn:A; [eauto|discriminate].
  - intros st zero rec. unfold run_query_one. pose proof (row_refused (query_one_stmt d (target_of m) st) zero) as H. destruct (run_row _ _ _ _ _) as [x [[]| |]]; [intros _; exact H|discriminate|discriminate].
  - intros x x' r. unfold run_find. pose proof (row_refused (find_by_pk d m) x) as H. destruct (run_row _ _ _ _ _) as [y [[]| |]]; intros E; injection E as <- <-.
    + split; [intros _; exact H|]. intros N. destruct H as (text & args & rs & _ & A). rewrite N in A. discriminate A.
    + split; [discriminate|]. intros N. apply H. intros text args _. apply N.
    + split; [discriminate|]. intros N. apply H. intros text args _. apply N.
  - intros mode x x' r. unfold run_lock. pose proof (row_refused (lock_by_pk d m mode) x) as H. destruct (run_row _ _ _ _ _) as [y [[]| |]]; intros E; injection E as <- <-.
    + split; [intros _; exact H|]. intros N. destruct H as (text & args & rs & _ & A). rewrite N in A. discriminate A.
    + split; [discriminate|]. intros N. apply H. intros text args _. apply N.
    + split; [discriminate|]. intros N. apply H. intros text args _. apply N.
Qed.
End Refused.

Example C87_refused_case : forall d x, run_find q_conv (fun _ _ => None) d (q_model d (fun _ => 2)) (gen_addrs t_one) x = (x, Err) /\ exists r, find_by_pk d (q_model d (fun _ => 2)) = Ok r.
Proof. intros [] x; (split; [reflexivity|eexists; reflexivity]). Qed.

Print Assumptions C87_query_partial.
Print Assumptions C87_query_one_partial.
Print Assumptions C87_select_count_refuted.
Print Assumptions C87_select_refuted.
Print Assumptions C87_find_partial.
Print Assumptions C87_lock_partial.
Print Assumptions C87_generated_query_partial.
Print Assumptions C87_own_find_partial.
Print Assumptions C87_refused.
