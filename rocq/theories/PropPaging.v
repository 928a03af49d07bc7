(** Properties C35 and C36: paging through a table that does not change.

    The database is any function from requests to records that [serves] a table: it rejects what [SpecSql.read] does not
    accept and otherwise answers by the semantics of [SpecDb.v].  A consumer that takes at most [k] pages sees the first
    [k] of them, and the iteration ends by itself after the last. *)
From Coq Require Import Sorted Permutation.
From Verif Require Import Base ModelStrconv ModelCompiler ModelGen ModelRuntime ModelStmt ModelPager SpecSql SpecGen SpecRuntime SpecStmt SpecPager SpecDb SpecPaging
  LemmasBase LemmasStmt2 LemmasStmt4 LemmasPager LemmasPager2 LemmasPager3 LemmasRuntime7 LemmasCompiler PropGen PropRuntime PropPager LemmasPaging LemmasDb.

Definition page_size {V} (p : pager V) : N := if N.eqb (p_limit p) 0 then 100%N else p_limit p.

Section Paging.
Context {V T : Type}.
Variables (D : semantics V) (cells : T -> row V) (key : list bytes) (d : driver) (view : T -> model V) (q cols : list bytes) (items : list (expr V)).
Variables (ask : bytes -> list V -> option (list T)) (table : list T) (zero : T) (p : pager V).
Notation fl := (flavour_of d).
Notation key_cmp := (key_cmp D cells key).
Hypothesis LAW : lawful D.
Hypothesis MT : models_table cells key d view q cols items.
Hypothesis KT : keyed_table D cells key table.
Hypothesis SV : serves D cells d q items ask table.

Lemma paginate_where : p_where (paginate p) = p_where p.
Proof. unfold paginate. destruct (N.eqb _ _); reflexivity. Qed.
Lemma paginate_order : p_order (paginate p) = p_order p.
Proof. unfold paginate. destruct (N.eqb _ _); reflexivity. Qed.
Lemma paginate_limit : p_limit (paginate p) = page_size p.
Proof. unfold paginate, page_size. destruct (N.eqb _ _); reflexivity. Qed.

Section Dir.
Variable fwd : bool.
Notation iterate := (iterate T view zero ask d fwd (paginate p)).

Lemma complete (x v : T) : d = DPostgres \/ (forall y, ~ composite (view y)) -> match p_where p with Some w => writes_nothing w | None => True end -> p_order p = [] -> (page_size p < 65535)%N ->
  In x table -> key_cmp v x = Some Eq ->
  exists ps, Permutation (concat ps) (filter (reached D cells key fwd x) table) /\ StronglySorted (passed D cells key fwd) (concat ps) /\
  paged (N.to_nat (page_size p)) ps /\ forall k, iterate (Some v) k = (map Page (firstn k ps), Nat.leb (length ps) k).
Proof.
  intros SH PW PO LIM IX EV.
  assert (L0 : (0 < p_limit (paginate p) < 65535)%N). { rewrite paginate_limit. split; [|exact LIM]. unfold page_size. destruct (N.eqb_spec (p_limit p) 0); lia. }
  assert (PW' : match p_where (paginate p) with Some w => writes_nothing w | None => True end) by (rewrite paginate_where; exact PW).
  assert (PO' : p_order (paginate p) = []) by (rewrite paginate_order; exact PO).
  destruct (page_answer D cells key d view q cols items ask table fwd (paginate p) LAW MT KT SV SH PW' PO' L0 x IX) as (text & args & out & l & _ & _ & P & SS & _).
  assert (IN : forall z, In z l -> In z table /\ reached D cells key fwd x z = true). { intros z I. apply (Permutation_in _ P) in I. apply filter_In in I. exact I. }
  assert (IXL : In x l). { eapply Permutation_in; [symmetry; exact P|]. apply filter_In. split; [exact IX|]. apply (reached_self D cells key table fwd LAW KT x IX). }
  destruct l as [|h post]; [contradiction|].
  assert (h = x).
  { inversion SS as [|? ? _ F]; subst. destruct IXL as [->|J]; [reflexivity|]. rewrite Forall_forall in F.
    apply (reached_antisym D cells key table fwd LAW KT); [apply IN; now left|exact IX|apply F, J|apply IN; now left]. }
  subst h.
  destruct (paging_from D cells key d view q cols items ask table zero fwd (paginate p) LAW MT KT SV SH PW' PO' L0 x (x :: post) IX P SS (length post) x [] post (le_n _) eq_refl) as (ps & EC & PG & IT).
  exists ps. rewrite EC. split; [exact P|]. rewrite paginate_limit in PG. split; [|split; [exact PG|]].
  - assert (ND : NoDup (x :: post)). { eapply Permutation_NoDup; [symmetry; exact P|]. apply NoDup_filter, KT. }
    clear EC PG IT P IXL. induction SS as [|a l S IH F]; constructor.
    + apply IH; [intros; apply IN; now right|inversion ND; assumption].
    + rewrite Forall_forall in *. intros b I. apply (reached_passed D cells key table fwd KT); [apply IN; now left|apply IN; now right| |apply F, I].
      intros ->. inversion ND; contradiction.
  - intros k. cbn [ModelPager.iterate]. apply IT, EV.
Qed.

(** When the statement of a page is rejected, the iteration ends with an error or a panic. *)
Definition broken (e : event T) : Prop := e = Failure \/ e = Crash.
Lemma asked_nothing cursor y : rejected fl (page_stmt d fwd (paginate p) (view y) cursor) -> exists e, broken e /\
  match page_stmt d fwd (paginate p) (view y) cursor with
  | Ok (text, args) => match ask text args with
      | Some data => if N.leb (uint16 (N.of_nat (length data))) (p_limit (paginate p)) then (Page data, None) else (Page (removelast data), Some (last data zero))
      | None => (Failure, None) end
  | Err => (Failure, None) | Panic => (Crash, None) end = (e, None).
Proof.
  intros [->|(text & args & -> & R)]; [exists Crash; split; [now right|reflexivity]|].
  pose proof (SV text args) as S. rewrite R in S. rewrite S. exists Failure. split; [now left|reflexivity].
Qed.
Lemma broken_start k : rejected fl (page_stmt d fwd (paginate p) (view zero) false) -> exists e, broken e /\ iterate None (S k) = ([e], true).
Proof.
  intros R. destruct (asked_nothing false zero R) as (e & BE & E). exists e. split; [exact BE|]. cbn [ModelPager.iterate pages]. unfold turn. rewrite E. reflexivity.
Qed.
Lemma broken_cursor x v k : In x table -> key_cmp v x = Some Eq -> rejected fl (page_stmt d fwd (paginate p) (view x) true) ->
  exists e, broken e /\ iterate (Some v) (S k) = ([e], true).
Proof.
  intros IX EV R. destruct (asked_nothing true x R) as (e & BE & E). exists e. split; [exact BE|]. cbn [ModelPager.iterate pages]. unfold turn.
  rewrite (refetched D cells key d view q cols items ask table LAW MT KT SV v x IX EV), E. reflexivity.
Qed.

Lemma no_cursor k : match p_where p with Some w => writes_nothing w | None => True end -> p_order p = [] ->
  exists e, broken e /\ iterate None (S k) = ([e], true).
Proof.
  intros PW PO. apply broken_start. eapply C37_neither_refuted; [apply (mt_described _ _ _ _ _ _ _ MT)|apply (mt_keyed _ _ _ _ _ _ _ MT)|rewrite paginate_where; exact PW|rewrite paginate_order; exact PO].
Qed.
Lemma with_order k : condition_ok fl (p_where p) -> match p_where p with Some w => grouped w | None => True end ->
  p_order p <> [] -> Forall (fun o => a_name (V:=V) fl (fst o)) (p_order p) ->
  (exists e, broken e /\ iterate None (S k) = ([e], true)) /\
  forall x v, In x table -> key_cmp v x = Some Eq -> exists e, broken e /\ iterate (Some v) (S k) = ([e], true).
Proof.
  intros C G NE F.
  assert (R : forall y cursor, rejected fl (page_stmt d fwd (paginate p) (view y) cursor)).
  { intros y cursor. eapply C37_order_refuted; [apply (mt_described _ _ _ _ _ _ _ MT)|apply (mt_keyed _ _ _ _ _ _ _ MT)|..]; rewrite ?paginate_where, ?paginate_order; assumption. }
  split; [apply broken_start, R|]. intros x v IX EV. eapply broken_cursor; eauto.
Qed.
Lemma with_composite k : condition_ok fl (p_where p) -> p_order p = [] -> (forall y, composite (view y)) -> d <> DPostgres ->
  (exists e, broken e /\ iterate None (S k) = ([e], true)) /\
  forall x v, In x table -> key_cmp v x = Some Eq -> exists e, broken e /\ iterate (Some v) (S k) = ([e], true).
Proof.
  intros C PO CM ND.
  assert (R : forall y cursor, rejected fl (page_stmt d fwd (paginate p) (view y) cursor)).
  { intros y cursor. eapply C37_composite_refuted; [apply (mt_described _ _ _ _ _ _ _ MT)|apply (mt_keyed _ _ _ _ _ _ _ MT)|..]; rewrite ?paginate_where, ?paginate_order; auto. }
  split; [apply broken_start, R|]. intros x v IX EV. eapply broken_cursor; eauto.
Qed.
(** With a condition the first page comes, and the second is rejected. *)
Lemma with_condition w k : d = DPostgres \/ (forall y, ~ composite (view y)) -> p_where p = Some w -> all_columns (names_a_column fl) w -> solid w -> p_order p = [] -> (page_size p < 65535)%N ->
  N.to_nat (page_size p) < length (filter (fun x => chosen_by D (Some (meaning fl w)) (cells x)) table) ->
  exists l e, broken e /\ length l = N.to_nat (page_size p) /\ iterate None (S (S k)) = ([Page l; e], true).
Proof.
  intros SH EW C SOL PO LIM MORE.
  destruct (C37_condition_partial d fwd (paginate p) (view zero) q cols items (keys cells key zero) (mt_described _ _ _ _ _ _ _ MT zero) (mt_keyed _ _ _ _ _ _ _ MT zero) w)
    as (text & args & E & R); rewrite ?paginate_where, ?paginate_order, ?paginate_limit; auto; [destruct SH; auto|].
  pose proof (SV text args) as SS. rewrite R in SS. destruct (SS eq_refl eq_refl) as (out & EA & l & P & _ & EO). clear SS. rewrite paginate_limit in EO. unfold cut_to in EO.
  set (n := N.to_nat (page_size p)) in *. replace (N.to_nat (page_size p + 1)) with (S n) in EO by (unfold n; lia).
  rewrite <- (Permutation_length P) in MORE.
  assert (FL : length out = S n) by (rewrite EO, firstn_length; lia).
  assert (LIM' : (N.of_nat n < 65535)%N) by (unfold n; lia).
  assert (U : uint16 (N.of_nat (length out)) = N.of_nat (S n)). { rewrite FL. unfold uint16. apply N.mod_small. lia. }
  assert (NE : out <> []) by (intros X; rewrite X in FL; discriminate).
  set (y := last out zero). assert (IY : In y table).
  { assert (In y l) as I. { assert (In y out) as I. { unfold y. rewrite (app_removelast_last zero NE) at 2. apply in_or_app. right. now left. } rewrite EO in I. rewrite <- (firstn_skipn (S n) l). apply in_or_app. now left. }
    apply (Permutation_in _ P) in I. apply filter_In in I. tauto. }
  assert (RJ : rejected fl (page_stmt d fwd (paginate p) (view y) true)).
  { eapply C37_both_refuted; [apply (mt_described _ _ _ _ _ _ _ MT)|apply (mt_keyed _ _ _ _ _ _ _ MT)|rewrite paginate_where; exact EW|exact C| |rewrite paginate_order; exact PO].
    intros [->| ->]; apply SOL; reflexivity. }
  destruct (asked_nothing true y RJ) as (e & BE & EE). exists (removelast out), e. split; [exact BE|]. split.
  - pose proof (app_removelast_last zero NE) as X. apply (f_equal (@length T)) in X. rewrite app_length in X. cbn in X. lia.
  - cbn [ModelPager.iterate pages]. unfold turn at 1. rewrite E, EA, U, paginate_limit.
    destruct (N.leb_spec (N.of_nat (S n)) (page_size p)) as [X|_]; [unfold n in X; lia|]. fold y.
    unfold turn. rewrite (refetched D cells key d view q cols items ask table LAW MT KT SV y y IY (same D cells key table LAW KT y IY)), EE. reflexivity.
Qed.
(** With a cursor as well, not even the first. *)
Lemma with_both w x v k : p_where p = Some w -> all_columns (names_a_column fl) w -> ~ writes_nothing w -> p_order p = [] -> In x table -> key_cmp v x = Some Eq ->
  exists e, broken e /\ iterate (Some v) (S k) = ([e], true).
Proof.
  intros EW C NW PO IX EV. eapply broken_cursor; eauto. eapply C37_both_refuted; [apply (mt_described _ _ _ _ _ _ _ MT)|apply (mt_keyed _ _ _ _ _ _ _ MT)|rewrite paginate_where; exact EW|exact C|exact NW|rewrite paginate_order; exact PO].
Qed.
(** The largest page size: one empty page. *)
Lemma with_limit x v k : d = DPostgres \/ (forall y, ~ composite (view y)) -> p_where p = None -> p_order p = [] -> p_limit p = 65535%N -> In x table -> key_cmp v x = Some Eq ->
  iterate (Some v) (S k) = ([Page []], true).
Proof.
  intros SH PW PO LIM IX EV. cbn [ModelPager.iterate pages]. unfold turn. rewrite (refetched D cells key d view q cols items ask table LAW MT KT SV v x IX EV).
  destruct (C37_limit_refuted d fwd (paginate p) (view x) q cols items (keys cells key x) (mt_described _ _ _ _ _ _ _ MT x) (mt_keyed _ _ _ _ _ _ _ MT x))
    as (text & args & E & R); rewrite ?paginate_where, ?paginate_order, ?paginate_limit; auto; [destruct SH; auto|unfold page_size; rewrite LIM; reflexivity|].
  pose proof (SV text args) as S. rewrite R in S. destruct (S eq_refl eq_refl) as (out & EA & l & _ & _ & EO). rewrite E, EA, EO. rewrite ?paginate_limit. unfold page_size. rewrite LIM. reflexivity.
Qed.
(** A cursor whose row is gone is an error. *)
Lemma with_lost v k : (forall x, In x table -> key_cmp v x <> Some Eq) -> iterate (Some v) (S k) = ([Failure], true).
Proof.
  intros NO. cbn [ModelPager.iterate pages]. unfold turn, refetch. destruct (mt_found _ _ _ _ _ _ _ MT v) as (text & args & F & R). rewrite F. cbn [bind fst snd].
  pose proof (SV text args) as S. rewrite R in S. destruct (S eq_refl eq_refl) as (out & EA & l & P & _ & EO). rewrite EA.
  rewrite filter_none in P.
  - symmetry in P. apply Permutation_nil in P. subst. reflexivity.
  - intros z IZ. rewrite (match_chosen D cells key d view q cols items table MT KT). destruct (key_cmp z v) as [[]|] eqn:E; try reflexivity.
    apply (swap D cells key LAW) in E. exfalso. exact (NO z IZ E).
Qed.
End Dir.

Notation next := (iterate T view zero ask d true (paginate p)).
Notation prev := (iterate T view zero ask d false (paginate p)).
Notation size := (N.to_nat (page_size p)).
Definition unconditional : Prop := match p_where p with Some w => writes_nothing w | None => True end.

(** ** C35.  From a cursor, without condition and ordering: all rows from the cursor on, each once, in key order.
    Missing: everything refuted below. *)
Theorem C35_next_partial x v : d = DPostgres \/ (forall y, ~ composite (view y)) -> unconditional -> p_order p = [] -> (page_size p < 65535)%N ->
  In x table -> key_cmp v x = Some Eq ->
  exists ps, Permutation (concat ps) (filter (reached D cells key true x) table) /\ StronglySorted (passed D cells key true) (concat ps) /\
  paged size ps /\ forall k, next (Some v) k = (map Page (firstn k ps), Nat.leb (length ps) k).
Proof. apply complete. Qed.
Theorem C35_no_cursor_refuted k : unconditional -> p_order p = [] -> exists e, broken e /\ next None (S k) = ([e], true).
Proof. apply no_cursor. Qed.
Theorem C35_lost_cursor_refuted v k : (forall x, In x table -> key_cmp v x <> Some Eq) -> next (Some v) (S k) = ([Failure], true).
Proof. apply with_lost. Qed.
Theorem C35_ordering_refuted k : condition_ok fl (p_where p) -> match p_where p with Some w => grouped w | None => True end ->
  p_order p <> [] -> Forall (fun o => a_name (V:=V) fl (fst o)) (p_order p) ->
  (exists e, broken e /\ next None (S k) = ([e], true)) /\
  forall x v, In x table -> key_cmp v x = Some Eq -> exists e, broken e /\ next (Some v) (S k) = ([e], true).
Proof. apply with_order. Qed.
Theorem C35_composite_refuted k : condition_ok fl (p_where p) -> p_order p = [] -> (forall y, composite (view y)) -> d <> DPostgres ->
  (exists e, broken e /\ next None (S k) = ([e], true)) /\
  forall x v, In x table -> key_cmp v x = Some Eq -> exists e, broken e /\ next (Some v) (S k) = ([e], true).
Proof. apply with_composite. Qed.
Theorem C35_condition_refuted w k : d = DPostgres \/ (forall y, ~ composite (view y)) -> p_where p = Some w -> all_columns (names_a_column fl) w -> solid w -> p_order p = [] ->
  (page_size p < 65535)%N -> size < length (filter (fun x => chosen_by D (Some (meaning fl w)) (cells x)) table) ->
  exists l e, broken e /\ length l = size /\ next None (S (S k)) = ([Page l; e], true).
Proof. apply with_condition. Qed.
Theorem C35_condition_cursor_refuted w x v k : p_where p = Some w -> all_columns (names_a_column fl) w -> ~ writes_nothing w -> p_order p = [] ->
  In x table -> key_cmp v x = Some Eq -> exists e, broken e /\ next (Some v) (S k) = ([e], true).
Proof. apply with_both. Qed.
Theorem C35_limit_refuted x v k : d = DPostgres \/ (forall y, ~ composite (view y)) -> p_where p = None -> p_order p = [] -> p_limit p = 65535%N ->
  In x table -> key_cmp v x = Some Eq -> next (Some v) (S k) = ([Page []], true).
Proof. apply with_limit. Qed.

(** ** C36.  The same backwards. *)
Theorem C36_prev_partial x v : d = DPostgres \/ (forall y, ~ composite (view y)) -> unconditional -> p_order p = [] -> (page_size p < 65535)%N ->
  In x table -> key_cmp v x = Some Eq ->
  exists ps, Permutation (concat ps) (filter (reached D cells key false x) table) /\ StronglySorted (passed D cells key false) (concat ps) /\
  paged size ps /\ forall k, prev (Some v) k = (map Page (firstn k ps), Nat.leb (length ps) k).
Proof. apply complete. Qed.
Theorem C36_no_cursor_refuted k : unconditional -> p_order p = [] -> exists e, broken e /\ prev None (S k) = ([e], true).
Proof. apply no_cursor. Qed.
Theorem C36_lost_cursor_refuted v k : (forall x, In x table -> key_cmp v x <> Some Eq) -> prev (Some v) (S k) = ([Failure], true).
Proof. apply with_lost. Qed.
Theorem C36_ordering_refuted k : condition_ok fl (p_where p) -> match p_where p with Some w => grouped w | None => True end ->
  p_order p <> [] -> Forall (fun o => a_name (V:=V) fl (fst o)) (p_order p) ->
  (exists e, broken e /\ prev None (S k) = ([e], true)) /\
  forall x v, In x table -> key_cmp v x = Some Eq -> exists e, broken e /\ prev (Some v) (S k) = ([e], true).
Proof. apply with_order. Qed.
Theorem C36_composite_refuted k : condition_ok fl (p_where p) -> p_order p = [] -> (forall y, composite (view y)) -> d <> DPostgres ->
  (exists e, broken e /\ prev None (S k) = ([e], true)) /\
  forall x v, In x table -> key_cmp v x = Some Eq -> exists e, broken e /\ prev (Some v) (S k) = ([e], true).
Proof. apply with_composite. Qed.
Theorem C36_condition_refuted w k : d = DPostgres \/ (forall y, ~ composite (view y)) -> p_where p = Some w -> all_columns (names_a_column fl) w -> solid w -> p_order p = [] ->
  (page_size p < 65535)%N -> size < length (filter (fun x => chosen_by D (Some (meaning fl w)) (cells x)) table) ->
  exists l e, broken e /\ length l = size /\ prev None (S (S k)) = ([Page l; e], true).
Proof. apply with_condition. Qed.
Theorem C36_condition_cursor_refuted w x v k : p_where p = Some w -> all_columns (names_a_column fl) w -> ~ writes_nothing w -> p_order p = [] ->
  In x table -> key_cmp v x = Some Eq -> exists e, broken e /\ prev (Some v) (S k) = ([e], true).
Proof. apply with_both. Qed.
Theorem C36_limit_refuted x v k : d = DPostgres \/ (forall y, ~ composite (view y)) -> p_where p = None -> p_order p = [] -> p_limit p = 65535%N ->
  In x table -> key_cmp v x = Some Eq -> prev (Some v) (S k) = ([Page []], true).
Proof. apply with_limit. Qed.
End Paging.

(** ** Generated models: a table of records of a struct, each column holding the record's field. *)
Section GeneratedPaging.
Context {V T : Type}.
Variables (printable : N -> bool) (rename : bytes -> bytes) (wrap unwrap : gotype -> bytes * bytes).
Variables (sname : bytes) (ro : bool) (fs : list sfield) (t : table).
Hypothesis BUILT : build_table rename wrap unwrap sname ro fs = Ok t.
Variables (d : driver) (on : bool) (db : option bytes) (tn : bytes) (sqlc dup omit : option (list bytes)).
Variables (ins find upd : (column -> V) -> option (request V)) (q : list bytes) (items : list (expr V)).
Hypothesis U : usable d on t db tn sqlc q items.
Hypothesis HASKEY : key_of t <> [].
Hypothesis BARE : bare_keys V d t.
(** The model finds its row by the generic statement or by the generated one. *)
Definition generated_find : Prop := exists own before after item tnf ps cols text,
  readable d t before after item /\ addresses (V:=V) d own t tnf q /\ gen_find_by_pk printable d own t = Some (ps, cols) /\ eval_pieces tnf ps = Some text /\
  (forall val, find val = Some (text, map val cols)) /\ (forall k, In k (key_of t) -> before k = [] /\ after k = []) /\ items = map item (t_columns t).
Hypothesis FIND : (forall val, find val = None) \/ generated_find.
Variables (rec : T -> bytes -> V) (cells : T -> row V).
Hypothesis CELLS : forall x k, In k (t_columns t) -> cells x (c_name k) = rec x (c_gopath k).
Definition viewed (x : T) : model V := record_model printable t d on db tn sqlc dup omit ins find upd (rec x).
Definition key_names : list bytes := map c_name (key_of t).

Let W : wf t := build_table_wf _ _ _ _ _ _ _ BUILT.
Let IT := items_names t sqlc (flavour_of d) items (u_items _ _ _ _ _ _ _ _ U).
Lemma keys_are x : keys cells key_names x = map (fun k => (c_name k, rec x (c_gopath k))) (key_of t).
Proof.
  unfold keys, key_names. rewrite map_map. apply map_ext_in. intros k I. rewrite CELLS; [reflexivity|]. apply (key_in t W k I).
Qed.
Lemma generated_models_table : models_table cells key_names d viewed q (map c_name (t_columns t)) items.
Proof.
  pose proof (fun val => gen_described printable d on t db tn sqlc dup omit ins find upd q items W (u_names _ _ _ _ _ _ _ _ U) (u_table _ _ _ _ _ _ _ _ U) IT (u_insert _ _ _ _ _ _ _ _ U) val) as GD.
  pose proof (fun val => gen_keyed printable d on t db tn sqlc dup omit ins find upd W (u_names _ _ _ _ _ _ _ _ U) HASKEY (bare_single V d t BARE) val) as GK.
  constructor; intros x.
  - apply GD.
  - rewrite keys_are. apply GK.
  - rewrite keys_are. destruct FIND as [NF|(own & before & after & item & tnf & ps & cols & text & RD & AD & G & EV & FV & BA & EI)].
    + eapply C29_find_partial; [apply GD|apply GK|apply NF].
    + exists text, (map (fun c => rec x (c_gopath c)) cols). split.
      * unfold find_by_pk, viewed, record_model, gm, gen_model. cbn [m_find]. rewrite FV. reflexivity.
      * destruct (C19_find_by_pk_partial printable rename wrap unwrap sname ro fs t BUILT d before after item RD own tnf q AD ps cols G) as (-> & text' & EV' & R).
        assert (text' = text) by congruence. subst text'. rewrite (R (rec x)), EI. unfold gen_addrs.
        unfold viewed, record_model. rewrite (gen_match printable d on t db tn sqlc dup omit ins find upd (u_names _ _ _ _ _ _ _ _ U) HASKEY (bare_single V d t BARE) (fun c => rec x (c_gopath c)) before after BA). reflexivity.
Qed.
Lemma generated_composite x : composite (viewed x) <-> 2 <= length (key_of t).
Proof.
  unfold composite, viewed, record_model.
  destruct (gen_key_cases printable d on t db tn sqlc dup omit ins find upd (u_names _ _ _ _ _ _ _ _ U) HASKEY (bare_single V d t BARE) (fun c => rec x (c_gopath c))) as [(k & _ & KO & _ & [[E _]|[E _]])|(_ & _ & TWO & KO & _ & E)];
    rewrite E, KO; cbn; [split; [tauto|lia]|split; [tauto|lia]|split; auto].
Qed.

Variables (D : semantics V) (ask : bytes -> list V -> option (list T)) (table : list T) (zero : T) (p : pager V).
Hypothesis LAW : lawful D.
Hypothesis KT : keyed_table D cells key_names table.
Hypothesis SV : serves D cells d q items ask table.
Lemma generated_shape : d = DPostgres \/ length (key_of t) < 2 -> d = DPostgres \/ (forall y, ~ composite (viewed y)).
Proof. intros [->|H]; [now left|right]. intros y C. apply generated_composite in C. lia. Qed.
Theorem C35_generated_partial x v : d = DPostgres \/ length (key_of t) < 2 -> unconditional p -> p_order p = [] -> (page_size p < 65535)%N ->
  In x table -> key_cmp D cells key_names v x = Some Eq ->
  exists ps, Permutation (concat ps) (filter (reached D cells key_names true x) table) /\ StronglySorted (passed D cells key_names true) (concat ps) /\
  paged (N.to_nat (page_size p)) ps /\ forall k, iterate T viewed zero ask d true (paginate p) (Some v) k = (map Page (firstn k ps), Nat.leb (length ps) k).
Proof. intros H. eapply C35_next_partial; eauto using generated_models_table, generated_shape. Qed.
Theorem C36_generated_partial x v : d = DPostgres \/ length (key_of t) < 2 -> unconditional p -> p_order p = [] -> (page_size p < 65535)%N ->
  In x table -> key_cmp D cells key_names v x = Some Eq ->
  exists ps, Permutation (concat ps) (filter (reached D cells key_names false x) table) /\ StronglySorted (passed D cells key_names false) (concat ps) /\
  paged (N.to_nat (page_size p)) ps /\ forall k, iterate T viewed zero ask d false (paginate p) (Some v) k = (map Page (firstn k ps), Nat.leb (length ps) k).
Proof. intros H. eapply C36_prev_partial; eauto using generated_models_table, generated_shape. Qed.
End GeneratedPaging.

(** ** Concrete cases: a table of numbers, in a database that sorts *)
Definition nat_db : semantics nat := {| cmp := fun a b => Some (Nat.compare a b); sort_cmp := Nat.compare; like := fun _ _ => None; other := fun _ _ => 0 |}.
Lemma nat_good : good Nat.compare.
Proof.
  constructor.
  - intros a b. apply Nat.compare_antisym.
  - intros a b c E. apply Nat.compare_eq_iff in E. subst. reflexivity.
  - intros a b c E1 E2. apply Nat.compare_lt_iff in E1. apply Nat.compare_lt_iff in E2. apply Nat.compare_lt_iff. lia.
Qed.
Lemma nat_lawful : lawful nat_db.
Proof.
  constructor; cbn; intros a b c E; injection E as E.
  - exact E.
  - rewrite <- E, Nat.compare_antisym. reflexivity.
  - apply Nat.compare_eq_iff in E. subst. reflexivity.
  - intros E2. injection E2 as E2. f_equal. apply (g_lt _ nat_good a b c E E2).
Qed.
(** Record [x] of the one-key table: ID is [x], the rest ten times that. *)
Definition num_rec (x : nat) (path : bytes) : nat := if bseq path (B ".ID") then x else 10 * x.
Definition num_cells (x : nat) (c : bytes) : nat := if bseq c (B "id") then x else 10 * x.
Definition num_view (d : driver) (x : nat) : model nat := viewed (fun _ => true) t_one d true None (B "users") None None None ex_none ex_none ex_none num_rec x.
Definition num_items : list (expr nat) := map (fun c => [Name (c_name c)]) (t_columns t_one).
Definition num_table := [3; 1; 7; 2; 5; 4; 6].
Definition num_ask (d : driver) := query nat_db num_cells d num_table.
Definition num_pager_by w o (limit : N) : pager nat := {| p_select := []; p_from := []; p_where := w; p_order := o; p_limit := limit |}.
Definition num_pager := num_pager_by None [].
Example C35_hypotheses : forall d,
  lawful nat_db /\ keyed_table nat_db num_cells (key_names t_one) num_table /\ serves nat_db num_cells d [B "users"] num_items (num_ask d) num_table /\
  models_table num_cells (key_names t_one) d (num_view d) [B "users"] [B "id"; B "name"; B "age"] num_items /\ (forall y, ~ composite (num_view d y)).
Proof.
  intros d. split; [exact nat_lawful|]. split.
  - split; [repeat constructor; cbn; intuition discriminate|]. split.
    + intros x y _ _. unfold key_cmp. cbn. destruct (Nat.compare x y); discriminate.
    + intros x y _ _. unfold key_cmp. cbn. destruct (Nat.compare_spec x y); congruence.
  - split; [apply query_serves, nat_good|]. split; [|intros y []].
    assert (E : ex_build ex_one = Ok t_one) by reflexivity. unfold ex_build in E.
    eapply (generated_models_table (fun _ => true) _ _ _ _ _ _ t_one E d true None (B "users") None None None ex_none ex_none ex_none [B "users"] num_items).
    + unfold t_one; destruct d; ex_usable; (eexists; split; [right; left; reflexivity|split; [reflexivity|discriminate]]).
    + discriminate.
    + intros H. vm_compute in H. exfalso. lia.
    + left. reflexivity.
    + intros x k I. cbn in I. repeat (destruct I as [<-|I]; [reflexivity|]). destruct I.
Qed.
Example C35_case : forall d,
  iterate nat (num_view d) 0 (num_ask d) d true (paginate (num_pager 2)) (Some 3) 9 = ([Page [3; 4]; Page [5; 6]; Page [7]], true) /\
  iterate nat (num_view d) 0 (num_ask d) d true (paginate (num_pager 2)) (Some 3) 2 = ([Page [3; 4]; Page [5; 6]], false) /\
  iterate nat (num_view d) 0 (num_ask d) d true (paginate (num_pager 0)) (Some 1) 9 = ([Page [1; 2; 3; 4; 5; 6; 7]], true).
Proof. intros []; vm_compute; repeat split; reflexivity. Qed.
Example C36_case : forall d,
  iterate nat (num_view d) 0 (num_ask d) d false (paginate (num_pager 2)) (Some 5) 9 = ([Page [5; 4]; Page [3; 2]; Page [1]], true).
Proof. intros []; vm_compute; reflexivity. Qed.
(** The failures: no cursor, a cursor that is gone, an ordering, a condition, the largest page size *)
Example C35_refuted_case : let d := DMySQL in let go p := iterate nat (num_view d) 0 (num_ask d) d true (paginate p) in
  let w := WIsNotNull (Basic (B "age")) in
  go (num_pager 2) None 9 = ([Failure], true) /\ go (num_pager 2) (Some 8) 9 = ([Failure], true) /\
  go (num_pager_by None [(B "age", true)] 2) (Some 3) 9 = ([Failure], true) /\
  go (num_pager_by (Some w) [] 2) None 9 = ([Page [1; 2]; Failure], true) /\ go (num_pager_by (Some w) [] 2) (Some 3) 9 = ([Failure], true) /\
  go (num_pager 65535) (Some 3) 9 = ([Page []], true).
Proof. vm_compute. repeat split; reflexivity. Qed.
Print Assumptions C35_next_partial.
Print Assumptions C35_no_cursor_refuted.
Print Assumptions C35_lost_cursor_refuted.
Print Assumptions C35_ordering_refuted.
Print Assumptions C35_composite_refuted.
Print Assumptions C35_condition_refuted.
Print Assumptions C35_condition_cursor_refuted.
Print Assumptions C35_limit_refuted.
Print Assumptions C36_prev_partial.
Print Assumptions C36_no_cursor_refuted.
Print Assumptions C36_lost_cursor_refuted.
Print Assumptions C36_ordering_refuted.
Print Assumptions C36_composite_refuted.
Print Assumptions C36_condition_refuted.
Print Assumptions C36_condition_cursor_refuted.
Print Assumptions C36_limit_refuted.
Print Assumptions C35_generated_partial.
Print Assumptions C36_generated_partial.
