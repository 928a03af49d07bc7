(** C94: paging through a table that other programs change between the requests. *)
From Coq Require Import Sorted Permutation.
From Verif Require Import Base ModelStrconv ModelCompiler ModelGen ModelRuntime ModelStmt ModelPager ModelMoving SpecSql SpecGen SpecRuntime SpecStmt SpecPager SpecDb SpecPaging SpecMoving
  LemmasBase LemmasStmt2 LemmasStmt4 LemmasPager LemmasPager2 LemmasPager3 LemmasRuntime7 LemmasCompiler PropGen PropRuntime PropPager LemmasPaging LemmasDb PropPaging LemmasMoving.

(** With a table that does not change it is the pager of C35 and C36 *)
Theorem C94_unchanged {V T : Type} (view : T -> model V) (zero : T) (ask : bytes -> list V -> option (list T)) d fwd p v k :
  iterate_at view zero (fun _ => ask) d fwd p v k = iterate T view zero ask d fwd p (Some v) k.
Proof.
  unfold iterate_at. cbn [iterate]. generalize 0, true. revert v. induction k as [|k IH]; intros v n c; [reflexivity|]. cbn [pages_at pages].
  change (turn_at view zero (fun _ => ask) d fwd p v c n) with (turn T view zero ask d fwd p v c). destruct (turn T view zero ask d fwd p v c) as [e [v'|]]; [|reflexivity]. rewrite IH. reflexivity.
Qed.

Section Moving.
Context {V T : Type}.
Variables (D : semantics V) (cells : T -> row V) (key : list bytes) (d : driver) (view : T -> model V) (q cols : list bytes) (items : list (expr V)).
Variables (ask : nat -> bytes -> list V -> option (list T)) (tables : nat -> list T) (zero : T) (p : pager V) (fwd : bool).
Hypothesis LAW : lawful D.
Hypothesis MT : models_table cells key d view q cols items.
Hypothesis KT : keyed_tables D cells key tables.
Hypothesis SV : forall n, serves D cells d q items (ask n) (tables n).
Hypothesis SHAPE : d = DPostgres \/ forall y, ~ composite (view y).
Hypothesis PW : unconditional p.
Hypothesis PO : p_order p = [].
Hypothesis SIZE : (page_size p < 65535)%N.
Notation size := (N.to_nat (page_size p)).
Notation iterate_at := (iterate_at view zero ask d fwd (paginate p)).
Notation has := (has D cells key).
Let L0 : (0 < p_limit (paginate p) < 65535)%N.
Proof. rewrite paginate_limit. split; [|exact SIZE]. unfold page_size. destruct (N.eqb_spec (p_limit p) 0); lia. Qed.
Let PW' : match p_where (paginate p) with Some w => writes_nothing w | None => True end.
Proof. rewrite paginate_where. exact PW. Qed.
Let PO' : p_order (paginate p) = [].
Proof. rewrite paginate_order. exact PO. Qed.
Lemma its_turns v k : fair_paging D cells key fwd tables v (fst (iterate_at v k)) (snd (iterate_at v k)) /\
  exists ps tail, fst (iterate_at v k) = map Page ps ++ tail /\ StronglySorted (passed D cells key fwd) (concat ps) /\ read_then tables ps /\ (snd (iterate_at v k) = false -> length ps = k /\ Forall (fun l => length l = size) ps).
Proof.
  destruct (turns D cells key d view q cols items ask tables zero fwd (paginate p) LAW MT KT SV SHAPE PW' PO' L0 k 0 v) as (ps & tail & E1 & E2 & E3 & E4 & E5 & E6 & E7).
  rewrite paginate_limit in E7. split; [|exists ps, tail; auto]. exists ps, tail. do 4 (split; [assumption|]). split; [exact E5|exact E6].
Qed.
(** Next and Prev, whatever happens to the table between the requests.
    Missing: no cursor, a condition, an ordering, composite keys outside PostgreSQL, pages of 65535 rows (refuted at C35), and that an iteration goes on when a row was deleted (refuted below). *)
Theorem C94_moving_partial v k : fair_paging D cells key fwd tables v (fst (iterate_at v k)) (snd (iterate_at v k)).
Proof. apply its_turns. Qed.
(** When keys only come, there is no error *)
Theorem C94_growing_partial v k : has (tables 0) v -> (forall i x, In x (tables i) -> has (tables (S i)) x) -> exists ps, fst (iterate_at v k) = map Page ps.
Proof.
  intros HV GROW. destruct (C94_moving_partial v k) as (ps & tail & E & _ & _ & _ & _ & [->|(-> & _ & c & NH & W)]); [exists ps; rewrite app_nil_r in E; exact E|]. exfalso. apply NH. destruct W as [[-> ->]|(NP & _ & IC)]; [exact HV|].
  specialize (GROW _ _ IC). replace (S (2 * length ps - 1)) with (2 * length ps) in GROW; [exact GROW|]. destruct ps; [contradiction|]. cbn [length]. lia.
Qed.
(** When only finitely many records are ever in the table, the iteration ends *)
Theorem C94_ends_partial (all : list T) v k : (forall i x, In x (tables i) -> In x all) -> length all < k -> snd (iterate_at v k) = true.
Proof.
  intros ALL K. destruct (its_turns v k) as [_ (ps & tail & _ & SS & RT & F)]. destruct (snd (iterate_at v k)); [reflexivity|]. destruct (F eq_refl) as [L FL]. exfalso.
  assert (SZ : 0 < size) by (rewrite paginate_limit in L0; lia).
  assert (ND : NoDup (concat ps)). { clear -SS LAW. induction SS as [|a l S' IH F]; constructor; [|exact IH]. intros I. rewrite Forall_forall in F. pose proof (F a I) as P. unfold passed in P. pose proof (swap D cells key LAW _ _ _ P) as P'. rewrite P in P'. destruct fwd; discriminate P'. }
  assert (IN : incl (concat ps) all). { intros x I. apply in_concat in I as (l & IL & IX). apply In_nth_error in IL as (j & EJ). apply (ALL (2 * j + 1)). eapply RT; eassumption. }
  pose proof (NoDup_incl_length ND IN) as LE. assert (LC : length ps <= length (concat ps)). { clear -FL SZ. induction FL as [|l ps E FL IH]; [apply le_n|]. cbn [concat length]. rewrite app_length. lia. } lia.
Qed.
(** The row that follows the first page is deleted before the second is read: the iteration fails, whatever else is in the table. *)
Theorem C94_deleted_refuted v : has (tables 0) v -> size < length (filter (reached D cells key fwd v) (tables 1)) ->
  exists l c, length l = size /\ In c (tables 1) /\ (forall z, In z l -> passed D cells key fwd z c) /\
  (~ has (tables 2) c -> forall k, iterate_at v (S (S k)) = ([Page l; Failure], true)).
Proof.
  intros HV MORE. destruct (turned_page D cells key d view q cols items ask tables zero fwd (paginate p) LAW MT KT SV SHAPE PW' PO' L0 0 v HV) as (l & P & SS & E). rewrite paginate_limit in E. rewrite <- (Permutation_length P) in MORE.
  destruct (Nat.leb_spec (length l) size) as [LE|GT]; [lia|]. exists (firstn size l), (nth size l zero).
  assert (IN : In (nth size l zero) l) by (apply nth_In; exact GT). split; [rewrite firstn_length; lia|]. split; [apply (Permutation_in _ P) in IN; apply filter_In in IN; tauto|]. split.
  - intros z I. clear -SS I GT. revert GT I. generalize size. induction SS as [|a l S' IH F]; intros m GT I; [inversion GT|]. destruct m as [|m]; [destruct I|]. cbn [firstn nth] in *. cbn [length] in GT. destruct I as [<-|I]; [rewrite Forall_forall in F; apply F, nth_In; lia|apply IH; [lia|exact I]].
  - intros NH k. unfold ModelMoving.iterate_at. cbn [pages_at]. rewrite E. rewrite (turned_lost D cells key d view q cols items ask tables zero fwd (paginate p) LAW MT KT SV 2 _ NH). reflexivity.
Qed.
End Moving.

(** *** Generated models *)
Section GeneratedMoving.
Context {V T : Type}.
Variables (printable : N -> bool) (rename : bytes -> bytes) (wrap unwrap : gotype -> bytes * bytes).
Variables (sname : bytes) (ro : bool) (fs : list sfield) (t : table).
Hypothesis BUILT : build_table rename wrap unwrap sname ro fs = Ok t.
Variables (d : driver) (on : bool) (db : option bytes) (tn : bytes) (sqlc dup omit : option (list bytes)).
Variables (ins find upd : (column -> V) -> option (request V)) (q : list bytes) (items : list (expr V)).
Hypothesis U : usable d on t db tn sqlc q items.
Hypothesis HASKEY : key_of t <> [].
Hypothesis BARE : bare_keys V d t.
Hypothesis FIND : (forall val, find val = None) \/ generated_find printable t d find q items.
Variables (rec : T -> bytes -> V) (cells : T -> row V).
Hypothesis CELLS : forall x k, In k (t_columns t) -> cells x (c_name k) = rec x (c_gopath k).
Notation viewed := (viewed printable t d on db tn sqlc dup omit ins find upd rec).
Notation key_names := (key_names t).
Variables (D : semantics V) (ask : nat -> bytes -> list V -> option (list T)) (tables : nat -> list T) (zero : T) (p : pager V).
Hypothesis LAW : lawful D.
Hypothesis KT : keyed_tables D cells key_names tables.
Hypothesis SV : forall n, serves D cells d q items (ask n) (tables n).
(** The same for the models that the generator writes. *)
Theorem C94_generated_partial fwd v k : d = DPostgres \/ length (key_of t) < 2 -> unconditional p -> p_order p = [] -> (page_size p < 65535)%N ->
  fair_paging D cells key_names fwd tables v (fst (iterate_at viewed zero ask d fwd (paginate p) v k)) (snd (iterate_at viewed zero ask d fwd (paginate p) v k)).
Proof. intros H PW PO SZ. exact (C94_moving_partial D cells key_names d viewed q (map c_name (t_columns t)) items ask tables zero p fwd LAW (generated_models_table printable rename wrap unwrap sname ro fs t BUILT d on db tn sqlc dup omit ins find upd q items U HASKEY BARE FIND rec cells CELLS) KT SV (generated_shape printable t d on db tn sqlc dup omit ins find upd q items U HASKEY BARE FIND rec cells CELLS D (ask 0) (tables 0) (SV 0) H) PW PO SZ v k). Qed.
End GeneratedMoving.

(** *** A concrete case: the table of C35_case; after each request something happens *)
Definition mo_tables (n : nat) : list nat :=
  match n with
  | 0 | 1 => [3; 1; 7; 2; 5; 4; 6]
  | 2 => [3; 1; 7; 2; 5; 9; 6]           (* 4 is deleted, 9 inserted *)
  | _ => [7; 2; 8; 5; 9; 6]              (* 3 and 1 are deleted, 8 inserted *)
  end.
Definition mo_ask (d : driver) (n : nat) := query nat_db num_cells d (mo_tables n).
Example C94_hypotheses : forall d, keyed_tables nat_db num_cells (key_names t_one) mo_tables /\ (forall n, serves nat_db num_cells d [B "users"] num_items (mo_ask d n) (mo_tables n)) /\
  unconditional (num_pager 2) /\ p_order (num_pager 2) = [] /\ (page_size (num_pager 2) < 65535)%N.
Proof.
  intros d. split; [|split; [intros n; apply query_serves, nat_good|repeat split; reflexivity]]. split.
  - intros n. split; [destruct n as [|[|[|n]]]; repeat constructor; cbn; intuition discriminate|]. split; intros x y _ _; unfold key_cmp; cbn; [destruct (Nat.compare x y); discriminate|destruct (Nat.compare_spec x y); congruence].
  - intros i j x y _ _. unfold key_cmp. cbn. destruct (Nat.compare x y); discriminate.
Qed.
(** The keys 5, 6 and 7 stay and are seen once, 8 and 9 came; 4 went while it was the row after the page *)
Example C94_case : forall d,
  iterate_at (num_view d) 0 (mo_ask d) d true (paginate (num_pager 2)) 3 9 = ([Page [3; 4]; Page [5; 6]; Page [7; 8]; Page [9]], true) /\
  iterate_at (num_view d) 0 (mo_ask d) d true (paginate (num_pager 2)) 2 9 = ([Page [2; 3]; Failure], true) /\
  iterate_at (num_view d) 0 (mo_ask d) d false (paginate (num_pager 2)) 7 9 = ([Page [7; 6]; Page [5; 2]], true).
Proof. intros []; vm_compute; repeat split; reflexivity. Qed.
Example C94_deleted_case : has nat_db num_cells (key_names t_one) (mo_tables 0) 2 /\ 2 < length (filter (reached nat_db num_cells (key_names t_one) true 2) (mo_tables 1)) /\ ~ has nat_db num_cells (key_names t_one) (mo_tables 2) 4 /\
  stays nat_db num_cells (key_names t_one) mo_tables 9 7.
Proof.
  split; [exists 2; split; [cbn; auto|reflexivity]|]. split; [vm_compute; auto 20|]. split.
  - intros (y & I & E). cbn in I. repeat (destruct I as [<-|I]; [discriminate E|]). destruct I.
  - intros i _. exists 7. split; [|reflexivity]. destruct i as [|[|[|i]]]; cbn; auto 10.
Qed.
Print Assumptions C94_unchanged.
Print Assumptions C94_moving_partial.
Print Assumptions C94_growing_partial.
Print Assumptions C94_ends_partial.
Print Assumptions C94_deleted_refuted.
Print Assumptions C94_generated_partial.
