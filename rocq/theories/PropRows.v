(** Properties C38 and C39: reading the rows of an answer.

    A stream delivers rows and then ends or fails; [complete] and [broken_after] are its two shapes.  [conv] converts a value for
    the field of a column, or fails. *)
From Verif Require Import Base ModelCompiler ModelGen ModelRuntime ModelStmt ModelPager ModelRows SpecSql SpecGen SpecRuntime SpecDb SpecRows LemmasBase LemmasCompiler LemmasRows PropRuntime.

Section Rows.
Context {V : Type}.
Variables (conv : column -> V -> option V) (cols : list column).
Hypothesis ND : NoDup (map c_gopath cols).
Variable zero : bytes -> V.
Notation holds := (holds conv cols).
Notation readable_row := (readable_row conv cols).

(** ** C38 *)
(** A row that cannot be read is an error, wherever it comes; otherwise every row of a complete stream is in the result. *)
Theorem C38_rows_partial answer cf : exists r, r = query_rows conv cols zero (complete answer cf) /\ r = page_rows conv cols zero (complete answer cf) /\
  match r with
  | Ok l => Forall readable_row answer /\ Forall2 (fun row x => holds row zero x) answer l
  | Err => ~ Forall readable_row answer
  | Panic => False
  end.
Proof.
  unfold query_rows, page_rows, close, exhausted, complete. cbn [r_pending r_closed orb].
  eexists. split; [reflexivity|]. destruct (for_rows _ _ _) as [acc [e|]] eqn:E.
  - split; [reflexivity|]. intros F. destruct (query_loop_ok conv cols zero answer [] F) as (acc' & E'). congruence.
  - split; [reflexivity|]. destruct (query_loop conv cols ND _ _ _ _ E) as (l & -> & F). split; [|exact F].
    clear - F. induction F; constructor; [|assumption]. eapply holds_readable; eassumption.
Qed.
(** Calls that read one row report a failing stream and a missing row. *)
Theorem C38_one_row_partial x rs : match row_scan conv cols x rs with
  | (x', Ok tt) => exists row rest, r_pending rs = row :: rest /\ holds row x x'
  | (_, Err) => r_pending rs = [] \/ r_close_fails rs = true \/ exists row rest, r_pending rs = row :: rest /\ ~ readable_row row
  | (_, Panic) => False
  end.
Proof.
  unfold row_scan, close. destruct (r_pending rs) as [|row rest]; [now left|]. destruct (scan conv cols row x) as [x' [|]] eqn:E.
  - destruct (r_closed rs); cbn; [|destruct (r_close_fails rs); cbn; [right; now left|]]; exists row, rest; (split; [reflexivity|apply (scan_holds conv cols ND), E]).
  - right. right. exists row, rest. split; [reflexivity|]. intros R. destruct (scan_readable conv cols row x R). congruence.
Qed.
(** A failing stream is never reported by the calls that read several rows: a shortened result is returned as success. *)
Theorem C38_query_refuted answer k cf : Forall readable_row (firstn k answer) ->
  exists l, query_rows conv cols zero (broken_after k answer cf) = Ok l /\ page_rows conv cols zero (broken_after k answer cf) = Ok l /\
  Forall2 (fun row x => holds row zero x) (firstn k answer) l.
Proof.
  intros F. unfold query_rows, page_rows, broken_after, close, exhausted. cbn [r_pending r_closed orb].
  destruct (query_loop_ok conv cols zero (firstn k answer) [] F) as (l & E). destruct (query_loop conv cols ND _ _ _ _ E) as (l' & E2 & H). cbn in E2. subst l'.
  rewrite E. eauto.
Qed.
Theorem C38_fill_refuted data answer k cf : Forall readable_row (firstn k answer) -> length answer <= length data ->
  exists data', fill_rows conv cols data (broken_after k answer cf) = (data', Ok (Nat.min k (length answer))).
Proof.
  intros F L. unfold fill_rows, broken_after, close, exhausted. cbn [r_pending r_closed orb].
  destruct (fill_loop_ok conv cols (firstn k answer) data 0 F) as (data' & E); [rewrite firstn_length; lia|]. rewrite E. exists data'. rewrite firstn_length. reflexivity.
Qed.
(** In particular an iteration over pages ends as if it were complete, whatever was left. *)
Theorem C38_paging_refuted (view : (bytes -> V) -> model V) (stream : bytes -> list V -> option (rows (V:=V))) d fwd p v text args answer k cf n :
  let ask text args := match stream text args with Some rs => match page_rows conv cols zero rs with Ok l => Some l | _ => None end | None => None end in
  page_stmt d fwd p (view v) false = Ok (text, args) -> stream text args = Some (broken_after k answer cf) -> Forall readable_row (firstn k answer) ->
  (N.of_nat k <= p_limit p)%N -> (p_limit p < 65536)%N ->
  exists l, pages _ view zero ask d fwd p v false (S n) = ([Page l], true) /\ Forall2 (fun row x => holds row zero x) (firstn k answer) l.
Proof.
  intros ask E ES F K LIM. destruct (C38_query_refuted answer k cf F) as (l & _ & EP & H). exists l. split; [|exact H].
  cbn [pages]. unfold turn. rewrite E. unfold ask. rewrite ES, EP.
  assert (LK : length l <= k). { pose proof (firstn_le_length k answer) as X. assert (length l = length (firstn k answer)) as ->. { clear - H. induction H; cbn; congruence. } rewrite firstn_length. lia. }
  assert (U : uint16 (N.of_nat (length l)) = N.of_nat (length l)). { unfold uint16. apply N.mod_small. lia. } unfold record in *. rewrite U.
  destruct (N.leb_spec (N.of_nat (length l)) (p_limit p)); [reflexivity|lia].
Qed.

(** ** C39 *)
(** When every record has its row returned, in order, every record holds its row. *)
Theorem C39_rows_partial data answer cf : length answer = length data -> Forall readable_row answer ->
  exists data', fill_rows conv cols data (complete answer cf) = (data', Ok (length data)) /\ length data' = length data /\
  forall j x row, nth_error data j = Some x -> nth_error answer j = Some row -> exists x', nth_error data' j = Some x' /\ holds row x x'.
Proof.
  intros L F. unfold fill_rows, complete, close, exhausted. cbn [r_pending r_closed orb].
  destruct (fill_loop_ok conv cols answer data 0 F) as (data' & E); [lia|]. destruct (fill_loop conv cols ND _ _ _ _ _ E) as (_ & L' & H & _).
  rewrite E. exists data'. cbn. rewrite L. split; [reflexivity|]. split; [exact L'|]. intros j x row E1 E2.
  destruct (H j row E2) as (y & y' & E3 & E4 & HH). cbn in E3, E4. assert (y = x) by congruence. subst. eauto.
Qed.
(** When the database skips records, as with DO NOTHING, the row of record [b] goes into the record whose number is that of the
    records kept before [b]: its own only if none before it was skipped.  The rest of the records are untouched. *)
Theorem C39_skipped_refuted data kept stored cf : length stored = length data -> length kept = length data -> Forall readable_row stored ->
  exists data', fill_rows conv cols data (complete (kept_rows kept stored) cf) = (data', Ok (length (kept_rows kept stored))) /\
  (forall b row, nth_error kept b = Some true -> nth_error stored b = Some row ->
     exists x x', nth_error data (kept_before kept b) = Some x /\ nth_error data' (kept_before kept b) = Some x' /\ holds row x x') /\
  (forall b, b <= length data -> kept_before kept b = b <-> Forall (fun k => k = true) (firstn b kept)) /\
  (forall i, length (kept_rows kept stored) <= i -> nth_error data' i = nth_error data i).
Proof.
  intros L LK F. unfold fill_rows, complete, close, exhausted. cbn [r_pending r_closed orb].
  destruct (fill_loop_ok conv cols (kept_rows kept stored) data 0) as (data' & E); [apply kept_forall, F|pose proof (kept_length kept stored); cbn; lia|].
  destruct (fill_loop conv cols ND _ _ _ _ _ E) as (_ & L' & H & O). rewrite E. exists data'. split; [reflexivity|]. split; [|split].
  - intros b row K S0. destruct (H _ _ (kept_nth kept stored b row K S0)) as (x & x' & E1 & E2 & HH). eauto.
  - intros b LE. apply kept_before_all. lia.
  - intros i LE. apply O. right. cbn. lia.
Qed.
End Rows.

(** C39 for the generated models: the statement asks for one row of items per record, and each record ends up with the values of
    the row stored for it.  Missing: upserts that skip records, refuted above. *)
Section Generated.
Context {V : Type}.
Variables (printable : N -> bool) (rename : bytes -> bytes) (wrap unwrap : gotype -> bytes * bytes).
Variables (sname : bytes) (ro : bool) (fs : list sfield) (t : table).
Hypothesis BUILT : build_table rename wrap unwrap sname ro fs = Ok t.
Variables (on : bool) (db : option bytes) (tn : bytes) (sqlc dup omit : option (list bytes)).
Variables (ins find upd : (column -> V) -> option (request V)) (q : list bytes) (items : list (expr V)).
Hypothesis U : usable DPostgres on t db tn sqlc q items.
Variables (conv : column -> V -> option V) (D : semantics V).
Hypothesis PATHS : NoDup (map c_gopath (gen_addrs t)).
Notation record_model := (record_model printable t DPostgres on db tn sqlc dup omit ins find upd).
Theorem C39_generated_partial r rs : all_written t ->
  exists text args q' cols' rows' returning, insert DPostgres (map record_model (r :: rs)) = Ok (Some (text, args)) /\
  read (flavour_of DPostgres) text args = Some (Insert q' cols' rows' Fail returning) /\
  forall stored cf, length stored = length rows' -> (forall x, In x stored -> Forall2 (fun c e => conv c (eval D x e) <> None) (gen_addrs t) returning) ->
  exists data', fill_rows conv (gen_addrs t) (r :: rs) (complete (map (fun x => map (eval D x) returning) stored) cf) = (data', Ok (length (r :: rs))) /\
  forall j x x', nth_error stored j = Some x -> nth_error data' j = Some x' -> Forall2 (fun c e => conv c (eval D x e) = Some (x' (c_gopath c))) (gen_addrs t) returning.
Proof.
  intros AW. destruct (C25_generated_partial printable rename wrap unwrap sname ro fs t BUILT DPostgres on db tn sqlc dup omit ins find upd q items U r rs AW) as (text & args & E & R).
  exists text, args. do 4 eexists. split; [exact E|]. split; [exact R|]. intros stored cf L OK. rewrite map_length in L.
  destruct (C39_rows_partial conv (gen_addrs t) PATHS (r :: rs) (map (fun x => map (eval D x) (ret_items DPostgres items)) stored) cf) as (data' & EF & L' & H).
  - rewrite map_length. exact L.
  - apply Forall_forall. intros row I. apply in_map_iff in I. destruct I as (x & <- & I). specialize (OK x I). clear - OK. unfold readable_row.
    induction OK; cbn; constructor; assumption.
  - exists data'. split; [exact EF|]. intros j x x' E1 E2.
    assert (J : exists y, nth_error (r :: rs) j = Some y). { destruct (nth_error (r :: rs) j) eqn:N; [eauto|]. apply nth_error_None in N. assert (j < length stored) by (apply nth_error_Some; congruence). cbn in *. lia. }
    destruct J as (y & EY). destruct (H j y (map (eval D x) (ret_items DPostgres items)) EY) as (z & EZ & HH & _); [exact (map_nth_error (fun x : row V => map (eval D x) (ret_items DPostgres items)) j stored E1)|].
    assert (z = x') by congruence. subst z. clear - HH. revert HH. generalize (ret_items DPostgres items) as l. generalize (gen_addrs t) as cs.
    induction cs as [|c cs IH]; intros [|e l] HH; inversion HH; subst; constructor; auto.
Qed.
End Generated.

(** ** Concrete cases: three records with two columns *)
Definition rw_col (n path : string) : column := {| c_name := B n; c_goname := B n; c_gopath := B path; c_type := {| ty_base := B "int"; ty_ptr := 0 |}; c_pos := 0;
  c_readonly := false; c_paths := []; c_wrap := ([], []); c_unwrap := ([], []) |}.
Definition rw_cols := [rw_col "id" ".ID"; rw_col "n" ".N"].
Definition rw_conv (_ : column) (v : nat) : option nat := if Nat.ltb v 100 then Some v else None.
Definition rw_zero : bytes -> nat := fun _ => 0.
Definition rw_show (x : bytes -> nat) : list nat := [x (B ".ID"); x (B ".N")].
Definition rw_data := map (fun n (path : bytes) => if bseq path (B ".ID") then n else 10 * n) [1; 2; 3].
Definition rw_show_fill (r : list (bytes -> nat) * res nat) : list (list nat) * res nat := (map rw_show (fst r), snd r).
Example C38_case : NoDup (map c_gopath rw_cols) /\ Forall (readable_row rw_conv rw_cols) [[1; 11]; [2; 12]; [3; 13]] /\ ~ Forall (readable_row rw_conv rw_cols) [[1; 11]; [2; 200]] /\
  (match query_rows rw_conv rw_cols rw_zero (complete [[1; 11]; [2; 12]; [3; 13]] false) with Ok l => map rw_show l | _ => [] end) = [[1; 11]; [2; 12]; [3; 13]] /\
  query_rows rw_conv rw_cols rw_zero (complete [[1; 11]; [2; 200]] false) = Err /\
  (match query_rows rw_conv rw_cols rw_zero (broken_after 2 [[1; 11]; [2; 12]; [3; 13]] false) with Ok l => map rw_show l | _ => [] end) = [[1; 11]; [2; 12]] /\
  snd (row_scan rw_conv rw_cols rw_zero (broken_after 0 [[1; 11]] false)) = Err.
Proof.
  split; [repeat constructor; cbn; intuition discriminate|]. split; [repeat constructor; discriminate|]. split.
  - intros F. inversion F; subst. inversion H2; subst. inversion H3; subst. inversion H8; subst. apply H7. reflexivity.
  - vm_compute. repeat split; reflexivity.
Qed.
(** the second record is skipped: the third one's row lands in the second *)
Example C39_case :
  rw_show_fill (fill_rows rw_conv rw_cols rw_data (complete [[1; 41]; [2; 42]; [3; 43]] false)) = ([[1; 41]; [2; 42]; [3; 43]], Ok 3) /\
  rw_show_fill (fill_rows rw_conv rw_cols rw_data (complete (kept_rows [true; false; true] [[1; 41]; [2; 42]; [3; 43]]) false)) = ([[1; 41]; [3; 43]; [3; 30]], Ok 2) /\
  rw_show_fill (fill_rows rw_conv rw_cols rw_data (broken_after 1 [[1; 41]; [2; 42]; [3; 43]] false)) = ([[1; 41]; [2; 20]; [3; 30]], Ok 1).
Proof. vm_compute. repeat split; reflexivity. Qed.
Example C39_generated_case : NoDup (map c_gopath (gen_addrs t_one)) /\ all_written t_one /\ usable DPostgres true t_one None (B "users") None [B "users"] (ex_words_of t_one).
Proof.
  split; [repeat constructor; cbn; intuition discriminate|]. destruct (usable_case DPostgres true) as (_ & _ & _ & U1 & _ & _ & A1 & _). split; assumption.
Qed.
Print Assumptions C38_rows_partial.
Print Assumptions C38_one_row_partial.
Print Assumptions C38_query_refuted.
Print Assumptions C38_fill_refuted.
Print Assumptions C38_paging_refuted.
Print Assumptions C39_rows_partial.
Print Assumptions C39_skipped_refuted.
Print Assumptions C39_generated_partial.
