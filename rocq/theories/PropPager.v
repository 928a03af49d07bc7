(** Property C37: the statements of the pager.

    Stated for every model whose methods describe a table and name its key, like the data-access functions
    ([SpecRuntime.v]); [page_stmt] is the statement that Next ([fwd] true) and Prev ([fwd] false) send, with or without
    a cursor.  The condition is the one asked for ([meaning], C30), or that a row is the cursor or beyond it
    ([from_cursor]). *)
From Verif Require Import Base ModelStrconv ModelCompiler ModelGen ModelRuntime ModelStmt ModelPager SpecSql SpecGen SpecRuntime SpecStmt SpecPager
  LemmasBase LemmasSql LemmasSql2 LemmasSql3 LemmasGen LemmasGen2 LemmasSql4 LemmasRuntime LemmasRuntime2 LemmasStmt LemmasStmt2 LemmasStmt3 LemmasStmt4
  LemmasPager LemmasPager2 LemmasPager3 LemmasRuntime7 PropRuntime.

Section Pager.
Context {V : Type}.
Variables (d : driver) (fwd : bool) (p : pager V) (m : model V) (q cols : list bytes) (items : list (expr V)) (ks : list (bytes * V)).
Notation fl := (flavour_of d).
Hypothesis D : described fl m q cols items.
Hypothesis K : keyed_by fl m ks.

(** The page asked for: the columns of the table, one row more than the page size, in the order of the key. *)
Definition page_of (c : cond V) (limit : N) : stmt V :=
  Select items q (Some c) [] [(key_columns m ks, heading fwd)] (Some limit) None [].

Lemma limit_kept : (p_limit p < 65535)%N -> uint16 (p_limit p + 1) = (p_limit p + 1)%N.
Proof. intros L. unfold uint16. apply N.mod_small. lia. Qed.

(** With a cursor and nothing else.  Missing: orderings, composite keys outside PostgreSQL, a condition as well and
    the largest page size, all refuted below. *)
Theorem C37_cursor_partial : match p_where p with Some w => writes_nothing w | None => True end -> p_order p = [] ->
  d = DPostgres \/ ~ composite m -> (p_limit p < 65535)%N ->
  exists text args, page_stmt d fwd p m true = Ok (text, args) /\
  read fl text args = Some (page_of (from_cursor fwd m ks) (p_limit p + 1)).
Proof.
  intros NW NO OK L.
  assert (C : condition_ok fl (p_where p) /\ calm d (p_where p) /\ cond_toks d p = []).
  { unfold cond_toks, calm, condition_ok. destruct (p_where p) as [w|]; [|auto]. destruct NW as [->| ->]; (split; [exact I|]); (split; [left; cbn; tauto|reflexivity]). }
  destruct C as (C1 & C2 & C3). destruct (page_reads d fwd p m q cols items ks D K true NO C1 C2) as (text & args & E & R).
  exists text, args. split; [exact E|]. rewrite R, C3. cbn [app]. rewrite (boxed_den d m ks K) by (unfold rel; destruct fwd; reflexivity). cbn [obind].
  rewrite (proj2 (orderable_iff d m ks K) OK), limit_kept by exact L. reflexivity.
Qed.
(** With a condition and no cursor. *)
Theorem C37_condition_partial w : p_where p = Some w -> all_columns (names_a_column fl) w -> solid w -> p_order p = [] ->
  d = DPostgres \/ ~ composite m -> (p_limit p < 65535)%N ->
  exists text args, page_stmt d fwd p m false = Ok (text, args) /\
  read fl text args = Some (page_of (meaning fl w) (p_limit p + 1)).
Proof.
  intros EW C S NO OK L.
  assert (CA : calm d (p_where p)). { rewrite EW. left. intros X. exact (empty_hollow w X S). }
  destruct (page_reads d fwd p m q cols items ks D K false NO ltac:(rewrite EW; exact C) CA) as (text & args & E & R).
  exists text, args. split; [exact E|]. rewrite R. unfold cond_toks. rewrite EW, app_nil_r, where_den, (den_solid fl w S). cbn [obind].
  rewrite (proj2 (orderable_iff d m ks K) OK), limit_kept by exact L. reflexivity.
Qed.

(** The same statement, short of ordering: it is accepted in these two cases only. *)
Theorem C37_neither_refuted : match p_where p with Some w => writes_nothing w | None => True end -> p_order p = [] ->
  rejected fl (page_stmt d fwd p m false).
Proof.
  intros NW NO. right.
  assert (C : condition_ok fl (p_where p) /\ calm d (p_where p) /\ cond_toks d p = []).
  { unfold cond_toks, calm, condition_ok. destruct (p_where p) as [w|]; [|auto]. destruct NW as [->| ->]; (split; [exact I|]); (split; [left; cbn; tauto|reflexivity]). }
  destruct C as (C1 & C2 & C3). destruct (page_reads d fwd p m q cols items ks D K false NO C1 C2) as (text & args & E & R).
  exists text, args. split; [exact E|]. rewrite R, C3. reflexivity.
Qed.
Theorem C37_both_refuted w : p_where p = Some w -> all_columns (names_a_column fl) w -> ~ writes_nothing w -> p_order p = [] ->
  rejected fl (page_stmt d fwd p m true).
Proof.
  intros EW C NW NO. destruct (calm_or_stormy d (p_where p)) as [CA|ST]; [right|left; apply page_storm; assumption].
  destruct (page_reads d fwd p m q cols items ks D K true NO ltac:(rewrite EW; exact C) CA) as (text & args & E & R).
  exists text, args. split; [exact E|]. rewrite R. unfold cond_toks. rewrite EW. unfold boxed_bound.
  rewrite where_called; [reflexivity|rewrite wtoks_nil; exact NW|apply (bound_balanced d m ks K)].
Qed.
Theorem C37_composite_refuted cursor : condition_ok fl (p_where p) -> p_order p = [] -> composite m -> d <> DPostgres ->
  rejected fl (page_stmt d fwd p m cursor).
Proof.
  intros C NO CM ND. destruct (calm_or_stormy d (p_where p)) as [CA|ST]; [right|left; apply page_storm; assumption].
  destruct (page_reads d fwd p m q cols items ks D K cursor NO C CA) as (text & args & E & R).
  exists text, args. split; [exact E|]. rewrite R. destruct (where_p _) as [c|]; [cbn [obind]|reflexivity].
  destruct (orderable fl (key_columns m ks)) eqn:O; [|reflexivity]. apply (orderable_iff d m ks K) in O. destruct O; contradiction.
Qed.
(** No ordering is ever accepted: a parenthesis stays open.  Missing: a condition that is not an And or an Or, whose
    text is followed by the first ordered column without a space. *)
Theorem C37_order_refuted cursor : condition_ok fl (p_where p) -> match p_where p with Some w => grouped w | None => True end ->
  p_order p <> [] -> Forall (fun o => a_name (V:=V) fl (fst o)) (p_order p) ->
  rejected fl (page_stmt d fwd p m cursor).
Proof. intros C G NE F. apply (ordered_fails d fwd p m q cols items ks D K cursor C G F NE). Qed.
(** The largest page size asks for no row at all. *)
Theorem C37_limit_refuted : p_where p = None -> p_order p = [] -> d = DPostgres \/ ~ composite m -> p_limit p = 65535%N ->
  exists text args, page_stmt d fwd p m true = Ok (text, args) /\ read fl text args = Some (page_of (from_cursor fwd m ks) 0).
Proof.
  intros NW NO OK L. destruct (page_reads d fwd p m q cols items ks D K true NO ltac:(rewrite NW; exact I) ltac:(rewrite NW; exact I)) as (text & args & E & R).
  exists text, args. split; [exact E|]. rewrite R. unfold cond_toks. rewrite NW. cbn [app]. rewrite (boxed_den d m ks K) by (unfold rel; destruct fwd; reflexivity). cbn [obind].
  rewrite (proj2 (orderable_iff d m ks K) OK), L. reflexivity.
Qed.
End Pager.

(** ** Cases that meet the hypotheses *)
Definition ex_pager (w : option (where_clause bytes)) (o : list (bytes * bool)) (n : N) : pager bytes :=
  {| p_select := []; p_from := []; p_where := w; p_order := o; p_limit := n |}.
Definition ex_cond : where_clause bytes := WAnd [WEqual (Basic (B "name")) (B "x"); WIsNotNull (Basic (B "age"))].
Lemma ex_described : forall d t r, t = t_one \/ t = t_two -> described (flavour_of d) (ex_model d true t r) [B "users"] (map c_name (t_columns t)) (ex_words_of t).
Proof.
  intros d t r T. destruct (usable_case d true) as (_ & _ & _ & U1 & _).
  destruct T as [->| ->]; constructor; try (destruct d; reflexivity); try discriminate.
  1,3: cbn; repeat constructor; intros; destruct d; reflexivity.
  all: repeat constructor; cbn; intuition discriminate.
Qed.
Lemma ex_keyed : forall d r, keyed_by (flavour_of d) (ex_model d true t_one r) [(B "id", r (B ".ID"))] /\
  keyed_by (flavour_of d) (ex_model d true t_two r) [(B "a", r (B ".A")); (B "b", r (B ".B"))].
Proof.
  intros d r. split.
  - exists (B "id"). split; [|reflexivity]. destruct d; intros; reflexivity.
  - split; [discriminate|]. split; [|reflexivity]. repeat constructor; destruct d; intros; reflexivity.
Qed.
Example C37_cursor_case : forall d fwd,
  ex_read1 d (page_stmt d fwd (ex_pager None [] 2) (ex_model d true t_one (ex_rec 7)) true) =
  Some (Select [[Name (B "id")]; [Name (B "name")]; [Name (B "age")]] [B "users"]
    (Some (Compare (One [Name (B "id")]) (if fwd then B ">=" else B "<=") (One [Val (B "7.ID")]))) []
    [(One [Name (B "id")], if fwd then Ascending else Descending)] (Some 3%N) None []).
Proof. intros [] []; vm_compute; reflexivity. Qed.
Example C37_condition_case : forall d fwd,
  all_columns (names_a_column (flavour_of d)) ex_cond /\ solid ex_cond /\ grouped ex_cond /\ ~ writes_nothing ex_cond /\
  ex_read1 d (page_stmt d fwd (ex_pager (Some ex_cond) [] 2) (ex_model d true t_one (ex_rec 7)) false) =
  Some (Select [[Name (B "id")]; [Name (B "name")]; [Name (B "age")]] [B "users"]
    (Some (Conj [Compare (One [Name (B "name")]) (B "=") (One [Val (B "x")]); IsNull true (One [Name (B "age")])])) []
    [(One [Name (B "id")], if fwd then Ascending else Descending)] (Some 3%N) None []).
Proof.
  intros d fwd. split; [destruct d; cbn; repeat split; eexists; vm_compute; reflexivity|]. split; [cbn; repeat split; discriminate|].
  split; [exact I|]. split; [intros [|]; discriminate|]. destruct d, fwd; vm_compute; reflexivity.
Qed.
(** the texts that are rejected *)
Example C37_refuted_case : let m := ex_model DPostgres false t_two (ex_rec 7) in let o := [(B "name", true)] in
  page_stmt DPostgres true (ex_pager None [] 2) m false
    = Ok (B "SELECT a,b,name FROM users WHERE  ORDER BY (a,b) ASC LIMIT 3;", []) /\
  page_stmt DPostgres false (ex_pager (Some ex_cond) [] 2) m true
    = Ok (B "SELECT a,b,name FROM users WHERE (name = $1 AND age IS NOT NULL)((a,b) <= ($2,$3)) ORDER BY (a,b) DESC LIMIT 3;", [B "x"; B "7.A"; B "7.B"]) /\
  page_stmt DPostgres true (ex_pager None o 2) m true
    = Ok (B "SELECT a,b,name FROM users WHERE name >= $1 AND (name > $2 OR ((a,b) >= ($3,$4)) ORDER BY name ASC,(a,b) ASC LIMIT 3;", [B "7.Name"; B "7.Name"; B "7.A"; B "7.B"]) /\
  page_stmt DPostgres false (ex_pager None o 2) m true
    = Ok (B "SELECT a,b,name FROM users WHERE name <= $1 AND (name < $2 OR ((a,b) <= ($3,$4)) ORDER BY name ASC,(a,b) ASC LIMIT 3;", [B "7.Name"; B "7.Name"; B "7.A"; B "7.B"]).
Proof. vm_compute. repeat split; reflexivity. Qed.
Print Assumptions C37_cursor_partial.
Print Assumptions C37_condition_partial.
Print Assumptions C37_neither_refuted.
Print Assumptions C37_both_refuted.
Print Assumptions C37_composite_refuted.
Print Assumptions C37_order_refuted.
Print Assumptions C37_limit_refuted.
