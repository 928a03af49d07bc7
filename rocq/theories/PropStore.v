(** Property C53: what the generated statements do to a table, one after the other.

    The table is a list of rows, changed and queried by the semantics of [SpecDb.v]; the key columns have no wrapper. *)
From Coq Require Import Permutation Sorted.
From Verif Require Import Base ModelCompiler ModelGen SpecSql SpecGen SpecDb SpecStore LemmasBase LemmasCompiler LemmasRuntime7 LemmasStore PropGen.

Section Store.
Context {V : Type}.
Variables (printable : N -> bool) (rename : bytes -> bytes) (wrap unwrap : gotype -> bytes * bytes).
Variables (sname : bytes) (ro : bool) (fs : list sfield) (t : table).
Hypothesis BUILT : build_table rename wrap unwrap sname ro fs = Ok t.
Variables (d : driver) (before after item : column -> list (tok V)).
Hypothesis READ : readable d t before after item.
Variables (own : bool) (tn : bytes) (q : list bytes).
Hypothesis ADR : addresses (V:=V) d own t tn q.
Variables (D : semantics V) (unique : list (row V) -> bool) (defaults : row V).
Hypothesis WRAP : wrappers_are_functions D t before after.
Hypothesis BARE : forall k, In k (key_of t) -> before k = [] /\ after k = [].
Notation value r := (fun c : column => r (c_gopath c)).
Notation fl := (flavour_of d).
Notation changes := (changes D fl q unique defaults).
Notation returns := (returns D fl q).
Notation has_key := (has_key D t).
(** The key of the record is not NULL. *)
Definition keyed (val : column -> V) : Prop := forall k, In k (key_of t) -> cmp D (val k) (val k) = Some Eq.
Let WF : wf t := build_table_wf _ _ _ _ _ _ _ BUILT.

Lemma found_row pf cf : gen_find_by_pk printable d own t = Some (pf, cf) -> exists find, eval_pieces tn pf = Some find /\
  forall r rows l1 x l2, rows = l1 ++ x :: l2 -> Forall (fun y => ~ has_key y (value r)) l1 -> Forall (fun y => ~ has_key y (value r)) l2 -> has_key x (value r) ->
  forall out, returns rows find (map (value r) cf) out <-> out = [map (fun c => eval D x (item c)) (t_columns t)].
Proof.
  intros G. destruct (C19_find_by_pk_partial printable rename wrap unwrap sname ro fs t BUILT d before after item READ own tn q ADR pf cf G) as (-> & find & E & R).
  exists find. split; [exact E|]. intros r rows l1 x l2 ER F1 F2 HX out. unfold returns. rewrite (R r).
  assert (NE : key_of t <> []). { unfold gen_find_by_pk, has_pk in G. unfold key_of. destruct (t_auto t); [discriminate|]. destruct (t_keys t); [discriminate|discriminate]. }
  pose proof (found_one D t before after rows (value r) l1 x l2) as FO. split.
  - intros (its & wh & ord & lim & off & lk & l & EQ & A & ->). injection EQ as <- <- <- <- <- <-. apply FO in A; auto. subst l. cbn [map]. rewrite map_map. reflexivity.
  - intros ->. do 6 eexists. exists [x]. split; [reflexivity|]. split; [apply FO; auto|]. cbn [map]. rewrite map_map. reflexivity.
Qed.

(** The generated insert of a record adds one row, unless the database refuses it; the generated find then returns that row
    alone.  Missing: keys with wrappers (C19_wrapped_key_refuted), names outside plain ASCII. *)
Theorem C53_insert_find_partial pi ci pf cf : gen_insert_one printable d own t = Some (pi, ci) -> gen_find_by_pk printable d own t = Some (pf, cf) ->
  exists insert find, eval_pieces tn pi = Some insert /\ eval_pieces tn pf = Some find /\
  forall r rows, (forall k, In k (key_of t) -> insertable t k) -> keyed (value r) -> Forall (fun x => ~ has_key x (value r)) rows ->
  exists new, rewritten D before after (insertable t) (value r) defaults new /\
    (forall rows', changes rows insert (map (value r) ci) rows' <-> unique (rows ++ [new]) = true /\ rows' = rows ++ [new]) /\
    (forall out, returns (rows ++ [new]) find (map (value r) cf) out <-> out = [map (fun c => eval D new (item c)) (t_columns t)]).
Proof.
  intros GI GF.
  destruct (C17_insert_one_of_tables printable rename wrap unwrap sname ro fs t BUILT d before after item READ own tn q ADR pi ci GI) as (CI & SB & ND & insert & EI & RI).
  destruct (found_row pf cf GF) as (find & EF & RF). exists insert, find. split; [exact EI|]. split; [exact EF|]. intros r rows KI KD NO.
  set (new := assigned (map (fun c => (c_name c, eval D defaults (holding before after (value r) c))) ci) defaults).
  assert (IN : incl ci (t_columns t)) by (intros c I; apply CI in I; apply I).
  destruct (rewritten_assigned D t before after defaults defaults ci (value r) WRAP IN ND) as [R1 R2]. fold new in R1, R2.
  exists new. split; [|split].
  - split; [intros c I; apply R1, CI, I|]. intros n H. apply R2. intros c I. apply H, CI, I.
  - intros rows'. unfold changes. rewrite (RI r).
    assert (EC : forall ret, change D unique defaults rows (Insert q (map c_name ci) [map (holding before after (value r)) ci] Fail ret)
      = if unique (rows ++ [new]) then Some (rows ++ [new]) else None).
    { intros ret. unfold change. cbn [map forallb]. rewrite !map_length, Nat.eqb_refl. cbn [andb]. rewrite map_map, combine_map. reflexivity. }
    split.
    + intros (s & E & _ & C). injection E as <-. rewrite EC in C. destruct (unique (rows ++ [new])); [|discriminate]. injection C as <-. auto.
    + intros [UQ ->]. eexists. split; [reflexivity|]. split; [reflexivity|]. rewrite EC, UQ. reflexivity.
  - intros out. eapply RF; [reflexivity|exact NO|constructor|]. intros k I. destruct (BARE k I) as [B1 B2].
    pose proof (R1 k (proj2 (CI k) (KI k I)) defaults) as E. unfold holding in E. rewrite B1, B2 in E. cbn [app eval] in E. rewrite <- E. apply KD, I.
Qed.
(** When no column is filled in by the database, wrapped or converted, what comes back is the record. *)
Theorem C53_round_trip_partial pi ci pf cf : gen_insert_one printable d own t = Some (pi, ci) -> gen_find_by_pk printable d own t = Some (pf, cf) ->
  exists insert find, eval_pieces tn pi = Some insert /\ eval_pieces tn pf = Some find /\
  forall r rows rows', (forall c, In c (t_columns t) -> insertable t c /\ before c = [] /\ after c = [] /\ item c = [Name (c_name c)]) ->
  keyed (value r) -> Forall (fun x => ~ has_key x (value r)) rows -> changes rows insert (map (value r) ci) rows' ->
  forall out, returns rows' find (map (value r) cf) out <-> out = [map (value r) (t_columns t)].
Proof.
  intros GI GF. destruct (C53_insert_find_partial pi ci pf cf GI GF) as (insert & find & EI & EF & H). exists insert, find. split; [exact EI|]. split; [exact EF|].
  intros r rows rows' ALL KD NO CH out.
  assert (KI : forall k, In k (key_of t) -> insertable t k) by (intros k I; apply ALL; apply (key_in t WF k I)).
  destruct (H r rows KI KD NO) as (new & [N1 _] & C & RT). apply C in CH. destruct CH as [_ ->]. rewrite RT.
  replace (map (fun c => eval D new (item c)) (t_columns t)) with (map (value r) (t_columns t)); [reflexivity|]. apply map_ext_in. intros c I.
  destruct (ALL c I) as (IC & B1 & B2 & ->). pose proof (N1 c IC defaults) as E. unfold holding in E. rewrite B1, B2 in E. exact E.
Qed.
(** The generated update rewrites the row with the key, in the columns that may be updated, and leaves the others alone; the
    generated find then returns the rewritten row. *)
Theorem C53_update_partial pu cu pf cf : gen_update_by_pk printable d own t = Some (pu, cu) -> gen_find_by_pk printable d own t = Some (pf, cf) ->
  (d = DPostgres -> length (key_of t) = 1 -> length (t_columns t) = length cu) ->
  exists update find, eval_pieces tn pu = Some update /\ eval_pieces tn pf = Some find /\
  forall r l1 x l2, has_key x (value r) -> Forall (fun y => ~ has_key y (value r)) l1 -> Forall (fun y => ~ has_key y (value r)) l2 ->
  exists new, rewritten D before after (updatable t) (value r) x new /\
    (forall rows', changes (l1 ++ x :: l2) update (map (value r) cu) rows' <-> unique (l1 ++ new :: l2) = true /\ rows' = l1 ++ new :: l2) /\
    (forall out, returns (l1 ++ new :: l2) find (map (value r) cf) out <-> out = [map (fun c => eval D new (item c)) (t_columns t)]).
Proof.
  intros GU GF COUNT.
  destruct (C20_update_by_pk_partial printable rename wrap unwrap sname ro fs t BUILT d before after item READ own tn q ADR pu cu GU COUNT) as (update & ups & -> & CU & SB & EU & RU).
  destruct (found_row pf cf GF) as (find & EF & RF). exists update, find. split; [exact EU|]. split; [exact EF|]. intros r l1 x l2 HX F1 F2.
  assert (NE : key_of t <> []). { clear - GF. unfold gen_find_by_pk, has_pk in GF. unfold key_of. destruct (t_auto t); [discriminate|]. destruct (t_keys t); [discriminate|discriminate]. }
  set (new := assigned (map (fun c => (c_name c, eval D x (holding before after (value r) c))) ups) x).
  assert (IN : incl ups (t_columns t)) by (intros c I; apply CU in I; apply I).
  assert (ND : NoDup (map c_name ups)). { pose proof (wf_names t WF) as ND. clear - SB ND. induction SB as [|c l m SB IH|c l m SB IH]; cbn in *; [constructor| |inversion ND; auto].
    inversion ND; subst. constructor; [|auto]. intros I. apply H1. clear - SB I. induction SB as [|? ? ? ? IH|? ? ? ? IH]; cbn in *; [exact I|destruct I; auto|auto]. }
  destruct (rewritten_assigned D t before after x x ups (value r) WRAP IN ND) as [R1 R2]. fold new in R1, R2.
  exists new. split; [|split].
  - split; [intros c I; apply R1, CU, I|]. intros n H. apply R2. intros c I. apply H, CU, I.
  - intros rows'. unfold changes. rewrite (RU r).
    assert (SAME : forall l, Forall (fun y => ~ has_key y (value r)) l -> map (fun y : row V => if chosen_by D (Some (key_equals t before after (value r))) y
        then assigned (map (fun s => (fst s, eval D y (snd s))) (map (fun c => (c_name c, holding before after (value r) c)) ups)) y else y) l = l).
    { induction 1 as [|y l Y _ IH]; [reflexivity|]. cbn [map]. rewrite IH, (chosen_not D t before after y (value r) NE BARE Y). reflexivity. }
    assert (EC : change D unique defaults (l1 ++ x :: l2) (Update q (map (fun c => (c_name c, holding before after (value r) c)) ups) (Some (key_equals t before after (value r))) [] None)
      = if unique (l1 ++ new :: l2) then Some (l1 ++ new :: l2) else None).
    { unfold change. rewrite map_app. cbn [map]. rewrite (SAME l1 F1), (SAME l2 F2), (proj2 (chosen_key D t before after x (value r) NE BARE) HX), map_map. reflexivity. }
    split.
    + intros (s & E & _ & C). injection E as <-. rewrite EC in C. destruct (unique (l1 ++ new :: l2)); [|discriminate]. injection C as <-. auto.
    + intros [UQ ->]. eexists. split; [reflexivity|]. split; [reflexivity|]. rewrite EC, UQ. reflexivity.
  - intros out. eapply RF; [reflexivity|exact F1|exact F2|]. intros k I. rewrite R2; [apply HX, I|]. intros c IC E.
    assert (c = k). { apply (wf_name_inj t c k WF); [apply IN, IC|apply (key_in t WF k I)|exact E]. } subst c.
    apply CU in IC. destruct IC as (_ & _ & NK). apply NK. unfold is_key. unfold key_of in I. destruct (t_auto t) as [a|]; [right; destruct I as [<-|[]]; reflexivity|left; exact I].
Qed.
End Store.

(** ** A concrete case: a table of three columns, the last stored through a function and read through its inverse *)
Definition geo_db : semantics nat := {|
  cmp := fun a b => Some (Nat.compare a b); sort_cmp := Nat.compare; like := fun _ _ => None;
  other := fun r e => match e with [Name _; Sym _; Val v; _; _; _] => v + 100 | [Name _; Sym _; Name c; _] => r c - 100 | _ => 0 end |}.
Definition geo_rec (n : nat) (path : bytes) : nat := if bseq path (B ".ID") then n else if bseq path (B ".Name") then 10 * n else 20 * n.
Definition geo_row (a b c : nat) : row nat := fun n => if bseq n (B "id") then a else if bseq n (B "name") then b else if bseq n (B "loc") then c else 0.
Definition geo_show (x : row nat) : list nat := [x (B "id"); x (B "name"); x (B "loc")].
Definition geo_send (d : driver) (g : option (list piece * list column)) (r : bytes -> nat) : option (stmt nat) :=
  match g with Some (ps, cols) => match eval_pieces [] ps with Some text => read (flavour_of d) text (map (fun c => r (c_gopath c)) cols) | None => None end | None => None end.
Definition geo_change (d : driver) (rows : list (row nat)) (g : option (list piece * list column)) (r : bytes -> nat) : list (row nat) :=
  match geo_send d g r with Some s => match change geo_db (fun _ => true) (fun _ => 0) rows s with Some rows' => rows' | None => [] end | None => [] end.
Example C53_hypotheses : forall d, readable (V:=nat) d ex_t2 (ex_before d) ex_after (ex_item d) /\ wrappers_are_functions geo_db ex_t2 (ex_before d) ex_after /\
  (forall k, In k (key_of ex_t2) -> ex_before (V:=nat) d k = [] /\ ex_after (V:=nat) k = [] /\ insertable ex_t2 k) /\
  (forall val, keyed ex_t2 geo_db val) /\
  (forall k, insertable ex_t2 k <-> In k (t_columns ex_t2)) /\
  (d = DPostgres -> length (key_of ex_t2) = 1 -> match gen_update_by_pk (fun _ => true) d false ex_t2 with Some (_, cu) => length (t_columns ex_t2) = length cu | None => False end).
Proof.
  intros d. split; [ex_columns|]. split.
  - intros val c I. exists (if bseq (ty_base (c_type c)) ex_point then val c + 100 else val c). unfold ex_t2 in I. cbn [t_columns In] in I.
    repeat (destruct I as [<-|I]; [intros r; reflexivity|]). destruct I.
  - split; [intros k [<-|[]]; repeat split; [left; reflexivity|discriminate]|]. split; [intros val k _; cbn; rewrite Nat.compare_refl; reflexivity|]. split.
    + intros k. unfold insertable. split; [tauto|]. intros I. split; [exact I|]. unfold ex_t2 in *. cbn [t_columns In t_auto] in *.
      repeat (destruct I as [<-|I]; [split; [reflexivity|discriminate]|]). destruct I.
    + intros _ _. destruct d; reflexivity.
Qed.
Example C53_case : forall d, let p := fun _ : N => true in let rows := [geo_row 1 11 111; geo_row 2 22 122] in
  let rows' := geo_change d rows (gen_insert_one p d false ex_t2) (geo_rec 3) in
  let rows'' := geo_change d rows' (gen_update_by_pk p d false ex_t2) (fun path => if bseq path (B ".ID") then 2 else 7) in
  map geo_show rows' = [[1; 11; 111]; [2; 22; 122]; [3; 30; 160]] /\ map geo_show rows'' = [[1; 11; 111]; [2; 7; 107]; [3; 30; 160]] /\
  exists its wh, geo_send d (gen_find_by_pk p d false ex_t2) (geo_rec 3) = Some (Select its [B "Users"] (Some wh) [] [] (Some 1%N) None []) /\
    map (fun x => map (eval geo_db x) its) (filter (chosen_by geo_db (Some wh)) rows') = [[3; 30; 60]].
Proof. intros []; (split; [vm_compute; reflexivity|]; split; [vm_compute; reflexivity|]; do 2 eexists; split; [vm_compute; reflexivity|vm_compute; reflexivity]). Qed.
Print Assumptions C53_insert_find_partial.
Print Assumptions C53_round_trip_partial.
Print Assumptions C53_update_partial.
