(** Upserts on MySQL and SQLite, read back or refused. *)
From Verif Require Import Base ModelStrconv ModelCompiler ModelGen ModelRuntime SpecSql SpecGen SpecRuntime
  LemmasBase LemmasSql LemmasSql2 LemmasSql3 LemmasGen LemmasGen2 LemmasGen3 LemmasSql4 LemmasRuntime LemmasRuntime2 LemmasRuntime3.
From Coq Require Import Sorted.

(** ** Removing several positions *)
Fixpoint drops {A} (k : nat) (idxs : list nat) (l : list A) : list A :=
  match l with
  | [] => []
  | x :: l' => if existsb (Nat.eqb k) idxs then drops (S k) idxs l' else x :: drops (S k) idxs l'
  end.
Lemma existsb_eqb k idxs : existsb (Nat.eqb k) idxs = true <-> In k idxs.
Proof.
  rewrite existsb_exists. split; [intros (x & I & E); apply Nat.eqb_eq in E; subst; exact I|intros I; exists k; split; [exact I|apply Nat.eqb_refl]].
Qed.
Lemma existsb_eqb_false k idxs : existsb (Nat.eqb k) idxs = false <-> ~ In k idxs.
Proof. rewrite <- existsb_eqb. destruct (existsb _ _); split; intros; congruence. Qed.
Lemma drops_none {A} idxs : forall (l : list A) k, (forall i, In i idxs -> k + length l <= i \/ i < k) -> drops k idxs l = l.
Proof.
  induction l as [|x l IH]; intros k H; [reflexivity|]. cbn [drops].
  replace (existsb (Nat.eqb k) idxs) with false by (symmetry; apply existsb_eqb_false; intros I; specialize (H k I); cbn in H; lia).
  f_equal. apply IH. intros i I. specialize (H i I). cbn in H. lia.
Qed.
Lemma drops_app {A} idxs : forall (l1 l2 : list A) k, drops k idxs (l1 ++ l2) = drops k idxs l1 ++ drops (k + length l1) idxs l2.
Proof.
  induction l1 as [|x l1 IH]; intros l2 k; cbn [app drops length]; [rewrite Nat.add_0_r; reflexivity|].
  rewrite IH. replace (S k + length l1) with (k + S (length l1)) by lia. destruct (existsb _ _); reflexivity.
Qed.
Lemma drops_ext {A} i1 i2 : forall (l : list A) k, (forall j, k <= j -> In j i1 <-> In j i2) -> drops k i1 l = drops k i2 l.
Proof.
  induction l as [|x l IH]; intros k H; [reflexivity|]. cbn [drops].
  assert (E : existsb (Nat.eqb k) i1 = existsb (Nat.eqb k) i2) by (apply eq_true_iff_eq; rewrite !existsb_eqb; apply H; lia).
  rewrite E, (IH (S k)) by (intros j J; apply H; lia). reflexivity.
Qed.
Lemma remove_all_drops {A} (l : list A) : forall idxs, StronglySorted lt idxs -> (forall i, In i idxs -> i < length l) ->
  remove_all idxs l = Ok (drops 0 idxs l).
Proof.
  induction idxs as [|i idxs IH]; intros SO R.
  - cbn. rewrite drops_none; [reflexivity|]. intros i [].
  - apply StronglySorted_inv in SO. destruct SO as [SO F]. rewrite Forall_forall in F.
    unfold remove_all in *. cbn [fold_right]. rewrite IH by (try assumption; intros j J; apply R; now right). cbn [bind].
    specialize (R i (or_introl eq_refl)).
    destruct (nth_error l i) as [x|] eqn:N; [|apply nth_error_None in N; lia].
    destruct (nth_error_split l i N) as (l1 & l2 & E & L). subst l.
    assert (G : forall ks, (forall j, In j ks -> i <= j) -> drops 0 ks (l1 ++ x :: l2) = l1 ++ drops i ks (x :: l2)).
    { intros ks H. rewrite drops_app, L, (drops_none ks l1) by (intros j J; specialize (H j J); rewrite L; left; lia). reflexivity. }
    rewrite G by (intros j J; specialize (F j J); lia). rewrite (G (i :: idxs)) by (intros j [<-|J]; [lia|specialize (F j J); lia]).
    cbn [drops]. replace (existsb (Nat.eqb i) idxs) with false by (symmetry; apply existsb_eqb_false; intros I; specialize (F i I); lia).
    cbn [existsb]. rewrite Nat.eqb_refl. cbn [orb].
    unfold remove_at. rewrite app_length. cbn [length].
    replace (Nat.ltb i (length l1 + S (length (drops (S i) idxs l2)))) with true by (symmetry; apply Nat.ltb_lt; lia).
    rewrite <- L at 1. rewrite firstn_app, Nat.sub_diag, firstn_all, firstn_O, app_nil_r.
    rewrite <- L at 1. rewrite skipn_app, skipn_all2 by lia. replace (S (length l1) - length l1) with 1 by lia. cbn [skipn app].
    f_equal. f_equal. apply drops_ext. intros j J. cbn [In]. split; [now right|intros [<-|I]; [lia|exact I]].
Qed.
Lemma drops_length_le {A C} idxs : forall (l : list A) (l' : list C) k, length l = length l' -> length (drops k idxs l) = length (drops k idxs l').
Proof.
  induction l as [|x l IH]; intros [|y l'] k E; try discriminate; [reflexivity|]. cbn [drops].
  destruct (existsb _ _); cbn [length]; rewrite (IH l') by (cbn in E; lia); reflexivity.
Qed.
Lemma drops_kept {P : bytes -> bytes -> Prop} omit idxs : forall texts cs k, Forall2 P texts cs ->
  exists sets, Forall2 P (kept omit (drops k idxs texts)) sets /\ chosen texts cs (fun i text => ~ In (k + i) idxs /\ ~ In text omit) sets.
Proof.
  intros texts cs k F. revert k. induction F as [|x c l l' H F IH]; intros k.
  - exists []. split; [constructor|apply chosen_nil].
  - destruct (IH (S k)) as (sets & K & C).
    apply (chosen_iff _ _ _ (fun i text => ~ In (k + S i) idxs /\ ~ In text omit)) in C; [|intros i t; replace (S k + i) with (k + S i) by lia; reflexivity].
    apply (chosen_cons x c _ _ (fun i text => ~ In (k + i) idxs /\ ~ In text omit)) in C. destruct C as [C1 C2]. rewrite Nat.add_0_r in C1, C2.
    cbn [drops]. destruct (existsb (Nat.eqb k) idxs) eqn:E.
    + exists sets. split; [exact K|]. apply C2. apply existsb_eqb in E. tauto.
    + apply existsb_eqb_false in E. cbn [kept filter]. destruct (bmem x omit) eqn:M; cbn [negb].
      * exists sets. split; [exact K|]. apply C2. apply bmem_In in M. tauto.
      * exists (c :: sets). split; [constructor; assumption|]. apply C1. apply bmem_not_In in M. tauto.
Qed.

Lemma remove_at_is {A} i (l y : list A) : remove_at i l = Ok y -> i < length l /\ S (length y) = length l /\ y = omit_at (Some i) l.
Proof.
  unfold remove_at. destruct (Nat.ltb_spec i (length l)) as [LT|]; [|discriminate]. intros E.
  assert (E' : y = firstn i l ++ skipn (S i) l) by congruence. split; [exact LT|]. split; [|exact E'].
  rewrite E', app_length, firstn_length, skipn_length. lia.
Qed.

Lemma sent_inj {A C} (a c : A) (b e : C) : Ok (Some (a, b)) = Ok (Some (c, e)) -> c = a /\ e = b.
Proof. intros E. split; congruence. Qed.

Section R.
Context {V : Type}.
Notation tok := (tok V).

Definition my_toks (override : bool) (sets : list bytes) (semi : bool) : list tok :=
  (if override then [Kw (B "ON"); Kw (B "DUPLICATE"); Kw (B "KEY"); Kw (B "UPDATE")] ++ commas (map (proposal_toks MySQL) sets) else [])
  ++ if semi then [Sym ";"] else [].
Definition my_tail (override : bool) (eq : bytes) (texts : list bytes) (semi : bool) : bytes :=
  (if override then B " ON DUPLICATE KEY UPDATE " ++ values_list eq texts else []) ++ if semi then B ";" else [].

Lemma my_tail_spells fl n override eq texts cs semi : (eq = B " =" \/ eq = B "=") -> Forall2 (denotes (V:=V) fl) texts cs ->
  spells fl n (my_tail override eq texts semi) [] (my_toks override cs semi).
Proof.
  intros E F. unfold my_tail, my_toks. destruct override; cbn [app].
  - change (Kw (B "ON") :: Kw (B "DUPLICATE") :: Kw (B "KEY") :: Kw (B "UPDATE") :: ?x) with
      ([Kw (V:=V) (B "ON"); Kw (B "DUPLICATE"); Kw (B "KEY"); Kw (B "UPDATE")] ++ x).
    rewrite <- app_assoc. apply spells_lr; [sconst| |reflexivity].
    destruct semi; [apply spells_rr; [apply values_spells; assumption|sconst|reflexivity|discriminate]|].
    rewrite !app_nil_r. apply values_spells; assumption.
  - destruct semi; [sconst|apply spells_nil].
Qed.
Lemma my_conflict_parsed override sets (semi : bool) : (override = true -> sets <> []) -> override || semi = true ->
  conflict_p (V:=V) MySQL (negb override) (my_toks override sets semi)
  = Some (my_conflict override sets, if semi then [Sym ";"] else []).
Proof.
  intros N O. unfold conflict_p, my_toks. destruct override.
  - rewrite <- app_assoc.
    match goal with |- context [strip (map B ["ON"; "DUPLICATE"; "KEY"; "UPDATE"]%string) (?k ++ ?x)] =>
      change (strip (map B ["ON"; "DUPLICATE"; "KEY"; "UPDATE"]%string) (k ++ x)) with (Some x) end.
    cbv beta iota. destruct semi.
    + rewrite until_stop; [|apply proposals_pass; discriminate|reflexivity|reflexivity].
      cbn [obind]. rewrite proposals_ok by (try discriminate; apply N; reflexivity). reflexivity.
    + rewrite app_nil_r. rewrite until_end by (apply proposals_pass; discriminate).
      cbn [obind]. rewrite proposals_ok by (try discriminate; apply N; reflexivity). reflexivity.
  - destruct semi; [reflexivity|discriminate].
Qed.
Lemma my_conflict_refused ig (semi : bool) : conflict_p (V:=V) MySQL ig (my_toks true [] semi) = None.
Proof. destruct semi; reflexivity. Qed.
Lemma sqlite_conflict_refused ig sets (semi : bool) : conflict_p (V:=V) SQLite ig (my_toks true sets semi) = None.
Proof. reflexivity. Qed.

(** Rows of placeholders, whatever the arguments *)
Lemma stops_my override sets semi : override || semi = true -> stops (my_toks override sets semi).
Proof. destruct override; [split; reflexivity|]. destruct semi; [split; reflexivity|discriminate]. Qed.

Section UpsertMy.
Variables (m : model V) (q cols : list bytes) (items : list (expr V)).
Hypothesis D : described MySQL m q cols items.

Lemma my_read rows (vss : list (list V)) override eq texts sets (semi : bool) :
  spells_all MySQL 0 rows vss (map row_toks (row_vals vss)) -> vss <> [] -> (forall vs, In vs vss -> length vs = length cols) ->
  (eq = B " =" \/ eq = B "=") -> Forall2 (denotes (V:=V) MySQL) texts sets -> override || semi = true ->
  let text := insert_head override m (m_columns m) ++ join (B ",") rows ++ my_tail override eq texts semi in
  ((override = true -> sets <> []) -> read MySQL text (concat vss) = Some (Insert q cols (row_vals vss) (my_conflict override sets) [])) /\
  (override = true -> sets = [] -> read MySQL text (concat vss) = None).
Proof.
  intros SA VN LV EQ F O. destruct (table_spells _ _ _ _ _ D) as (tt & Q & T). cbv zeta.
  unfold insert_head. rewrite <- !app_assoc.
  assert (TL : forall n, spells MySQL n (my_tail override eq texts semi) [] (my_toks override sets semi)) by (intros n; apply my_tail_spells; assumption).
  assert (H : headed (my_tail override eq texts semi) = true /\ my_tail override eq texts semi <> []).
  { unfold my_tail. destruct override; [split; [reflexivity|discriminate]|]. destruct semi; [split; [reflexivity|discriminate]|discriminate]. }
  destruct H as [H TN]. split.
  - intros N. change ([] : list (expr V)) with (opt_list (@None (list (expr V)))).
    eapply insert_parsed with (ig := negb override) (rest2 := if semi then [Sym ";"] else []) (rest3 := if semi then [Sym ";"] else []);
      try eassumption; try apply D.
    + destruct override; [left; split; reflexivity|right; repeat split].
    + apply stops_my, O.
    + apply my_conflict_parsed; assumption.
    + destruct semi; reflexivity.
    + destruct semi; reflexivity.
    + reflexivity.
  - intros -> SE. destruct (read _ _ _) as [s|] eqn:RD; [|reflexivity]. exfalso.
    apply insert_needs with (tt := tt) (q := q) (cs := cols) (tts := my_toks true sets semi) in RD; [|first [assumption|solve [apply D]|idtac]..].
    + destruct RD as [_ C]. apply C. rewrite SE. apply my_conflict_refused.
    + intros vs I Z. specialize (LV vs I). subst vs. destruct cols; [exact (d_some _ _ _ _ _ D eq_refl)|discriminate].
    + apply stops_my, O.
Qed.

Lemma cols_pos : 0 < length (m_columns m).
Proof. rewrite (cols_length _ _ _ _ _ D). destruct cols; [exfalso; apply (d_some _ _ _ _ _ D); reflexivity|cbn; lia]. Qed.
Lemma one_row (vs : list V) : length vs = length cols ->
  spells_all MySQL 0 [B "(" ++ join (B ",") (repeat (B "?") (length (m_columns m))) ++ B ")"] [vs] (map row_toks (row_vals [vs])).
Proof.
  intros L. apply (spells_static MySQL (length (m_columns m)) ltac:(discriminate) [vs] 0). intros x [<-|[]]. rewrite L. symmetry. apply (cols_length _ _ _ _ _ D).
Qed.
Lemma repeat_tail_cols : repeat_tail (B ",?") (length (m_columns m)) = Ok (join (B ",") (repeat (B "?") (length (m_columns m)))).
Proof. rewrite (repeat_tail_places MySQL 0) by (try discriminate; apply cols_pos). rewrite static_places by discriminate. reflexivity. Qed.

(** UpsertOne, single key *)
Lemma upsert_one_my_reads override omitted k : key_texts m = [k] -> (forall ns is vs, m_key m <> CompKey ns is vs) -> length (m_values m) = length cols ->
  exists text sets, upsert_one_my m override omitted = Ok (text, m_values m) /\
    chosen (m_columns m) cols (fun _ x => x <> k /\ ~ In x omitted) sets /\
    ((override = true -> sets <> []) -> read MySQL text (m_values m) = Some (Insert q cols [row_of (m_values m)] (my_conflict override sets) [])) /\
    (override = true -> sets = [] -> read MySQL text (m_values m) = None).
Proof.
  intros K NC L.
  destruct (kept_Forall2 (k :: omitted) (m_columns m) cols (d_columns _ _ _ _ _ D)) as (sets & F & C).
  destruct (my_read [B "(" ++ join (B ",") (repeat (B "?") (length (m_columns m))) ++ B ")"] [m_values m] override (B " =")
    (kept (k :: omitted) (m_columns m)) sets (negb override)) as [R1 R2];
    [apply one_row, L|discriminate|intros x [<-|[]]; exact L|now left|exact F|destruct override; reflexivity|].
  exists (insert_head override m (m_columns m) ++ (B "(" ++ join (B ",") (repeat (B "?") (length (m_columns m))) ++ B ")")
     ++ my_tail override (B " =") (kept (k :: omitted) (m_columns m)) (negb override)), sets. split; [|split].
  - unfold upsert_one_my, key_texts in *. rewrite repeat_tail_cols. cbn [bind].
    assert (G : forall pk, [pk] = [k] -> Ok (insert_head override m (m_columns m) ++ B "(" ++ join (B ",") (repeat (B "?") (length (m_columns m))) ++ B ")"
        ++ (if override then B " ON DUPLICATE KEY UPDATE " ++ values_list (B " =") (kept (pk :: omitted) (m_columns m)) else B ";"), m_values m)
      = Ok (insert_head override m (m_columns m) ++ (B "(" ++ join (B ",") (repeat (B "?") (length (m_columns m))) ++ B ")")
        ++ my_tail override (B " =") (kept (k :: omitted) (m_columns m)) (negb override), m_values m)).
    { intros pk E. injection E as ->. unfold my_tail. destruct override; cbn [negb]; rewrite ?app_nil_r, <- !app_assoc; reflexivity. }
    destruct (m_key m); [discriminate|apply G, K|apply G, K|exfalso; eapply NC; reflexivity].
  - eapply chosen_iff; [|exact C]. intros i t. cbn [In]. split; [intros H; split; [intros E; apply H; now left|tauto]|intros [H1 H2] [E|I]; congruence].
  - cbn [concat] in R1, R2. rewrite app_nil_r in R1, R2. split; [exact R1|exact R2].
Qed.
(** UpsertOne, composite key: without override it is INSERT IGNORE, with override it panics *)
Lemma upsert_one_my_comp_ignored omitted ns is vs : m_key m = CompKey ns is vs -> length (m_values m) = length cols ->
  exists text, upsert_one_my m false omitted = Ok (text, m_values m) /\
    read MySQL text (m_values m) = Some (Insert q cols [row_of (m_values m)] (DoNothing []) []).
Proof.
  intros K L.
  destruct (my_read [B "(" ++ join (B ",") (repeat (B "?") (length (m_columns m))) ++ B ")"] [m_values m] false (B " =")
    [] [] true) as [R1 _]; [apply one_row, L|discriminate|intros x [<-|[]]; exact L|now left|constructor|reflexivity|].
  eexists. split; [unfold upsert_one_my; rewrite K, repeat_tail_cols; cbn [bind]; reflexivity|].
  cbv zeta in R1. cbn [concat join] in R1. rewrite app_nil_r, <- ?app_assoc in R1. apply R1. discriminate.
Qed.
(** Upsert, single or composite key *)
Definition my_pick (omitted : list bytes) (i : nat) (x : bytes) : Prop :=
  ~ In x omitted /\ match m_key m with CompKey _ idxs _ => ~ In i idxs | AutoKey k _ _ | SingleKey k _ _ => x <> k | NoKey => True end.
Lemma upsert_my_reads data override omitted :
  match m_key m with SingleKey _ _ _ => True | CompKey _ idxs _ => StronglySorted lt idxs /\ (forall i, In i idxs -> i < length cols) | _ => False end ->
  (forall x, In x (m :: data) -> length (m_values x) = length cols) -> numbered MySQL m (length cols) ->
  exists text args sets, upsert_my (m :: data) override omitted = Ok (Some (text, args)) /\
    chosen (m_columns m) cols (my_pick omitted) sets /\
    ((override = true -> sets <> []) ->
       read MySQL text args = Some (Insert q cols (map (fun x => row_of (m_values x)) (m :: data)) (my_conflict override sets) [])) /\
    (override = true -> sets = [] -> read MySQL text args = None).
Proof.
  intros K L NUM. set (vss := map m_values (m :: data)).
  assert (LV : forall vs, In vs vss -> length vs = length cols).
  { intros vs I. apply in_map_iff in I. destruct I as (x & <- & I). apply L, I. }
  assert (SA : spells_all MySQL 0 (map (m_places m) (seq 0 (length (m :: data)))) vss (map row_toks (row_vals vss))).
  { replace (length (m :: data)) with (length vss) by (unfold vss; apply map_length). apply (spells_numbered MySQL m _ NUM vss 0). exact LV. }
  replace (map (fun x => row_of (m_values x)) (m :: data)) with (row_vals vss) by (unfold row_vals, vss; rewrite map_map; reflexivity).
  unfold my_pick, upsert_my. destruct (m_key m) as [|k i v|k i v|ns idxs vs]; try contradiction.
  - destruct (kept_Forall2 (omitted ++ [k]) (m_columns m) cols (d_columns _ _ _ _ _ D)) as (sets & F & C).
    destruct (my_read _ vss override (B "=") _ sets true SA ltac:(discriminate) LV (or_intror eq_refl) F (orb_true_r _)) as [R1 R2].
    do 2 eexists. exists sets. split; [reflexivity|]. split; [|split; [exact R1|exact R2]].
    eapply chosen_iff; [|exact C]. intros j t. cbv beta. rewrite in_app_iff. cbn [In]. split; [intros H; split; [tauto|intros E; apply H; right; left; symmetry; exact E]|].
    intros [H1 H2] [I|[E|[]]]; [exact (H1 I)|congruence].
  - destruct K as [SO RG]. rewrite remove_all_drops by (try assumption; intros j J; rewrite (cols_length _ _ _ _ _ D); apply RG, J). cbn [bind].
    destruct (drops_kept omitted idxs (m_columns m) cols 0 (d_columns _ _ _ _ _ D)) as (sets & F & C).
    destruct (my_read _ vss override (B "=") _ sets true SA ltac:(discriminate) LV (or_intror eq_refl) F (orb_true_r _)) as [R1 R2].
    do 2 eexists. exists sets. split; [reflexivity|]. split; [|split; [exact R1|exact R2]].
    eapply chosen_iff; [|exact C]. intros j t. cbn [Nat.add]. tauto.
Qed.
(** Upsert of an auto-increment model: a placeholder too many in each row *)
Lemma upsert_my_auto_refused data override omitted k i v text args :
  m_key m = AutoKey k i v -> (forall x, In x (m :: data) -> length (m_values x) <= length cols) ->
  upsert_my (m :: data) override omitted = Ok (Some (text, args)) -> read MySQL text args = None.
Proof.
  intros K L. unfold upsert_my. rewrite K.
  destruct (remove_at i (m_columns m)) as [columns| |] eqn:RC; try discriminate. cbn [bind].
  rewrite repeat_tail_cols. cbn [bind].
  destruct (map_res _ _) as [valss| |] eqn:MV; try discriminate. cbn [bind].
  intros E. apply sent_inj in E. destruct E as [-> ->].
  set (n := length (m_columns m)). pose proof cols_pos as POS. fold n in POS.
  (* the columns, and as many values as there are placeholders *)
  destruct (remove_at_is _ _ _ RC) as (RI & _ & CE). fold n in RI.
  set (cs := omit_at (Some i) cols).
  assert (CF : Forall2 (denotes (V:=V) MySQL) columns cs) by (subst columns; apply omit_Forall2, D).
  destruct (kept_Forall2 (omitted ++ [k]) columns cs CF) as (sets & F & _).
  destruct (table_spells _ _ _ _ _ D) as (tt & Q & T).
  set (vs0 := repeat v n).
  assert (SA : spells_all MySQL 0 (repeat (B "(" ++ join (B ",") (repeat (B "?") n) ++ B ")") (length (m :: data))) (repeat vs0 (length (m :: data)))
    (map row_toks (row_vals (repeat vs0 (length (m :: data)))))).
  { replace (length (m :: data)) with (length (repeat vs0 (length (m :: data)))) at 1 by apply repeat_length.
    apply spells_static; [discriminate|]. intros x I. apply repeat_spec in I. subst x. apply repeat_length. }
  assert (LEN : length (concat valss) <> length (concat (repeat vs0 (length (m :: data))))).
  { assert (G : forall (l : list (model V)) (vss : list (list V)), (forall x, In x l -> length (m_values x) <= length cols) -> map_res (fun x => remove_at i (m_values x)) l = Ok vss ->
       length (concat vss) <= length l * (n - 1) /\ length (concat (repeat vs0 (length l))) = length l * n).
    { induction l as [|x l IH]; intros vss LL; cbn [map_res].
      - intros EE. injection EE as <-. split; [cbn; lia|reflexivity].
      - destruct (remove_at i (m_values x)) as [y| |] eqn:RX; try discriminate. cbn [bind].
        destruct (map_res _ l) as [ys| |]; try discriminate. cbn [bind]. intros EE. injection EE as <-.
        destruct (IH ys (fun z I => LL z (or_intror I)) eq_refl) as [G1 G2].
        cbn [length repeat concat]. rewrite !app_length, G2. unfold vs0 at 1. rewrite repeat_length.
        assert (LY : length y <= n - 1).
        { specialize (LL x (or_introl eq_refl)). rewrite <- (cols_length _ _ _ _ _ D) in LL. fold n in LL. destruct (remove_at_is _ _ _ RX) as (_ & LX & _). lia. }
        split; lia. }
    destruct (G (m :: data) valss L MV) as [G1 G2]. rewrite G2. cbn [length] in *. nia. }
  assert (TL : forall z, spells MySQL z (my_tail override (B "=") (kept (omitted ++ [k]) columns) true) [] (my_toks override sets true)) by (intros z; apply my_tail_spells; [now right|exact F]).
  match goal with |- read _ (_ ++ _ ++ ?t) _ = _ => change t with (my_tail override (B "=") (kept (omitted ++ [k]) columns) true) end.
  destruct override.
  - eapply spells_count; [|exact LEN]. unfold insert_head. rewrite <- !app_assoc. eapply insert_spells with (kts := [Kw (B "INSERT"); Kw (B "INTO")]); try eassumption; try reflexivity; [sconst|discriminate].
  - eapply spells_count; [|exact LEN]. unfold insert_head. rewrite <- !app_assoc. eapply insert_spells with (kts := [Kw (B "INSERT"); Kw (B "IGNORE"); Kw (B "INTO")]); try eassumption; try reflexivity; [sconst|discriminate].
Qed.
End UpsertMy.
End R.
