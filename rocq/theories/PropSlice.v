(** C90: a call changes nothing in the slices of its caller.

    With generated models a call sends what it would send on plain lists, whatever else is on the heap; the cells of
    the caller it may change are those after the end of the slice of omitted fields, within its capacity, and there are
    none when that slice was built for the call.  Such cells are overwritten (refuted in general), and a model written
    by hand whose Columns() returns one slice again and again loses its columns. *)
From Verif Require Import Base ModelStrconv ModelCompiler ModelGen ModelRuntime ModelSlice SpecSlice LemmasSlice.
From Coq Require Import Lia.

Section Steps.
Context {V : Type}.
Variables (room : nat -> nat) (h0 : heap) (om0 : slice).

(** [om] holds the omitted fields of [om0] and then [acc]; the caller's cells are as they were *)
Record inv (h : heap) (om : slice) (acc : list bytes) : Prop := {
  iv_valid : valid h om;
  iv_read : read h om = read h0 om0 ++ acc;
  iv_un : unchanged (grows om0) h0 h;
  iv_grows : forall a i, a < length h0 -> grows om a i -> grows om0 a i;
  iv_arrays : forall a, a < length h0 -> length (nth a h []) = length (nth a h0 [])
}.
(** a slice on an array of its own *)
Record own (h : heap) (om c : slice) (l : list bytes) : Prop := {
  ow_valid : valid h c;
  ow_read : read h c = l;
  ow_new : length h0 <= s_arr c;
  ow_in : s_arr c < length h;
  ow_apart : forall i, ~ shows om (s_arr c) i /\ ~ grows om (s_arr c) i
}.

Lemma inv_start : valid h0 om0 -> inv h0 om0 [].
Proof.
  intros Vd. constructor; [exact Vd|symmetry; apply app_nil_r|split; [lia|reflexivity]|intros a i _ G; exact G|reflexivity].
Qed.

Lemma inv_append : forall h om acc xs, inv h om acc -> inv (fst (append room h om xs)) (snd (append room h om xs)) (acc ++ xs).
Proof.
  intros h om acc xs [v r [u1 u2] g l]. pose proof (append_ok room h om xs v) as AP.
  destruct (append room h om xs) as [h' om']. cbn [fst snd] in *. destruct AP as [a1 a2 a3 a4 a5 a6].
  constructor.
  - exact a2.
  - rewrite a1, r, app_assoc. reflexivity.
  - split; [lia|]. intros a i A N. rewrite a5; [apply u2; assumption|lia|]. intros G. apply N. exact (g a i A G).
  - intros a i A [G1 G2]. destruct a6 as [[e1 [e2 [e3 e4]]]|e]; [|lia].
    apply g; [exact A|]. split; [congruence|]. rewrite e2, e3 in G2. lia.
  - intros a A. rewrite a4 by lia. apply l. exact A.
Qed.
Lemma own_append : forall h om acc xs c l, inv h om acc -> own h om c l ->
  own (fst (append room h om xs)) (snd (append room h om xs)) c l.
Proof.
  intros h om acc xs c l [v r [u1 u2] g q] [o1 o2 o3 o5 o4]. pose proof (append_ok room h om xs v) as AP.
  destruct (append room h om xs) as [h' om']. cbn [fst snd] in *. destruct AP as [a1 a2 a3 a4 a5 a6].
  constructor.
  - exact (valid_keep h h' c o1 a3 a4).
  - rewrite <- o2. apply read_cells. intros a i Sh. apply a5; [exact (valid_in h c a i o1 (or_introl Sh))|].
    intros G. destruct Sh as [-> _]. exact (proj2 (o4 i) G).
  - exact o3.
  - lia.
  - intros i. destruct a6 as [[e1 [e2 [e3 e4]]]|e].
    + assert (N : forall j, s_arr c = s_arr om -> s_off om <= j < s_off om + s_cap om -> False).
      { intros j E J. destruct (Nat.lt_ge_cases j (s_off om + s_len om)) as [K|K].
        - apply (proj1 (o4 j)). split; [exact E|lia].
        - apply (proj2 (o4 j)). split; [exact E|lia]. }
      assert (LC : s_len om' <= s_cap om') by (destruct a2; assumption).
      split; intros [G1 G2]; apply (N i); try congruence; rewrite e2 in G2; lia.
    + split; intros [G1 _]; lia.
Qed.

Lemma inv_literal : forall h om acc l, inv h om acc -> inv (h ++ [l]) om acc.
Proof.
  intros h om acc l [v r [u1 u2] g q].
  assert (CE : forall a i, a < length h -> cell (h ++ [l]) a i = cell h a i) by (intros a i A; unfold cell; rewrite app_nth1 by exact A; reflexivity).
  constructor.
  - apply (valid_keep h); [exact v|rewrite app_length; lia|]. intros a A. rewrite app_nth1 by exact A. reflexivity.
  - rewrite <- r. apply read_cells. intros a i Sh. apply CE. exact (valid_in h om a i v (or_introl Sh)).
  - split; [rewrite app_length; lia|]. intros a i A N. rewrite CE by lia. apply u2; assumption.
  - exact g.
  - intros a A. rewrite app_nth1 by lia. apply q. exact A.
Qed.
Lemma own_literal : forall h om acc l, inv h om acc -> own (h ++ [l]) om (snd (literal h l)) l.
Proof.
  intros h om acc l [v r [u1 u2] g q].
  assert (NT : nth (length h) (h ++ [l]) [] = l) by (rewrite app_nth2 by lia; rewrite Nat.sub_diag; reflexivity).
  constructor; cbn [literal snd s_arr s_off s_len s_cap].
  - split; [cbn; lia|right]. cbn [s_arr s_off s_cap]. rewrite app_length, NT. cbn [length]. lia.
  - unfold read. cbn [s_arr s_off s_len skipn]. rewrite NT. apply firstn_all.
  - exact u1.
  - rewrite app_length. cbn [length]. lia.
  - intros i. split; intros G; [pose proof (valid_in h om _ _ v (or_introl G))|pose proof (valid_in h om _ _ v (or_intror G))]; lia.
Qed.
Lemma own_literal_other : forall h om c l l', own h om c l -> own (h ++ [l']) om c l.
Proof.
  intros h om c l l' [o1 o2 o3 o5 o4]. constructor.
  - apply (valid_keep h); [exact o1|rewrite app_length; lia|]. intros a A. rewrite app_nth1 by exact A. reflexivity.
  - rewrite <- o2. apply read_cells. intros a i Sh. unfold cell. rewrite app_nth1; [reflexivity|].
    exact (valid_in h c a i o1 (or_introl Sh)).
  - exact o3.
  - rewrite app_length. lia.
  - exact o4.
Qed.

Lemma own_delete : forall h om acc c l i, inv h om acc -> own h om c l ->
  match remove_at i l with
  | Ok l' => exists h' c', delete_at room h c i = Ok (h', c') /\ inv h' om acc /\ own h' om c' l'
  | _ => remove_at i l = Panic /\ delete_at room h c i = Panic
  end.
Proof.
  intros h om acc c l i [v r [u1 u2] g q] [o1 o2 o3 o5 o4]. unfold remove_at.
  pose proof (valid_len h c o1) as LL. rewrite o2 in LL.
  destruct (Nat.ltb_spec i (length l)) as [L|L].
  - destruct (delete_ok room h c i o1) as [h' [c' [E [R [Vc [S1 [S2 [S3 [e1 [e2 [e3 e4]]]]]]]]]]]; [lia|].
    exists h', c'. split; [exact E|].
    assert (CE : forall a j, a < length h -> a <> s_arr c -> cell h' a j = cell h a j).
    { intros a j A N. apply S3; [exact A|]. intros X _. exact (N X). }
    split; constructor.
    + exact (valid_keep h h' om v S1 S2).
    + rewrite <- r. apply read_cells. intros a j Sh. apply CE; [exact (valid_in h om a j v (or_introl Sh))|].
      intros ->. exact (proj1 (o4 j) Sh).
    + split; [lia|]. intros a j A N. rewrite CE by lia. apply u2; assumption.
    + exact g.
    + intros a A. rewrite S2 by lia. apply q. exact A.
    + exact Vc.
    + rewrite R, o2. reflexivity.
    + rewrite e1. exact o3.
    + rewrite e1, e4. exact o5.
    + rewrite e1. exact o4.
  - split; [reflexivity|]. apply delete_panic. lia.
Qed.
Lemma own_delete_opt : forall h om acc c l i, inv h om acc -> own h om c l ->
  match without i l with
  | Ok l' => exists h' c', delete_opt room h c i = Ok (h', c') /\ inv h' om acc /\ own h' om c' l'
  | _ => without i l = Panic /\ delete_opt room h c i = Panic
  end.
Proof.
  intros h om acc c l [i|] I O; [exact (own_delete h om acc c l i I O)|].
  cbn [without delete_opt]. exists h, c. split; [reflexivity|split; assumption].
Qed.
Lemma own_delete_all : forall idxs h om acc c l, inv h om acc -> own h om c l ->
  match remove_all idxs l with
  | Ok l' => exists h' c', delete_all room h c idxs = Ok (h', c') /\ inv h' om acc /\ own h' om c' l'
  | _ => remove_all idxs l = Panic /\ delete_all room h c idxs = Panic
  end.
Proof.
  intros idxs h om acc c l I O. induction idxs as [|i idxs IH].
  - exists h, c. split; [reflexivity|split; assumption].
  - unfold remove_all, delete_all in *. cbn [fold_right].
    destruct (fold_right _ (Ok l) idxs) as [l'| |].
    + destruct IH as [h' [c' [E [I' O']]]]. rewrite E. cbn [bind fst snd]. exact (own_delete h' om acc c' l' i I' O').
    + destruct IH as [C _]. discriminate C.
    + destruct IH as [_ E]. rewrite E. split; reflexivity.
Qed.

(** the columns after RETURNING *)
Lemma returned_ok : forall h om acc (m : model V), inv h om acc ->
  inv (fst (returned (generated_columns (m_columns m)) h m)) om acc
  /\ snd (returned (generated_columns (m_columns m)) h m) = table_columns m.
Proof.
  intros h om acc m I. unfold returned, table_columns. destruct (m_sqlcolumns m) as [l|]; [split; [exact I|reflexivity]|].
  cbn [generated_columns literal fst snd]. split; [exact (inv_literal h om acc _ I)|].
  exact (ow_read _ _ _ _ (own_literal h om acc (m_columns m) I)).
Qed.
End Steps.

Section Theorems.
Context {V : Type}.
Variable room : nat -> nat.

Lemma dup_read : forall h om0 om acc dup h', inv h om0 h' om acc -> valid h dup ->
  (forall a i, shows dup a i -> ~ grows om0 a i) -> read h' dup = read h dup.
Proof.
  intros h om0 om acc dup h' I Vd N. apply read_cells. intros a i Sh.
  apply (proj2 (iv_un _ _ _ _ _ I)); [exact (valid_in h dup a i Vd (or_introl Sh))|exact (N a i Sh)].
Qed.

(** the conflict target and the names it adds *)
Lemma target_ok : forall h0 om0 h om acc dup nothing (m : model V) keys c l,
  inv h0 om0 h om acc -> own h0 h om c l -> valid h0 dup -> (forall a i, shows dup a i -> ~ grows om0 a i) ->
  key_names m = Ok keys ->
  exists h' om' t, target_h room h m om dup = Ok ((h', om'), fst t)
    /\ conflict_target m {| o_nothing := nothing; o_omit := read h0 om0; o_dup := read h0 dup |} = Ok t
    /\ inv h0 om0 h' om' (acc ++ snd t) /\ own h0 h' om' c l.
Proof.
  intros h0 om0 h om acc dup nothing m keys c l I O Vd N K. unfold target_h, conflict_target. cbn [o_dup].
  pose proof (valid_len h0 dup Vd) as LD.
  destruct (s_len dup) as [|n] eqn:Z.
  - destruct (read h0 dup) as [|x xs]; [|discriminate LD].
    destruct (m_dup m) as [ks|].
    + exists (fst (append room h om ks)), (snd (append room h om ks)), (ks, ks).
      split; [rewrite <- surjective_pairing; reflexivity|]. split; [reflexivity|].
      split; [exact (inv_append room h0 om0 h om acc ks I)|exact (own_append room h0 om0 h om acc ks c l I O)].
    + exists h, om, (keys, []). rewrite K. cbn [bind fst snd]. rewrite app_nil_r.
      split; [reflexivity|]. split; [reflexivity|]. split; assumption.
  - exists h, om, (read h0 dup, []). cbn [fst snd]. rewrite app_nil_r.
    rewrite (dup_read h0 om0 om acc dup h I Vd N).
    destruct (read h0 dup) as [|x xs]; [discriminate LD|].
    split; [reflexivity|]. split; [reflexivity|]. split; assumption.
Qed.

Definition omits (m : model V) : list bytes := match m_omit m with Some l => l | None => [] end.
Lemma omit_ok : forall h0 om0 h om acc (m : model V) c l, inv h0 om0 h om acc -> own h0 h om c l ->
  inv h0 om0 (fst (omit_h room h m om)) (snd (omit_h room h m om)) (acc ++ omits m)
  /\ own h0 (fst (omit_h room h m om)) (snd (omit_h room h m om)) c l.
Proof.
  intros h0 om0 h om acc m c l I O. unfold omit_h, omits. destruct (m_omit m) as [xs|].
  - split; [exact (inv_append room h0 om0 h om acc xs I)|exact (own_append room h0 om0 h om acc xs c l I O)].
  - rewrite app_nil_r. split; assumption.
Qed.

Lemma map_res_panic : forall {A C} (f : A -> res C) l, (forall x, f x <> Err) -> map_res f l <> Err.
Proof.
  intros A C f l N. induction l as [|x l IH]; cbn [map_res]; [discriminate|]. specialize (N x).
  destruct (f x) as [y| |]; [|congruence|discriminate]. cbn [bind].
  destruct (map_res f l) as [ys| |]; [discriminate|congruence|discriminate].
Qed.
Lemma without_err : forall {A} i (l : list A), without i l <> Err.
Proof. intros A [i|] l; cbn [without]; [unfold remove_at; destruct (Nat.ltb i (length l)); discriminate|discriminate]. Qed.

(** ** UpsertOne on PostgreSQL *)
Theorem C90_upsert_one_partial : forall (m : model V) (h : heap) (o : opts),
  valid h (so_omit o) -> valid h (so_dup o) ->
  (forall a i, shows (so_dup o) a i -> ~ grows (so_omit o) a i) ->
  agrees (grows (so_omit o)) h (upsert_one_pg_h room (generated_columns (m_columns m)) h m o)
         (upsert_one_pg m (given h o)).
Proof.
  intros m h o Vo Vd N. unfold upsert_one_pg_h, upsert_one_pg. cbv zeta.
  pose proof (inv_start h (so_omit o) Vo) as I0.
  pose proof (inv_literal h (so_omit o) h (so_omit o) [] (m_columns m) I0) as I1.
  pose proof (own_literal h (so_omit o) h (so_omit o) [] (m_columns m) I0) as O1.
  cbn [generated_columns literal fst snd] in *.
  remember {| s_arr := length h; s_off := 0; s_len := length (m_columns m); s_cap := length (m_columns m) |} as c0.
  destruct (key_names m) as [keys| |] eqn:K.
  2: { unfold key_names in K. destruct (m_key m); discriminate K. }
  2: { cbn [bind agrees]. unfold conflict_text. rewrite K. cbn [bind].
       destruct (without (auto_idx m) (m_columns m)) as [x| |] eqn:W; [|exfalso; exact (without_err _ _ W)|reflexivity].
       cbn [bind]. destruct (without (auto_idx m) (m_values m)) as [y| |] eqn:W'; [reflexivity|exfalso; exact (without_err _ _ W')|reflexivity]. }
  cbn [bind].
  pose proof (inv_append room h (so_omit o) _ _ [] keys I1) as I2.
  pose proof (own_append room h (so_omit o) _ _ [] keys c0 (m_columns m) I1 O1) as O2.
  remember (append room (h ++ [m_columns m]) (so_omit o) keys) as om1.
  pose proof (own_delete_opt room h (so_omit o) _ _ _ c0 (m_columns m) (auto_idx m) I2 O2) as D.
  destruct (without (auto_idx m) (m_columns m)) as [columns| |].
  2: { destruct D as [C _]. discriminate C. }
  2: { destruct D as [_ D]. rewrite D. reflexivity. }
  destruct D as [h3 [c [E [I3 O3]]]]. rewrite E. cbn [bind fst snd].
  destruct (without (auto_idx m) (m_values m)) as [values| |] eqn:W.
  2: { exfalso. exact (without_err _ _ W). }
  2: { reflexivity. }
  cbn [bind].
  destruct (target_ok h (so_omit o) h3 (snd om1) _ (so_dup o) (so_nothing o) m keys c columns I3 O3 Vd N K)
    as [h4 [om4 [t [T1 [T2 [I4 O4]]]]]].
  rewrite T1. cbn [bind fst snd]. unfold conflict_text. rewrite K. cbn [bind]. unfold given. rewrite T2. cbn [bind o_nothing o_omit].
  destruct (so_nothing o); cbn [fst snd].
  - destruct (returned_ok h (so_omit o) h4 om4 _ m I4) as [I5 R5].
    cbn [agrees]. rewrite R5, (ow_read _ _ _ _ _ O3). split; [|exact (iv_un _ _ _ _ _ I5)].
    rewrite <- !app_assoc. reflexivity.
  - destruct (omit_ok h (so_omit o) h4 om4 _ m c columns I4 O4) as [I5 O5].
    destruct (returned_ok h (so_omit o) (fst (omit_h room h4 m om4)) _ _ m I5) as [I6 R6].
    cbn [agrees]. rewrite R6, (ow_read _ _ _ _ _ O3), (ow_read _ _ _ _ _ O5), (iv_read _ _ _ _ _ I5).
    split; [|exact (iv_un _ _ _ _ _ I6)]. unfold omits. cbn [app]. rewrite <- !app_assoc. reflexivity.
Qed.

(** ** Upsert on PostgreSQL *)
Theorem C90_upsert_partial : forall (data : list (model V)) (h : heap) (o : opts),
  valid h (so_omit o) -> valid h (so_dup o) ->
  (forall a i, shows (so_dup o) a i -> ~ grows (so_omit o) a i) ->
  agrees (grows (so_omit o)) h (upsert_pg_h room (generated_columns (columns_of_first data)) h data o)
         (upsert_pg data (given h o)).
Proof.
  intros data h o Vo Vd N. unfold upsert_pg_h, upsert_pg.
  destruct data as [|m rest]; [split; [reflexivity|split; [lia|reflexivity]]|].
  remember (m :: rest) as data eqn:ED.
  replace (columns_of_first data) with (m_columns m) by (rewrite ED; reflexivity). cbv zeta.
  pose proof (inv_start h (so_omit o) Vo) as I0.
  pose proof (inv_literal h (so_omit o) h (so_omit o) [] (m_columns m) I0) as I1.
  pose proof (own_literal h (so_omit o) h (so_omit o) [] (m_columns m) I0) as O1.
  cbn [generated_columns literal fst snd] in *.
  remember {| s_arr := length h; s_off := 0; s_len := length (m_columns m); s_cap := length (m_columns m) |} as c0.
  destruct (key_names m) as [keys| |] eqn:K.
  2: { unfold key_names in K. destruct (m_key m); discriminate K. }
  2: { cbn [bind agrees]. unfold conflict_text. rewrite K. cbn [bind].
       destruct (without (auto_idx m) (m_columns m)) as [x| |] eqn:W; [|exfalso; exact (without_err _ _ W)|reflexivity].
       cbn [bind]. destruct (map_res _ data) as [y| |] eqn:W'; [reflexivity| |reflexivity].
       exfalso. apply (map_res_panic _ data (fun x => without_err (auto_idx m) (m_values x)) W'). }
  cbn [bind].
  pose proof (inv_append room h (so_omit o) _ _ [] keys I1) as I2.
  pose proof (own_append room h (so_omit o) _ _ [] keys c0 (m_columns m) I1 O1) as O2.
  remember (append room (h ++ [m_columns m]) (so_omit o) keys) as om1.
  pose proof (own_delete_opt room h (so_omit o) _ _ _ c0 (m_columns m) (auto_idx m) I2 O2) as D.
  destruct (without (auto_idx m) (m_columns m)) as [columns| |].
  2: { destruct D as [C _]. discriminate C. }
  2: { destruct D as [_ D]. rewrite D. reflexivity. }
  destruct D as [h3 [c [E [I3 O3]]]]. rewrite E. cbn [bind fst snd].
  destruct (map_res _ data) as [vals| |] eqn:W.
  2: { exfalso. apply (map_res_panic _ data (fun x => without_err (auto_idx m) (m_values x)) W). }
  2: { reflexivity. }
  cbn [bind].
  destruct (target_ok h (so_omit o) h3 (snd om1) _ (so_dup o) (so_nothing o) m keys c columns I3 O3 Vd N K)
    as [h4 [om4 [t [T1 [T2 [I4 O4]]]]]].
  rewrite T1. cbn [bind fst snd]. unfold conflict_text. rewrite K. cbn [bind]. unfold given. rewrite T2. cbn [bind o_nothing o_omit].
  destruct (so_nothing o); cbn [fst snd].
  - destruct (returned_ok h (so_omit o) h4 om4 _ m I4) as [I5 R5].
    cbn [agrees]. rewrite R5, (ow_read _ _ _ _ _ O3). split; [|exact (iv_un _ _ _ _ _ I5)].
    rewrite <- !app_assoc. reflexivity.
  - destruct (omit_ok h (so_omit o) h4 om4 _ m c columns I4 O4) as [I5 O5].
    pose proof (inv_literal _ _ _ _ _ (m_columns m) I5) as I6.
    pose proof (own_literal _ _ _ _ _ (m_columns m) I5) as O6.
    cbn [generated_columns literal fst snd] in *.
    destruct (returned_ok h (so_omit o) _ _ _ m I6) as [I7 R7].
    cbn [agrees]. rewrite R7, (ow_read _ _ _ _ _ O3), (ow_read _ _ _ _ _ O6), (iv_read _ _ _ _ _ I6).
    split; [|exact (iv_un _ _ _ _ _ I7)]. unfold omits. cbn [app]. rewrite <- !app_assoc. reflexivity.
Qed.

(** ** Insert *)
Definition nil_slice : slice := {| s_arr := 0; s_off := 0; s_len := 0; s_cap := 0 |}.
Lemma nil_valid : forall h, valid h nil_slice.
Proof. intros h. split; [cbn; lia|left; reflexivity]. Qed.
Lemma unchanged_weaken : forall (P Q : nat -> nat -> Prop) h h', (forall a i, P a i -> Q a i) ->
  unchanged P h h' -> unchanged Q h h'.
Proof. intros P Q h h' W [A C]. split; [exact A|]. intros a i L N. apply C; [exact L|]. intros X. exact (N (W a i X)). Qed.
Lemma nil_unchanged : forall h h', unchanged (grows nil_slice) h h' -> unchanged (fun _ _ => False) h h'.
Proof. intros h h'. apply unchanged_weaken. intros a i [_ G]. cbn [nil_slice s_off s_len s_cap] in G. lia. Qed.

Theorem C90_insert_partial : forall (d : driver) (data : list (model V)) (h : heap),
  agrees (fun _ _ => False) h (insert_h room (generated_columns (columns_of_first data)) d h data) (insert d data).
Proof.
  intros d data h. unfold insert_h, insert.
  destruct data as [|m rest]; [split; [reflexivity|split; [lia|reflexivity]]|].
  remember (m :: rest) as data eqn:ED.
  replace (columns_of_first data) with (m_columns m) by (rewrite ED; reflexivity). cbv zeta.
  pose proof (inv_start h nil_slice (nil_valid h)) as I0.
  pose proof (inv_literal h nil_slice h nil_slice [] (m_columns m) I0) as I1.
  pose proof (own_literal h nil_slice h nil_slice [] (m_columns m) I0) as O1.
  cbn [generated_columns literal fst snd] in *.
  remember {| s_arr := length h; s_off := 0; s_len := length (m_columns m); s_cap := length (m_columns m) |} as c0.
  pose proof (own_delete_opt room h nil_slice _ _ _ c0 (m_columns m) (auto_idx m) I1 O1) as D.
  destruct (without (auto_idx m) (m_columns m)) as [columns| |].
  2: { destruct D as [C _]. discriminate C. }
  2: { destruct D as [_ D]. rewrite D. reflexivity. }
  destruct D as [h3 [c [E [I3 O3]]]]. rewrite E. cbn [bind fst snd]. rewrite (ow_read _ _ _ _ _ O3).
  assert (NE : map_res (fun x => without (auto_idx m) (m_values x)) data <> Err)
    by (apply map_res_panic; intros x; apply without_err).
  destruct d.
  2: { destruct (map_res _ data) as [vals| |]; [|congruence|reflexivity]. cbn [bind].
       destruct (returned_ok h nil_slice h3 nil_slice [] m I3) as [I5 R5]. cbn [agrees]. rewrite R5.
       split; [reflexivity|]. apply nil_unchanged. exact (iv_un _ _ _ _ _ I5). }
  all: destruct (repeat_tail _ (length columns)) as [r| |]; [|reflexivity|reflexivity]; cbn [bind];
    destruct (map_res _ data) as [vals| |]; [|congruence|reflexivity]; cbn [bind agrees];
    (split; [reflexivity|apply nil_unchanged; exact (iv_un _ _ _ _ _ I3)]).
Qed.

(** ** Upsert on the other dialects *)
Theorem C90_upsert_others_partial : forall (data : list (model V)) (override : bool) (h : heap) (omit : slice),
  valid h omit ->
  agrees (grows omit) h (upsert_my_h room (generated_columns (columns_of_first data)) h data override omit)
         (upsert_my data override (read h omit)).
Proof.
  intros data override h omit Vo. unfold upsert_my_h, upsert_my.
  destruct data as [|m rest]; [split; [reflexivity|split; [lia|reflexivity]]|].
  remember (m :: rest) as data eqn:ED.
  replace (columns_of_first data) with (m_columns m) by (rewrite ED; reflexivity). cbv zeta.
  pose proof (inv_start h omit Vo) as I0.
  pose proof (inv_literal h omit h omit [] (m_columns m) I0) as I1.
  pose proof (own_literal h omit h omit [] (m_columns m) I0) as O1.
  cbn [generated_columns literal fst snd] in *.
  assert (RE : forall h1 om acc c l, inv h omit h1 om acc -> own h h1 om c l ->
    (if override then B " ON DUPLICATE KEY UPDATE " ++ values_list (B "=") (kept (read h1 om) (read h1 c)) else []) ++ B ";"
    = (if override then B " ON DUPLICATE KEY UPDATE " ++ values_list (B "=") (kept (read h omit ++ acc) l) else []) ++ B ";").
  { intros h1 om acc c l I O. rewrite (iv_read _ _ _ _ _ I), (ow_read _ _ _ _ _ O). reflexivity. }
  destruct (m_key m) as [|pk idx v|pk idx v|names idxs vs].
  - cbn [agrees]. rewrite (RE _ _ _ _ _ I1 O1), app_nil_r. split; [reflexivity|exact (iv_un _ _ _ _ _ I1)].
  - pose proof (inv_append room h omit _ _ [] [pk] I1) as I2.
    pose proof (own_append room h omit _ _ [] [pk] _ (m_columns m) I1 O1) as O2.
    destruct (append room (h ++ [m_columns m]) omit [pk]) as [h2 om2]. cbn [fst snd] in *.
    pose proof (own_delete room h omit _ _ _ _ (m_columns m) idx I2 O2) as D.
    destruct (remove_at idx (m_columns m)) as [columns| |].
    2: { destruct D as [C _]. discriminate C. }
    2: { destruct D as [_ D]. rewrite D. reflexivity. }
    destruct D as [h3 [c [E [I3 O3]]]]. rewrite E. cbn [bind fst snd s_len].
    destruct (repeat_tail _ (length (m_columns m))) as [r| |]; [|reflexivity|reflexivity]. cbn [bind].
    destruct (map_res _ data) as [vals| |]; [|reflexivity|reflexivity]. cbn [bind agrees].
    rewrite (RE _ _ _ _ _ I3 O3), (ow_read _ _ _ _ _ O3). split; [reflexivity|exact (iv_un _ _ _ _ _ I3)].
  - pose proof (inv_append room h omit _ _ [] [pk] I1) as I2.
    pose proof (own_append room h omit _ _ [] [pk] _ (m_columns m) I1 O1) as O2.
    destruct (append room (h ++ [m_columns m]) omit [pk]) as [h2 om2]. cbn [fst snd] in *. cbn [agrees].
    rewrite (RE _ _ _ _ _ I2 O2), (ow_read _ _ _ _ _ O2). split; [reflexivity|exact (iv_un _ _ _ _ _ I2)].
  - pose proof (own_delete_all room h omit idxs _ _ _ _ (m_columns m) I1 O1) as D.
    destruct (remove_all idxs (m_columns m)) as [columns| |].
    2: { destruct D as [C _]. discriminate C. }
    2: { destruct D as [_ D]. rewrite D. reflexivity. }
    destruct D as [h3 [c [E [I3 O3]]]]. rewrite E. cbn [bind fst snd agrees].
    rewrite (RE _ _ _ _ _ I3 O3), (ow_read _ _ _ _ _ O1), app_nil_r. split; [reflexivity|exact (iv_un _ _ _ _ _ I3)].
Qed.

(** ** Any sequence of calls whose slices were built for them *)
Lemma call_agrees : forall (h : heap) (c : scall V), (forall s, In s (call_slices c) -> full h s) ->
  agrees (fun _ _ => False) h (call_h room h c) (call_l h c).
Proof.
  intros h c F.
  assert (NG : forall s, s_len s = s_cap s -> forall a i, ~ grows s a i) by (intros s E a i [_ G]; lia).
  assert (WK : forall s R (x : res (heap * R)) y, s_len s = s_cap s -> agrees (grows s) h x y -> agrees (fun _ _ => False) h x y).
  { intros s R x y E A. unfold agrees in *. destruct x as [[h' r]| |]; [|exact A|exact A].
    destruct A as [A1 A2]. split; [exact A1|]. revert A2. apply unchanged_weaken. intros a i G. exact (NG s E a i G). }
  destruct c as [d data|m o|data o|data ov om]; cbn [call_h call_l call_slices] in *.
  - apply C90_insert_partial.
  - destruct (F (so_omit o) (or_introl eq_refl)) as [V1 E1].
    destruct (F (so_dup o) (or_intror (or_introl eq_refl))) as [V2 E2].
    pose proof (WK (so_omit o) _ _ _ E1 (C90_upsert_one_partial m h o V1 V2 (fun a i _ => NG _ E1 a i))) as A.
    unfold agrees in *. destruct (upsert_one_pg_h _ _ h m o) as [[h' r]| |]; cbn [bind fst snd].
    + destruct A as [-> A2]. split; [reflexivity|exact A2].
    + rewrite A. reflexivity.
    + rewrite A. reflexivity.
  - destruct (F (so_omit o) (or_introl eq_refl)) as [V1 E1].
    destruct (F (so_dup o) (or_intror (or_introl eq_refl))) as [V2 E2].
    exact (WK (so_omit o) _ _ _ E1 (C90_upsert_partial data h o V1 V2 (fun a i _ => NG _ E1 a i))).
  - destruct (F om (or_introl eq_refl)) as [V1 E1].
    exact (WK om _ _ _ E1 (C90_upsert_others_partial data ov h om V1)).
Qed.

Lemma cells_length : forall (l l' : list bytes), (forall i, nth_error l' i = nth_error l i) -> length l' = length l.
Proof. intros l l' E. rewrite (list_ext l' l E). reflexivity. Qed.
Lemma full_kept : forall h h' s, unchanged (fun _ _ => False) h h' -> full h s -> full h' s /\ read h' s = read h s.
Proof.
  intros h h' s [L U] [Vd E].
  assert (AL : forall a, a < length h -> length (nth a h' []) = length (nth a h []))
    by (intros a A; apply cells_length; intros i; exact (U a i A (fun X => X))).
  split; [split; [exact (valid_keep h h' s Vd L AL)|exact E]|].
  apply read_cells. intros a i Sh. apply U; [exact (valid_in h s a i Vd (or_introl Sh))|intros X; exact X].
Qed.
Lemma call_l_same : forall h h' (c : scall V), (forall s, In s (call_slices c) -> read h' s = read h s) -> call_l h' c = call_l h c.
Proof.
  intros h h' c E. destruct c as [d data|m o|data o|data ov om]; cbn [call_l call_slices] in *; [reflexivity| | |].
  - unfold given. rewrite (E (so_omit o) (or_introl eq_refl)), (E (so_dup o) (or_intror (or_introl eq_refl))). reflexivity.
  - unfold given. rewrite (E (so_omit o) (or_introl eq_refl)), (E (so_dup o) (or_intror (or_introl eq_refl))). reflexivity.
  - rewrite (E om (or_introl eq_refl)). reflexivity.
Qed.
Lemma run_l_same : forall (cs : list (scall V)) h h', (forall c s, In c cs -> In s (call_slices c) -> read h' s = read h s) ->
  run_l h' cs = run_l h cs.
Proof.
  induction cs as [|c cs IH]; intros h h' E; [reflexivity|]. cbn [run_l].
  rewrite (call_l_same h h' c (fun s I => E c s (or_introl eq_refl) I)).
  rewrite (IH h h' (fun c' s I => E c' s (or_intror I))). reflexivity.
Qed.

Theorem C90_sequence_partial : forall (cs : list (scall V)) (h : heap),
  (forall c s, In c cs -> In s (call_slices c) -> full h s) ->
  run_h room h cs = run_l h cs.
Proof.
  induction cs as [|c cs IH]; intros h F; [reflexivity|]. cbn [run_h run_l].
  pose proof (call_agrees h c (fun s I => F c s (or_introl eq_refl) I)) as A. unfold agrees in A.
  destruct (call_h room h c) as [[h' r]| |]; [|rewrite A; reflexivity|rewrite A; reflexivity].
  destruct A as [-> U]. f_equal. rewrite (IH h').
  - apply run_l_same. intros c' s I J. exact (proj2 (full_kept h h' s U (F c' s (or_intror I) J))).
  - intros c' s I J. exact (proj1 (full_kept h h' s U (F c' s (or_intror I) J))).
Qed.

(** ** What is overwritten *)

(** the cells of [om] from [i] on, and those already written, survive later appends *)
Lemma append_keeps : forall h s xs a i, valid h s -> a < length h -> ~ grows s a i ->
  cell (fst (append room h s xs)) a i = cell h a i.
Proof. intros h s xs a i Vd A N. exact (ap_cells _ _ _ _ _ (append_ok room h s xs Vd) a i A N). Qed.

(** If the slice given to WithOmitFields can grow, the cell after it holds the key's name after the call: a slice of
    the caller that shows this cell has lost its string. *)
Theorem C90_overwritten_refuted : forall (m : model V) (h : heap) (o : opts) (h' : heap) (r : request V) (pk : bytes),
  key_names m = Ok [pk] -> valid h (so_omit o) -> s_len (so_omit o) < s_cap (so_omit o) ->
  upsert_one_pg_h room (generated_columns (m_columns m)) h m o = Ok (h', r) ->
  cell h' (s_arr (so_omit o)) (s_off (so_omit o) + s_len (so_omit o)) = Some pk.
Proof.
  intros m h o h' r pk K Vo L R.
  set (a := s_arr (so_omit o)). set (i := s_off (so_omit o) + s_len (so_omit o)).
  assert (A0 : a < length h) by (destruct Vo as [_ [Z|[Q _]]]; [lia|exact Q]).
  revert R. unfold upsert_one_pg_h. cbv zeta. rewrite K. cbn [bind].
  pose proof (inv_start h (so_omit o) Vo) as I0.
  pose proof (inv_literal h (so_omit o) h (so_omit o) [] (m_columns m) I0) as I1.
  pose proof (own_literal h (so_omit o) h (so_omit o) [] (m_columns m) I0) as O1.
  cbn [generated_columns literal fst snd] in *.
  pose proof (inv_append room h (so_omit o) _ _ [] [pk] I1) as I2.
  pose proof (own_append room h (so_omit o) _ _ [] [pk] _ (m_columns m) I1 O1) as O2.
  assert (C2 : cell (fst (append room (h ++ [m_columns m]) (so_omit o) [pk])) a i = Some pk).
  { apply append_first; [exact (iv_valid _ _ _ _ _ I1)|cbn [length]; lia]. }
  assert (G2 : ~ grows (snd (append room (h ++ [m_columns m]) (so_omit o) [pk])) a i).
  { unfold append. cbv zeta. destruct (Nat.leb_spec (s_len (so_omit o) + length [pk]) (s_cap (so_omit o))) as [LE|LE];
      [|cbn [length] in LE; lia].
    cbn [snd]. intros [_ G]. cbn [upto s_off s_len s_cap length] in G. unfold i in G. lia. }
  destruct (append room (h ++ [m_columns m]) (so_omit o) [pk]) as [h2 om2]. cbn [fst snd] in *.
  assert (S2 : length h <= length h2) by exact (proj1 (iv_un _ _ _ _ _ I2)).
  pose proof (own_delete_opt room h (so_omit o) _ _ _ _ (m_columns m) (auto_idx m) I2 O2) as D.
  assert (D3 : forall h3 c, delete_opt room h2 {| s_arr := length h; s_off := 0; s_len := length (m_columns m); s_cap := length (m_columns m) |} (auto_idx m) = Ok (h3, c)
               -> cell h3 a i = Some pk).
  { intros h3 c E. rewrite <- C2. destruct (auto_idx m) as [k|]; cbn [delete_opt] in E; [|injection E as <- _; reflexivity].
    destruct (Nat.lt_ge_cases k (length (m_columns m))) as [KL|KL].
    - destruct (delete_ok room h2 {| s_arr := length h; s_off := 0; s_len := length (m_columns m); s_cap := length (m_columns m) |} k (ow_valid _ _ _ _ _ O2)) as [h3' [c' [E' [_ [_ [_ [_ [S3 _]]]]]]]]; [exact KL|].
      rewrite E in E'. injection E' as <- <-. apply S3; [lia|]. cbn [s_arr]. intros X _. lia.
    - rewrite delete_panic in E by exact KL. discriminate E. }
  destruct (without (auto_idx m) (m_columns m)) as [columns| |].
  2: { destruct D as [C _]. discriminate C. }
  2: { destruct D as [_ D]. rewrite D. discriminate. }
  destruct D as [h3 [c [E [I3 O3]]]]. rewrite E. cbn [bind fst snd]. pose proof (D3 h3 c E) as C3.
  assert (S3 : length h <= length h3) by exact (proj1 (iv_un _ _ _ _ _ I3)).
  destruct (without (auto_idx m) (m_values m)) as [values| |]; [|discriminate|discriminate]. cbn [bind].
  assert (T : forall p, target_h room h3 m om2 (so_dup o) = Ok p ->
              cell (fst (fst p)) a i = Some pk /\ ~ grows (snd (fst p)) a i /\ valid (fst (fst p)) (snd (fst p)) /\ length h <= length (fst (fst p))).
  { intros p T. unfold target_h in T. destruct (s_len (so_dup o)) as [|n].
    - destruct (m_dup m) as [ks|].
      + injection T as <-. cbn [fst snd].
        pose proof (append_ok room h3 om2 ks (iv_valid _ _ _ _ _ I3)) as AP.
        split; [rewrite append_keeps; [exact C3|exact (iv_valid _ _ _ _ _ I3)|lia|exact G2]|].
        split.
        { intros G. destruct (ap_where _ _ _ _ _ AP) as [[e1 [e2 [e3 e4]]]|e].
          - apply G2. destruct G as [g1 g2]. split; [congruence|]. rewrite e2, e3 in g2. lia.
          - destruct G as [g1 _]. lia. }
        split; [exact (ap_valid _ _ _ _ _ AP)|]. pose proof (ap_size _ _ _ _ _ AP). lia.
      + rewrite K in T. injection T as <-. cbn [fst snd]. split; [exact C3|]. split; [exact G2|].
        split; [exact (iv_valid _ _ _ _ _ I3)|exact S3].
    - injection T as <-. cbn [fst snd]. split; [exact C3|]. split; [exact G2|].
      split; [exact (iv_valid _ _ _ _ _ I3)|exact S3]. }
  destruct (target_h room h3 m om2 (so_dup o)) as [p| |]; [|discriminate|discriminate].
  destruct (T p eq_refl) as [C4 [G4 [V4 S4]]]. cbn [bind].
  assert (C5 : cell (fst (if so_nothing o then fst p else omit_h room (fst (fst p)) m (snd (fst p)))) a i = Some pk
               /\ length h <= length (fst (if so_nothing o then fst p else omit_h room (fst (fst p)) m (snd (fst p))))).
  { destruct (so_nothing o); [split; assumption|]. unfold omit_h. destruct (m_omit m) as [xs|]; [|split; assumption].
    split; [rewrite append_keeps; [exact C4|exact V4|lia|exact G4]|].
    pose proof (ap_size _ _ _ _ _ (append_ok room _ _ xs V4)). lia. }
  destruct C5 as [C5 S5]. intros R.
  match type of R with Ok (?x, _) = _ => assert (h' = x) as -> by congruence end.
  unfold returned. destruct (m_sqlcolumns m); [exact C5|]. cbn [generated_columns literal fst snd].
  unfold cell. rewrite app_nth1 by lia. exact C5.
Qed.

(** ** Models written by hand: Columns() returns the same slice at each call *)
Theorem C90_shared_columns_refuted : forall (d : driver) (h : heap) (c : slice) (m : model V) (idx : nat) (h' : heap) (r : option (request V)),
  auto_idx m = Some idx -> valid h c -> idx < s_len c -> d <> DPostgres ->
  insert_h room (fun h => (h, c)) d h [m] = Ok (h', r) ->
  read h' c = firstn idx (read h c) ++ skipn (S idx) (read h c) ++ skipn (s_len c - 1) (read h c).
Proof.
  intros d h c m idx h' r A Vd L ND R. unfold insert_h in R. cbv zeta in R. rewrite A in R. cbn [fst snd delete_opt] in R.
  pose proof (valid_len h c Vd) as RL.
  destruct (delete_ok room h c idx Vd L) as [h1 [c1 [E [R1 [V1 [S1 [S2 [S3 [e1 [e2 [e3 e4]]]]]]]]]]].
  assert (H1 : h' = h1).
  { rewrite E in R. cbn [bind fst snd] in R. destruct d; [|congruence|];
      (destruct (repeat_tail _ _) as [x| |]; [|discriminate R|discriminate R]; cbn [bind] in R;
       destruct (map_res _ _) as [y| |]; [|discriminate R|discriminate R]; cbn [bind] in R; congruence). }
  subst h1. unfold delete_at in E. destruct (Nat.ltb_spec idx (s_len c)) as [_|Q]; [|lia].
  rewrite read_from in E. remember (skipn (S idx) (read h c)) as tl eqn:ET.
  assert (LT : length tl = s_len c - S idx) by (rewrite ET, skipn_length, RL; reflexivity).
  apply list_ext. intros k. rewrite nth_error_read.
  destruct tl as [|y ys].
  - unfold append in E. injection E as E1 E2. cbn [length] in LT. rewrite <- E1. cbn [app].
    replace (s_len c - 1) with idx by lia. rewrite firstn_skipn. rewrite nth_error_read. reflexivity.
  - remember (y :: ys) as tl' eqn:ETL.
    assert (N0 : length tl' <> 0) by (rewrite ETL; discriminate).
    unfold append in E. cbv zeta in E. rewrite ETL in E. rewrite <- ETL in E.
    cbn [upto s_len s_cap s_arr s_off] in E.
    destruct (Nat.leb_spec (idx + length tl') (s_cap c)) as [C|C]; [|destruct Vd; lia].
    injection E as E1 _. rewrite <- E1.
    assert (RG : s_arr c < length h /\ s_off c + s_cap c <= length (nth (s_arr c) h [])) by (destruct Vd as [X [Z|Q]]; [lia|exact Q]).
    destruct RG as [RG1 RG2]. unfold cell. rewrite nth_store_same by exact RG1.
    destruct Vd as [LC _]. rewrite nth_error_put by lia.
    assert (LF : length (firstn idx (read h c)) = idx) by (rewrite firstn_length, RL; lia).
    destruct (Nat.ltb_spec k (s_len c)) as [K|K].
    + destruct (Nat.ltb_spec (s_off c + k) (s_off c + idx)) as [K1|K1].
      * rewrite nth_error_app1 by lia. rewrite nth_error_firstn. destruct (Nat.ltb_spec k idx); [|lia].
        rewrite nth_error_read. destruct (Nat.ltb_spec k (s_len c)); [reflexivity|lia].
      * rewrite nth_error_app2 by lia. rewrite LF.
        destruct (Nat.ltb_spec (s_off c + k) (s_off c + idx + length tl')) as [K2|K2].
        -- rewrite nth_error_app1 by lia. f_equal. lia.
        -- rewrite nth_error_app2 by lia. rewrite nth_error_skipn, nth_error_read.
           destruct (Nat.ltb_spec (s_len c - 1 + (k - idx - length tl')) (s_len c)) as [K3|K3]; [|lia].
           unfold cell. f_equal. lia.
    + symmetry. apply nth_error_None. rewrite !app_length, LF, skipn_length, RL. lia.
Qed.
End Theorems.

(** ** Cases *)
Definition m_x : model nat :=
  {| m_db := None; m_table := B "users"; m_columns := [B "id"; B "email"; B "name"]; m_sqlcolumns := None;
     m_values := [1; 2; 3]; m_places := fun _ => B "($1,$2)"; m_key := AutoKey (B "id") 0 1; m_dup := None; m_omit := None;
     m_insert := None; m_find := None; m_update := None; m_delete := None |}.
(** fields := []string{"created", "email"} of the caller; fields[:1] and fields[1:] *)
Definition heap_x : heap := [[B "created"; B "email"]].
Definition fields_x : slice := {| s_arr := 0; s_off := 0; s_len := 2; s_cap := 2 |}.
Definition opts_x (omit dup : slice) : opts := {| so_nothing := false; so_omit := omit; so_dup := dup |}.

Example C90_case :
  full heap_x fields_x
  /\ valid heap_x (upto fields_x 1)
  /\ (forall a i, shows (from fields_x 2) a i -> ~ grows (upto fields_x 1) a i)
  /\ exists h' r, upsert_one_pg_h (fun n => n) (generated_columns (m_columns m_x)) heap_x m_x (opts_x fields_x (from fields_x 1)) = Ok (h', r)
       /\ fst r = B "INSERT INTO users (email,name) VALUES ($1,$2) ON CONFLICT(email) DO UPDATE SET name = EXCLUDED.name RETURNING id,email,name;"
       /\ read h' fields_x = [B "created"; B "email"].
Proof.
  split; [split; [split; [cbn; lia|right; cbn; lia]|reflexivity]|].
  split; [split; [cbn; lia|right; cbn; lia]|].
  split; [intros a i [_ G]; cbn in G; lia|].
  do 2 eexists. split; [vm_compute; reflexivity|split; vm_compute; reflexivity].
Qed.

(** The caller's slice shows the key's name after a call that was given a part of it; and when the other part is the
    duplicate keys of the same call, the statement has another conflict target than the one asked for. *)
Theorem C90_option_slices_refuted : exists (h : heap) (m : model nat) (fields : slice) (o : opts) (h' : heap) (r : request nat),
  valid h fields /\ so_omit o = upto fields 1 /\ so_dup o = from fields 1
  /\ upsert_one_pg_h (fun n => n) (generated_columns (m_columns m)) h m o = Ok (h', r)
  /\ read h fields = [B "created"; B "email"] /\ read h' fields = [B "created"; B "id"]
  /\ upsert_one_pg m (given h o) <> Ok r
  /\ fst r = B "INSERT INTO users (email,name) VALUES ($1,$2) ON CONFLICT(id) DO UPDATE SET email = EXCLUDED.email,name = EXCLUDED.name RETURNING id,email,name;".
Proof.
  exists heap_x, m_x, fields_x, (opts_x (upto fields_x 1) (from fields_x 1)). do 2 eexists.
  split; [split; [cbn; lia|right; cbn; lia]|]. split; [reflexivity|]. split; [reflexivity|].
  split; [vm_compute; reflexivity|]. split; [reflexivity|]. split; [reflexivity|]. split; [vm_compute; discriminate|reflexivity].
Qed.

(** A model whose Columns() returns one package-level slice: the second Insert names a column twice *)
Theorem C90_second_insert_refuted : exists (h : heap) (c : slice) (m : model nat) (h1 h2 : heap) (r1 r2 : request nat),
  valid h c /\ read h c = m_columns m
  /\ insert_h (fun n => n) (fun h => (h, c)) DMySQL h [m] = Ok (h1, Some r1)
  /\ insert_h (fun n => n) (fun h => (h, c)) DMySQL h1 [m] = Ok (h2, Some r2)
  /\ fst r1 = B "INSERT INTO users (email,name) VALUES (?,?);"
  /\ fst r2 = B "INSERT INTO users (name,name) VALUES (?,?);".
Proof.
  exists [[B "id"; B "email"; B "name"]], {| s_arr := 0; s_off := 0; s_len := 3; s_cap := 3 |}, m_x. do 4 eexists.
  split; [split; [cbn; lia|right; cbn; lia]|]. split; [reflexivity|].
  split; [vm_compute; reflexivity|]. split; [vm_compute; reflexivity|]. split; reflexivity.
Qed.

Example C90_sequence_case :
  exists r1 r2, run_h (fun n => n) heap_x [COne m_x (opts_x fields_x nil_slice); CMyMany [m_x] true fields_x] = [Ok (Some r1); Ok (Some r2)]
    /\ fst r1 = B "INSERT INTO users (email,name) VALUES ($1,$2) ON CONFLICT(id) DO UPDATE SET name = EXCLUDED.name RETURNING id,email,name;"
    /\ fst r2 = B "INSERT INTO users (email,name) VALUES (?,?,?) ON DUPLICATE KEY UPDATE name=VALUES(name);".
Proof. do 2 eexists. split; [vm_compute; reflexivity|split; reflexivity]. Qed.

Print Assumptions C90_upsert_one_partial.
Print Assumptions C90_upsert_partial.
Print Assumptions C90_insert_partial.
Print Assumptions C90_upsert_others_partial.
Print Assumptions C90_sequence_partial.
Print Assumptions C90_overwritten_refuted.
Print Assumptions C90_shared_columns_refuted.
Print Assumptions C90_option_slices_refuted.
Print Assumptions C90_second_insert_refuted.
