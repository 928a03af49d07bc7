(** Embedding: the lookup finds the only shallowest declaration, and which methods the generator writes. *)
From Verif Require Import Base ModelStrconv ModelCompiler ModelGen ModelMethods ModelRuntime ModelEmbed SpecEmbed LemmasBase.
From Coq Require Import Lia FinFun.

Section Lookup.
Context {V : Type}.
Notation struct := (struct V).

(** the structs at a depth with their paths *)
Fixpoint numbered {A} (i : nat) (l : list A) {struct l} : list (nat * A) :=
  match l with [] => [] | x :: l' => (i, x) :: numbered (S i) l' end.
Lemma in_numbered : forall {A} (l : list A) i k x, In (k, x) (numbered i l) <-> i <= k /\ nth_error l (k - i) = Some x.
Proof.
  intros A l. induction l as [|y l IH]; intros i k x; cbn [numbered In].
  - split; [intros []|intros [_ E]; destruct (k - i); discriminate E].
  - rewrite IH. split.
    + intros [E|[L E]].
      * injection E as -> ->. split; [lia|]. rewrite Nat.sub_diag. reflexivity.
      * split; [lia|]. replace (k - i) with (S (k - S i)) by lia. exact E.
    + intros [L E]. destruct (Nat.eq_dec k i) as [->|N].
      * left. rewrite Nat.sub_diag in E. injection E as ->. reflexivity.
      * right. split; [lia|]. replace (k - i) with (S (k - S i)) in E by lia. exact E.
Qed.
Fixpoint paths (d : nat) (s : struct) {struct d} : list (list nat * struct) :=
  match d with
  | O => [([], s)]
  | S d' => flat_map (fun ie => map (fun px => (fst ie :: fst px, snd px)) (paths d' (snd ie))) (numbered 0 (st_embeds s))
  end.
Lemma paths_structs : forall d s, map snd (paths d s) = at_depth d s.
Proof.
  intros d. induction d as [|d IH]; intros s; [reflexivity|]. cbn [paths at_depth].
  generalize 0 as i. generalize (st_embeds s) as es. intros es. induction es as [|e es IE]; intros i; [reflexivity|].
  cbn [numbered flat_map]. rewrite map_app, map_map, IE. cbn [fst snd]. rewrite <- IH. f_equal.
Qed.
Lemma paths_reach : forall d s p x, In (p, x) (paths d s) <-> reach s p x /\ length p = d.
Proof.
  intros d. induction d as [|d IH]; intros s p x; cbn [paths].
  - split.
    + intros [E|[]]. injection E as <- <-. split; [constructor|reflexivity].
    + intros [R L]. destruct p; [|discriminate L]. inversion R; subst. left. reflexivity.
  - rewrite in_flat_map. split.
    + intros [[i e] [I1 I2]]. cbn [fst snd] in I2. apply in_map_iff in I2 as [[q y] [E I2]]. cbn [fst snd] in E. injection E as <- <-.
      apply IH in I2 as [R L]. apply in_numbered in I1 as [_ N]. rewrite Nat.sub_0_r in N.
      split; [exact (r_down s i e q y N R)|cbn [length]; lia].
    + intros [R L]. inversion R as [s'|s' i e q y N R' E1 E2]; subst; [discriminate L|].
      exists (i, e). split; [apply in_numbered; rewrite Nat.sub_0_r; split; [lia|exact N]|].
      cbn [fst snd]. apply in_map_iff. exists (q, x). split; [reflexivity|]. apply IH. split; [exact R'|]. cbn [length] in L. lia.
Qed.
Lemma nodup_apart : forall {A} (l l' : list A), NoDup l -> NoDup l' -> (forall x, In x l -> ~ In x l') -> NoDup (l ++ l').
Proof.
  intros A l l' H1 H2 H. induction H1 as [|x l N H1 IH]; [exact H2|]. cbn [app]. constructor.
  - rewrite in_app_iff. intros [I|I]; [exact (N I)|exact (H x (or_introl eq_refl) I)].
  - apply IH. intros y I. apply H. right. exact I.
Qed.
Lemma paths_nodup : forall d s, NoDup (map fst (paths d s)).
Proof.
  intros d. induction d as [|d IH]; intros s; cbn [paths]; [constructor; [intros []|constructor]|].
  generalize 0 as i. generalize (st_embeds s) as es. intros es. induction es as [|e es IE]; intros i; [constructor|].
  cbn [numbered flat_map]. rewrite map_app, map_map. cbn [fst snd]. apply nodup_apart; [|apply IE|].
  - rewrite <- (map_map fst (fun p => i :: p)). apply Injective_map_NoDup; [intros p q E; injection E as E; exact E|apply IH].
  - intros p I J. apply in_map_iff in I as [[q x] [<- I]]. apply in_map_iff in J as [[p y] [E J]].
    cbn [fst] in E. subst p. apply in_flat_map in J as [[k e'] [J1 J2]]. cbn [fst snd] in J2.
    apply in_map_iff in J2 as [[q' y'] [E J2]]. injection E as -> _ _. apply in_numbered in J1. lia.
Qed.

Lemma height_embed : forall (s e : struct), In e (st_embeds s) -> height e < height s.
Proof.
  intros [t ms m es] e I. cbn [st_embeds] in I. cbn [height]. induction es as [|x es IH]; [destruct I|].
  cbn [map fold_right]. destruct I as [->|I]; [lia|]. specialize (IH I). lia.
Qed.
Lemma reach_height : forall (s : struct) p x, reach s p x -> length p < height s.
Proof.
  intros s p x R. induction R as [s|s i e p x N R IH]; [destruct s; cbn; lia|].
  pose proof (height_embed s e (nth_error_In _ _ N)). cbn [length]. lia.
Qed.

Lemma filter_map_snd : forall {A C} (f : C -> bool) (l : list (A * C)), filter f (map snd l) = map snd (filter (fun p => f (snd p)) l).
Proof. intros A C f l. induction l as [|[a c] l IH]; [reflexivity|]. cbn [map filter snd]. destruct (f c); cbn [map snd]; rewrite IH; reflexivity. Qed.
Lemma filter_nodup_fst : forall {A C} (f : A * C -> bool) (l : list (A * C)), NoDup (map fst l) -> NoDup (map fst (filter f l)).
Proof.
  intros A C f l. induction l as [|[a c] l IH]; intros N; [constructor|]. cbn [filter map fst] in *.
  inversion N as [|? ? N1 N2]; subst. destruct (f (a, c)); [|exact (IH N2)]. cbn [map fst]. constructor; [|exact (IH N2)].
  intros I. apply N1. apply in_map_iff in I as [[a' c'] [E I]]. apply filter_In in I. apply in_map_iff. exists (a', c'). tauto.
Qed.

Definition declarers (n : bytes) (d : nat) (s : struct) : list (list nat * struct) :=
  filter (fun px => bmem n (st_methods (snd px))) (paths d s).
Lemma in_declarers : forall n d s p x, In (p, x) (declarers n d s) <-> (reach s p x /\ length p = d) /\ In n (st_methods x).
Proof. intros n d s p x. unfold declarers. rewrite filter_In, paths_reach, bmem_In. reflexivity. Qed.

(** the search finds the only shallowest declaration *)
Lemma search_iff : forall n (s x : struct) fuel d, d + fuel = height s ->
  (forall q y, reach s q y -> In n (st_methods y) -> d <= length q) ->
  (search n s d fuel = Some x <-> shallowest n s x).
Proof.
  intros n s x fuel. induction fuel as [|f IH]; intros d F LO; cbn [search].
  - split; [discriminate|]. intros [p [R [I _]]]. pose proof (reach_height s p x R). specialize (LO p x R I). lia.
  - rewrite <- paths_structs, filter_map_snd. fold (declarers n d s).
    pose proof (filter_nodup_fst (fun px => bmem n (st_methods (snd px))) (paths d s) (paths_nodup d s)) as ND. fold (declarers n d s) in ND.
    pose proof (in_declarers n d s) as ID.
    destruct (declarers n d s) as [|[p0 x0] [|[p1 x1] r]]; cbn [map snd].
    + apply IH; [lia|]. intros q y R I. specialize (LO q y R I). destruct (Nat.eq_dec (length q) d) as [E|N]; [|lia].
      exfalso. exact (proj2 (ID q y) (conj (conj R E) I)).
    + destruct (proj1 (ID p0 x0) (or_introl eq_refl)) as [[R0 L0] I0]. split.
      * intros E. injection E as <-. exists p0. split; [exact R0|]. split; [exact I0|]. intros q y R I. specialize (LO q y R I).
        destruct (Nat.eq_dec (length q) d) as [E|N]; [|right; lia]. left.
        destruct (proj2 (ID q y) (conj (conj R E) I)) as [E'|[]]. congruence.
      * intros [p [R [I U]]]. destruct (U p0 x0 R0 I0) as [E|L].
        -- subst p0. f_equal. destruct (proj2 (ID p x) (conj (conj R L0) I)) as [E'|[]]. congruence.
        -- specialize (LO p x R I). lia.
    + split; [discriminate|]. intros [p [R [I U]]].
      destruct (proj1 (ID p0 x0) (or_introl eq_refl)) as [[R0 L0] I0].
      destruct (proj1 (ID p1 x1) (or_intror (or_introl eq_refl))) as [[R1 L1] I1].
      specialize (LO p x R I). destruct (U p0 x0 R0 I0) as [E0|E0]; [|lia]. destruct (U p1 x1 R1 I1) as [E1|E1]; [|lia].
      cbn [map fst] in ND. inversion ND as [|? ? N _]; subst. exfalso. apply N. left. reflexivity.
Qed.
Lemma find_iff : forall n (s x : struct), find_method n s = Some x <-> shallowest n s x.
Proof. intros n s x. apply search_iff; [reflexivity|]. intros. lia. Qed.

Lemma find_here : forall n (s : struct), In n (st_methods s) -> find_method n s = Some s.
Proof.
  intros n s I. apply find_iff. exists []. split; [constructor|]. split; [exact I|].
  intros q y R _. destruct q; [left; reflexivity|right; cbn; lia].
Qed.
Lemma find_none : forall n (s : struct), (forall p x, reach s p x -> ~ In n (st_methods x)) -> find_method n s = None.
Proof.
  intros n s N. destruct (find_method n s) as [x|] eqn:E; [|reflexivity]. apply find_iff in E as [p [R [I _]]].
  destruct (N p x R I).
Qed.
Lemma find_inside : forall n (s x : struct), ~ In n (st_methods s) -> find_method n s = Some x -> inside s x /\ In n (st_methods x).
Proof.
  intros n s x N E. apply find_iff in E as [p [R [I _]]]. split; [|exact I]. exists p. split; [|exact R].
  intros ->. inversion R; subst. exact (N I).
Qed.
End Lookup.

(** ** What the generator writes *)
Section Written.
Variables (strict : bool) (user : bytes -> own) (t : table).
Hypothesis never_wrong : forall n, user n <> Wrong.
(** fields have exported names *)
Hypothesis exported : forall c, In c (t_columns t) -> c_goname c <> B "s".

Definition if_missing (n : bytes) (l : list method) : list method := match user n with Missing => l | _ => [] end.
Definition fixed : list method :=
  if_missing (B "TableName") [by_value (B "TableName")] ++ key_methods t ++ if_missing (B "SQLColumns") (sql_columns_method t)
  ++ if_missing (B "Columns") [by_value (B "Columns")]
  ++ (if t_readonly t then [] else if_missing (B "Values") (values_method t))
  ++ if_missing (B "Addrs") [by_pointer (B "Addrs")] ++ insert_methods t ++ statement_methods t.

Lemma gen_shape : gen_methods (B "Column") strict user t
  = Ok (fixed ++ map value_method (t_columns t) ++ map (column_method (B "Column")) (t_columns t)).
Proof.
  assert (U : forall n l, unless_own strict user n l = Ok (if_missing n l)).
  { intros n l. unfold unless_own, if_missing. destruct (user n) eqn:E; [reflexivity|reflexivity|destruct (never_wrong n E)]. }
  unfold gen_methods. rewrite !U. cbn [bind].
  unfold fixed. destruct (t_readonly t); cbn [bind app]; rewrite <- ?app_assoc; reflexivity.
Qed.

Definition known : list bytes :=
  map B ["TableName"; "HasPK"; "IsAutoIncr"; "PK"; "CompositeKey"; "SQLColumns"; "Columns"; "Values"; "Addrs"; "InsertPlaceholders";
         "InsertOneStmt"; "FindOneByPKStmt"; "UpdateOneByPKStmt"; "DatabaseName"; "DuplicateKeys"; "OnUpsertOmitColumns"; "DeleteOneByPKStmt"]%string.

Lemma not_value : forall n c, In n known -> m_name (value_method c) <> n.
Proof.
  intros n c I E. unfold value_method, by_value in E. cbn [m_name] in E. apply (f_equal (@rev _)) in E. rewrite rev_app_distr in E.
  unfold known in I. cbn [map In] in I.
  repeat (destruct I as [<-|I]; [revert E; vm_compute; discriminate|]). destruct I.
Qed.
Lemma not_column : forall n c, In n known -> c_goname c <> B "s" -> m_name (column_method (B "Column") c) <> n.
Proof.
  intros n c I N E. unfold column_method, by_value in E. cbn [m_name] in E.
  unfold known in I. cbn [map In] in I.
  repeat (destruct I as [<-|I]; [first [revert E; vm_compute; discriminate | apply N; revert E; clear; vm_compute; intros E; injection E as E; exact E]|]).
  destruct I.
Qed.
Lemma written_fixed : forall ms n, gen_methods (B "Column") strict user t = Ok ms -> In n known ->
  (In n (map m_name ms) <-> In n (map m_name fixed)).
Proof.
  intros ms n G K. rewrite gen_shape in G.
  match type of G with Ok ?z = _ => assert (ms = z) as -> by congruence end.
  rewrite !map_app, !in_app_iff. split; [|tauto]. intros [I|[I|I]]; [exact I| |]; exfalso.
  - apply in_map_iff in I as [x [E I]]. apply in_map_iff in I as [c [<- I]]. exact (not_value n c K E).
  - apply in_map_iff in I as [x [E I]]. apply in_map_iff in I as [c [<- I]]. exact (not_column n c K (exported c I) E).
Qed.
End Written.

Section WrittenIff.
Variables (strict : bool) (user : bytes -> own) (t : table).
Hypothesis never_wrong : forall n, user n <> Wrong.
Hypothesis exported : forall c, In c (t_columns t) -> c_goname c <> B "s".

Lemma in_if_missing : forall n k l, In k (map m_name (if_missing user n l)) <-> user n = Missing /\ In k (map m_name l).
Proof. intros n k l. unfold if_missing. destruct (user n); cbn [map In]; split; try tauto; intros X; try (destruct X as [X _]; discriminate X); destruct X. Qed.
Lemma has_pk_iff : has_pk t = true <-> keyed_table t.
Proof.
  unfold has_pk, keyed_table. destruct (t_auto t); [split; [left; discriminate|reflexivity]|].
  destruct (t_keys t); split; try discriminate; try reflexivity; [intros [N|N]; destruct (N eq_refl)|right; discriminate].
Qed.
Lemma scanner_some : existsb has_scanner (t_columns t) = true <-> exists c, In c (t_columns t) /\ c_unwrap c <> ([], []).
Proof.
  rewrite existsb_exists. split; intros [c [I E]]; exists c; (split; [exact I|]).
  - unfold has_scanner in E. intros N. rewrite N in E. discriminate E.
  - unfold has_scanner. destruct (c_unwrap c) as [[|a x] [|b y]]; [destruct (E eq_refl)|reflexivity|reflexivity|reflexivity].
Qed.

Ltac no := let E := fresh in intros E; vm_compute in E; discriminate E.
Ltac names := repeat match goal with H : _ \/ _ |- _ => destruct H as [H|H] | H : False |- _ => destruct H end.

Lemma written_iff : forall ms n, gen_methods (B "Column") strict user t = Ok ms -> In n known ->
  (In n (map m_name ms) <-> written user t n).
Proof.
  intros ms n G K. rewrite (written_fixed strict user t never_wrong exported ms n G K).
  unfold fixed. rewrite !map_app, !in_app_iff, !in_if_missing. pose proof has_pk_iff as PK. pose proof scanner_some as SC. split.
  - intros [[U [<-|[]]]|[I|[[U I]|[[U [<-|[]]]|[I|[[U [<-|[]]]|[I|I]]]]]]].
    + apply w_table. exact U.
    + unfold key_methods in I. destruct (has_pk t) eqn:P; [|destruct I]. pose proof (proj1 PK eq_refl) as KT. destruct I as [<-|I]; [apply w_has_pk; exact KT|].
      destruct (t_auto t) as [a|] eqn:A.
      * assert (NA : t_auto t <> None) by congruence. destruct I as [<-|[<-|[<-|[]]]];
          [apply w_auto; exact NA|exfalso; revert K; vm_compute; intros K; names; discriminate K|apply w_pk; left; exact NA].
      * destruct KT as [KT|KT]; [congruence|]. destruct (t_keys t) as [|k [|k2 ks]] eqn:KS; [congruence| |]; destruct I as [<-|[]].
        -- apply w_pk. right. rewrite KS. reflexivity.
        -- apply w_composite; [exact A|rewrite KS; cbn; lia].
    + unfold sql_columns_method in I. destruct (existsb has_scanner (t_columns t)); [|destruct I]. destruct I as [<-|[]].
      destruct (proj1 SC eq_refl) as [c [I1 I2]]. exact (w_sql user t c U I1 I2).
    + apply w_columns. exact U.
    + destruct (t_readonly t) eqn:R; [destruct I|]. apply in_if_missing in I as [U I]. unfold values_method in I.
      destruct (insert_columns t) eqn:IC; [destruct I|]. destruct I as [<-|[]]. apply w_values; [exact U|exact R|congruence].
    + apply w_addrs. exact U.
    + unfold insert_methods in I. destruct (t_readonly t) eqn:R; [destruct I|]. destruct (insert_columns t) as [|c0 cs] eqn:IC; [destruct I|].
      assert (NI : insert_columns t <> []) by congruence. rewrite map_app, in_app_iff in I.
      destruct I as [I|[<-|[<-|[]]]]; [|apply w_places; assumption|apply w_insert; assumption].
      destruct (Nat.eqb _ _) in I; [destruct I|]. destruct I as [<-|[]].
      exfalso. revert K. vm_compute. intros K. names; discriminate K.
    + unfold statement_methods in I. destruct (has_pk t) eqn:P; [|destruct I]. pose proof (proj1 PK eq_refl) as KT.
      destruct I as [<-|I]; [apply w_find; exact KT|].
      destruct (t_readonly t) eqn:R; [destruct I|]. destruct (columns_without_pk t) eqn:C; [destruct I|]. destruct I as [<-|[]].
      apply w_update; [exact KT|exact R|congruence].
  - intros W. destruct W as [U|U|U|c U I1 I2|U R I|KT|A|P|A L|R I|R I|KT|KT R C].
    + left. split; [exact U|left; reflexivity].
    + do 3 right. left. split; [exact U|left; reflexivity].
    + do 5 right. left. split; [exact U|left; reflexivity].
    + do 2 right. left. split; [exact U|]. unfold sql_columns_method.
      rewrite (proj2 SC (ex_intro _ c (conj I1 I2))). left. reflexivity.
    + do 4 right. left. rewrite R. apply in_if_missing. split; [exact U|]. unfold values_method.
      destruct (insert_columns t); [congruence|left; reflexivity].
    + right. left. unfold key_methods. rewrite (proj2 PK KT). left. reflexivity.
    + right. left. unfold key_methods. rewrite (proj2 PK (or_introl A)). destruct (t_auto t); [|congruence]. right. left. reflexivity.
    + right. left. unfold key_methods. rewrite (proj2 PK).
      * destruct (t_auto t); [do 3 right; left; reflexivity|]. destruct P as [P|P]; [congruence|].
        destruct (t_keys t) as [|k [|k2 ks]]; [discriminate P|right; left; reflexivity|discriminate P].
      * destruct P as [P|P]; [left; exact P|right]. intros E. rewrite E in P. discriminate P.
    + right. left. unfold key_methods. rewrite (proj2 PK).
      * rewrite A. destruct (t_keys t) as [|k [|k2 ks]]; [cbn in L; lia|cbn in L; lia|right; left; reflexivity].
      * right. intros E. rewrite E in L. cbn in L. lia.
    + do 6 right. left. unfold insert_methods. rewrite R. destruct (insert_columns t) as [|c0 cs]; [congruence|].
      rewrite map_app, in_app_iff. right. left. reflexivity.
    + do 6 right. left. unfold insert_methods. rewrite R. destruct (insert_columns t) as [|c0 cs]; [congruence|].
      rewrite map_app, in_app_iff. right. right. left. reflexivity.
    + do 7 right. unfold statement_methods. rewrite (proj2 PK KT). left. reflexivity.
    + do 7 right. unfold statement_methods. rewrite (proj2 PK KT), R. destruct (columns_without_pk t); [congruence|]. right. left. reflexivity.
Qed.
End WrittenIff.

(** what flattening says of the methods *)
Lemma flattened_keyed : forall e t, flattened e t -> keyed_table e -> keyed_table t.
Proof. intros e t [F1 [F2 _]] [K|K]; [left; exact (F1 K)|right; exact (F2 K)]. Qed.
Lemma flattened_update : forall e t, flattened e t -> columns_without_pk e <> [] -> columns_without_pk t <> [].
Proof.
  intros e t [_ [_ F]] N E. destruct (columns_without_pk e) as [|c l] eqn:C; [congruence|].
  assert (I : In c (columns_without_pk e)) by (rewrite C; left; reflexivity).
  unfold columns_without_pk in I. apply filter_In in I as [I P]. apply negb_true_iff in P.
  apply orb_false_iff in P as [P P3]. apply orb_false_iff in P as [P1 P2].
  destruct (F c I) as (c' & I' & E1 & E2 & _ & A & Ky).
  assert (J : In c' (columns_without_pk t)).
  { unfold columns_without_pk. apply filter_In. split; [exact I'|]. apply negb_true_iff. apply orb_false_iff. split; [apply orb_false_iff; split|].
    - apply bmem_not_In. intros X. apply Ky in X. apply bmem_In in X. congruence.
    - congruence.
    - destruct (is_auto t c') eqn:Q; [|reflexivity]. rewrite (proj1 A eq_refl) in P3. discriminate P3. }
  rewrite E in J. destruct J.
Qed.
