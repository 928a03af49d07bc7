(** C46, C47, C50: configuration, imports, dialects. *)
From Coq Require Import FinFun.
From Verif Require Import Base ModelStrconv ModelConfig LemmasBase.

(** ** C46 *)
(** [user] when set, otherwise [default] *)
Inductive chosen : bytes -> bytes -> bytes -> Prop :=
| ch_user c s d : chosen (c :: s) d (c :: s)
| ch_default d : chosen [] d d.
Definition lookup (t : option (list (bytes * data_type))) (k : bytes) (v : option data_type) : Prop :=
  match t, v with
  | Some l, Some x => exists a b, l = a ++ (k, x) :: b /\ ~ In k (map fst a)
  | Some l, None => ~ In k (map fst l)
  | None, _ => v = None
  end.
Lemma or_else_chosen u d : chosen u d (or_else u d).
Proof. destruct u; constructor. Qed.
Lemma chosen_eq u d r : chosen u d r -> r = or_else u d.
Proof. inversion 1; reflexivity. Qed.
(** The defaults are those of a fresh configuration (init_config), or of a file read over it: all that is asked is that they are set. *)
Definition defaults (c : config) : Prop :=
  g_source c <> None /\ g_driver c <> [] /\ g_naming c <> [] /\ g_tag c <> [] /\ g_strict c <> None /\ g_filename c <> [] /\ g_prefix c <> [] /\ g_types c <> None /\
  exists d o, g_database c = Some d /\ d_operator d = Some o /\ d_package d <> [] /\ d_dir d <> [] /\ d_filename d <> [] /\ o_package o <> [] /\ o_dir o <> [] /\ o_filename o <> [].
Lemma or_else_set u d v : d <> [] -> or_else (or_else u d) v = or_else u d.
Proof. destruct u; [|reflexivity]. cbn. destruct d; [contradiction|reflexivity]. Qed.
Lemma or_true (a b : bool) : (if a then true else b) = true <-> a = true \/ b = true.
Proof. destruct a; [split; [left; reflexivity|reflexivity]|]. split; [right; assumption|intros [H|H]; [discriminate|exact H]]. Qed.
(** The user's value, or the default.  Partial: not so for the settings of the refutations below. *)
Theorem C46_settings_partial c m r : defaults c -> merge c m = Ok r ->
  (g_source r = match g_source m with Some s => Some s | None => g_source c end) /\
  chosen (g_driver m) (g_driver c) (g_driver r) /\ chosen (g_naming m) (g_naming c) (g_naming r) /\ chosen (g_tag m) (g_tag c) (g_tag r) /\
  (g_strict r = match g_strict m with Some s => Some s | None => g_strict c end) /\
  (g_skip_empty r = true <-> g_skip_empty m = true \/ g_skip_empty c = true) /\
  chosen (g_filename m) (g_filename c) (g_filename r) /\ chosen (g_prefix m) (g_prefix c) (g_prefix r) /\
  (g_skip_header r = true <-> g_skip_header m = true \/ g_skip_header c = true) /\
  (g_skip_tidy r = true <-> g_skip_tidy m = true \/ g_skip_tidy c = true) /\
  (forall k v, lookup (g_types m) k (Some v) -> lookup (g_types r) k (Some v)) /\
  (forall k v, lookup (g_types m) k None -> lookup (g_types c) k v -> lookup (g_types r) k v) /\
  (g_database m = None -> g_database r = g_database c) /\
  (forall d, g_database m = Some d -> exists d' o', g_database r = Some d' /\ d_operator d' = Some o' /\
     chosen (d_package d) (B "db") (d_package d') /\ chosen (d_dir d) (B "db") (d_dir d') /\ chosen (d_filename d) (B "db.go") (d_filename d') /\
     match d_operator d with
     | Some o => chosen (o_package o) (d_package d') (o_package o') /\ chosen (o_dir o) (d_dir d') (o_dir o') /\ chosen (o_filename o) (B "operator.go") (o_filename o')
     | None => o' = {| o_package := d_package d'; o_dir := d_dir d'; o_filename := B "operator.go" |}
     end) /\
  (forall x, g_migration m = Some x -> exists y, g_migration r = Some y /\ m_dsn y = m_dsn x /\
     chosen (m_package x) (B "migrate") (m_package y) /\ chosen (m_dir x) (B "migrate") (m_dir y) /\ chosen (m_filename x) (B "migrate.go") (m_filename y)).
Proof.
  intros (D1 & D2 & D3 & D4 & D5 & D6 & D7 & D8 & db & op & DB & DO & E1 & E2 & E3 & E4 & E5 & E6) M. unfold merge in M.
  set (types := match g_types m with None => _ | _ => _ end) in M. destruct types as [ty| |] eqn:T; cbn [bind] in M; try discriminate. injection M as <-. subst types.
  unfold init_if_empty. cbn [g_source g_driver g_naming g_tag g_strict g_skip_empty g_filename g_prefix g_skip_header g_skip_tidy g_types g_database g_migration].
  rewrite !or_else_set by assumption.
  assert (TC : exists l, g_types c = Some l) by (destruct (g_types c); [eauto|contradiction]). destruct TC as [lc TC].
  assert (TY : exists l, ty = Some l /\ (forall k v, lookup (g_types m) k (Some v) -> lookup (Some l) k (Some v)) /\ (forall k v, lookup (g_types m) k None -> lookup (g_types c) k v -> lookup (Some l) k v)).
  { rewrite TC in *. destruct (g_types m) as [[|p lm]|]; injection T as <-; eexists; (split; [reflexivity|]).
    - split; [intros k v (a & b & E & _); destruct a; discriminate|intros k v _ H; exact H].
    - split.
      + intros k v (a & b & E & N). exists a, (b ++ lc). split; [|exact N]. change (p :: lm ++ lc) with ((p :: lm) ++ lc). rewrite E, <- app_assoc. reflexivity.
      + intros k v NI H. cbn [lookup] in *. destruct v as [v|].
        * destruct H as (a & b & -> & N). exists ((p :: lm) ++ a), b. split; [rewrite <- app_assoc; reflexivity|]. rewrite map_app, in_app_iff. tauto.
        * change (p :: lm ++ lc) with ((p :: lm) ++ lc). rewrite map_app, in_app_iff. tauto.
    - split; [intros k v H; discriminate|intros k v _ H; exact H]. }
  destruct TY as (l & -> & T1 & T2).
  split; [destruct (g_source m); [reflexivity|]; destruct (g_source c); [reflexivity|contradiction]|].
  do 3 (split; [apply or_else_chosen|]). split; [reflexivity|]. split; [apply or_true|]. do 2 (split; [apply or_else_chosen|]).
  split; [apply or_true|]. split; [apply or_true|]. split; [exact T1|]. split; [exact T2|]. split; [|split].
  - intros NM. rewrite NM, DB. destruct db as [p0 d0 f0 o0]. cbn [d_operator d_package d_dir d_filename] in *. subst o0. destruct op as [p1 d1 f1]. cbn [o_package o_dir o_filename] in *.
    destruct p0; [contradiction|]. destruct d0; [contradiction|]. destruct f0; [contradiction|]. destruct p1; [contradiction|]. destruct d1; [contradiction|]. destruct f1; [contradiction|]. reflexivity.
  - intros d ED. rewrite ED. eexists _, _. split; [reflexivity|]. split; [reflexivity|]. cbn [d_package d_dir d_filename]. do 3 (split; [apply or_else_chosen|]).
    destruct (d_operator d) as [o|]; [|reflexivity]. cbn [o_package o_dir o_filename]. do 2 (split; [apply or_else_chosen|]). apply or_else_chosen.
  - intros x EX. rewrite EX. eexists. split; [reflexivity|]. cbn [m_dsn m_package m_dir m_filename]. split; [reflexivity|]. do 2 (split; [apply or_else_chosen|]). apply or_else_chosen.
Qed.
(** Nothing required is left empty, whatever is merged into whatever. *)
Theorem C46_complete_partial c m r : merge c m = Ok r ->
  g_source r <> None /\ g_driver r <> [] /\ g_naming r <> [] /\ g_tag r <> [] /\ g_filename r <> [] /\ g_prefix r <> [] /\ g_types r <> None /\
  (exists d o, g_database r = Some d /\ d_operator d = Some o /\ d_package d <> [] /\ d_dir d <> [] /\ d_filename d <> [] /\ o_package o <> [] /\ o_dir o <> [] /\ o_filename o <> []) /\
  (forall x, g_migration r = Some x -> m_package x <> [] /\ m_dir x <> [] /\ m_filename x <> []).
Proof.
  intros M. unfold merge in M. set (types := match g_types m with None => _ | _ => _ end) in M. destruct types as [ty| |]; cbn [bind] in M; try discriminate. injection M as <-.
  assert (OE : forall u v, v <> [] -> or_else u v <> []) by (intros [|? ?] v H; [exact H|discriminate]).
  unfold init_if_empty. cbn [g_source g_driver g_naming g_tag g_filename g_prefix g_types g_database g_migration].
  split; [destruct (match g_source m with Some s => Some s | None => g_source c end); discriminate|]. do 5 (split; [apply OE; discriminate|]). split; [destruct ty; discriminate|]. split.
  - eexists _, _. split; [reflexivity|]. split; [reflexivity|]. cbn [d_package d_dir d_filename o_package o_dir o_filename]. do 3 (split; [apply OE; discriminate|]). do 2 (split; [apply OE, OE; discriminate|]). apply OE. discriminate.
  - intros x. destruct (match g_migration m with Some y => Some y | None => g_migration c end); [|discriminate]. intros E. injection E as <-. cbn. repeat split; apply OE; discriminate.
Qed.
(** Merging again changes nothing: the same settings, and the same data type for every name. *)
Definition without_types (c : config) : config :=
  {| g_source := g_source c; g_driver := g_driver c; g_naming := g_naming c; g_tag := g_tag c; g_quote := g_quote c; g_readonly := g_readonly c; g_strict := g_strict c;
     g_skip_empty := g_skip_empty c; g_filename := g_filename c; g_prefix := g_prefix c; g_migration := g_migration c; g_database := g_database c;
     g_omit_getters := g_omit_getters c; g_source_map := g_source_map c; g_skip_header := g_skip_header c; g_skip_tidy := g_skip_tidy c; g_types := None |}.
Lemma or_else_idem u d e : or_else u (or_else (or_else u d) e) = or_else (or_else u d) e.
Proof. destruct u; reflexivity. Qed.
Lemma or_else_again u d e : or_else (or_else u (or_else (or_else u d) e)) e = or_else (or_else u d) e.
Proof. destruct u; [|reflexivity]. cbn. destruct d; [destruct e; reflexivity|reflexivity]. Qed.
Fixpoint assoc (l : list (bytes * data_type)) (k : bytes) : option data_type :=
  match l with [] => None | (k', v) :: l' => if bytes_eq_dec k' k then Some v else assoc l' k end.
Lemma lookup_assoc l k v : lookup (Some l) k v <-> assoc l k = v.
Proof.
  induction l as [|[k' v'] l IH]; cbn [assoc].
  - destruct v as [v|]; cbn [lookup]; split; intros H; try discriminate; try reflexivity; try (intros []). destruct H as ([|? ?] & b & E & _); discriminate.
  - destruct (bytes_eq_dec k' k) as [->|NE].
    + destruct v as [v|]; cbn [lookup].
      * split; [|intros E; injection E as ->; exists [], l; split; [reflexivity|intros []]]. intros ([|[k1 v1] a] & b & E & N); [injection E as -> _; reflexivity|].
        injection E as -> -> _. exfalso. apply N. left. reflexivity.
      * split; [intros N; exfalso; apply N; left; reflexivity|discriminate].
    + rewrite <- IH. destruct v as [v|]; cbn [lookup].
      * split.
        -- intros ([|[k1 v1] a] & b & E & N); [injection E as -> _ _; contradiction|]. injection E as -> -> ->. exists a, b. split; [reflexivity|]. intros I. apply N. right. exact I.
        -- intros (a & b & -> & N). exists ((k', v') :: a), b. split; [reflexivity|]. intros [E|I]; [exact (NE E)|exact (N I)].
      * cbn [map fst In]. split; [intros H I; apply H; right; exact I|intros H [E|I]; [exact (NE E)|exact (H I)]].
Qed.
Lemma assoc_app a b k : assoc (a ++ b) k = match assoc a k with Some v => Some v | None => assoc b k end.
Proof. induction a as [|[k' v'] a IH]; [reflexivity|]. cbn [app assoc]. destruct (bytes_eq_dec k' k); [reflexivity|exact IH]. Qed.
Lemma lookup_twice l l0 k v : lookup (Some (l ++ l ++ l0)) k v <-> lookup (Some (l ++ l0)) k v.
Proof. rewrite !lookup_assoc, !assoc_app. destruct (assoc l k); reflexivity. Qed.
(** Merging again changes nothing, and does not fail. *)
Theorem C46_idempotent_partial c m r : merge c m = Ok r -> exists r', merge r m = Ok r' /\ without_types r' = without_types r /\ forall k v, lookup (g_types r') k v <-> lookup (g_types r) k v.
Proof.
  intros M. unfold merge in M. set (types := match g_types m with None => _ | _ => _ end) in M. destruct types as [ty| |] eqn:T; cbn [bind] in M; try discriminate. injection M as <-. subst types.
  assert (T2 : exists ty', match g_types m with
                           | None => Ok (match ty with None => Some [] | t => t end)
                           | Some [] => Ok (match ty with None => Some [] | t => t end)
                           | Some l => match (match ty with None => Some [] | t => t end) with Some l0 => Ok (Some (l ++ l0)) | None => Panic end
                           end = Ok (Some ty') /\ forall k v, lookup (Some ty') k v <-> lookup (match ty with None => Some [] | t => t end) k v).
  { destruct (g_types m) as [[|p lm]|].
    - destruct ty as [l|]; eexists; (split; [reflexivity|]); intros; reflexivity.
    - destruct (g_types c) as [lc|]; [|discriminate]. injection T as <-. eexists. split; [reflexivity|]. intros k v. apply (lookup_twice (p :: lm) lc).
    - destruct ty as [l|]; eexists; (split; [reflexivity|]); intros; reflexivity. }
  destruct T2 as (ty' & E & L). eexists. unfold merge.
  match goal with |- context [init_if_empty ?x] => set (c1 := x) end.
  replace (g_types (init_if_empty c1)) with (match ty with None => Some [] | t => t end) by (destruct ty; reflexivity). rewrite E. cbn [bind]. split; [reflexivity|]. split; [|intros k v; exact (L k v)].
  unfold without_types, c1, init_if_empty.
  cbn [g_source g_driver g_naming g_tag g_quote g_readonly g_strict g_skip_empty g_filename g_prefix g_migration g_database g_omit_getters g_source_map g_skip_header g_skip_tidy g_types].
  assert (SE : forall a b : bool, (if a then true else if a then true else b) = if a then true else b) by (intros [] b; reflexivity).
  rewrite !SE, !or_else_again. clear. f_equal.
  - destruct (g_source m); [reflexivity|]. destruct (g_source c); reflexivity.
  - destruct (g_strict m); reflexivity.
  - destruct (g_migration m); [reflexivity|]. destruct (g_migration c); [|reflexivity]. cbn [m_dsn m_package m_dir m_filename].
    rewrite !or_else_set by discriminate. destruct (m_package m0), (m_dir m0), (m_filename m0); reflexivity.
  - destruct (g_database m) as [d|]; [reflexivity|]. destruct (g_database c) as [d|]; [|reflexivity]. cbn [d_package d_dir d_filename d_operator o_package o_dir o_filename].
    destruct (d_package d), (d_dir d), (d_filename d), (d_operator d) as [[[|? ?] [|? ?] [|? ?]]|]; reflexivity.
Qed.
Print Assumptions C46_settings_partial.
Print Assumptions C46_complete_partial.
Print Assumptions C46_idempotent_partial.
Theorem C46_total_partial c m : g_types c <> None -> exists r, merge c m = Ok r.
Proof. intros D. unfold merge. destruct (g_types m) as [[|p l]|]; [eexists; reflexivity| |eexists; reflexivity]. destruct (g_types c); [eexists; reflexivity|contradiction]. Qed.
(** What the user does not set has the documented value, with a configuration file or without. *)
Theorem C46_defaults_partial c m r : c = init_config \/ c = zero_config -> merge c m = Ok r ->
  (g_source m = None -> g_source r = Some [B "./**/*"]) /\ (g_driver m = [] -> g_driver r = B "mysql") /\ (g_naming m = [] -> g_naming r = B "snake_case") /\ (g_tag m = [] -> g_tag r = B "sql") /\
  (g_filename m = [] -> g_filename r = B "generated.go") /\ (g_prefix m = [] -> g_prefix r = B "Column") /\ (g_migration m = None -> g_migration r = None) /\
  (g_database m = None -> exists o d, g_database r = Some d /\ d_package d = B "db" /\ d_dir d = B "db" /\ d_filename d = B "db.go" /\ d_operator d = Some o /\ o_package o = B "db" /\ o_dir o = B "db" /\ o_filename o = B "operator.go") /\
  (g_strict m = None -> g_strict r = g_strict c) /\ (g_skip_empty m = false -> g_skip_empty r = false) /\ (g_skip_header m = false -> g_skip_header r = false) /\ (g_skip_tidy m = false -> g_skip_tidy r = false).
Proof.
  intros C M. unfold merge in M. destruct (match g_types m with None => _ | _ => _ end); cbn [bind] in M; try discriminate. injection M as <-.
  repeat split; intros E; unfold init_if_empty; cbn -[B]; rewrite ?E; destruct C as [-> | ->]; try reflexivity; eexists _, _; repeat split.
Qed.
(** Three settings are never taken over. *)
Theorem C46_dropped_refuted m r : merge init_config m = Ok r -> g_readonly r = false /\ g_omit_getters r = false /\ g_source_map r = false.
Proof. intros M. unfold merge in M. destruct (match g_types m with None => _ | _ => _ end); cbn [bind] in M; try discriminate. injection M as <-. repeat split. Qed.
(** A setting of the file is lost when the user sets something else. *)
Theorem C46_quote_refuted c m r : g_quote m = false -> merge c m = Ok r -> g_quote r = false.
Proof. intros Q M. unfold merge in M. destruct (match g_types m with None => _ | _ => _ end); cbn [bind] in M; try discriminate. injection M as <-. exact Q. Qed.
Definition with_database (d : database_config) (c : config) : config :=
  {| g_source := g_source c; g_driver := g_driver c; g_naming := g_naming c; g_tag := g_tag c; g_quote := g_quote c; g_readonly := g_readonly c; g_strict := g_strict c;
     g_skip_empty := g_skip_empty c; g_filename := g_filename c; g_prefix := g_prefix c; g_migration := g_migration c; g_database := Some d;
     g_omit_getters := g_omit_getters c; g_source_map := g_source_map c; g_skip_header := g_skip_header c; g_skip_tidy := g_skip_tidy c; g_types := g_types c |}.
Theorem C46_database_refuted : exists d u, d_dir u = [] /\ d_filename u = B "queries.go" /\ d_dir d = B "store" /\
  exists r d', merge (with_database d init_config) (with_database u zero_config) = Ok r /\ g_database r = Some d' /\ d_dir d' = B "db" /\ d_filename d' = B "queries.go".
Proof.
  exists {| d_package := B "store"; d_dir := B "store"; d_filename := B "db.go"; d_operator := None |}, {| d_package := []; d_dir := []; d_filename := B "queries.go"; d_operator := None |}.
  do 3 (split; [reflexivity|]). eexists _, _. repeat split.
Qed.
(** data_types left empty in the file makes the map nil. *)
Theorem C46_nil_types_refuted k v : merge zero_config
    {| g_source := None; g_driver := []; g_naming := []; g_tag := []; g_quote := false; g_readonly := false; g_strict := None; g_skip_empty := false; g_filename := [];
       g_prefix := []; g_migration := None; g_database := None; g_omit_getters := false; g_source_map := false; g_skip_header := false; g_skip_tidy := false; g_types := Some [(k, v)] |} = Panic.
Proof. reflexivity. Qed.
Print Assumptions C46_total_partial.
Print Assumptions C46_defaults_partial.
Print Assumptions C46_dropped_refuted.
Print Assumptions C46_quote_refuted.
Print Assumptions C46_database_refuted.
Print Assumptions C46_nil_types_refuted.
Example C46_case : defaults init_config /\ exists r, merge init_config (with_database {| d_package := B "x"; d_dir := []; d_filename := []; d_operator := None |} zero_config) = Ok r /\
  g_tag r = B "sql" /\ exists d o, g_database r = Some d /\ d_operator d = Some o /\ d_package d = B "x" /\ o_package o = B "x" /\ o_dir o = B "db".
Proof.
  split.
  - repeat (split; [discriminate|]). eexists _, _. split; [reflexivity|]. split; [reflexivity|]. repeat split; discriminate.
  - eexists. split; [reflexivity|]. split; [reflexivity|]. eexists _, _. repeat split.
Qed.

(** ** C47 *)
Lemma name_of_path_spec l p : (forall n, name_of_path l p = Some n -> In (p, n) l) /\ (name_of_path l p = None -> ~ In p (map fst l)).
Proof.
  induction l as [|[p0 n0] l [I1 I2]]; cbn [name_of_path]; [split; [discriminate|intros _ []]|]. destruct (bseq p0 p) eqn:E.
  - apply bseq_eq in E as ->. split; [intros n H; injection H as ->; left; reflexivity|discriminate].
  - apply bseq_neq in E. split; [intros n H; right; exact (I1 n H)|]. intros H [F|I]; [exact (E F)|exact (I2 H I)].
Qed.
(** the candidates of the loop *)
Definition candidate (name : bytes) (k : nat) : bytes := match k with O => name | S k' => name ++ format_uint (N.of_nat (S k')) end.
Lemma candidate_inj name i j : candidate name i = candidate name j -> i = j.
Proof.
  assert (NE : forall n, name = name ++ format_uint n -> False).
  { intros n E. assert (X : format_uint n = []) by (apply (app_inv_head name); rewrite app_nil_r; auto). pose proof (format_uint_nonempty n). contradiction. }
  destruct i as [|i], j as [|j]; cbn [candidate]; intros E; [reflexivity|destruct (NE _ E)|destruct (NE _ (eq_sym E))|]. apply app_inv_head, format_uint_inj, Nat2N.inj in E. exact E.
Qed.
Lemma new_alias_spec taken name : forall fuel k, (forall i, (i < k)%nat -> In (candidate name i) taken) ->
  match new_alias fuel taken name (candidate name k) (N.of_nat (S k)) with
  | Some a => ~ In a taken /\ exists j, a = candidate name j /\ forall i, (i < j)%nat -> In (candidate name i) taken
  | None => forall i, (i < k + fuel)%nat -> In (candidate name i) taken
  end.
Proof.
  induction fuel as [|fuel IH]; intros k H; cbn [new_alias].
  - intros i L. apply H. lia.
  - destruct (bmem (candidate name k) taken) eqn:M.
    + apply bmem_In in M. replace (name ++ format_uint (N.of_nat (S k))) with (candidate name (S k)) by reflexivity. replace (N.of_nat (S k) + 1)%N with (N.of_nat (S (S k))) by lia.
      specialize (IH (S k)). assert (H' : forall i, (i < S k)%nat -> In (candidate name i) taken).
      { intros i L. destruct (Nat.eq_dec i k) as [->|NE]; [exact M|]. apply H. lia. }
      specialize (IH H'). destruct (new_alias fuel taken name (candidate name (S k)) (N.of_nat (S (S k)))); [exact IH|]. intros i L. apply IH. lia.
    + apply bmem_not_In in M. split; [exact M|]. exists k. split; [reflexivity|exact H].
Qed.
Lemma new_alias_total taken name : exists a, new_alias (S (length taken)) taken name name 1 = Some a /\ ~ In a taken /\ exists j, a = candidate name j /\ forall i, (i < j)%nat -> In (candidate name i) taken.
Proof.
  pose proof (new_alias_spec taken name (S (length taken)) 0 ltac:(intros i L; lia)) as H. cbn [candidate N.of_nat] in H. change (N.pos (Pos.of_succ_nat 0)) with 1%N in H.
  destruct (new_alias (S (length taken)) taken name name 1) as [a|]; [exists a; split; [reflexivity|exact H]|]. exfalso.
  assert (ND : NoDup (map (candidate name) (seq 0 (S (length taken))))).
  { apply Injective_map_NoDup; [intros i j; apply candidate_inj|apply seq_NoDup]. }
  assert (INC : incl (map (candidate name) (seq 0 (S (length taken)))) taken).
  { intros x I. apply in_map_iff in I as (i & <- & I). apply in_seq in I. apply H. lia. }
  pose proof (NoDup_incl_length ND INC) as L. rewrite map_length, seq_length in L. lia.
Qed.
(** A table of imports in which every path and every name occurs once. *)
Definition distinct (l : imports) : Prop := NoDup (map fst l) /\ NoDup (map snd l).
Lemma import_spec self load l path name : distinct l -> exists l' r, import self load l path name = Some (l', r) /\ distinct l' /\ incl l l' /\
  match r with
  | Named_as n => In (path, n) l'
  | Skipped => path = self /\ l' = l
  | Unloaded => load path = None /\ l' = l
  end.
Proof.
  intros [N1 N2]. unfold import. destruct (name_of_path_spec l path) as [S1 S2]. destruct (name_of_path l path) as [n|].
  - eexists _, _. split; [reflexivity|]. split; [split; assumption|]. split; [apply incl_refl|]. apply S1. reflexivity.
  - specialize (S2 eq_refl). destruct (load path) as [real|] eqn:L; [|eexists _, _; split; [reflexivity|]; split; [split; assumption|]; split; [apply incl_refl|]; auto].
    destruct (bseq path self) eqn:E; [apply bseq_eq in E; eexists _, _; split; [reflexivity|]; split; [split; assumption|]; split; [apply incl_refl|]; auto|].
    set (nm := match real with [] => name | _ => real end). destruct (new_alias_total (map snd l) nm) as (a & A & NI & _). rewrite map_length in A. rewrite A.
    eexists _, _. split; [reflexivity|]. split; [split; constructor; assumption|]. split; [intros x I; right; exact I|left; reflexivity].
Qed.
(** After any sequence of imports: each succeeds, one path has one name, and two paths have two. *)
Theorem C47_distinct_partial self load ps : exists l, import_all self load [] ps = Some l /\ forall p1 n1 p2 n2, In (p1, n1) l -> In (p2, n2) l -> (p1 = p2 <-> n1 = n2).
Proof.
  assert (G : forall l, distinct l -> exists l', import_all self load l ps = Some l' /\ distinct l').
  { induction ps as [|[p n] ps' IH]; intros l D; [exists l; auto|]. cbn [import_all]. destruct (import_spec self load l p n D) as (l1 & r & E & D1 & _). rewrite E. exact (IH l1 D1). }
  destruct (G [] ltac:(split; constructor)) as (l & E & D1 & D2). exists l. split; [exact E|]. clear E G. intros p1 n1 p2 n2 I1 I2.
  induction l as [|[p n] l IH]; [contradiction|]. inversion D1 as [|? ? F1 D1']; subst. inversion D2 as [|? ? F2 D2']; subst. cbn [fst snd] in *.
  destruct I1 as [E1|I1], I2 as [E2|I2]; [injection E1 as -> ->; injection E2 as -> ->; split; reflexivity| | |exact (IH D1' D2' I1 I2)].
  - injection E1 as -> ->. split; intros ->; exfalso; [apply F1; exact (in_map fst _ _ I2)|apply F2; exact (in_map snd _ _ I2)].
  - injection E2 as -> ->. split; intros ->; exfalso; [apply F1; exact (in_map fst _ _ I1)|apply F2; exact (in_map snd _ _ I1)].
Qed.
(** Importing a path again, whatever came between, gives the same name and imports nothing. *)
Theorem C47_again_partial self load before path name mid name' : forall l0 l1 n l2,
  import_all self load [] before = Some l0 -> import self load l0 path name = Some (l1, Named_as n) -> import_all self load l1 mid = Some l2 ->
  import self load l2 path name' = Some (l2, Named_as n).
Proof.
  assert (G : forall ps l, distinct l -> forall l', import_all self load l ps = Some l' -> distinct l' /\ incl l l').
  { induction ps as [|[p n] ps IH]; intros l D l' H; cbn [import_all] in H; [injection H as <-; split; [exact D|apply incl_refl]|].
    destruct (import_spec self load l p n D) as (l1 & r & E & D1 & I & _). rewrite E in H. destruct (IH l1 D1 l' H) as [D' I']. split; [exact D'|]. exact (incl_tran I I'). }
  intros l0 l1 n l2 E0 E1 E2. destruct (G before [] ltac:(split; constructor) _ E0) as [D0 _]. destruct (import_spec self load l0 path name D0) as (l1' & r & E & D1 & _ & R).
  rewrite E1 in E. injection E as <- <-. destruct (G _ _ D1 _ E2) as [[D2 _] I2]. pose proof (I2 _ R) as IN. unfold import. destruct (name_of_path_spec l2 path) as [S1 S2].
  destruct (name_of_path l2 path) as [n'|]; [|exfalso; apply (S2 eq_refl); exact (in_map fst _ _ IN)]. f_equal. f_equal. f_equal. specialize (S1 _ eq_refl). clear - D2 IN S1.
  induction l2 as [|[p m] l2 IH]; [contradiction|]. inversion D2 as [|? ? F D']; subst. cbn [fst] in F.
  destruct IN as [A|A], S1 as [C|C]; [congruence| | |exact (IH D' A C)]; exfalso; apply F; [injection A as -> ->; exact (in_map fst _ _ C)|injection C as -> ->; exact (in_map fst _ _ A)].
Qed.
(** Every package that is loaded and is not the current one is imported. *)
Theorem C47_imported_partial self load l path name real : distinct l -> load path = Some real -> path <> self -> ~ In path (map fst l) ->
  exists n, import self load l path name = Some ((path, n) :: l, Named_as n) /\ ~ In n (map snd l) /\
  (let wanted := match real with [] => name | _ => real end in n = wanted \/ In wanted (map snd l) /\ exists k, n = wanted ++ format_uint k).
Proof.
  intros D L NS NI. unfold import. destruct (name_of_path_spec l path) as [S1 _]. destruct (name_of_path l path) as [n|]; [exfalso; apply NI; exact (in_map fst _ _ (S1 n eq_refl))|].
  rewrite L. replace (bseq path self) with false by (symmetry; apply bseq_neq; exact NS). set (nm := match real with [] => name | _ => real end).
  destruct (new_alias_total (map snd l) nm) as (a & A & N & j & AJ & J). rewrite map_length in A. rewrite A. exists a. split; [reflexivity|]. split; [exact N|]. cbn zeta.
  destruct j as [|j]; [left; exact AJ|]. right. split; [exact (J 0%nat ltac:(lia))|]. eexists. exact AJ.
Qed.
(** Refuted: the name of the current package [own] is not set apart (the code never looks at it). *)
Theorem C47_own_name_refuted own self load path : path <> self -> load path = Some own -> own <> [] -> import self load [] path own = Some ([(path, own)], Named_as own).
Proof. intros NS L NE. unfold import. cbn [name_of_path]. rewrite L. replace (bseq path self) with false by (symmetry; apply bseq_neq; exact NS). destruct own; [contradiction|]. reflexivity. Qed.
(** Refuted: packages that cannot be loaded keep their names, equal or not, and are not imported. *)
Theorem C47_unloaded_refuted self load l path name : ~ In path (map fst l) -> load path = None -> import self load l path name = Some (l, Unloaded).
Proof. intros NI L. unfold import. destruct (name_of_path_spec l path) as [S1 _]. destruct (name_of_path l path) as [n|]; [exfalso; apply NI; exact (in_map fst _ _ (S1 n eq_refl))|]. rewrite L. reflexivity. Qed.
Print Assumptions C47_distinct_partial.
Print Assumptions C47_again_partial.
Print Assumptions C47_imported_partial.
Print Assumptions C47_own_name_refuted.
Print Assumptions C47_unloaded_refuted.
Definition some_load (p : bytes) : option bytes := if bseq p (B "b/uuid") then Some (B "uuid") else if bseq p (B "lost") then None else Some [].
Example C47_case : import_all (B "me") some_load [] [(B "a/uuid", B "uuid"); (B "b/uuid", B "x"); (B "me", B "me"); (B "lost", B "uuid"); (B "a/uuid", B "uuid"); (B "c/uuid1", B "uuid1")]
  = Some [(B "c/uuid1", B "uuid11"); (B "b/uuid", B "uuid1"); (B "a/uuid", B "uuid")].
Proof. reflexivity. Qed.

(** ** C50 *)
(** The last registration under [name] in a history of them. *)
Definition registered_last {D} (h : list (bytes * option D)) (name : bytes) (d : D) : Prop := exists a b, h = a ++ (name, Some d) :: b /\ ~ In name (map fst b).
Lemma exists_last_or_nil {A} (l : list A) : l = [] \/ exists l' x, l = l' ++ [x].
Proof. destruct l as [|a l]; [left; reflexivity|right]. destruct (exists_last (l := a :: l) ltac:(discriminate)) as (l' & x & E). eauto. Qed.
Lemma get_filter D (r : registry D) n name : get_dialect D (filter (fun x => negb (bseq (fst x) n)) r) name = if bseq n name then None else get_dialect D r name.
Proof.
  induction r as [|[n0 d0] r IH]; [destruct (bseq n name); reflexivity|]. cbn [filter fst get_dialect]. destruct (bseq n0 n) eqn:E; cbn [negb].
  - apply bseq_eq in E as ->. rewrite IH. destruct (bseq n name); reflexivity.
  - cbn [get_dialect]. rewrite IH. destruct (bseq n name) eqn:E2; [|reflexivity]. apply bseq_eq in E2 as ->. rewrite E. reflexivity.
Qed.
Lemma get_register D r n (d : D) r' name : register D r n (Some d) = Ok r' -> get_dialect D r' name = if bseq n name then Some d else get_dialect D r name.
Proof. intros H. injection H as <-. cbn [get_dialect]. destruct (bseq n name) eqn:E; [reflexivity|]. rewrite get_filter, E. reflexivity. Qed.
Lemma register_all_app D a b (r : registry D) : register_all D r (a ++ b) = (let* r' := register_all D r a in register_all D r' b).
Proof. revert r. induction a as [|[n d] a IH]; intros r; [reflexivity|]. cbn [app register_all]. destruct (register D r n d); cbn [bind]; [apply IH|reflexivity|reflexivity]. Qed.
Theorem C50_lookup D (h : list (bytes * option D)) r : register_all D [] h = Ok r -> forall name,
  (forall d, get_dialect D r name = Some d <-> registered_last h name d) /\ (get_dialect D r name = None <-> ~ In name (map fst h)).
Proof.
  revert r. induction h as [|[n d] h IH] using rev_ind; intros r H name.
  - injection H as <-. split; [intros d; split; [discriminate|intros (a & b & E & _); destruct a; discriminate]|]. split; [intros _ []|reflexivity].
  - rewrite register_all_app in H. destruct (register_all D [] h) as [r0| |] eqn:E0; cbn [bind] in H; try discriminate. specialize (IH r0 eq_refl name) as [I1 I2]. cbn [register_all] in H.
    destruct d as [d|]; [|discriminate]. destruct (register D r0 n (Some d)) as [r1| |] eqn:E1; cbn [bind] in H; try discriminate. injection H as ->. rewrite (get_register D r0 n d r name E1).
    destruct (bseq n name) eqn:EN.
    + apply bseq_eq in EN as ->. split.
      * intros d'. split.
        -- intros E. injection E as ->. exists h, []. split; [reflexivity|intros []].
        -- intros (a & b & E & N). destruct (exists_last_or_nil b) as [->|(b' & x & ->)].
           ++ apply app_inj_tail in E as [_ E]. injection E as ->. reflexivity.
           ++ exfalso. rewrite app_comm_cons, app_assoc in E. apply app_inj_tail in E as [_ <-]. apply N. rewrite map_app. apply in_or_app. right. left. reflexivity.
      * split; [discriminate|]. intros N. exfalso. apply N. rewrite map_app. apply in_or_app. right. left. reflexivity.
    + apply bseq_neq in EN. split.
      * intros d'. rewrite I1. split.
        -- intros (a & b & -> & N). exists a, (b ++ [(n, Some d)]). split; [rewrite <- app_assoc; reflexivity|]. rewrite map_app. intros I. apply in_app_or in I as [I|[I|[]]]; [exact (N I)|exact (EN I)].
        -- intros (a & b & E & N). destruct (exists_last_or_nil b) as [->|(b' & x & ->)].
           ++ apply app_inj_tail in E as [_ E]. injection E as -> _. contradiction.
           ++ rewrite app_comm_cons, app_assoc in E. apply app_inj_tail in E as [E <-]. exists a, b'. split; [exact E|]. intros I. apply N. rewrite map_app. apply in_or_app. left. exact I.
      * rewrite I2, map_app, in_app_iff. cbn [map fst In]. tauto.
Qed.
(** Registering nil is refused, at once and always; nothing else is. *)
Theorem C50_nil D (h : list (bytes * option D)) : (exists r, register_all D [] h = Ok r) <-> Forall (fun x => snd x <> None) h.
Proof.
  generalize (@nil (bytes * D)). induction h as [|[n d] h IH]; intros r; [split; [constructor|eexists; reflexivity]|]. cbn [register_all]. destruct d as [d|]; cbn [register bind].
  - rewrite IH. split; [intros F; constructor; [discriminate|exact F]|inversion 1; assumption].
  - split; [intros [? E]; discriminate|inversion 1; cbn in *; contradiction].
Qed.
(** The default dialect is the last one registered as mysql. *)
Theorem C50_default D (h : list (bytes * option D)) r d : register_all D [] h = Ok r -> (default_dialect D r = Ok d <-> registered_last h (B "mysql") d).
Proof.
  intros H. destruct (C50_lookup D h r H (B "mysql")) as [L _]. rewrite <- L. unfold default_dialect. destruct (get_dialect D r (B "mysql")); split; congruence.
Qed.
Print Assumptions C50_lookup.
Print Assumptions C50_nil.
Print Assumptions C50_default.
Example C50_case : exists r, register_all nat [] [(B "mysql", Some 1%nat); (B "sqlite", Some 2%nat); (B "mysql", Some 3%nat)] = Ok r /\ get_dialect nat r (B "mysql") = Some 3%nat /\ get_dialect nat r (B "x") = None.
Proof. eexists. repeat split. Qed.
