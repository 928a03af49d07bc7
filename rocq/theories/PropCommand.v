(** C81: the commands. *)
From Coq Require Import List Bool.
From Verif Require Import Base LemmasBase ModelConfig PropConfig ModelRun LemmasRun ModelCommand SpecCommand.
Import ListNotations.

Section Commands.
Variable decode : bytes -> config -> option config.
Variable encode : config -> bytes.
Variable pwd : list bytes.
Variable gen : config -> files -> list op * res unit.
Notation lookup := ModelRun.lookup.
Notation in_force := (in_force decode pwd).
Notation unreadable := (unreadable decode pwd).
Notation run := (run_command decode encode pwd gen).

Lemma find_none l f : (forall n, In n l -> lookup f (pwd, n) = None) -> find_config pwd f l = None.
Proof. induction l as [|n l IH]; intros H; [reflexivity|]. cbn [find_config]. rewrite (H n (or_introl eq_refl)). apply IH. intros m I. apply H. right. exact I. Qed.
Lemma find_some a n b f x : (forall m, In m a -> lookup f (pwd, m) = None) -> lookup f (pwd, n) = Some x -> find_config pwd f (a ++ n :: b) = Some (pwd, n).
Proof. induction a as [|m a IH]; intros H E; cbn [app find_config]; [rewrite E; reflexivity|]. rewrite (H m (or_introl eq_refl)). apply IH; [intros k I; apply H; right; exact I|exact E]. Qed.
Lemma default_in_force f c : in_force f c -> default_config decode pwd f = Ok c.
Proof.
  unfold default_config. change config_names with names. intros [(N & ->)|(x & (a & n & b & E & A & L) & D)]; [rewrite find_none by exact N; reflexivity|].
  rewrite E. erewrite find_some by eassumption. unfold decode_file. rewrite L, D. reflexivity.
Qed.
Lemma default_unreadable f : unreadable f -> default_config decode pwd f = Panic.
Proof. intros (x & (a & n & b & E & A & L) & D). unfold default_config. change config_names with names. rewrite E. erewrite find_some by eassumption. unfold decode_file. rewrite L, D. reflexivity. Qed.
Lemma file_or_none l f : (forall n, In n l -> lookup f (pwd, n) = None) \/ exists a n b x, l = a ++ n :: b /\ (forall m, In m a -> lookup f (pwd, m) = None) /\ lookup f (pwd, n) = Some x.
Proof.
  induction l as [|n l IH]; [left; intros n []|]. destruct (lookup f (pwd, n)) as [x|] eqn:L; [right; exists [], n, l, x; split; [reflexivity|]; split; [intros m []|exact L]|].
  destruct IH as [H|(a & m & b & x & -> & A & E)]; [left; intros m [<-|I]; [exact L|apply H, I]|]. right. exists (n :: a), m, b, x. split; [reflexivity|]. split; [intros k [<-|I]; [exact L|apply A, I]|exact E].
Qed.
Lemma force_cases f : unreadable f \/ exists c, in_force f c.
Proof.
  destruct (file_or_none names f) as [H|(a & n & b & x & E & A & L)]; [right; exists init_config; left; split; [exact H|reflexivity]|].
  destruct (decode x init_config) as [c|] eqn:D; [right; exists c; right|left]; exists x; (split; [exists a, n, b; auto|exact D]).
Qed.
End Commands.

(** Every directory has settings, or a file that cannot be read, and not both. *)
Theorem C81_settings decode pwd f : (exists c, in_force decode pwd f c) \/ unreadable decode pwd f.
Proof. destruct (force_cases decode pwd f); auto. Qed.
Print Assumptions C81_settings.
Theorem C81_settings_unique decode pwd f c : in_force decode pwd f c -> (forall c', in_force decode pwd f c' -> c' = c) /\ ~ unreadable decode pwd f.
Proof.
  intros F. apply default_in_force in F. split; [intros c' F'; apply default_in_force in F'; congruence|]. intros U. apply default_unreadable in U. congruence.
Qed.
Print Assumptions C81_settings_unique.

Section Merging.
Lemma or_default_else u d : or_default u d (or_else u d).
Proof. destruct u; [right; auto|left; split; [discriminate|reflexivity]]. Qed.
Lemma or_else_self u v : or_else u u = u /\ or_else (or_else u u) v = or_else u v.
Proof. destruct u; auto. Qed.
Lemma or_self (b : bool) : (if b then true else b) = b. Proof. destruct b; reflexivity. Qed.
Lemma configured_lookup t k v : configured t k v <-> PropConfig.lookup t k v. Proof. reflexivity. Qed.
(** Merging into settings that agree *)
Lemma merge_alike c m r : merge c m = Ok r -> g_driver c = g_driver m -> g_naming c = g_naming m -> g_tag c = g_tag m -> (g_strict m = None -> g_strict c = None) -> (g_skip_empty c = true -> g_skip_empty m = true) ->
  g_filename c = g_filename m -> g_prefix c = g_prefix m -> (g_migration m = None -> g_migration c = None) -> (g_database m = None -> g_database c = None) -> (g_skip_header c = true -> g_skip_header m = true) -> (g_skip_tidy c = true -> g_skip_tidy m = true) ->
  (g_types c = g_types m \/ g_types c = Some []) -> filled m r.
Proof.
  intros M D N T S E F P MI DB H TI TY. unfold merge in M. destruct (match g_types m with None => _ | _ => _ end) as [ty| |] eqn:Y; cbn [bind] in M; try discriminate. injection M as <-. unfold filled, init_if_empty.
  cbn [g_source g_driver g_naming g_tag g_quote g_strict g_skip_empty g_filename g_prefix g_skip_header g_skip_tidy g_types g_database g_migration].
  rewrite D, N, T, F, P. rewrite !(proj2 (or_else_self _ _)).
  assert (BB : forall a b : bool, (a = true -> b = true) -> (if b then true else a) = b) by (intros [|] [|] X; auto; discriminate X; reflexivity).
  rewrite !BB by assumption. do 3 (split; [apply or_default_else|]). split; [reflexivity|]. split; [destruct (g_strict m); [reflexivity|apply S; reflexivity]|]. split; [reflexivity|].
  do 2 (split; [apply or_default_else|]). split; [|split; [|split; [reflexivity|split; [reflexivity|]]]].
  - unfold migration_filled. destruct (g_migration m) as [x|]; [|rewrite MI; reflexivity]. eexists. split; [reflexivity|]. cbn [m_dsn m_package m_dir m_filename]. split; [reflexivity|]. do 2 (split; [apply or_default_else|]). apply or_default_else.
  - unfold database_filled. assert (X : match g_database m with Some x => Some x | None => g_database c end = g_database m) by (destruct (g_database m); [reflexivity|apply DB; reflexivity]). rewrite X.
    eexists _, _. split; [reflexivity|]. split; [reflexivity|]. cbn [d_package d_dir d_filename o_package o_dir o_filename]. fold empty_database. destruct (g_database m) as [x|]; cbn [d_operator d_package d_dir d_filename empty_database empty_operator o_package o_dir o_filename].
    + do 3 (split; [apply or_default_else|]). destruct (d_operator x); cbn [o_package o_dir o_filename empty_operator]; do 2 (split; [apply or_default_else|]); apply or_default_else.
    + do 5 (split; [apply or_default_else|]). apply or_default_else.
  - intros k v. rewrite !configured_lookup. destruct TY as [TY|TY]; rewrite TY in Y.
    + destruct (g_types m) as [[|p l]|]; injection Y as <-; try reflexivity; [|destruct v; cbn; [split; [discriminate|intros ([|? ?] & ? & X & _); discriminate]|split; [intros _ []|reflexivity]]].
      change (p :: l ++ p :: l) with ((p :: l) ++ p :: l). pose proof (lookup_twice (p :: l) [] k v) as W. rewrite app_nil_r in W. symmetry. exact W.
    + destruct (g_types m) as [[|p l]|]; injection Y as <-; try reflexivity; [rewrite app_nil_r; reflexivity|destruct v; cbn; [split; [discriminate|intros ([|? ?] & ? & X & _); discriminate]|split; [intros _ []|reflexivity]]].
Qed.
Lemma merge_rest c m r : merge c m = Ok r -> g_source r = match (match g_source m with Some s => Some s | None => g_source c end) with Some s => Some s | None => Some [B "./**/*"] end /\ unused r = unused c.
Proof. unfold merge. intros M. destruct (match g_types m with None => _ | _ => _ end) as [ty| |]; cbn [bind] in M; try discriminate. injection M as <-. split; [|reflexivity]. cbn [init_if_empty g_source]. destruct (g_source m); [reflexivity|]. destruct (g_source c); reflexivity. Qed.
Lemma merge_ok c m : g_types c <> None \/ g_types m = None -> exists r, merge c m = Ok r.
Proof. intros D. unfold merge. destruct (g_types m) as [[|p l]|]; try (eexists; reflexivity). destruct D as [D|D]; [|discriminate]. destruct (g_types c); [eexists; reflexivity|contradiction]. Qed.
End Merging.

(** ** sqlgen without flags is run with the settings of the directory *)
Theorem C81_run decode encode pwd gen f c : in_force decode pwd f c ->
  exists r, filled c r /\ source_filled c r /\ unused r = unused c /\
    (In (g_driver r) drivers -> run_command decode encode pwd gen (Root None) f = gen r f) /\
    (~ In (g_driver r) drivers -> run_command decode encode pwd gen (Root None) f = ([], Err)).
Proof.
  intros F. pose proof (default_in_force _ _ _ _ F) as DF. cbn [run_command]. unfold generate_with. rewrite DF. cbn [lift]. destruct (merge_ok c c) as (r & M); [destruct (g_types c); [left; discriminate|right; reflexivity]|]. rewrite M. cbn [lift].
  exists r. split; [eapply merge_alike; [exact M|..]; auto|]. destruct (merge_rest _ _ _ M) as (S & U). split; [unfold source_filled; rewrite S; destruct (g_source c); reflexivity|]. split; [exact U|]. split; intros I.
  - unfold drivers in I; rewrite (proj2 (bmem_In _ _) I). reflexivity.
  - unfold drivers in I; rewrite (proj2 (bmem_not_In _ _) I). reflexivity.
Qed.
Print Assumptions C81_run.
(** ** sqlgen generate src: the same with that source *)
Theorem C81_source decode encode pwd gen f c src : in_force decode pwd f c ->
  exists r, filled c r /\ g_source r = Some [src] /\ unused r = unused c /\
    (In (g_driver r) drivers -> run_command decode encode pwd gen (Source src) f = gen r f) /\
    (~ In (g_driver r) drivers -> run_command decode encode pwd gen (Source src) f = ([], Err)).
Proof.
  intros F. pose proof (default_in_force _ _ _ _ F) as DF. cbn [run_command]. unfold generate_with. rewrite DF. cbn [lift].
  match goal with |- context [merge c ?m0] => set (m := m0) end. destruct (merge_ok c m) as (r & M); [cbn; destruct (g_types c); [left; discriminate|right; reflexivity]|]. rewrite M. cbn [lift].
  exists r. split; [apply (merge_alike _ _ _ M); cbn; auto|]. destruct (merge_rest _ _ _ M) as (S & U). split; [exact S|]. split; [exact U|]. split; intros I.
  - unfold drivers in I; rewrite (proj2 (bmem_In _ _) I). reflexivity.
  - unfold drivers in I; rewrite (proj2 (bmem_not_In _ _) I). reflexivity.
Qed.
Print Assumptions C81_source.
(** ** sqlgen -c file, in a directory without a configuration file: the settings of that file.  Missing: the three settings of [unused]
    (C81_flag_dropped_refuted), and directories with a configuration file (C81_flag_leak_refuted). *)
Theorem C81_flag_partial decode encode pwd gen f p x c : no_file pwd f -> lookup f p = Some x -> decode x init_config = Some c ->
  g_driver c <> [] -> g_naming c <> [] -> g_tag c <> [] -> g_strict c <> None -> g_filename c <> [] -> g_prefix c <> [] -> g_database c <> None ->
  exists r, filled c r /\ source_filled c r /\
    (In (g_driver r) drivers -> run_command decode encode pwd gen (Root (Some p)) f = gen r f) /\
    (~ In (g_driver r) drivers -> run_command decode encode pwd gen (Root (Some p)) f = ([], Err)).
Proof.
  intros N L D D1 D2 D3 D4 D5 D6 D7. assert (DF : default_config decode pwd f = Ok init_config) by (apply default_in_force; left; auto). cbn [run_command]. unfold load_config, decode_file, generate_with. rewrite DF, L, D. cbn [lift].
  destruct (merge_ok init_config c) as (r & M); [left; discriminate|]. rewrite M. cbn [lift]. exists r.
  split.
  { assert (OE : forall u v, u <> [] -> or_else u v = u) by (intros [|? ?] v H; [contradiction|reflexivity]).
    set (i := {| g_source := g_source init_config; g_driver := g_driver c; g_naming := g_naming c; g_tag := g_tag c; g_quote := false; g_readonly := false; g_strict := g_strict c; g_skip_empty := false; g_filename := g_filename c;
                 g_prefix := g_prefix c; g_migration := None; g_database := g_database init_config; g_omit_getters := false; g_source_map := false; g_skip_header := false; g_skip_tidy := false; g_types := Some [] |}).
    assert (M' : merge i c = Ok r).
    { rewrite <- M. unfold merge, i, init_config. cbn [g_source g_driver g_naming g_tag g_quote g_readonly g_strict g_skip_empty g_filename g_prefix g_skip_header g_skip_tidy g_types g_database g_migration g_omit_getters g_source_map].
      rewrite !OE by assumption. destruct (g_strict c); [reflexivity|contradiction]. }
    apply (merge_alike _ _ _ M'); cbn; auto; try discriminate. intros E. congruence. }
  destruct (merge_rest _ _ _ M) as (S & U). split; [unfold source_filled; rewrite S; destruct (g_source c); reflexivity|]. split; intros I.
  - unfold drivers in I; rewrite (proj2 (bmem_In _ _) I). reflexivity.
  - unfold drivers in I; rewrite (proj2 (bmem_not_In _ _) I). reflexivity.
Qed.
Print Assumptions C81_flag_partial.

(** With -c, the settings read_only, omit_getters and source_map are those of the directory, whatever the file says *)
Theorem C81_flag_dropped_refuted : exists decode pwd f p x c, no_file pwd f /\ lookup f p = Some x /\ decode x init_config = Some c /\ g_readonly c = true /\
  forall encode gen, exists r, g_readonly r = false /\ run_command decode encode pwd gen (Root (Some p)) f = gen r f.
Proof.
  set (c := {| g_source := Some [B "./models"]; g_driver := B "mysql"; g_naming := B "snake_case"; g_tag := B "sql"; g_quote := false; g_readonly := true; g_strict := Some true; g_skip_empty := false; g_filename := B "generated.go"; g_prefix := B "Column";
    g_migration := None; g_database := g_database init_config; g_omit_getters := false; g_source_map := false; g_skip_header := false; g_skip_tidy := false; g_types := Some [] |}).
  exists (fun _ _ => Some c), [B "src"], [(([B "etc"], B "my.yml"), B "read_only: true")], ([B "etc"], B "my.yml"), (B "read_only: true"), c.
  split; [intros n [<-|[<-|[<-|[<-|[]]]]]; vm_compute; reflexivity|]. split; [vm_compute; reflexivity|]. split; [reflexivity|]. split; [reflexivity|]. intros encode gen. eexists. split; [|cbn [run_command]; unfold load_config, generate_with, decode_file; vm_compute; reflexivity]. reflexivity.
Qed.
Print Assumptions C81_flag_dropped_refuted.
(** With -c, a file that is not there or that cannot be read is an error, and nothing is written *)
Theorem C81_flag_unreadable decode encode pwd gen f p d : in_force decode pwd f d ->
  lookup f p = None \/ (exists x, lookup f p = Some x /\ decode x init_config = None) ->
  run_command decode encode pwd gen (Root (Some p)) f = ([], Err).
Proof.
  intros F H. pose proof (default_in_force _ _ _ _ F) as DF. cbn [run_command]. unfold load_config, decode_file. rewrite DF. cbn [lift].
  destruct H as [-> |(x & -> & ->)]; reflexivity.
Qed.
Print Assumptions C81_flag_unreadable.
Example C81_flag_unreadable_case : in_force (fun _ _ => None) [B "src"] [] init_config /\ lookup [] ([B "etc"], B "my.yml") = None.
Proof. split; [left; split; [intros n _; reflexivity|reflexivity]|reflexivity]. Qed.
(** With -c, settings of the configuration file of the directory remain: data types, migrations and everything that is switched on there *)
Theorem C81_flag_leak_refuted decode encode pwd gen f p x c d : in_force decode pwd f d -> lookup f p = Some x -> decode x init_config = Some c -> g_types d <> None ->
  exists r, (In (g_driver r) drivers -> run_command decode encode pwd gen (Root (Some p)) f = gen r f) /\
    unused r = unused d /\ (g_skip_empty d = true -> g_skip_empty r = true) /\ (g_skip_header d = true -> g_skip_header r = true) /\ (g_skip_tidy d = true -> g_skip_tidy r = true) /\
    (g_migration c = None -> migration_filled (g_migration d) (g_migration r)) /\
    (forall k v, configured (g_types d) k (Some v) -> configured (g_types c) k None -> configured (g_types r) k (Some v)).
Proof.
  intros F L D T. pose proof (default_in_force _ _ _ _ F) as DF. cbn [run_command]. unfold load_config, decode_file, generate_with. rewrite DF, L, D. cbn [lift]. destruct (merge_ok d c) as (r & M); [left; exact T|]. rewrite M. cbn [lift]. exists r.
  split; [intros I; unfold drivers in I; rewrite (proj2 (bmem_In _ _) I); reflexivity|]. destruct (merge_rest _ _ _ M) as (_ & U). split; [exact U|].
  unfold merge in M. destruct (match g_types c with None => _ | _ => _ end) as [ty| |] eqn:Y; cbn [bind] in M; try discriminate. injection M as <-. unfold init_if_empty.
  cbn [g_skip_empty g_skip_header g_skip_tidy g_migration g_types]. do 3 (split; [intros ->; match goal with |- (if ?b then true else true) = true => destruct b; reflexivity end|]). split.
  - intros ->. unfold migration_filled. destruct (g_migration d) as [m|]; [|reflexivity]. eexists. split; [reflexivity|]. cbn [m_dsn m_package m_dir m_filename]. split; [reflexivity|]. do 2 (split; [apply or_default_else|]). apply or_default_else.
  - intros k v. rewrite !configured_lookup. destruct (g_types d) as [ld|]; [|contradiction]. rewrite lookup_assoc. intros A NC. destruct (g_types c) as [[|q l]|]; injection Y as <-; rewrite lookup_assoc; try exact A.
    rewrite lookup_assoc in NC. change (q :: l ++ ld) with ((q :: l) ++ ld). rewrite assoc_app, NC. exact A.
Qed.
Print Assumptions C81_flag_leak_refuted.
(** Where the configuration file of the directory cannot be read, every command panics: also with -c and a good file, and also sqlgen init --force,
    which would write a new one *)
Theorem C81_broken_refuted decode encode pwd gen f : unreadable decode pwd f ->
  (forall file, run_command decode encode pwd gen (Root file) f = ([], Panic)) /\ (forall src, run_command decode encode pwd gen (Source src) f = ([], Panic)) /\
  (forall a ok, run_command decode encode pwd gen (Setup true (Answered a) ok) f = ([], Panic)).
Proof. intros U. pose proof (default_unreadable _ _ _ U) as D. split; [intros [p|]; cbn [run_command]; rewrite D; reflexivity|]. split; [intros s; cbn [run_command]; rewrite D; reflexivity|]. intros a ok. unfold run_command, run_init. destruct (lookup f (pwd, B "sqlgen.yml")); rewrite D; reflexivity. Qed.
Print Assumptions C81_broken_refuted.

(** ** sqlgen init *)
Definition the_config (pwd : list bytes) : path := (pwd, B "sqlgen.yml").
(** Answers that can be given: options of the lists, a tag that is not empty *)
Definition possible (a : answers) : Prop := In (a_driver a) drivers /\ In (a_naming a) [B "snake_case"; B "camelCase"; B "PascalCase"] /\ a_tag a <> [].
(** An existing file is not touched without --force, and nothing is asked for that *)
Theorem C81_init_keeps decode encode pwd gen f x a ok : lookup f (the_config pwd) = Some x -> run_command decode encode pwd gen (Setup false a ok) f = ([], Ok tt).
Proof. intros L. unfold the_config in L. unfold run_command, run_init. rewrite L. reflexivity. Qed.
Print Assumptions C81_init_keeps.
(** A file is written exactly when all questions were answered, the last one with yes, and the settings of the directory can be read *)
Theorem C81_init_writes decode encode pwd gen f force a ok os out : run_command decode encode pwd gen (Setup force a ok) f = (os, out) ->
  (os <> [] <-> (force = true \/ lookup f (the_config pwd) = None) /\ (exists x, a = Answered x) /\ ok = Answered true /\ exists c, in_force decode pwd f c).
Proof.
  unfold the_config. unfold run_command, run_init. intros R. destruct (force_cases decode pwd f) as [U|(c & F)].
  - assert (NF : ~ exists c, in_force decode pwd f c) by (intros (c & F); exact (proj2 (C81_settings_unique _ _ _ _ F) U)). pose proof (default_unreadable _ _ _ U) as D. rewrite D in R.
    assert (E : os = []) by (destruct force, (lookup f (pwd, B "sqlgen.yml")), a; injection R as <- <-; reflexivity). subst os. split; [contradiction|]. intros (_ & _ & _ & X). contradiction.
  - pose proof (default_in_force _ _ _ _ F) as D. rewrite D in R. cbn [lift] in R. split.
    + intros N. destruct force, (lookup f (pwd, B "sqlgen.yml")) eqn:L, a as [x| |]; cbn in R; try (injection R as <- <-; contradiction); destruct ok as [[|]| |]; injection R as <- <-; try contradiction; (split; [auto|]); (split; [eauto|]); split; eauto.
    + intros (W & (x & ->) & -> & _). destruct force; [|destruct W as [W|W]; [discriminate|]; rewrite W in R]; [destruct (lookup f (pwd, B "sqlgen.yml"))|]; injection R as <- <-; discriminate.
Qed.
Print Assumptions C81_init_writes.
(** Nothing else is touched; what is written, when YAML reads back what it wrote, are the answers over the settings of the directory; and sqlgen is then run with them *)
Theorem C81_init_effect decode encode pwd gen f force x os out c : possible x -> in_force decode pwd f c -> run_command decode encode pwd gen (Setup force (Answered x) (Answered true)) f = (os, out) -> os <> [] ->
  out = Ok tt /\ (forall p, p <> the_config pwd -> lookup (apply_all f os) p = lookup f p) /\
  exists n, g_driver n = a_driver x /\ g_naming n = a_naming x /\ g_tag n = a_tag x /\ g_strict n = Some (a_strict x) /\
    g_source n = g_source c /\ g_quote n = g_quote c /\ g_readonly n = g_readonly c /\ g_skip_empty n = g_skip_empty c /\ g_filename n = g_filename c /\ g_prefix n = g_prefix c /\ g_migration n = g_migration c /\
    g_database n = g_database c /\ g_omit_getters n = g_omit_getters c /\ g_source_map n = g_source_map c /\ g_skip_header n = g_skip_header c /\ g_skip_tidy n = g_skip_tidy c /\ g_types n = g_types c /\
    lookup (apply_all f os) (the_config pwd) = Some (encode n) /\
    (forall n', decode (encode n) init_config = Some n' -> same_settings n' n ->
     in_force decode pwd (apply_all f os) n' /\
     exists r, filled n r /\ source_filled n r /\ g_driver r = a_driver x /\ g_naming r = a_naming x /\ g_tag r = a_tag x /\ g_strict r = Some (a_strict x) /\
       run_command decode encode pwd gen (Root None) (apply_all f os) = gen r (apply_all f os)).
Proof.
  unfold the_config. intros (PD & PN & PT) F R N. pose proof (default_in_force _ _ _ _ F) as D. unfold run_command, run_init in R. rewrite D in R. cbn [lift] in R.
  assert (E : os = write_config encode pwd (with_answers x c) /\ out = Ok tt) by (destruct force, (lookup f (pwd, B "sqlgen.yml")); injection R as <- <-; try (split; reflexivity); contradiction).
  destruct E as (-> & ->). split; [reflexivity|].
  assert (LK : forall p, lookup (apply_all f (write_config encode pwd (with_answers x c))) p = if path_dec p (pwd, B "sqlgen.yml") then Some (encode (with_answers x c)) else lookup f p).
  { intros p. unfold write_config, apply_all. cbn [fold_left apply]. rewrite lookup_put. destruct (path_dec p (pwd, B "sqlgen.yml")); [reflexivity|]. rewrite lookup_put. destruct (path_dec p (pwd, B "sqlgen.yml")); [contradiction|reflexivity]. }
  split; [intros p NE; rewrite LK; destruct (path_dec p (pwd, B "sqlgen.yml")); [contradiction|reflexivity]|].
  exists (with_answers x c). unfold with_answers at 1 2 3 4 5 6 7 8 9 10 11 12 13 14 15 16 17. cbn [g_source g_driver g_naming g_tag g_quote g_readonly g_strict g_skip_empty g_filename g_prefix g_skip_header g_skip_tidy g_types g_database g_migration g_omit_getters g_source_map].
  assert (NM : bmem (a_naming x) [B "snake_case"; B "PascalCase"; B "camelCase"] = true) by (apply bmem_In; cbn [In] in *; tauto). rewrite NM.
  do 17 (split; [reflexivity|]). split; [rewrite LK; destruct (path_dec (pwd, B "sqlgen.yml") (pwd, B "sqlgen.yml")); [reflexivity|contradiction]|].
  intros n' DN SS. assert (FN : in_force decode pwd (apply_all f (write_config encode pwd (with_answers x c))) n').
  { right. exists (encode (with_answers x c)). split; [|exact DN]. exists [], (B "sqlgen.yml"), [B ".sqlgen.yml"; B ".sqlgen.yaml"; B "sqlgen.yaml"]. split; [reflexivity|]. split; [intros m []|]. rewrite LK. destruct (path_dec (pwd, B "sqlgen.yml") (pwd, B "sqlgen.yml")); [reflexivity|contradiction]. }
  split; [exact FN|]. destruct (C81_run decode encode pwd gen _ n' FN) as (r & FR & SR & _ & RG & _). destruct SS as (S1 & S2 & S3 & S4 & S5 & S6 & S7 & S8 & S9 & S10 & S11 & S12 & S13 & S14 & S15 & S16 & S17).
  assert (FL : filled (with_answers x c) r).
  { unfold filled in *. rewrite S2, S3, S4, S5, S7, S8, S9, S10, S11, S12, S15, S16 in FR. destruct FR as (A1 & A2 & A3 & A4 & A5 & A6 & A7 & A8 & A9 & A10 & A11 & A12 & A13). do 12 (split; [assumption|]). intros k v. rewrite <- S17. apply A13. }
  exists r. split; [exact FL|]. split; [unfold source_filled in *; rewrite SR, S1; reflexivity|].
  destruct FL as (B1 & B2 & B3 & _ & B5 & _). cbn [with_answers g_driver g_naming g_tag g_strict] in B1, B2, B3, B5. rewrite NM in B2.
  assert (OD : forall u d r0, or_default u d r0 -> u <> [] -> r0 = u) by (intros u d0 r0 [(_ & X)|(X & _)] Y; [exact X|contradiction]).
  assert (NB : forall (y : bytes) l, In y l -> ~ In [] l -> y <> []) by (intros y l I1 I2 ->; contradiction).
  assert (RD : g_driver r = a_driver x) by (eapply OD; [exact B1|apply (NB _ _ PD)]; vm_compute; intuition discriminate).
  split; [exact RD|]. split; [eapply OD; [exact B2|apply (NB _ _ PN)]; vm_compute; intuition discriminate|]. split; [eapply OD; eassumption|]. split; [exact B5|]. apply RG. rewrite RD. exact PD.
Qed.
Print Assumptions C81_init_effect.
(** The old file is gone before the new one is written: stopped in between, an empty file is left, and no command works any more *)
Theorem C81_init_crash_refuted decode encode pwd gen f x c y : in_force decode pwd f c -> lookup f (the_config pwd) = Some y -> (forall d, decode [] d = None) ->
  exists os out, run_command decode encode pwd gen (Setup true (Answered x) (Answered true)) f = (os, out) /\
    let f' := apply_all f (firstn 1 os) in lookup f' (the_config pwd) = Some [] /\ forall file, run_command decode encode pwd gen (Root file) f' = ([], Panic).
Proof.
  unfold the_config. intros F L E. pose proof (default_in_force _ _ _ _ F) as D. do 2 eexists. split; [unfold run_command, run_init; rewrite D; cbn [lift]; reflexivity|]. cbv zeta. unfold write_config. cbn [firstn]. unfold apply_all. cbn [fold_left apply].
  assert (LK : lookup (put f (pwd, B "sqlgen.yml") []) (pwd, B "sqlgen.yml") = Some []) by (rewrite lookup_put; destruct (path_dec (pwd, B "sqlgen.yml") (pwd, B "sqlgen.yml")); [reflexivity|contradiction]). split; [exact LK|].
  apply (C81_broken_refuted decode encode pwd gen). exists []. split; [|apply E]. exists [], (B "sqlgen.yml"), [B ".sqlgen.yml"; B ".sqlgen.yaml"; B "sqlgen.yaml"]. split; [reflexivity|]. split; [intros m []|exact LK].
Qed.
Print Assumptions C81_init_crash_refuted.

(** ** Cases *)
Definition toy_config (driver : bytes) (skip : bool) : config :=
  {| g_source := Some [B "./models"]; g_driver := driver; g_naming := B "snake_case"; g_tag := B "sql"; g_quote := false; g_readonly := skip; g_strict := Some true; g_skip_empty := skip; g_filename := B "generated.go"; g_prefix := B "Column";
     g_migration := None; g_database := g_database init_config; g_omit_getters := false; g_source_map := false; g_skip_header := false; g_skip_tidy := false; g_types := Some [] |}.
(** A reader of two files *)
Definition toy_decode (x : bytes) (c : config) : option config :=
  if bseq x (B "driver: sqlite") then Some (toy_config (B "sqlite") false) else if bseq x (B "skip_empty: true") then Some (toy_config (g_driver c) true) else None.
Definition toy_files : files := [(([B "src"], B "sqlgen.yaml"), B "skip_empty: true"); (([B "etc"], B "my.yml"), B "driver: sqlite"); (([B "src"], B "a.go"), B "package a")].
Example C81_run_case : exists c, in_force toy_decode [B "src"] toy_files c /\ g_skip_empty c = true /\ In (g_driver c) drivers.
Proof.
  eexists. split; [right; exists (B "skip_empty: true"); split; [|vm_compute; reflexivity]|split; [reflexivity|left; reflexivity]]. exists [B "sqlgen.yml"; B ".sqlgen.yml"; B ".sqlgen.yaml"], (B "sqlgen.yaml"), []. split; [reflexivity|].
  split; [intros m [<-|[<-|[<-|[]]]]; vm_compute; reflexivity|vm_compute; reflexivity].
Qed.
(** skip_empty: true of the directory although the file given with -c does not have it *)
Example C81_leak_case : run_command toy_decode (fun _ => []) [B "src"] (fun c _ => ([], if g_skip_empty c then Err else Ok tt)) (Root (Some ([B "etc"], B "my.yml"))) toy_files = ([], Err).
Proof. vm_compute. reflexivity. Qed.
Example C81_flag_case : no_file [B "home"] toy_files /\ lookup toy_files ([B "etc"], B "my.yml") = Some (B "driver: sqlite") /\ toy_decode (B "driver: sqlite") init_config = Some (toy_config (B "sqlite") false) /\
  run_command toy_decode (fun _ => []) [B "home"] (fun c _ => ([], if g_skip_empty c then Err else Ok tt)) (Root (Some ([B "etc"], B "my.yml"))) toy_files = ([], Ok tt).
Proof. split; [intros n [<-|[<-|[<-|[<-|[]]]]]; vm_compute; reflexivity|]. repeat split. Qed.
Example C81_broken_case : unreadable toy_decode [B "src"] [(([B "src"], B "sqlgen.yml"), B "driver: [")].
Proof. exists (B "driver: ["). split; [|reflexivity]. exists [], (B "sqlgen.yml"), [B ".sqlgen.yml"; B ".sqlgen.yaml"; B "sqlgen.yaml"]. split; [reflexivity|]. split; [intros m []|reflexivity]. Qed.
Definition toy_answers : answers := Answers (B "sqlite") (B "snake_case") (B "sql") true.
Example C81_init_case : possible toy_answers /\
  snd (run_command toy_decode (fun _ => B "driver: sqlite") [B "src"] (fun _ _ => ([], Ok tt)) (Setup false (Answered toy_answers) (Answered true)) toy_files) = Ok tt /\
  fst (run_command toy_decode (fun _ => B "driver: sqlite") [B "src"] (fun _ _ => ([], Ok tt)) (Setup false (Answered toy_answers) (Answered true)) toy_files) = [Truncate ([B "src"], B "sqlgen.yml"); Write ([B "src"], B "sqlgen.yml") (B "driver: sqlite")] /\
  fst (run_command toy_decode (fun _ => B "driver: sqlite") [B "src"] (fun _ _ => ([], Ok tt)) (Setup false (Answered toy_answers) (Answered false)) toy_files) = [].
Proof. split; [split; [vm_compute; auto|]; split; [vm_compute; auto|discriminate]|]. repeat split. Qed.
Example C81_crash_case : (forall d, toy_decode [] d = None) /\ lookup [(([B "src"], B "sqlgen.yml"), B "driver: sqlite")] (the_config [B "src"]) = Some (B "driver: sqlite").
Proof. split; reflexivity. Qed.
