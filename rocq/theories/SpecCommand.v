(** Which settings a command is run with.  config and files are the types of ModelConfig.v and ModelRun.v; lookup, put and apply_all are the file system. *)
From Coq Require Import List Bool.
From Verif Require Import Base ModelConfig ModelRun.
Import ListNotations.

(** ** The configuration file of a directory: the first of four names (documentation of the settings) *)
Definition names : list bytes := [B "sqlgen.yml"; B ".sqlgen.yml"; B ".sqlgen.yaml"; B "sqlgen.yaml"].
Definition no_file (pwd : list bytes) (f : files) : Prop := forall n, In n names -> lookup f (pwd, n) = None.
Definition the_file (pwd : list bytes) (f : files) (x : bytes) : Prop :=
  exists a n b, names = a ++ n :: b /\ (forall m, In m a -> lookup f (pwd, m) = None) /\ lookup f (pwd, n) = Some x.
Section Settings.
Variable decode : bytes -> config -> option config.
(** The settings of the directory: those of the file over the documented ones *)
Definition in_force (pwd : list bytes) (f : files) (c : config) : Prop :=
  (no_file pwd f /\ c = init_config) \/ (exists x, the_file pwd f x /\ decode x init_config = Some c).
Definition unreadable (pwd : list bytes) (f : files) : Prop := exists x, the_file pwd f x /\ decode x init_config = None.
End Settings.

(** ** Settings with the documented values in place of those left empty *)
(** [user] when set, otherwise [default] *)
Definition or_default (user default r : bytes) : Prop := (user <> [] /\ r = user) \/ (user = [] /\ r = default).
(** The data type configured for a Go type *)
Definition configured (t : option (list (bytes * data_type))) (k : bytes) (v : option data_type) : Prop :=
  match t, v with
  | Some l, Some x => exists a b, l = a ++ (k, x) :: b /\ ~ In k (map fst a)
  | Some l, None => ~ In k (map fst l)
  | None, _ => v = None
  end.
Definition database_filled (d : option database_config) (r : option database_config) : Prop :=
  exists d' o', r = Some d' /\ d_operator d' = Some o' /\
    let u := match d with Some u => u | None => {| d_package := []; d_dir := []; d_filename := []; d_operator := None |} end in
    let o := match d_operator u with Some o => o | None => {| o_package := []; o_dir := []; o_filename := [] |} end in
    or_default (d_package u) (B "db") (d_package d') /\ or_default (d_dir u) (B "db") (d_dir d') /\ or_default (d_filename u) (B "db.go") (d_filename d') /\
    or_default (o_package o) (d_package d') (o_package o') /\ or_default (o_dir o) (d_dir d') (o_dir o') /\ or_default (o_filename o) (B "operator.go") (o_filename o').
Definition migration_filled (m r : option migration_config) : Prop :=
  match m with
  | None => r = None
  | Some m => exists y, r = Some y /\ m_dsn y = m_dsn m /\ or_default (m_package m) (B "migrate") (m_package y) /\ or_default (m_dir m) (B "migrate") (m_dir y) /\ or_default (m_filename m) (B "migrate.go") (m_filename y)
  end.
(** All settings but the source and the three of [unused] *)
Definition filled (c r : config) : Prop :=
  or_default (g_driver c) (B "mysql") (g_driver r) /\ or_default (g_naming c) (B "snake_case") (g_naming r) /\ or_default (g_tag c) (B "sql") (g_tag r) /\
  g_quote r = g_quote c /\ g_strict r = g_strict c /\ g_skip_empty r = g_skip_empty c /\ or_default (g_filename c) (B "generated.go") (g_filename r) /\
  or_default (g_prefix c) (B "Column") (g_prefix r) /\ migration_filled (g_migration c) (g_migration r) /\ database_filled (g_database c) (g_database r) /\
  g_skip_header r = g_skip_header c /\ g_skip_tidy r = g_skip_tidy c /\ (forall k v, configured (g_types c) k v <-> configured (g_types r) k v).
Definition source_filled (c r : config) : Prop := g_source r = match g_source c with Some s => Some s | None => Some [B "./**/*"] end.
Definition unused (c : config) : bool * bool * bool := (g_readonly c, g_omit_getters c, g_source_map c).
(** The drivers that exist *)
Definition drivers : list bytes := [B "mysql"; B "postgres"; B "sqlite"].
(** The same settings *)
Definition same_settings (a b : config) : Prop :=
  g_source a = g_source b /\ g_driver a = g_driver b /\ g_naming a = g_naming b /\ g_tag a = g_tag b /\ g_quote a = g_quote b /\ g_readonly a = g_readonly b /\ g_strict a = g_strict b /\
  g_skip_empty a = g_skip_empty b /\ g_filename a = g_filename b /\ g_prefix a = g_prefix b /\ g_migration a = g_migration b /\ g_database a = g_database b /\
  g_omit_getters a = g_omit_getters b /\ g_source_map a = g_source_map b /\ g_skip_header a = g_skip_header b /\ g_skip_tidy a = g_skip_tidy b /\
  (forall k v, configured (g_types a) k v <-> configured (g_types b) k v).
