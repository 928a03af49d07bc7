(** Model of /repo/cmd/sqlgen/codegen: config.go, package.go, and dialect/dialect.go's registry. *)
From Verif Require Import Base ModelStrconv.

(** ** config.go:43-103 *)
Record data_type := { dt_type : bytes; dt_scan : bytes; dt_sql_scan : option bytes; dt_value : bytes; dt_sql_value : option bytes }.
Record migration_config := { m_dsn : bytes; m_package : bytes; m_dir : bytes; m_filename : bytes }.
Record operator_config := { o_package : bytes; o_dir : bytes; o_filename : bytes }.
Record database_config := { d_package : bytes; d_dir : bytes; d_filename : bytes; d_operator : option operator_config }.
(** None: nil.  Exec and Getter are flattened.  [g_types]: the map as a list of pairs, the first for a key counts. *)
Record config := {
  g_source : option (list bytes); g_driver : bytes; g_naming : bytes; g_tag : bytes; g_quote : bool; g_readonly : bool; g_strict : option bool;
  g_skip_empty : bool; g_filename : bytes; g_prefix : bytes; g_migration : option migration_config; g_database : option database_config;
  g_omit_getters : bool; g_source_map : bool; g_skip_header : bool; g_skip_tidy : bool; g_types : option (list (bytes * data_type))
}.
Definition empty_operator : operator_config := {| o_package := []; o_dir := []; o_filename := [] |}.
Definition empty_database : database_config := {| d_package := []; d_dir := []; d_filename := []; d_operator := None |}.
(** new(Config) *)
Definition zero_config : config :=
  {| g_source := None; g_driver := []; g_naming := []; g_tag := []; g_quote := false; g_readonly := false; g_strict := None; g_skip_empty := false; g_filename := [];
     g_prefix := []; g_migration := None; g_database := None; g_omit_getters := false; g_source_map := false; g_skip_header := false; g_skip_tidy := false; g_types := None |}.
(** 105-123 Init *)
Definition init_config : config :=
  {| g_source := Some [B "./**/*"]; g_driver := B "mysql"; g_naming := B "snake_case"; g_tag := B "sql"; g_quote := false; g_readonly := false; g_strict := Some true;
     g_skip_empty := false; g_filename := B "generated.go"; g_prefix := B "Column"; g_migration := None;
     g_database := Some {| d_package := B "db"; d_dir := B "db"; d_filename := B "db.go"; d_operator := Some {| o_package := B "db"; o_dir := B "db"; o_filename := B "operator.go" |} |};
     g_omit_getters := false; g_source_map := false; g_skip_header := false; g_skip_tidy := false; g_types := Some [] |}.
(** if x == "" { x = v } *)
Definition or_else (x v : bytes) : bytes := match x with [] => v | _ => x end.
(** 125-183 initIfEmpty *)
Definition init_if_empty (c : config) : config :=
  let db := match g_database c with Some d => d | None => empty_database end in
  let op := match d_operator db with Some o => o | None => empty_operator end in
  let pkg := or_else (d_package db) (B "db") in
  let dir := or_else (d_dir db) (B "db") in
  {| g_source := match g_source c with None => Some [B "./**/*"] | s => s end;
     g_driver := or_else (g_driver c) (B "mysql"); g_naming := or_else (g_naming c) (B "snake_case"); g_tag := or_else (g_tag c) (B "sql");
     g_quote := g_quote c; g_readonly := g_readonly c; g_strict := g_strict c; g_skip_empty := g_skip_empty c;
     g_filename := or_else (g_filename c) (B "generated.go"); g_prefix := or_else (g_prefix c) (B "Column");
     g_migration := match g_migration c with
                    | Some m => Some {| m_dsn := m_dsn m; m_package := or_else (m_package m) (B "migrate"); m_dir := or_else (m_dir m) (B "migrate");
                                        m_filename := or_else (m_filename m) (B "migrate.go") |}
                    | None => None
                    end;
     g_database := Some {| d_package := pkg; d_dir := dir; d_filename := or_else (d_filename db) (B "db.go");
                           d_operator := Some {| o_package := or_else (o_package op) pkg; o_dir := or_else (o_dir op) dir; o_filename := or_else (o_filename op) (B "operator.go") |} |};
     g_omit_getters := g_omit_getters c; g_source_map := g_source_map c; g_skip_header := g_skip_header c; g_skip_tidy := g_skip_tidy c;
     g_types := match g_types c with None => Some [] | t => t end |}.
(** 185-246 Merge; maps.Copy into a nil map panics unless there is nothing to copy *)
Definition merge (c m : config) : res config :=
  let* types := match g_types m with
                | None => Ok (g_types c)
                | Some [] => Ok (g_types c)
                | Some l => match g_types c with Some l0 => Ok (Some (l ++ l0)) | None => Panic end
                end in
  Ok (init_if_empty
    {| g_source := match g_source m with Some s => Some s | None => g_source c end;
       g_driver := or_else (g_driver m) (g_driver c); g_naming := or_else (g_naming m) (g_naming c); g_tag := or_else (g_tag m) (g_tag c);
       g_quote := g_quote m; g_readonly := g_readonly c; g_strict := match g_strict m with Some s => Some s | None => g_strict c end;
       g_skip_empty := if g_skip_empty m then true else g_skip_empty c; g_filename := or_else (g_filename m) (g_filename c); g_prefix := or_else (g_prefix m) (g_prefix c);
       g_migration := match g_migration m with Some x => Some x | None => g_migration c end;
       g_database := match g_database m with Some x => Some x | None => g_database c end;
       g_omit_getters := g_omit_getters c; g_source_map := g_source_map c; g_skip_header := if g_skip_header m then true else g_skip_header c;
       g_skip_tidy := if g_skip_tidy m then true else g_skip_tidy c; g_types := types |}).

(** ** package.go *)
(** The imports so far: path and name of each, the last first (cache and imports hold the same packages). *)
Definition imports := list (bytes * bytes).
Fixpoint name_of_path (l : imports) (path : bytes) : option bytes :=
  match l with [] => None | (p, n) :: l' => if bseq p path then Some n else name_of_path l' path end.
(** 57-67 newAliasIfExists; [fuel] bounds the turns; None: it was not enough *)
Fixpoint new_alias (fuel : nat) (taken : list bytes) (name current : bytes) (i : N) : option bytes :=
  match fuel with
  | O => None
  | S fuel' => if bmem current taken then new_alias fuel' taken name (name ++ format_uint i) (i + 1) else Some current
  end.
Inductive imported := Skipped | Unloaded | Named_as (name : bytes).
(** 30-55 Import of a package of that path and name in the package [self]; [load] is the name found by packages.Load, None an error.
    The result: the new imports, and what the package is called in the generated file. *)
Definition import (self : bytes) (load : bytes -> option bytes) (l : imports) (path name : bytes) : option (imports * imported) :=
  match name_of_path l path with
  | Some n => Some (l, Named_as n)
  | None =>
      match load path with
      | None => Some (l, Unloaded)
      | Some real =>
          if bseq path self then Some (l, Skipped)
          else
            let name := match real with [] => name | _ => real end in
            match new_alias (S (length l)) (map snd l) name name 1 with
            | Some alias => Some ((path, alias) :: l, Named_as alias)
            | None => None
            end
      end
  end.
(** any sequence of them *)
Fixpoint import_all (self : bytes) (load : bytes -> option bytes) (l : imports) (ps : list (bytes * bytes)) : option imports :=
  match ps with
  | [] => Some l
  | (p, n) :: ps' => match import self load l p n with Some (l', _) => import_all self load l' ps' | None => None end
  end.

(** ** dialect/dialect.go:118-141 *)
Section Registry.
Variable D : Type.
Definition registry := list (bytes * D).
(** None: nil is registered, a panic *)
Definition register (r : registry) (name : bytes) (d : option D) : res registry :=
  match d with None => Panic | Some d => Ok ((name, d) :: filter (fun x => negb (bseq (fst x) name)) r) end.
Fixpoint get_dialect (r : registry) (name : bytes) : option D :=
  match r with [] => None | (n, d) :: r' => if bseq n name then Some d else get_dialect r' name end.
Definition default_dialect (r : registry) : res D := match get_dialect r (B "mysql") with Some d => Ok d | None => Panic end.
Fixpoint register_all (r : registry) (l : list (bytes * option D)) : res registry :=
  match l with [] => Ok r | (n, d) :: l' => let* r' := register r n d in register_all r' l' end.
End Registry.
