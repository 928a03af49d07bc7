(** The commands: cmd/sqlgen/{cmd,init,generate}.go, codegen/init.go 18-44 Init, config.go 261-304 and codegen.go 43-63 (Generate up to
    the first source).  Simplified: a file can be opened when it exists; stat fails only for files that do not exist; the log and the texts
    on the screen are left out; the flags are parsed. *)
From Coq Require Import List Bool.
From Verif Require Import Base ModelConfig ModelRun.
Import ListNotations.

(** The answers to the questions of init.go 30-68.  survey.Select gives one of its options; survey.Input gives its default for an empty line. *)
Record answers := Answers { a_driver : bytes; a_naming : bytes; a_tag : bytes; a_strict : bool }.
(** What survey.Ask and survey.AskOne give: a value, terminal.InterruptErr, or another error *)
Inductive asked (A : Type) := Answered (a : A) | Interrupted | Failed.
Arguments Answered {A} a. Arguments Interrupted {A}. Arguments Failed {A}.
Inductive command :=
| Root (file : option path)                                    (* sqlgen [-c file] *)
| Source (src : bytes)                                         (* sqlgen generate src *)
| Setup (force : bool) (a : asked answers) (ok : asked bool).  (* sqlgen init [-f] *)

Section Commands.
Variable decode : bytes -> config -> option config.  (* yaml.Decoder.Decode into a configuration; None: an error *)
Variable encode : config -> bytes.                   (* yaml.Encoder.Encode with comments *)
Variable pwd : list bytes.
Variable gen : config -> files -> list op * res unit.  (* codegen.go 57-187, after the dialect was found: ModelRun.generate *)

(** config.go 39 *)
Definition config_names : list bytes := [B "sqlgen.yml"; B ".sqlgen.yml"; B ".sqlgen.yaml"; B "sqlgen.yaml"].
(** 296-304 findCfgInDir *)
Fixpoint find_config (f : files) (names : list bytes) : option path :=
  match names with
  | [] => None
  | n :: r => match lookup f (pwd, n) with Some _ => Some (pwd, n) | None => find_config f r end
  end.
(** 284-294 decodeToFile *)
Definition decode_file (f : files) (p : path) (c : config) : res config :=
  match lookup f p with
  | None => Err
  | Some x => match decode x c with Some c' => Ok c' | None => Err end
  end.
(** 270-282 DefaultConfig: panic(err) *)
Definition default_config (f : files) : res config :=
  match find_config f config_names with
  | None => Ok init_config
  | Some p => match decode_file f p init_config with Ok c => Ok c | _ => Panic end
  end.
(** 261-268 LoadConfigFrom *)
Definition load_config (f : files) (p : path) : res config := decode_file f p init_config.

Definition lift {A} (r : res A) (k : A -> list op * res unit) : list op * res unit :=
  match r with Ok a => k a | Err => ([], Err) | Panic => ([], Panic) end.
(** codegen.go 43-57.  Config has no validate tags: the validator has nothing to check.  The three dialects register themselves. *)
Definition generate_with (c : config) (f : files) : list op * res unit :=
  lift (default_config f) (fun d => lift (merge d c) (fun cfg =>
    if bmem (g_driver cfg) [B "mysql"; B "postgres"; B "sqlite"] then gen cfg f else ([], Err))).

(** init.go 82-102: the configuration with the answers *)
Definition with_answers (a : answers) (c : config) : config :=
  {| g_source := g_source c; g_driver := a_driver a;
     g_naming := if bmem (a_naming a) [B "snake_case"; B "PascalCase"; B "camelCase"] then a_naming a else g_naming c;
     g_tag := a_tag a; g_quote := g_quote c; g_readonly := g_readonly c; g_strict := Some (a_strict a); g_skip_empty := g_skip_empty c; g_filename := g_filename c;
     g_prefix := g_prefix c; g_migration := g_migration c; g_database := g_database c; g_omit_getters := g_omit_getters c; g_source_map := g_source_map c;
     g_skip_header := g_skip_header c; g_skip_tidy := g_skip_tidy c; g_types := g_types c |}.
(** codegen/init.go 18-44: opened with O_TRUNC, then encoded *)
Definition write_config (c : config) : list op := [Truncate (pwd, B "sqlgen.yml"); Write (pwd, B "sqlgen.yml") (encode c)].
(** init.go 28-123, 130-135 *)
Definition run_init (force : bool) (a : asked answers) (ok : asked bool) (f : files) : list op * res unit :=
  match force, lookup f (pwd, B "sqlgen.yml") with
  | false, Some _ => ([], Ok tt)
  | _, _ =>
      match a with
      | Interrupted => ([], Ok tt)
      | Failed => ([], Err)
      | Answered x =>
          lift (default_config f) (fun c =>
            match ok with
            | Interrupted => ([], Ok tt)
            | Failed => ([], Err)
            | Answered false => ([], Ok tt)
            | Answered true => (write_config (with_answers x c), Ok tt)
            end)
      end
  end.
(** cmd.go 27-42, generate.go 20-62 *)
Definition run_command (cmd : command) (f : files) : list op * res unit :=
  match cmd with
  | Root None => lift (default_config f) (fun c => generate_with c f)
  | Root (Some p) => lift (default_config f) (fun _ => lift (load_config f p) (fun c => generate_with c f))
  | Source src =>
      lift (default_config f) (fun c =>
        generate_with
          {| g_source := Some [src]; g_driver := g_driver c; g_naming := g_naming c; g_tag := g_tag c; g_quote := g_quote c; g_readonly := g_readonly c; g_strict := g_strict c;
             g_skip_empty := g_skip_empty c; g_filename := g_filename c; g_prefix := g_prefix c; g_migration := g_migration c; g_database := g_database c; g_omit_getters := g_omit_getters c;
             g_source_map := g_source_map c; g_skip_header := g_skip_header c; g_skip_tidy := g_skip_tidy c; g_types := g_types c |} f)
  | Setup force a ok => run_init force a ok f
  end.
End Commands.
