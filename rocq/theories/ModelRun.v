(** Model of a run of the generator, codegen.go 41-262, with generate.go 353-378, init.go 46-116 and internal/fileutil IsDirEmptyFiles:
    which files it removes and writes, in which order.  Simplified: the operations on files succeed; directories are not kept (a file can
    always be created); go mod tidy touches no file of the model. *)
From Verif Require Import Base ModelPaths.

(** A file: the segments of its directory (absolute) and its name. *)
Definition path := (list bytes * bytes)%type.
Definition files := list (path * bytes).
Definition path_eq (a b : path) : bool := segs_eq (fst a) (fst b) && bseq (snd a) (snd b).
Fixpoint lookup (f : files) (p : path) : option bytes :=
  match f with [] => None | (q, c) :: r => if path_eq p q then Some c else lookup r p end.
Definition unlink (f : files) (p : path) : files := filter (fun x => negb (path_eq p (fst x))) f.
Definition put (f : files) (p : path) (c : bytes) : files := (p, c) :: unlink f p.

(** What is done to a file: syscall.Unlink, os.OpenFile with O_CREATE|O_TRUNC, and writing the content. *)
Inductive op := Unlink (p : path) | Truncate (p : path) | Write (p : path) (c : bytes).
Definition apply (f : files) (o : op) : files :=
  match o with Unlink p => unlink f p | Truncate p => put f p [] | Write p c => put f p c end.
Definition apply_all (f : files) (os : list op) : files := fold_left apply os f.

(** filepath.Ext(name) == ".go" *)
Fixpoint has_suffix (s suf : bytes) : bool := bseq s suf || match s with [] => false | _ :: r => has_suffix r suf end.
Definition go_ext (name : bytes) : bool := has_suffix name (B ".go").
(** fileutil.go 29-47 IsDirEmptyFiles *)
Definition dir_empty (f : files) (d : list bytes) (excluded : bytes) : bool :=
  negb (existsb (fun x => segs_eq d (fst (fst x)) && negb (bseq (snd (fst x)) excluded) && go_ext (snd (fst x))) f).

(** What compiler.Parse returns: ErrSkip, another error, a panic, or the package. *)
Inductive parsed (S : Type) := PSkip | PErr | PPanic | PSchema (s : S).
Arguments PSkip {S}. Arguments PErr {S}. Arguments PPanic {S}. Arguments PSchema {S} s.
(** What generateModels makes of it: a panic while building the code (LogError in strict mode, a template that cannot be read), code that
    imports.Process refuses, or code. *)
Inductive rendered := RPanic | RBad | RCode (c : bytes).

Record settings := {
  s_exec : bytes;                       (* Exec.Filename *)
  s_skip_empty : bool;                  (* Exec.SkipEmpty *)
  s_pwd : list bytes;
  s_db_dir : bytes; s_db_file : bytes;  (* Database.Dir, Database.Filename *)
  s_op_dir : bytes; s_op_file : bytes   (* Database.Operator.Dir, .Filename *)
}.
(** The directory a setting means to the system: relative to the working directory unless it starts with a slash. *)
Definition dir_of (st : settings) (d : bytes) : list bytes :=
  match d with
  | c :: _ => if beq c "/" then clean d else clean (slashed (s_pwd st) ++ B "/" ++ d)
  | [] => s_pwd st
  end.
(** path.Join(pwd, dir): always below the working directory *)
Definition joined (st : settings) (d : bytes) : list bytes := clean (slashed (s_pwd st) ++ B "/" ++ d).

Section Run.
Context {S M : Type}.
Variable st : settings.
(** codegen.go 69-143: the directories and the matcher of a source, None when nothing is there (see ModelPaths.plan). *)
Variable plan : files -> bytes -> res (option (list (list bytes) * M)).
(** compiler.Parse(dir, matcher) *)
Variable parse : files -> M -> list bytes -> parsed S.
Variable render : S -> rendered.
(** What renderTemplate makes of db.go.tpl and operator.go.tpl, None for an error before the file is written. *)
Variable db_code op_code : option bytes.
(** go mod tidy, when it is not switched off *)
Variable tidy : res unit.

(** codegen.go 190-262 parseGoPackage; the operations in order and the outcome *)
Fixpoint process (f : files) (m : M) (dirs : list (list bytes)) : list op * res unit :=
  match dirs with
  | [] => ([], Ok tt)
  | d :: r =>
      if existsb (segs_eq d) [joined st (s_db_dir st); joined st (s_op_dir st)] then process f m r
      else if dir_empty f d (s_exec st) then process f m r
      else
        let out := (d, s_exec st) in
        let f1 := unlink f out in
        match parse f1 m d with
        | PSkip => let (os, o) := process f1 m r in (Unlink out :: os, o)
        | PErr => ([Unlink out], Err)
        | PPanic => ([Unlink out], Panic)
        | PSchema s =>
            match render s with
            | RPanic => ([Unlink out], Panic)
            | RBad => ([Unlink out; Truncate out], Err)
            | RCode c =>
                let (os, o) := process (put f1 out c) m r in
                (* 250-252: if SkipEmpty, goto nextDir, which comes next in any case *)
                if s_skip_empty st then (Unlink out :: Truncate out :: Write out c :: os, o)
                else (Unlink out :: Truncate out :: Write out c :: os, o)
            end
        end
  end.

(** 64-150: the sources one after the other *)
Fixpoint sources (f : files) (srcs : list bytes) : list op * res unit :=
  match srcs with
  | [] => ([], Ok tt)
  | s :: r =>
      match plan f s with
      | Err => ([], Err)
      | Panic => ([], Panic)
      | Ok None => sources f r
      | Ok (Some (dirs, m)) =>
          match process f m dirs with
          | (os, Ok _) => let (os', o) := sources (apply_all f os) r in (os ++ os', o)
          | (os, e) => (os, e)
          end
      end
  end.

(** 152-187, init.go 46-116 renderTemplate: [gone] is removed, then [out] is written *)
Definition template (gone out : path) (code : option bytes) : list op * res unit :=
  match code with
  | None => ([Unlink gone], Err)
  | Some c => ([Unlink gone; Truncate out; Write out c], Ok tt)
  end.
Definition and_then (a b : list op * res unit) : list op * res unit :=
  match a with (os, Ok _) => let (os', o) := b in (os ++ os', o) | (os, e) => (os, e) end.

(** 60-187 Generate, after the settings are merged and the generator is made *)
Definition generate (f : files) (srcs : list bytes) : list op * res unit :=
  let db := (dir_of st (s_db_dir st), s_db_file st) in
  let op := (dir_of st (s_op_dir st), s_op_file st) in
  and_then (sources f srcs)
    (and_then (template db db db_code)
      (and_then (template (dir_of st (s_db_dir st), s_op_file st) op op_code) ([], tidy))).
End Run.
