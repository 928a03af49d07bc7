(** Model of a run of the generator, as in ModelRun, when operations on files may fail: codegen.go 41-262 with generate.go 339-378, init.go 46-116 and
    internal/fileutil IsDirEmptyFiles.  Simplified: directories are not kept; what is written before a failed close stays; go mod tidy touches no
    file of the model. *)
From Verif Require Import Base ModelPaths ModelRun.

(** What the program asks of the system: syscall.Unlink, os.MkdirAll, os.OpenFile with O_CREATE|O_TRUNC, Write, Close *)
Inductive attempt := Removes (p : path) | Makes (d : list bytes) | Opens (p : path) | Writes (p : path) (c : bytes) | Closes (p : path).
(** What comes of it: done, or an error (of a write: after [k] bytes) *)
Inductive outcome := Done | Failed (k : nat).
Definition effect (x : attempt * outcome) : list op :=
  match x with
  | (Removes p, Done) => [Unlink p]
  | (Opens p, Done) => [Truncate p]
  | (Writes p c, Done) => [Write p c]
  | (Writes p c, Failed k) => [Write p (firstn k c)]
  | _ => []
  end.
Definition effects (t : list (attempt * outcome)) : list op := flat_map effect t.

Section Disk.
Context {Sc M : Type}.
(** The same as in ModelRun *)
Variable st : settings.
Variable plan : files -> bytes -> res (option (list (list bytes) * M)).
Variable parse : files -> M -> list bytes -> parsed Sc.
Variable render : Sc -> rendered.
Variable db_code op_code : option bytes.
Variable tidy : res unit.
(** What comes of the n-th attempt; which directories can be listed *)
Variable disk : nat -> outcome.
Variable readable : list bytes -> bool.

(** A part of the run: the number of attempts so far and the files before it; its attempts and how it ends *)
Definition part := nat -> files -> list (attempt * outcome) * res unit.
Definition ends (r : res unit) : part := fun _ _ => ([], r).
Definition after (a b : part) : part := fun n f =>
  match a n f with
  | (t, Ok _) => let (t', r) := b (n + length t) (apply_all f (effects t)) in (t ++ t', r)
  | (t, e) => (t, e)
  end.
(** One attempt; [r] is what the program makes of an error: Ok when it goes on, Err when it returns the error, Panic *)
Definition try (a : attempt) (r : res unit) : part := fun n _ => match disk n with Done => ([(a, Done)], Ok tt) | Failed k => ([(a, Failed k)], r) end.

(** codegen.go 214-260 for one directory, generate.go 339-378: mustNoError panics when the code cannot be written *)
Definition package (m : M) (d : list bytes) : part :=
  let out := (d, s_exec st) in
  after (try (Removes out) (Ok tt)) (fun n f =>
    match parse f m d with
    | PSkip => ends (Ok tt) n f
    | PErr => ends Err n f
    | PPanic => ends Panic n f
    | PSchema s =>
        match render s with
        | RPanic => ends Panic n f
        | RBad => after (try (Makes d) Err) (after (try (Opens out) Err) (ends Err)) n f
        | RCode c => after (try (Makes d) Err) (after (try (Opens out) Err) (after (try (Writes out c) Panic) (try (Closes out) Err))) n f
        end
    end).
(** codegen.go 196-213; fileutil.go 29-47: the errors of WalkDir are dropped, a directory that cannot be listed is empty *)
Definition directory (m : M) (d : list bytes) : part := fun n f =>
  if existsb (segs_eq d) [joined st (s_db_dir st); joined st (s_op_dir st)] then ends (Ok tt) n f
  else if negb (readable d) || dir_empty f d (s_exec st) then ends (Ok tt) n f
  else package m d n f.
Fixpoint directories (m : M) (dirs : list (list bytes)) {struct dirs} : part :=
  match dirs with [] => ends (Ok tt) | d :: r => after (directory m d) (directories m r) end.
(** codegen.go 64-150 *)
Definition source (s : bytes) : part := fun n f =>
  match plan f s with
  | Err => ends Err n f
  | Panic => ends Panic n f
  | Ok None => ends (Ok tt) n f
  | Ok (Some (dirs, m)) => directories m dirs n f
  end.
Fixpoint all_sources (srcs : list bytes) {struct srcs} : part :=
  match srcs with [] => ends (Ok tt) | s :: r => after (source s) (all_sources r) end.
(** codegen.go 152-187, init.go 91-116; os.WriteFile opens, writes and closes *)
Definition template_part (gone out : path) (code : option bytes) : part :=
  after (try (Removes gone) (Ok tt))
    match code with
    | None => ends Err
    | Some c => after (try (Makes (fst out)) Err) (after (try (Opens out) Err) (after (try (Writes out c) Err) (try (Closes out) Err)))
    end.
(** codegen.go 60-187 *)
Definition run (srcs : list bytes) (f : files) : list (attempt * outcome) * res unit :=
  let db := (dir_of st (s_db_dir st), s_db_file st) in
  let op := (dir_of st (s_op_dir st), s_op_file st) in
  after (all_sources srcs) (after (template_part db db db_code) (after (template_part (dir_of st (s_db_dir st), s_op_file st) op op_code) (ends tidy))) 0 f.
End Disk.
