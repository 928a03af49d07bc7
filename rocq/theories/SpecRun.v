(** What a run of the generator may do to the files. *)
From Verif Require Import Base ModelPaths ModelRun PropPaths.

(** ** The directories of the settings, and the files a run may touch *)
(** The directory a text names: from the root when it starts with a slash, otherwise from the working directory. *)
Definition relative (text : bytes) : Prop := text <> [] /\ forall r, text <> "/"%char :: r.
Definition names (pwd : list bytes) (text : bytes) (segs : list bytes) : Prop :=
  (exists r, text = "/"%char :: r) /\ spells text segs \/ relative text /\ spells (slashed pwd ++ "/"%char :: text) segs.

Section Statements.
Context {S M : Type}.
Variable st : settings.
Variables dbd opd : list bytes.
Variable plan : files -> bytes -> res (option (list (list bytes) * M)).
Variable parse : files -> M -> list bytes -> parsed S.
Variable render : S -> rendered.
Variable db_code op_code : option bytes.
Variable tidy : res unit.
Notation run := (generate st plan parse render db_code op_code tidy).

(** [dbd] and [opd] are the directories of the database code and of the operators. *)
Definition settled : Prop := names (s_pwd st) (s_db_dir st) dbd /\ names (s_pwd st) (s_op_dir st) opd.
(** The files that belong to the user: not the generated file of a package, the database code or the operators. *)
Definition generated (p : path) : Prop := snd p = s_exec st \/ p = (dbd, s_db_file st) \/ p = (opd, s_op_file st).
Definition users (p : path) : Prop := ~ generated p /\ p <> (dbd, s_op_file st).
Definition agree (f g : files) : Prop := forall p, users p -> lookup f p = lookup g p.
(** Finding the directories of a source and reading a package do not depend on generated files (the parser skips them). *)
Definition independent : Prop := forall f g, agree f g -> (forall s, plan f s = plan g s) /\ (forall m d, parse f m d = parse g m d).
(** The directory [d] is asked for by one of the sources. *)
Definition asked (f : files) (srcs : list bytes) (d : list bytes) : Prop := exists s ds m, In s srcs /\ plan f s = Ok (Some (ds, m)) /\ In d ds.
(** It has a Go file other than the generated one. *)
Definition has_go (f : files) (d : list bytes) : Prop := exists name stem c, lookup f (d, name) = Some c /\ name <> s_exec st /\ name = stem ++ B ".go".
End Statements.
