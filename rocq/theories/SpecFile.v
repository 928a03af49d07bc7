(** What a generated file says: its package, its imports, its methods (C77). *)
From Verif Require Import Base ModelStrconv ModelCompiler ModelParser ModelNaming ModelGen ModelMethods ModelText SpecSql SpecGo SpecGen SpecParser SpecEnd SpecSource SpecOutput.

(** ** Import declarations *)
(** path, or name and path *)
Definition read_import (l : list gtree) : option (option bytes * bytes) :=
  match l with
  | [GLeaf (GStr lit)] => option_map (pair None) (go_literal lit)
  | [GLeaf (GWord n); GLeaf (GStr lit)] => option_map (pair (Some n)) (go_literal lit)
  | _ => None
  end.
Fixpoint all_some {A} (l : list (option A)) : option (list A) :=
  match l with [] => Some [] | Some x :: r => option_map (cons x) (all_some r) | None :: _ => None end.
Definition read_imports (g : gdecl) : option (list (option bytes * bytes)) :=
  match g with
  | Decl [w; GGroup c inner] => if is_word (B "import") w && beq c "(" then all_some (map read_import (filter nonempty (split_trees (B ";") [] inner))) else None
  | _ => None
  end.
(** The name by which a file that has this import refers to the package: the one given, or the one in the package's own package clause *)
Definition refers (clause : bytes -> bytes) (s : option bytes * bytes) : bytes := match fst s with Some n => n | None => clause (snd s) end.
(** The path ends in this element. *)
Definition ends_in (path element : bytes) : Prop := ~ In "/"%char element /\ (path = element \/ exists dir, path = dir ++ "/"%char :: element).

(** ** Files *)
(** A package clause, at most one import declaration, and methods *)
Definition file_says (text package : bytes) (specs : list (option bytes * bytes)) (ms : list gfunc) : Prop :=
  exists imports, read_source text = Some (Decl [word (B "package"); word package] :: imports ++ map Method ms) /\
  ((imports = [] /\ specs = []) \/ exists g, imports = [g] /\ read_imports g = Some specs).

(** ** Models *)
Record model := { m_user : bytes -> own; m_name : bytes; m_doc : option bytes; m_fields : list decl; m_table : table;
  m_valuer : bytes -> gotype -> bytes; m_scanner : bytes -> gotype -> bytes; m_basic : gotype -> bool; m_type_text : gotype -> bytes; m_new_text : bytes -> bytes; m_type_name : gotype -> bytes;
  m_text : bytes }.
Section Models.
Context {V : Type}.
Variables (printable : N -> bool) (d : driver) (on : bool) (prefix : bytes) (strict : bool).
Variables (rename : bytes -> bytes) (wrap unwrap : gotype -> bytes * bytes) (sort : list (list nat * sfield) -> list (list nat * sfield)).
Variables (before after : gotype -> list (tok V)) (item : gotype -> bytes -> list (tok V)).
(** The struct is parsed to the table and written as the text; names are ASCII, and what the text is put together from is readable. *)
Definition generates (m : model) : Prop :=
  ascii_source (m_name m) (m_fields m) /\ distinct_paths (m_fields m) /\
  (forall f, In f (declared (m_fields m)) -> has_column f -> readable_field (m_valuer m) (m_scanner m) (m_type_text m) (m_new_text m) f) /\
  (forall f, In f (declared (m_fields m)) -> has_column f -> auto_field f -> expression_text (m_type_name m (f_type f))) /\
  parse_struct sort rename wrap unwrap (m_name m) (m_doc m) (m_fields m) = Ok (Some (m_table m)) /\
  gen_text printable d on prefix strict (m_user m) (m_name m) (m_valuer m) (m_scanner m) (m_basic m) (m_type_text m) (m_new_text m) (m_type_name m) (m_table m) = Ok (m_text m).
(** The methods of a model, as in C76 *)
Definition methods_of (m : model) (ms : list gfunc) : Prop :=
  exists F ns, fields_of rename (m_fields m) F ns /\
  Forall2 (describes_method (V:=V) d on prefix (match m_user m (B "TableName") with Has => true | _ => false end) (m_name m) (m_valuer m) (m_scanner m) (m_basic m) (m_type_text m) (m_new_text m) (m_type_name m)
             unwrap before after item (m_table m) F ns)
    (kinds (m_user m) (t_readonly (m_table m)) (existsb (fun f => match unwrap (f_type f) with ([], []) => false | _ => true end) (all F)) F) ms.
End Models.
