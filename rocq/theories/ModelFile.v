(** Model of the file that /repo/cmd/sqlgen/codegen/generate.go writes for a package (generateModels, 350-368; buildHeader, 380-382),
    before imports.Process lays it out. *)
From Verif Require Import Base ModelStrconv ModelEncoding ModelConfig ModelExpr ModelText.

(** 356-363: a package whose name is the last element of its path is imported without a name.  The quoted path is the format of a
    Fprintf there; paths with percent signs are not modelled. *)
Definition import_line (printable : N -> bool) (i : bytes * bytes) : bytes :=
  match i with (path, name) => if bseq (base path) name then line [go_quote printable path] else line [name; B " "; go_quote printable path] end.
(** 350-368; the imports with the last first, as in ModelConfig; the texts of the models as in ModelText *)
Definition gen_file (printable : N -> bool) (version package : bytes) (l : imports) (models : list bytes) : bytes :=
  line [B "// Code generated by sqlgen, version "; version; B "; DO NOT EDIT."] ++ line [] ++ line [B "package "; package] ++
  match l with
  | [] => []
  | _ => line [B "import ("] ++ concat (map (import_line printable) (rev l)) ++ line [B ")"]
  end ++ concat models.
