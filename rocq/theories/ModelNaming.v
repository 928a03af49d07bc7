(** Model of /repo/cmd/sqlgen/internal/strfmt. *)
From Verif Require Import Base ModelCompiler.

(** v += 'a'; v -= 'A' *)
Definition to_lower (c : byte) : byte := chr (code c + 32).
Definition to_upper (c : byte) : byte := chr (code c - 32).

(** strfmt.go toScreamingDelimited, 56-105, with delimiter _, no ignored characters and screaming false (strfmt ToSnakeCase).
    [prev] is s[i-1]. *)
Fixpoint snake_from (prev : option byte) (s : bytes) : bytes :=
  match s with
  | [] => []
  | v0 :: r =>
      let cap := is_upper v0 in
      let low := is_lower v0 in
      let v := if cap then to_lower v0 else v0 in
      let num := is_digit v in
      let rest := snake_from (Some v0) r in
      let plain := if beq v " " || beq v "_" || beq v "-" || beq v "." then B "_" else [v] in
      match r with
      | next :: _ =>
          let ncap := is_upper next in
          let nlow := is_lower next in
          let nnum := is_digit next in
          if (cap && (nlow || nnum)) || (low && (ncap || nnum)) || (num && (ncap || nlow)) then
            (if cap && nlow && match prev with Some p => is_upper p | None => false end then B "_" else []) ++ [v] ++
            (if low || num || nnum then B "_" else []) ++ rest
          else plain ++ rest
      | [] => plain ++ rest
      end
  end.
Definition to_snake_case (s : bytes) : bytes := snake_from None (trim_space s).

(** strfmt.go toCamelInitCase, 10-54; [first]: i == 0 *)
Fixpoint camel_from (acronym : bool) (first cap_next prev_cap : bool) (s : bytes) : bytes :=
  match s with
  | [] => []
  | v0 :: r =>
      let cap := is_upper v0 in
      let low := is_lower v0 in
      let v := if cap_next then (if low then to_upper v0 else v0)
               else if first then (if cap then to_lower v0 else v0)
               else if prev_cap && cap && negb acronym then to_lower v0 else v0 in
      if cap || low then v :: camel_from acronym false false cap r
      else if is_digit v then v :: camel_from acronym false true cap r
      else camel_from acronym false (beq v "_" || beq v " " || beq v "-" || beq v ".") cap r
  end.
Definition camel_init (s : bytes) (init : bool) : bytes :=
  let s := trim_space s in
  if bseq s (B "ID") then camel_from true true init false (B "id") else camel_from false true init false s.
Definition to_pascal_case (s : bytes) : bytes := camel_init s true.
Definition to_camel_case (s : bytes) : bytes := camel_init s false.

(** config.go:248-259 RenameFunc; the convention as it stands in the configuration *)
Definition rename_func (convention : bytes) : bytes -> bytes :=
  if bseq convention (B "snake_case") then to_snake_case
  else if bseq convention (B "camelCase") then to_camel_case
  else if bseq convention (B "PascalCase") then to_pascal_case
  else fun s => s.
