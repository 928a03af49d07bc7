(** Model of sequel/driver/postgres/pgutil/pgutil.go. *)
From Verif Require Import Base.

(** pgutil.go 7-29: one byte at a time. *)
Definition pg_quote_byte (c : byte) : bytes :=
  let n := code c in
  if N.eqb n 39 then [squote; c]
  else if N.eqb n 8 then B "\b"
  else if N.eqb n 12 then B "\f"
  else if N.eqb n 10 then B "\n"
  else if N.eqb n 13 then B "\r"
  else if N.eqb n 9 then B "\t"
  else if N.eqb n 92 then B "\\"
  else [c].

(** pgutil.go 3-32 Quote *)
Definition pg_quote (s : bytes) : bytes :=
  "E"%char :: squote :: concat (map pg_quote_byte s) ++ [squote].
