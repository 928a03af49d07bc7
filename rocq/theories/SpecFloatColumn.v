(** What the databases' float columns hold. *)
From Coq Require Import ZArith Floats.SpecFloat.
From Verif Require Import Base ModelTypes SpecIeee.
Open Scope Z_scope.

(** The column types of the three databases for binary floating point, as (precision, exponent bound): MySQL FLOAT is single and DOUBLE is
    double precision, PostgreSQL real and double precision, SQLite REAL is double precision. *)
Definition column_formats : list (dialect * bytes * (Z * Z)) :=
  [(MySQL, B "FLOAT", (24, 128)); (MySQL, B "DOUBLE", (53, 1024));
   (Postgres, B "real", (24, 128)); (Postgres, B "double precision", (53, 1024));
   (SQLite, B "REAL", (53, 1024))].

(** [y] is what becomes of the float [x] in a format: zeros, infinities and NaN stay, other numbers are rounded. *)
Definition converted (prec emax : Z) (x y : spec_float) : Prop :=
  match x with
  | S754_finite s m e => rounds prec emax (if s then Zneg m else Zpos m, e) y
  | _ => y = x
  end.
Definition finite (x : spec_float) : Prop := exists v, value x = Some v.

(** The float [sent] to a column of type [word] comes back as [back] (a float64): the column holds it in its own format, and a number that
    is too large for that is refused instead. *)
Definition through_column (d : dialect) (word : bytes) (sent back : spec_float) : Prop :=
  exists p e held, In (d, word, (p, e)) column_formats /\ converted p e sent held /\ (finite sent -> finite held) /\ converted 53 1024 held back.
