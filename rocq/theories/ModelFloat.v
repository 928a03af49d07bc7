(** Model of sequel/encoding/float.go: reading and writing float32 and float64 columns.  A Go float is a [spec_float] of the standard
    library (all NaNs are one). *)
From Coq Require Import ZArith Floats.SpecFloat.
From Verif Require Import Base ModelTypes ModelEncoding.
Open Scope Z_scope.

Inductive width := F32 | F64.
Definition prec (w : width) : Z := match w with F32 => 24 | F64 => 53 end.
Definition emax (w : width) : Z := match w with F32 => 128 | F64 => 1024 end.

(** The float64 with the given bits (math.Float64frombits). *)
Definition float_of_bits (b : N) : spec_float :=
  let s := N.testbit b 63 in
  let m := (b mod 2 ^ 52)%N in
  let e := ((b / 2 ^ 52) mod 2 ^ 11)%N in
  if (e =? 0)%N then match m with N0 => S754_zero s | Npos p => S754_finite s p (-1074) end
  else if (e =? 2047)%N then match m with N0 => S754_infinity s | _ => S754_nan end
  else match (m + 2 ^ 52)%N with N0 => S754_nan | Npos p => S754_finite s p (Z.of_N e - 1075) end.

(** Go's conversions float32(x), float64(x) of a float and of an integer: one rounding to nearest even, overflow gives an infinity. *)
Definition convert_float (w : width) (x : spec_float) : spec_float :=
  match x with S754_finite s m e => binary_round (prec w) (emax w) s m e | _ => x end.
Definition convert_int (w : width) (z : Z) : spec_float := binary_normalize (prec w) (emax w) z 0 false.

(** What a driver hands to Scan: one of the kinds of driver.Value, or a float32 (database/sql passes it on as it is). *)
Inductive source := Driver (v : dval) | Single (x : spec_float).

Section Scan.
(** strconv.ParseFloat(s, 32 or 64): the float64 it returns, or an error. *)
Variable parse_float : width -> bytes -> option spec_float.

(** float.go 39-118 float32Scanner.Scan, 125-204 float64Scanner.Scan *)
Definition float_scanner (w : width) (strict : bool) (tgt : target spec_float) (src : source) : scan_result spec_float :=
  match src with
  | Driver VNull => (store_null (S754_zero false) tgt, Ok tt)
  | Driver (VFloat b) => (store tgt (convert_float w (float_of_bits b)), Ok tt)
  | Driver (VInt z) => (store tgt (convert_int w z), Ok tt)
  | Driver (VBytes s) | Driver (VString s) =>
      if strict then (tgt, Err)
      else match parse_float w s with Some f => (store tgt (convert_float w f), Ok tt) | None => (tgt, Err) end
  | _ => (tgt, Err)
  end.
End Scan.

(** The valuer of both types in the three dialects is (float64)(field): mysql/column_type.go 94-103, postgres/column_type.go 95-104,
    sqlite/column_type.go 88-97 *)
Definition float_valuer (x : spec_float) : spec_float := convert_float F64 x.
(** The column types of the same lines (the word only: NULL, NOT NULL and the default follow it). *)
Definition float_column (d : dialect) (w : width) : bytes :=
  match d, w with
  | MySQL, F32 => B "FLOAT"
  | MySQL, F64 => B "FLOAT"
  | Postgres, F32 => B "real"
  | Postgres, F64 => B "double precision"
  | SQLite, F32 => B "REAL"
  | SQLite, F64 => B "REAL"
  end.
