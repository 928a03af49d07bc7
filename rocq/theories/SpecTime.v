(** What database time texts mean, independent of the parser. *)
From Verif Require Import Base ModelEncoding ModelTime.
Open Scope N_scope.

Definition dig (n : N) : byte := ascii_of_N (48 + n).
Definition two (n : N) : bytes := [dig (n / 10); dig (n mod 10)].
Definition four (n : N) : bytes := two (n / 100) ++ two (n mod 100).

(** 2006-01-02 and 15:04:05 *)
Definition date_text (c : civil) : bytes := four (c_year c) ++ B "-" ++ two (c_month c) ++ B "-" ++ two (c_day c).
Definition clock_text (c : civil) : bytes := two (c_hour c) ++ B ":" ++ two (c_min c) ++ B ":" ++ two (c_sec c).

(** The Gregorian calendar. *)
Definition leap_year (y : N) : Prop := (y mod 4 = 0 /\ y mod 100 <> 0) \/ y mod 400 = 0.
Definition month_length (y m : N) (n : N) : Prop :=
  (In m [1; 3; 5; 7; 8; 10; 12] /\ n = 31) \/
  (In m [4; 6; 9; 11] /\ n = 30) \/
  (m = 2 /\ leap_year y /\ n = 29) \/
  (m = 2 /\ ~ leap_year y /\ n = 28).
Definition real_time (c : civil) : Prop :=
  c_year c <= 9999 /\ (exists n, month_length (c_year c) (c_month c) n /\ 1 <= c_day c <= n) /\
  c_hour c < 24 /\ c_min c < 60 /\ c_sec c < 60.

(** A run of decimal digits, and the fraction of a second it denotes, in whole nanoseconds. *)
Definition digit_text (ds : bytes) : Prop := Forall (fun c => 48 <= N_of_ascii c <= 57) ds.
Definition digits_value (ds : bytes) : N := fold_left (fun a c => 10 * a + (N_of_ascii c - 48)) ds 0.
Definition fraction_ns (ds : bytes) : N := digits_value ds * 10 ^ 9 / 10 ^ N.of_nat (length ds).

(** The texts for a reading without a zone (UTC): a date, a date and time, or these with a fraction. *)
Inductive plain_text (c : civil) : bytes -> Prop :=
| PTDate : c_hour c = 0 -> c_min c = 0 -> c_sec c = 0 -> c_nsec c = 0 -> plain_text c (date_text c)
| PTTime : c_nsec c = 0 -> plain_text c (date_text c ++ B " " ++ clock_text c)
| PTFrac ds : ds <> [] -> digit_text ds -> c_nsec c = fraction_ns ds ->
    plain_text c (date_text c ++ B " " ++ clock_text c ++ B "." ++ ds).

(** RFC 3339 zones. *)
Inductive zone_text : Z -> bytes -> Prop :=
| ZUtc : zone_text 0 (B "Z")
| ZEast h m : h < 24 -> m < 60 -> zone_text (Z.of_N (3600 * h + 60 * m)) (B "+" ++ two h ++ B ":" ++ two m)
| ZWest h m : h < 24 -> m < 60 -> zone_text (- Z.of_N (3600 * h + 60 * m)) (B "-" ++ two h ++ B ":" ++ two m).
Inductive rfc_text (c : civil) : bytes -> Prop :=
| RTPlain z : c_nsec c = 0 -> zone_text (c_off c) z -> rfc_text c (date_text c ++ B "T" ++ clock_text c ++ z)
| RTFrac ds z : ds <> [] -> digit_text ds -> c_nsec c = fraction_ns ds -> zone_text (c_off c) z ->
    rfc_text c (date_text c ++ B "T" ++ clock_text c ++ B "." ++ ds ++ z).

(** A field, or a pointer field, that now holds the time. *)
Definition field_is (after : target gotime) (t : gotime) : Prop := after = TVal t \/ after = TPtr (Some t).
