(** What the text of a list of times has to say, with the texts of SpecTime. *)
From Coq Require Import ZArith.
From Verif Require Import Base ModelTime SpecTime.

(** The time without the fraction of its second. *)
Definition whole_second (c : civil) : civil :=
  {| c_year := c_year c; c_month := c_month c; c_day := c_day c; c_hour := c_hour c; c_min := c_min c; c_sec := c_sec c; c_nsec := 0; c_off := c_off c |}.
(** The zone is a whole number of minutes, less than a day from UTC. *)
Definition minute_zone (c : civil) : Prop := (exists m, c_off c = 60 * m)%Z /\ (Z.abs (c_off c) < 86400)%Z.
