(** Model of the list marshaler of times, sequel/encoding/marshaler.go 84-96, and of the part of time.Time.Format it uses.  A time is its reading
    in its own zone (ModelTime.civil); years before 0 are not modelled. *)
From Coq Require Import ZArith.
From Verif Require Import Base ModelStrconv ModelEncoding ModelTime ModelMarshal.

(** time/format.go appendInt *)
Definition append_int (w : nat) (n : N) : bytes :=
  if N.ltb n (10 ^ N.of_nat w) then fixed_digits w n else format_uint n.
(** time/format.go appendFormat, stdISO8601ColonTZ: the seconds of the offset are cut off *)
Definition format_zone (off : Z) : bytes :=
  if Z.eqb off 0 then B "Z"
  else
    let zone := Z.quot off 60 in
    let m := Z.to_N (Z.abs zone) in
    (if Z.ltb zone 0 then B "-" else B "+") ++ append_int 2 (m / 60) ++ B ":" ++ append_int 2 (m mod 60).
(** Format with 2006-01-02T15:04:05Z07:00 *)
Definition format_rfc3339 (c : civil) : bytes :=
  append_int 4 (c_year c) ++ B "-" ++ append_int 2 (c_month c) ++ B "-" ++ append_int 2 (c_day c) ++ B "T" ++
  append_int 2 (c_hour c) ++ B ":" ++ append_int 2 (c_min c) ++ B ":" ++ append_int 2 (c_sec c) ++ format_zone (c_off c).
(** marshaler.go 84-96 MarshalTimeList: the layout is quoted, so the text is *)
Definition marshal_times (l : list civil) : bytes :=
  marshal_list (fun c => dquote :: format_rfc3339 c ++ [dquote]) l.
