(** Model of sequel/encoding/time.go: reading time columns. *)
From Verif Require Import Base ModelStrconv ModelEncoding.
Open Scope N_scope.

(** A calendar reading, in a zone [c_off] seconds east of UTC. *)
Record civil := Civil {
  c_year : N; c_month : N; c_day : N;
  c_hour : N; c_min : N; c_sec : N; c_nsec : N;
  c_off : Z }.

(** The time.Time values that can end up in a field: the zero time, a parsed reading,
    time.Unix(z, 0), or a time.Time made by the driver (opaque, as in [dval]). *)
Inductive gotime :=
| GZero
| GCivil (c : civil)
| GUnix (z : Z)
| GDriver (t : Z).

(** regexp \s *)
Definition space_re (c : byte) : bool :=
  beq c " " || N.eqb (code c) 9 || N.eqb (code c) 10 || N.eqb (code c) 12 || N.eqb (code c) 13.

(** Match one byte after the other; the unmatched rest is returned. *)
Fixpoint re_seq (pats : list (byte -> bool)) (s : bytes) {struct pats} : option bytes :=
  match pats, s with
  | [], _ => Some s
  | p :: pats', c :: s' => if p c then re_seq pats' s' else None
  | _ :: _, [] => None
  end.

(** time.go 12-14: \d{4}\-\d{2}\-\d{2} and \d{2}\:\d{2}:\d{2} *)
Definition date_re : list (byte -> bool) :=
  [is_digit; is_digit; is_digit; is_digit; beq "-"; is_digit; is_digit; beq "-"; is_digit; is_digit].
Definition clock_re : list (byte -> bool) :=
  [is_digit; is_digit; beq ":"; is_digit; is_digit; beq ":"; is_digit; is_digit].

(** time.go 12 ddmmyyyy *)
Definition match_date (s : bytes) : bool :=
  match re_seq date_re s with Some [] => true | _ => false end.
(** time.go 13 ddmmyyyyhhmmss *)
Definition match_datetime (s : bytes) : bool :=
  match re_seq (date_re ++ space_re :: clock_re) s with Some [] => true | _ => false end.
(** time.go 14 ddmmyyyyhhmmsstz: \.\d+ at the end. *)
Definition match_datetime_frac (s : bytes) : bool :=
  match re_seq (date_re ++ space_re :: clock_re) s with
  | Some (p :: d :: ds) => beq p "." && forallb is_digit (d :: ds)
  | _ => false
  end.

(** Go's time package (format.go), as far as the layouts of time.go use it. *)

(** atoi on exactly [n] digits *)
Fixpoint fixed_num (n : nat) (acc : N) (s : bytes) {struct n} : option (N * bytes) :=
  match n, s with
  | O, _ => Some (acc, s)
  | S n', c :: s' => if is_digit c then fixed_num n' (acc * 10 + (code c - 48)) s' else None
  | S _, [] => None
  end.

(** time/format.go getnum(s, fixed) *)
Definition getnum (fixed : bool) (s : bytes) : option (N * bytes) :=
  match s with
  | a :: s1 =>
      if is_digit a then
        match s1 with
        | b :: s2 => if is_digit b then Some ((code a - 48) * 10 + (code b - 48), s2)
                     else if fixed then None else Some (code a - 48, s1)
        | [] => if fixed then None else Some (code a - 48, s1)
        end
      else None
  | [] => None
  end.

(** The longest run of digits. *)
Fixpoint digit_run (s : bytes) : bytes * bytes :=
  match s with
  | c :: s' => if is_digit c then let '(d, r) := digit_run s' in (c :: d, r) else ([], s)
  | [] => ([], [])
  end.

Definition digits_n (ds : bytes) : N := fold_left (fun a c => a * 10 + (code c - 48)) ds 0.

(** time/format.go parseNanoseconds: at most nine digits are used. *)
Definition nanos (ds : bytes) : N :=
  let d := firstn 9 ds in digits_n d * 10 ^ (9 - N.of_nat (length d)).

(** time/format.go cutspace *)
Fixpoint cutspace (s : bytes) : bytes :=
  match s with c :: s' => if beq c " " then cutspace s' else s | [] => [] end.

(** The layout elements of "2006-01-02 15:04:05.999999". *)
Inductive item := LYear | LMonth | LDay | LHour | LMin | LSec | LFrac | LLit (c : byte).

Definition zero_civil : civil := Civil 0 1 1 0 0 0 0 0%Z.
Definition set_year c v := Civil v (c_month c) (c_day c) (c_hour c) (c_min c) (c_sec c) (c_nsec c) (c_off c).
Definition set_month c v := Civil (c_year c) v (c_day c) (c_hour c) (c_min c) (c_sec c) (c_nsec c) (c_off c).
Definition set_day c v := Civil (c_year c) (c_month c) v (c_hour c) (c_min c) (c_sec c) (c_nsec c) (c_off c).
Definition set_hour c v := Civil (c_year c) (c_month c) (c_day c) v (c_min c) (c_sec c) (c_nsec c) (c_off c).
Definition set_min c v := Civil (c_year c) (c_month c) (c_day c) (c_hour c) v (c_sec c) (c_nsec c) (c_off c).
Definition set_sec c v := Civil (c_year c) (c_month c) (c_day c) (c_hour c) (c_min c) v (c_nsec c) (c_off c).
Definition set_nsec c v := Civil (c_year c) (c_month c) (c_day c) (c_hour c) (c_min c) (c_sec c) v (c_off c).
Definition set_off c v := Civil (c_year c) (c_month c) (c_day c) (c_hour c) (c_min c) (c_sec c) (c_nsec c) v.

(** time/format.go parse, element by element. The rule "a fractional second in the value but none in
    the layout" is not modelled: the regular expressions exclude it. *)
Fixpoint parse_items (l : list item) (s : bytes) (c : civil) {struct l} : option civil :=
  match l with
  | [] => match s with [] => Some c | _ => None end
  | LYear :: l' =>
      match fixed_num 4 0 s with Some (v, s') => parse_items l' s' (set_year c v) | None => None end
  | LMonth :: l' =>
      match getnum true s with
      | Some (v, s') => if N.leb 1 v && N.leb v 12 then parse_items l' s' (set_month c v) else None
      | None => None
      end
  | LDay :: l' =>
      match getnum true s with Some (v, s') => parse_items l' s' (set_day c v) | None => None end
  | LHour :: l' =>
      match getnum false s with
      | Some (v, s') => if N.ltb v 24 then parse_items l' s' (set_hour c v) else None
      | None => None
      end
  | LMin :: l' =>
      match getnum true s with
      | Some (v, s') => if N.ltb v 60 then parse_items l' s' (set_min c v) else None
      | None => None
      end
  | LSec :: l' =>
      match getnum true s with
      | Some (v, s') => if N.ltb v 60 then parse_items l' s' (set_sec c v) else None
      | None => None
      end
  | LFrac :: l' =>
      match s with
      | p :: s1 =>
          if beq p "." then
            match digit_run s1 with
            | ([], _) => parse_items l' s c
            | (ds, s') => parse_items l' s' (set_nsec c (nanos ds))
            end
          else parse_items l' s c
      | [] => parse_items l' s c
      end
  | LLit a :: l' =>
      match s with
      | b :: s' => if beq a b then parse_items l' (if beq a " " then cutspace s' else s') c else None
      | [] => None
      end
  end.

(** time.isLeap *)
Definition is_leap (y : N) : bool :=
  N.eqb (y mod 4) 0 && (negb (N.eqb (y mod 100) 0) || N.eqb (y mod 400) 0).
(** time.daysIn: 30 + (m + m>>3) & 1, February apart *)
Definition days_in (m y : N) : N :=
  if N.eqb m 2 then (if is_leap y then 29 else 28) else 30 + (m + m / 8) mod 2.

(** time.Parse(layout, s): elements, then the day of the month. *)
Definition time_parse (l : list item) (s : bytes) : option civil :=
  match parse_items l s zero_civil with
  | Some c => if N.leb 1 (c_day c) && N.leb (c_day c) (days_in (c_month c) (c_year c)) then Some c else None
  | None => None
  end.

Definition layout_date : list item := [LYear; LLit "-"; LMonth; LLit "-"; LDay].
Definition layout_datetime : list item :=
  layout_date ++ [LLit " "; LHour; LLit ":"; LMin; LLit ":"; LSec].
Definition layout_frac : list item := layout_datetime ++ [LFrac].

(** time/format_rfc3339.go parseRFC3339: parseUint on two digits within bounds, then a separator. *)
Definition bounded (n : nat) (lo hi : N) (s : bytes) : option (N * bytes) :=
  match fixed_num n 0 s with
  | Some (v, s') => if N.leb lo v && N.leb v hi then Some (v, s') else None
  | None => None
  end.
Definition sep (a : byte) (s : bytes) : option bytes :=
  match s with c :: s' => if beq a c then Some s' else None | [] => None end.

(** The zone: Z, or a sign, two digits up to 23, a colon, two digits up to 59. *)
Definition rfc_zone (s : bytes) : option Z :=
  match s with
  | [z] => if beq z "Z" then Some 0%Z else None
  | sg :: s1 =>
      match bounded 2 0 23 s1 with
      | Some (hh, s2) =>
          match sep ":" s2 with
          | Some s3 =>
              match bounded 2 0 59 s3 with
              | Some (mm, []) =>
                  let o := Z.of_N ((hh * 60 + mm) * 60) in
                  if beq sg "+" then Some o else if beq sg "-" then Some (- o)%Z else None
              | _ => None
              end
          | None => None
          end
      | None => None
      end
  | [] => None
  end.

Definition obind {A C} (r : option A) (f : A -> option C) : option C :=
  match r with Some a => f a | None => None end.

(** time/format_rfc3339.go parseRFC3339 *)
Definition rfc_quick (s : bytes) : option civil :=
  obind (bounded 4 0 9999 s) (fun '(y, s) =>
  obind (sep "-" s) (fun s =>
  obind (bounded 2 1 12 s) (fun '(mo, s) =>
  obind (sep "-" s) (fun s =>
  obind (bounded 2 1 (days_in mo y) s) (fun '(d, s) =>
  obind (sep "T" s) (fun s =>
  obind (bounded 2 0 23 s) (fun '(h, s) =>
  obind (sep ":" s) (fun s =>
  obind (bounded 2 0 59 s) (fun '(mi, s) =>
  obind (sep ":" s) (fun s =>
  obind (bounded 2 0 59 s) (fun '(se, s) =>
  let '(ns, s) :=
    match s with
    | p :: s1 => if beq p "." then match digit_run s1 with ([], _) => (0, s) | (ds, s') => (nanos ds, s') end
                 else (0, s)
    | [] => (0, s)
    end in
  obind (rfc_zone s) (fun o => Some (Civil y mo d h mi se ns o))))))))))))).

Section Lax.
(** What the general parser makes of the rest of a text that starts like 2006-01-02T but that the
    strict parser refuses; left abstract. *)
Variable lax : bytes -> option civil.

(** time.Parse(time.RFC3339Nano, s): the strict parser first, then the general one, whose layout
    demands four digits, a dash, two digits, a dash, two digits and the letter T. *)
Definition rfc_parse (s : bytes) : option civil :=
  match rfc_quick s with
  | Some c => Some c
  | None => match re_seq (date_re ++ [beq "T"]) s with Some _ => lax s | None => None end
  end.

(** time.go 98-109 parseTime *)
Definition parse_time (s : bytes) : option civil :=
  if match_date s then time_parse layout_date s
  else if match_datetime s then time_parse layout_datetime s
  else if match_datetime_frac s then time_parse layout_frac s
  else rfc_parse s.

(** time.go 27-96 tsScanner.Scan *)
Definition time_scanner (tgt : target gotime) (v : dval) : scan_result gotime :=
  match v with
  | VNull => (store_null GZero tgt, Ok tt)
  | VString s | VBytes s =>
      match parse_time s with
      | Some c => (store tgt (GCivil c), Ok tt)
      | None => (tgt, Err)
      end
  | VTime t => (store tgt (GDriver t), Ok tt)
  | VInt z => (store tgt (GUnix z), Ok tt)
  | VBool _ | VFloat _ => (tgt, Err)
  end.
End Lax.
