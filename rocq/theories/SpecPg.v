(** PostgreSQL lexical rules for escape string constants E'...' (PostgreSQL manual 4.1.2.2).
    [estring s]: the bytes denoted and the text after the constant. Unicode escapes (\u, \U) are
    treated as errors; they never occur in what the code emits. *)
From Verif Require Import Base.

Definition oct_digit (c : byte) : option N :=
  let n := N_of_ascii c in if (N.leb 48 n && N.leb n 55)%bool then Some (n - 48)%N else None.
Definition hex_digit_val (c : byte) : option N :=
  let n := N_of_ascii c in
  if (N.leb 48 n && N.leb n 57)%bool then Some (n - 48)%N
  else if (N.leb 97 n && N.leb n 102)%bool then Some (n - 87)%N
  else if (N.leb 65 n && N.leb n 70)%bool then Some (n - 55)%N else None.

Fixpoint ebody (s : bytes) : option (bytes * bytes) :=
  let put (d : byte) (k : option (bytes * bytes)) :=
    match k with Some (v, rest) => Some (d :: v, rest) | None => None end in
  match s with
  | [] => None                                                   (* unterminated *)
  | c :: r =>
    if Ascii.eqb c "'"%char then
      match r with
      | d :: r1 => if Ascii.eqb d "'"%char then put d (ebody r1) else Some ([], r)
      | [] => Some ([], r)
      end
    else if Ascii.eqb c "\"%char then
      match r with
      | [] => None
      | e :: r1 =>
        if Ascii.eqb e "b"%char then put (ascii_of_N 8) (ebody r1)
        else if Ascii.eqb e "f"%char then put (ascii_of_N 12) (ebody r1)
        else if Ascii.eqb e "n"%char then put (ascii_of_N 10) (ebody r1)
        else if Ascii.eqb e "r"%char then put (ascii_of_N 13) (ebody r1)
        else if Ascii.eqb e "t"%char then put (ascii_of_N 9) (ebody r1)
        else if Ascii.eqb e "u"%char || Ascii.eqb e "U"%char then None
        else if Ascii.eqb e "x"%char then
          match r1 with
          | a :: r2 =>
            match hex_digit_val a with
            | Some x =>
              match r2 with
              | b :: r3 => match hex_digit_val b with
                           | Some y => put (ascii_of_N (x * 16 + y)) (ebody r3)
                           | None => put (ascii_of_N x) (ebody r2)
                           end
              | [] => None
              end
            | None => put e (ebody r1)
            end
          | [] => None
          end
        else
          match oct_digit e with
          | Some x =>
            match r1 with
            | a :: r2 =>
              match oct_digit a with
              | Some y =>
                match r2 with
                | b :: r3 => match oct_digit b with
                             | Some z => put (ascii_of_N ((x * 8 + y) * 8 + z)) (ebody r3)
                             | None => put (ascii_of_N (x * 8 + y)) (ebody r2)
                             end
                | [] => None
                end
              | None => put (ascii_of_N x) (ebody r1)
              end
            | [] => None
            end
          | None => put e (ebody r1)
          end
      end
    else put c (ebody r)
  end.

Definition estring (s : bytes) : option (bytes * bytes) :=
  match s with
  | e :: q :: r => if (Ascii.eqb e "E"%char || Ascii.eqb e "e"%char) && Ascii.eqb q "'"%char
                   then ebody r else None
  | _ => None
  end.
