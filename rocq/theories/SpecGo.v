(** What the Go compiler reads in a string literal (Go specification, String literals). *)
From Verif Require Import Base.

(** Source text has to be valid UTF-8 (Unicode table 3-7). *)
Definition cont (lo hi : N) (c : byte) : bool := in_range lo hi c.
Fixpoint utf8_ok (s : bytes) : bool :=
  match s with
  | [] => true
  | c :: r =>
      let n := code c in
      if N.ltb n 128 then utf8_ok r
      else if N.leb 194 n && N.leb n 223 then
        match r with c1 :: r1 => cont 128 191 c1 && utf8_ok r1 | _ => false end
      else if N.leb 224 n && N.leb n 239 then
        match r with
        | c1 :: c2 :: r2 =>
            cont (if N.eqb n 224 then 160 else 128) (if N.eqb n 237 then 159 else 191) c1 && cont 128 191 c2 && utf8_ok r2
        | _ => false
        end
      else if N.leb 240 n && N.leb n 244 then
        match r with
        | c1 :: c2 :: c3 :: r3 =>
            cont (if N.eqb n 240 then 144 else 128) (if N.eqb n 244 then 143 else 191) c1
            && cont 128 191 c2 && cont 128 191 c3 && utf8_ok r3
        | _ => false
        end
      else false
  end.

(** Raw literal: everything up to the closing back quote, carriage returns dropped. *)
Fixpoint raw_body (s : bytes) : option bytes :=
  match s with
  | [] => None
  | c :: r =>
      if beq c backtick then match r with [] => Some [] | _ => None end
      else match raw_body r with
           | Some t => Some (if N.eqb (code c) 13 then t else c :: t)
           | None => None
           end
  end.

(** Interpreted literal: no bare newline; escapes.  The numeric escapes are not read (the
    generator never writes one on purpose): a literal using them has no reading here. *)
Definition escape (c : byte) : option byte :=
  if beq c backslash then Some backslash else if beq c dquote then Some dquote
  else if beq c "n" then Some (chr 10) else if beq c "t" then Some (chr 9) else if beq c "r" then Some (chr 13)
  else if beq c "a" then Some (chr 7) else if beq c "b" then Some (chr 8) else if beq c "f" then Some (chr 12)
  else if beq c "v" then Some (chr 11) else None.
Fixpoint interpreted_body (s : bytes) : option bytes :=
  match s with
  | [] => None
  | c :: r =>
      if beq c dquote then match r with [] => Some [] | _ => None end
      else if beq c LF then None
      else if beq c backslash then
        match r with
        | e :: r2 => match escape e, interpreted_body r2 with Some b, Some t => Some (b :: t) | _, _ => None end
        | [] => None
        end
      else match interpreted_body r with Some t => Some (c :: t) | None => None end
  end.

Definition go_literal (s : bytes) : option bytes :=
  if negb (utf8_ok s) || existsb (fun c => N.eqb (code c) 0) s then None
  else match s with
       | c :: r => if beq c backtick then raw_body r else if beq c dquote then interpreted_body r else None
       | [] => None
       end.
