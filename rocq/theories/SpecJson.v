(** A specification of JSON texts (RFC 8259): a reader from bytes to values.
    Independent of the code under study. *)
From Verif Require Import Base.

Inductive json :=
| JNull
| JBool (b : bool)
| JNum (text : bytes)                    (* the number token as written *)
| JStr (s : bytes)                       (* decoded, UTF-8 *)
| JArr (l : list json)
| JObj (l : list (bytes * json)).

Definition is_ws (c : byte) : bool :=
  let n := N_of_ascii c in N.eqb n 32 || N.eqb n 9 || N.eqb n 10 || N.eqb n 13.
Fixpoint skip_ws (s : bytes) : bytes :=
  match s with c :: r => if is_ws c then skip_ws r else s | [] => [] end.

Definition digit_c (c : byte) : bool := (N.leb 48 (N_of_ascii c) && N.leb (N_of_ascii c) 57)%bool.
Definition hex_c (c : byte) : option N :=
  let n := N_of_ascii c in
  if digit_c c then Some (n - 48)%N
  else if (N.leb 97 n && N.leb n 102)%bool then Some (n - 87)%N
  else if (N.leb 65 n && N.leb n 70)%bool then Some (n - 55)%N else None.

(** UTF-8 encoding of a code point (used for \u escapes). *)
Definition utf8_of (u : N) : bytes :=
  if N.ltb u 128 then [ascii_of_N u]
  else if N.ltb u 2048 then [ascii_of_N (192 + u / 64); ascii_of_N (128 + u mod 64)]
  else if N.ltb u 65536 then
    [ascii_of_N (224 + u / 4096); ascii_of_N (128 + u / 64 mod 64); ascii_of_N (128 + u mod 64)]
  else [ascii_of_N (240 + u / 262144); ascii_of_N (128 + u / 4096 mod 64);
        ascii_of_N (128 + u / 64 mod 64); ascii_of_N (128 + u mod 64)].

Definition hex4_c (a b c d : byte) : option N :=
  match hex_c a, hex_c b, hex_c c, hex_c d with
  | Some w, Some x, Some y, Some z => Some (((w * 16 + x) * 16 + y) * 16 + z)%N
  | _, _, _, _ => None
  end.

(** Body of a string after the opening quote: decoded bytes and what follows the closing quote.
    Bytes below 0x20 are not allowed.  Two \uXXXX escapes that are a surrogate pair give one code
    point; a half without its partner gives the replacement character. *)
Definition half (base u : N) : bool := (N.leb base u && N.leb u (base + 1023))%bool.
Definition pair_of (hi lo : N) : N := (65536 + (hi - 55296) * 1024 + (lo - 56320))%N.
Fixpoint string_body (s : bytes) : option (bytes * bytes) :=
  let put (d : bytes) (k : option (bytes * bytes)) :=
    match k with Some (v, rest) => Some (d ++ v, rest) | None => None end in
  match s with
  | [] => None
  | c :: r =>
    let n := N_of_ascii c in
    if N.eqb n 34 then Some ([], r)
    else if N.ltb n 32 then None
    else if N.eqb n 92 then
      match r with
      | [] => None
      | e :: r1 =>
        let m := N_of_ascii e in
        if N.eqb m 34 then put [e] (string_body r1)
        else if N.eqb m 92 then put [e] (string_body r1)
        else if N.eqb m 47 then put [e] (string_body r1)
        else if N.eqb m 98 then put [ascii_of_N 8] (string_body r1)
        else if N.eqb m 102 then put [ascii_of_N 12] (string_body r1)
        else if N.eqb m 110 then put [ascii_of_N 10] (string_body r1)
        else if N.eqb m 114 then put [ascii_of_N 13] (string_body r1)
        else if N.eqb m 116 then put [ascii_of_N 9] (string_body r1)
        else if N.eqb m 117 then
          match r1 with
          | a :: b :: c' :: d :: r5 =>
            match hex4_c a b c' d with
            | Some u =>
              if half 55296 u then
                match r5 with
                | x :: y :: a2 :: b2 :: c2 :: d2 :: r11 =>
                  match (if Ascii.eqb x "\" && Ascii.eqb y "u" then hex4_c a2 b2 c2 d2 else None) with
                  | Some w => if half 56320 w then put (utf8_of (pair_of u w)) (string_body r11) else put (utf8_of 65533) (string_body r5)
                  | None => put (utf8_of 65533) (string_body r5)
                  end
                | _ => put (utf8_of 65533) (string_body r5)
                end
              else if half 56320 u then put (utf8_of 65533) (string_body r5)
              else put (utf8_of u) (string_body r5)
            | None => None
            end
          | _ => None
          end
        else None
      end
    else put [c] (string_body r)
  end.

(** Longest run of number characters, and the number grammar. *)
Definition num_c (c : byte) : bool :=
  digit_c c || existsb (Ascii.eqb c) ["+"%char; "-"%char; "."%char; "e"%char; "E"%char].
Fixpoint span (p : byte -> bool) (s : bytes) : bytes * bytes :=
  match s with
  | c :: r => if p c then let (a, b) := span p r in (c :: a, b) else ([], s)
  | [] => ([], [])
  end.
Definition all_dig (s : bytes) : bool := match s with [] => false | _ => forallb digit_c s end.
Definition exp_ok (s : bytes) : bool :=
  match s with
  | [] => true
  | c :: r =>
    (Ascii.eqb c "e" || Ascii.eqb c "E") &&
    match r with
    | d :: r' => if Ascii.eqb d "+" || Ascii.eqb d "-" then all_dig r' else all_dig r
    | [] => false
    end
  end.
Definition frac_ok (s : bytes) : bool :=
  match s with
  | c :: r => if Ascii.eqb c "." then let (d, e) := span digit_c r in all_dig d && exp_ok e
              else exp_ok s
  | [] => true
  end.
Definition number_ok (s : bytes) : bool :=
  let u := match s with c :: r => if Ascii.eqb c "-" then r else s | [] => [] end in
  match u with
  | [] => false
  | c :: r =>
    if Ascii.eqb c "0" then frac_ok r
    else digit_c c && let (_, f) := span digit_c r in frac_ok f
  end.

(** [strip p s]: [s] without the prefix [p]. *)
Fixpoint strip (p s : bytes) : option bytes :=
  match p, s with
  | [], _ => Some s
  | x :: p', y :: s' => if Ascii.eqb x y then strip p' s' else None
  | _, _ => None
  end.

Definition literal (s : bytes) : option (json * bytes) :=
  match strip (B "null") s, strip (B "true") s, strip (B "false") s with
  | Some r, _, _ => Some (JNull, r)
  | _, Some r, _ => Some (JBool true, r)
  | _, _, Some r => Some (JBool false, r)
  | _, _, _ => let (t, r) := span num_c s in if number_ok t then Some (JNum t, r) else None
  end.

(** A value at the start of the text (leading white space allowed), and what follows it.
    Fuel bounds the nesting and the number of elements; [read_json] gives enough. *)
Fixpoint value (fuel : nat) (s : bytes) {struct fuel} : option (json * bytes) :=
  match fuel with
  | O => None
  | S f =>
    match skip_ws s with
    | [] => None
    | c :: r =>
      if Ascii.eqb c """" then
        match string_body r with Some (v, rest) => Some (JStr v, rest) | None => None end
      else if Ascii.eqb c "[" then
        match skip_ws r with
        | [] => None
        | d :: r' => if Ascii.eqb d "]" then Some (JArr [], r')
                     else match elements f r with Some (l, rest) => Some (JArr l, rest) | None => None end
        end
      else if Ascii.eqb c "{" then
        match skip_ws r with
        | [] => None
        | d :: r' => if Ascii.eqb d "}" then Some (JObj [], r')
                     else match members f r with Some (l, rest) => Some (JObj l, rest) | None => None end
        end
      else literal (c :: r)
    end
  end
with elements (fuel : nat) (s : bytes) {struct fuel} : option (list json * bytes) :=
  match fuel with
  | O => None
  | S f =>
    match value f s with
    | None => None
    | Some (v, r) =>
      match skip_ws r with
      | [] => None
      | c :: r' =>
        if Ascii.eqb c "," then
          match elements f r' with Some (l, rest) => Some (v :: l, rest) | None => None end
        else if Ascii.eqb c "]" then Some ([v], r') else None
      end
    end
  end
with members (fuel : nat) (s : bytes) {struct fuel} : option (list (bytes * json) * bytes) :=
  match fuel with
  | O => None
  | S f =>
    match skip_ws s with
    | [] => None
    | c :: r =>
      if Ascii.eqb c """" then
        match string_body r with
        | None => None
        | Some (k, r1) =>
          match skip_ws r1 with
          | [] => None
          | d :: r2 =>
            if Ascii.eqb d ":" then
              match value f r2 with
              | None => None
              | Some (v, r3) =>
                match skip_ws r3 with
                | [] => None
                | e :: r4 =>
                  if Ascii.eqb e "," then
                    match members f r4 with Some (l, rest) => Some ((k, v) :: l, rest) | None => None end
                  else if Ascii.eqb e "}" then Some ([(k, v)], r4) else None
                end
              end
            else None
          end
        end
      else None
    end
  end.

(** A JSON text: one value, then only white space. *)
Definition read_json (s : bytes) : option json :=
  match value (S (S (length s))) s with
  | Some (v, r) => match skip_ws r with [] => Some v | _ => None end
  | None => None
  end.
