(** Model of unicode/utf8 (library; part of the trusted base) as used by the code. *)
From Verif Require Import Base.

Definition rune_error : N := 65533.

(** Second-byte range for a lead byte (utf8.acceptRanges) and sequence length (utf8.first).
    [None]: not a lead byte of a multi-byte sequence. *)
Definition lead_info (c : N) : option (nat * N * N) :=
  if (N.leb 194 c && N.leb c 223)%N then Some (2, 128%N, 191%N)
  else if N.eqb c 224 then Some (3, 160%N, 191%N)
  else if (N.leb 225 c && N.leb c 236) then Some (3, 128%N, 191%N)
  else if N.eqb c 237 then Some (3, 128%N, 159%N)
  else if (N.leb 238 c && N.leb c 239) then Some (3, 128%N, 191%N)
  else if N.eqb c 240 then Some (4, 144%N, 191%N)
  else if (N.leb 241 c && N.leb c 243) then Some (4, 128%N, 191%N)
  else if N.eqb c 244 then Some (4, 128%N, 143%N)
  else None.

Definition is_cont (c : byte) : bool := in_range 128 191 c.

(** utf8.DecodeRune on a non-empty slice: rune, remaining bytes, and whether the encoding was valid.
    An invalid sequence yields RuneError and consumes one byte. *)
Definition decode_rune (c0 : byte) (r : bytes) : N * bytes * bool :=
  let bad := (rune_error, r, false) in
  if N.ltb (code c0) 128 then (code c0, r, true)
  else match lead_info (code c0) with
       | None => bad
       | Some (n, lo, hi) =>
         match n, r with
         | 2, c1 :: r1 =>
           if in_range lo hi c1
           then ((code c0 mod 32) * 64 + code c1 mod 64, r1, true)%N else bad
         | 3, c1 :: c2 :: r2 =>
           if in_range lo hi c1 && is_cont c2
           then ((code c0 mod 16) * 4096 + (code c1 mod 64) * 64 + code c2 mod 64, r2, true)%N else bad
         | 4, c1 :: c2 :: c3 :: r3 =>
           if in_range lo hi c1 && is_cont c2 && is_cont c3
           then ((code c0 mod 8) * 262144 + (code c1 mod 64) * 4096 + (code c2 mod 64) * 64
                 + code c3 mod 64, r3, true)%N else bad
         | _, _ => bad
         end
       end.

(** All runes of a byte string, each with its encoded bytes ([for i, r := range s]). Structural on a
    fuel list equal to the string itself: every step consumes at least one byte. *)
Fixpoint runes_fuel (fuel : bytes) (s : bytes) : list (N * bytes * bool) :=
  match fuel, s with
  | _ :: f, c :: r =>
    match decode_rune c r with
    | (u, rest, ok) => (u, firstn (length s - length rest) s, ok) :: runes_fuel f rest
    end
  | _, _ => []
  end.
Definition runes (s : bytes) : list (N * bytes * bool) := runes_fuel s s.

(** utf8.AppendRune for a valid code point. *)
Definition encode_rune (u : N) : bytes :=
  if N.ltb u 128 then [chr u]
  else if N.ltb u 2048 then [chr (192 + u / 64); chr (128 + u mod 64)]
  else if N.ltb u 65536 then [chr (224 + u / 4096); chr (128 + u / 64 mod 64); chr (128 + u mod 64)]
  else [chr (240 + u / 262144); chr (128 + u / 4096 mod 64); chr (128 + u / 64 mod 64); chr (128 + u mod 64)].

(** A Unicode scalar value (what a valid rune is). *)
Definition scalar (u : N) : bool :=
  (N.ltb u 55296 || (N.ltb 57343 u && N.ltb u 1114112))%bool.
