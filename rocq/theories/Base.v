(** Shared vocabulary: byte strings, outcomes, small Go helpers.
    Go strings and []byte are [list ascii] (one [ascii] per byte). *)
From Coq Require Export Ascii String NArith ZArith Bool.
From Coq Require Export List Lia.
Export ListNotations.
Open Scope list_scope.
Open Scope bool_scope.

Notation byte := ascii (only parsing).
Notation bytes := (list ascii) (only parsing).

(** [B "text"] is the byte string written in the source as "text". *)
Definition B (s : string) : bytes := list_ascii_of_string s.

(** Outcome of a Go call: a value, a returned error, or a run-time panic. *)
Inductive res (A : Type) : Type :=
| Ok (a : A)
| Err
| Panic.
Arguments Ok {A} a.
Arguments Err {A}.
Arguments Panic {A}.

Definition bind {A C} (r : res A) (f : A -> res C) : res C :=
  match r with Ok a => f a | Err => Err | Panic => Panic end.
Notation "'let*' x ':=' e 'in' f" := (bind e (fun x => f))
  (at level 200, x name, e at level 100, f at level 200, right associativity).

(** Byte equality and byte-string equality (bytes.Equal, string ==). *)
Definition beq (a b : byte) : bool := Ascii.eqb a b.
Fixpoint bseq (a b : bytes) : bool :=
  match a, b with
  | [], [] => true
  | x :: a', y :: b' => beq x y && bseq a' b'
  | _, _ => false
  end.

(** strings.HasPrefix / bytes.HasPrefix: [has_prefix s p]. *)
Fixpoint has_prefix (s p : bytes) {struct p} : bool :=
  match p, s with
  | [], _ => true
  | x :: p', y :: s' => beq x y && has_prefix s' p'
  | _ :: _, [] => false
  end.

(** strings.Join *)
Fixpoint join (sep : bytes) (l : list bytes) : bytes :=
  match l with
  | [] => []
  | [x] => x
  | x :: l' => x ++ sep ++ join sep l'
  end.

(** strings.Repeat (negative counts panic; callers model that explicitly) *)
Fixpoint repeat_bytes (s : bytes) (n : nat) : bytes :=
  match n with O => [] | S n' => s ++ repeat_bytes s n' end.

(** Character classes (ASCII). *)
Definition code (c : byte) : N := N_of_ascii c.
Definition in_range (lo hi : N) (c : byte) : bool := N.leb lo (code c) && N.leb (code c) hi.
Definition is_digit := in_range 48 57.
Definition is_upper := in_range 65 90.
Definition is_lower := in_range 97 122.
Definition is_alpha c := is_upper c || is_lower c.
Definition is_alnum c := is_alpha c || is_digit c.

Definition chr (n : N) : byte := ascii_of_N n.
Definition dquote : byte := chr 34.
Definition squote : byte := chr 39.
Definition backslash : byte := chr 92.
Definition backtick : byte := chr 96.
Definition LF : byte := chr 10.

(** List membership on byte strings (Go map[string]struct{} used as a set). *)
Fixpoint bmem (x : bytes) (l : list bytes) : bool :=
  match l with [] => false | y :: l' => bseq x y || bmem x l' end.
