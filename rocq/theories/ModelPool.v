(** Model of /repo/sequel/strpool/pool.go and of the statement pool of db.go.tpl:1400-1417, with the memory that
    builders and argument slices share with the strings and slices obtained from them.

    An object stands for a *strings.Builder or a *SqlStmt; a strings.Builder uses its text only.  Operations of
    different users are interleaved as wholes: sync.Pool synchronises Get and Put, and an object is used by the
    goroutine that holds it. *)
From Verif Require Import Base ModelCompiler ModelGen ModelRuntime ModelStmt.

(** ** Memory: Go slices and append *)

(** Arrays with the cells written so far and their capacity. *)
Definition memory (A : Type) := list (list A * nat).
(** A slice is nil, or an array and a length; slices of builders start at the array's first cell. *)
Definition slice := option (nat * nat).
Definition contents {A} (m : memory A) (s : slice) : list A :=
  match s with Some (a, n) => firstn n (fst (nth a m ([], 0))) | None => [] end.
Fixpoint set_nth {A} (l : list A) (i : nat) (x : A) : list A :=
  match l, i with [], _ => [] | _ :: l', O => x :: l' | y :: l', S i' => y :: set_nth l' i' x end.
(** append(s, xs...): in place when the capacity allows it, else into a new array; [extra] is the room the
    runtime adds.  strings.Builder appends in the same way (strings/builder.go). *)
Definition grow {A} (m : memory A) (s : slice) (xs : list A) (extra : nat) : memory A * slice :=
  match xs with
  | [] => (m, s)
  | _ =>
      match s with
      | None => (m ++ [(xs, length xs + extra)], Some (length m, length xs))
      | Some (a, n) =>
          let '(cells, cap) := nth a m ([], 0) in
          if Nat.leb (n + length xs) cap
          then (set_nth m a (firstn n cells ++ xs ++ skipn (n + length xs) cells, cap), Some (a, n + length xs))
          else (m ++ [(firstn n cells ++ xs, n + length xs + extra)], Some (length m, n + length xs))
      end
  end.

Section Pool.
Context {V : Type}.

(** db.go.tpl:1419-1423 *)
Record object := { b_text : slice; b_pos : nat; b_args : slice }.
Definition new_object : object := {| b_text := None; b_pos := 0; b_args := None |}.
(** The pool is the list of objects that Put was called with and Get did not return yet. *)
Record world := { w_bytes : memory ascii; w_args : memory V; w_objects : list object; w_pool : list nat }.
Definition empty_world : world := {| w_bytes := []; w_args := []; w_objects := []; w_pool := [] |}.
Definition object_at (w : world) (o : nat) : object := nth o (w_objects w) new_object.

(** The calls on an object that change it *)
Inductive call := CVar (v : V) | CVars (vs : list V) | CWrite (x : bytes) | CReset.
Inductive event :=
| Get (u : nat) (choice : option nat)              (* user u acquires; the pool's choice, or a new object *)
| Drop (i : nat)                                   (* the garbage collector empties a place of the pool *)
| Do (u o : nat) (c : call) (extra : nat)          (* user u calls a method of object o *)
| Read (u o : nat)                                 (* Query() or String(), and Args() *)
| Release (u o : nat).
Inductive answer := AObject (o : nat) | ARead (text args : slice) | ANone.

Definition remove_nth {A} (i : nat) (l : list A) : list A := firstn i l ++ skipn (S i) l.
Definition set_object (w : world) (o : nat) (x : object) : world :=
  {| w_bytes := w_bytes w; w_args := w_args w; w_objects := set_nth (w_objects w) o x; w_pool := w_pool w |}.
(** db.go.tpl:1525-1529 Reset, strings.Builder.Reset: the slices become nil *)
Definition reset_object (w : world) (o : nat) : world := set_object w o new_object.
Definition write_text (w : world) (o : nat) (x : bytes) (extra : nat) : world :=
  let b := object_at w o in
  let '(m, s) := grow (w_bytes w) (b_text b) x extra in
  {| w_bytes := m; w_args := w_args w; w_objects := set_nth (w_objects w) o {| b_text := s; b_pos := b_pos b; b_args := b_args b |}; w_pool := w_pool w |}.
Definition add_args (w : world) (o : nat) (vs : list V) (advance extra : nat) : world :=
  let b := object_at w o in
  let '(m, s) := grow (w_args w) (b_args b) vs extra in
  {| w_bytes := w_bytes w; w_args := m; w_objects := set_nth (w_objects w) o {| b_text := b_text b; b_pos := b_pos b + advance; b_args := s |}; w_pool := w_pool w |}.
(** db.go.tpl:1429-1473; Vars advances the position only on the dialects with numbered placeholders *)
Definition do_call (d : driver) (w : world) (o : nat) (c : call) (extra : nat) : world :=
  match c with
  | CVar v => add_args w o [v] 1 extra
  | CVars vs => add_args w o vs (match d with DPostgres => length vs | _ => 0 end) extra
  | CWrite x => write_text w o x extra
  | CReset => reset_object w o
  end.
Definition with_pool (w : world) (p : list nat) : world :=
  {| w_bytes := w_bytes w; w_args := w_args w; w_objects := w_objects w; w_pool := p |}.
(** pool.go:19-21 AcquireString, db.go.tpl:1408-1410 AcquireStmt: sync.Pool.Get returns any object of the pool or calls New *)
Definition get (w : world) (choice : option nat) : world * nat :=
  match match choice with Some i => nth_error (w_pool w) i | None => None end, choice with
  | Some o, Some i => (with_pool w (remove_nth i (w_pool w)), o)
  | _, _ => ({| w_bytes := w_bytes w; w_args := w_args w; w_objects := w_objects w ++ [new_object]; w_pool := w_pool w |}, length (w_objects w))
  end.
(** pool.go:23-26 ReleaseString, db.go.tpl:1412-1417 ReleaseStmt *)
Definition release (w : world) (o : nat) : world := let w := reset_object w o in with_pool w (o :: w_pool w).
Definition step (d : driver) (w : world) (e : event) : world * answer :=
  match e with
  | Get _ c => let '(w, o) := get w c in (w, AObject o)
  | Drop i => (with_pool w (remove_nth i (w_pool w)), ANone)
  | Do _ o c extra => (do_call d w o c extra, ANone)
  | Read _ o => (w, ARead (b_text (object_at w o)) (b_args (object_at w o)))
  | Release _ o => (release w o, ANone)
  end.

(** ** Two users of the string pool in the generator

    A single goroutine's Get takes what it Put last (sync/pool.go: the private slot, then the local list's head). *)
Definition acquire (w : world) : world * nat := get w (Some 0).
Definition text_in (w : world) (o : nat) : bytes := contents (w_bytes w) (b_text (object_at w o)).

(** generate.go:607-670 buildUpdateByPK: [buf] is released at 659 and again at 668 *)
Definition build_update (w : world) (text : bytes) : world :=
  let '(w, buf) := acquire w in
  let w := write_text w buf text 0 in
  release (release w buf) buf.

(** generate.go:411-443 buildSqlColumns: the column's scanner text when its type has one, else its name; the texts
    are what the template and QuoteIdentifier give, [quote] is g.Quote.  Returns the list written into the source. *)
Fixpoint sql_columns_loop (quote : bytes -> bytes) (w : world) (blr : nat) (first : bool) (cols : list (bool * bytes)) : world :=
  match cols with
  | [] => w
  | (scanner, x) :: cols' =>
      let w := if first then w else write_text w blr (B ",") 0 in
      let w := if scanner then
                 let '(w, buf) := acquire w in
                 let w := write_text w buf x 0 in
                 let w := write_text w blr (quote (text_in w buf)) 0 in
                 release w buf
               else write_text w blr (quote x) 0 in
      sql_columns_loop quote w blr false cols'
  end.
Definition sql_columns (quote : bytes -> bytes) (w : world) (cols : list (bool * bytes)) : world * bytes :=
  let '(w, blr) := acquire w in
  let w := sql_columns_loop quote w blr true cols in
  (release w blr, text_in w blr).
End Pool.
Arguments world : clear implicits.
Arguments call : clear implicits.
Arguments event : clear implicits.
