(** The pager of ModelMoving and the loop body of its caller: the page that is handed out is a window on the array that also holds the first record of the next page, and the cursor is read from that
    array after the body has run.  db.go.tpl:827-976 Prev, 978-1139 Next.  What the body does to the database is in [ask]. *)
From Verif Require Import Base ModelStrconv ModelCompiler ModelGen ModelRuntime ModelStmt ModelPager ModelMoving.

Section Consumer.
Context {V T : Type}.
Variables (view : T -> model V) (zero : T).
Variable ask : nat -> bytes -> list V -> option (list T).
(** the room append leaves after a new array, a choice of the Go runtime *)
Variable room : nat -> nat.

(** A variable of type []T: a window on the array of the page (None), or on an array of its own (The Go Programming Language Specification, Slice types) *)
Record window := { w_own : option (list T); w_off : nat; w_len : nat; w_cap : nat }.
(** What the body does with the variable page: page[i] = x; page = append(page, xs...); page = page[i:j]; page = slices.Clip(page), that is page[:len(page):len(page)] *)
Inductive step := Assigns (i : nat) (x : T) | Appends (xs : list T) | Cuts (i j : nat) | Clips.
(** the cells from [i] on are overwritten *)
Definition over (l : list T) (i : nat) (xs : list T) : list T := firstn i l ++ xs ++ skipn (i + length xs) l.
(** The array of the page and the variable after a step; Panic: index or bounds out of range *)
Definition does (st : list T * window) (s : step) : res (list T * window) :=
  let '(arr, w) := st in
  let cells := match w_own w with Some l => l | None => arr end in
  let written (l : list T) (n : nat) : list T * window :=
    match w_own w with
    | Some _ => (arr, {| w_own := Some l; w_off := w_off w; w_len := n; w_cap := w_cap w |})
    | None => (l, {| w_own := None; w_off := w_off w; w_len := n; w_cap := w_cap w |})
    end in
  match s with
  | Assigns i x => if Nat.ltb i (w_len w) then Ok (written (over cells (w_off w + i) [x]) (w_len w)) else Panic
  | Appends [] => Ok st
  | Appends xs =>
      let n := w_len w + length xs in
      if Nat.leb n (w_cap w) then Ok (written (over cells (w_off w + w_len w) xs) n)
      else Ok (arr, {| w_own := Some (firstn (w_len w) (skipn (w_off w) cells) ++ xs ++ repeat zero (room n)); w_off := 0; w_len := n; w_cap := n + room n |})
  | Cuts i j =>
      if Nat.leb i j && Nat.leb j (w_cap w) then Ok (arr, {| w_own := w_own w; w_off := w_off w + i; w_len := j - i; w_cap := w_cap w - i |}) else Panic
  | Clips => Ok (arr, {| w_own := w_own w; w_off := w_off w; w_len := w_len w; w_cap := w_len w |})
  end.
Fixpoint run_body (b : list step) (st : list T * window) {struct b} : res (list T * window) :=
  match b with [] => Ok st | s :: r => let* st' := does st s in run_body r st' end.

(** db.go.tpl:947-956, 1110-1119: the array behind data, made with room for limit + 1 records *)
Definition array_of (p : pager V) (data : list T) : list T :=
  let cap := N.to_nat (uint16 (p_limit p + 1)) in
  data ++ repeat zero (if Nat.leb (length data) cap then cap - length data else room (length data)).
(** One turn of the loop, 841-975 and 992-1137, as turn_at; [body] is run with the page, data[:noOfRecord-1], and then the cursor is data[noOfRecord-1] *)
Definition turn_with (d : driver) (fwd : bool) (p : pager V) (body : list T -> list step) (v : T) (cursor : bool) (n : nat) : event T * res (option T) :=
  match (if cursor then refetch T view (ask n) d v else Ok v) with
  | Ok v =>
      match page_stmt d fwd p (view v) cursor with
      | Ok (text, args) =>
          match ask (S n) text args with
          | Some data =>
              if N.leb (uint16 (N.of_nat (length data))) (p_limit p) then (Page data, Ok None)
              else
                let arr := array_of p data in
                let page := firstn (length data - 1) data in
                (Page page,
                 let* st := run_body (body page) (arr, {| w_own := None; w_off := 0; w_len := length data - 1; w_cap := length arr |}) in
                 Ok (Some (nth (length data - 1) (fst st) zero)))
          | None => (Failure, Ok None)
          end
      | Err => (Failure, Ok None)
      | Panic => (Crash, Ok None)
      end
  | Err => (Failure, Ok None)
  | Panic => (Crash, Ok None)
  end.
(** What a consumer that takes at most [k] pages sees, and whether the iteration is over; [body j]: what its loop body does with the j-th page.  Crash: here also a panic of the body. *)
Fixpoint pages_with (d : driver) (fwd : bool) (p : pager V) (body : nat -> list T -> list step) (v : T) (cursor : bool) (n j k : nat) {struct k} : list (event T) * bool :=
  match k with
  | O => ([], false)
  | S k' =>
      match turn_with d fwd p (body j) v cursor n with
      | (e, Ok None) => ([e], true)
      | (e, Ok (Some v')) => let '(l, fin) := pages_with d fwd p body v' true (S (S n)) (S j) k' in (e :: l, fin)
      | (e, _) => ([e; Crash], true)
      end
  end.
(** db.go.tpl:827-840, 978-991 with a cursor *)
Definition iterate_with (d : driver) (fwd : bool) (p : pager V) (body : nat -> list T -> list step) (v : T) (k : nat) : list (event T) * bool := pages_with d fwd p body v true 0 0 k.
End Consumer.
Arguments window : clear implicits. Arguments step : clear implicits.
