(** Model of the slices that the generated functions of /repo/cmd/sqlgen/codegen/templates/db.go.tpl append to:
    a Go slice is a window on an array of the heap, and append writes into the array when the window can grow.
    ModelRuntime takes slices as plain lists; here the same functions run on a heap which the caller sees.

    Only slices of strings are followed.  Values() is taken to return a new slice at each call, and what the methods
    PK, CompositeKey, DuplicateKeys and OnUpsertOmitColumns return is only read. *)
From Verif Require Import Base ModelStrconv ModelCompiler ModelGen ModelRuntime.

(** Arrays of strings, by address *)
Definition heap := list (list bytes).
(** A slice: array, first cell, length, capacity (The Go Programming Language Specification, Slice types) *)
Record slice := { s_arr : nat; s_off : nat; s_len : nat; s_cap : nat }.

(** the strings of a slice *)
Definition read (h : heap) (s : slice) : list bytes := firstn (s_len s) (skipn (s_off s) (nth (s_arr s) h [])).
(** s[:i] and s[i:] within bounds *)
Definition upto (s : slice) (i : nat) : slice :=
  {| s_arr := s_arr s; s_off := s_off s; s_len := i; s_cap := s_cap s |}.
Definition from (s : slice) (i : nat) : slice :=
  {| s_arr := s_arr s; s_off := s_off s + i; s_len := s_len s - i; s_cap := s_cap s - i |}.
(** a slice literal: a new array, no room to grow *)
Definition literal (h : heap) (l : list bytes) : heap * slice :=
  (h ++ [l], {| s_arr := length h; s_off := 0; s_len := length l; s_cap := length l |}).

(** the cells from [i] on are overwritten by [xs] *)
Definition put (l : list bytes) (i : nat) (xs : list bytes) : list bytes :=
  firstn i l ++ xs ++ skipn (i + length xs) l.
(** the array at address [a] is replaced *)
Definition store (h : heap) (a : nat) (l : list bytes) : heap := firstn a h ++ [l] ++ skipn (S a) h.

Section Calls.
Context {V : Type}.
(** the room append leaves after a new array, a choice of the Go runtime *)
Variable room : nat -> nat.
(** Columns() of the model: what it returns and the heap after it *)
Variable cols : heap -> heap * slice.

(** append(s, xs...): in place when the capacity is enough, otherwise a new array *)
Definition append (h : heap) (s : slice) (xs : list bytes) : heap * slice :=
  let n := s_len s + length xs in
  match xs with
  | [] => (h, s)
  | _ =>
      if Nat.leb n (s_cap s)
      then (store h (s_arr s) (put (nth (s_arr s) h []) (s_off s + s_len s) xs), upto s n)
      else (h ++ [read h s ++ xs ++ repeat [] (room n)],
            {| s_arr := length h; s_off := 0; s_len := n; s_cap := n + room n |})
  end.

(** append(s[:i], s[i+1:]...): the argument is read before anything is written (it is a memmove) *)
Definition delete_at (h : heap) (s : slice) (i : nat) : res (heap * slice) :=
  if Nat.ltb i (s_len s) then Ok (append h (upto s i) (read h (from s (S i)))) else Panic.
Definition delete_opt (h : heap) (s : slice) (i : option nat) : res (heap * slice) :=
  match i with Some i => delete_at h s i | None => Ok (h, s) end.
(** for i := len(idxs)-1; i >= 0; i-- *)
Definition delete_all (h : heap) (s : slice) (idxs : list nat) : res (heap * slice) :=
  fold_right (fun i acc => let* p := acc in delete_at (fst p) (snd p) i) (Ok (h, s)) idxs.

(** db.go.tpl:1540-1545 TableColumns *)
Definition returned (h : heap) (m : model V) : heap * list bytes :=
  match m_sqlcolumns m with
  | Some l => (h, l)
  | None => let p := cols h in (fst p, read (fst p) (snd p))
  end.

(** db.go.tpl:71-142 (PostgreSQL) and 144-194 (others) Insert *)
Definition insert_h (d : driver) (h : heap) (data : list (model V)) : res (heap * option (request V)) :=
  match data with
  | [] => Ok (h, None)
  | m :: _ =>
      let c0 := cols h in
      let* c := delete_opt (fst c0) (snd c0) (auto_idx m) in
      let columns := read (fst c) (snd c) in
      let head := B "INSERT INTO " ++ db_table m ++ B " (" ++ join (B ",") columns ++ B ") VALUES " in
      match d with
      | DPostgres =>
          let* vals := map_res (fun x => without (auto_idx m) (m_values x)) data in
          let r := returned (fst c) m in
          Ok (fst r, Some (head ++ join (B ",") (map (m_places m) (seq 0 (length data)))
                           ++ B " RETURNING " ++ join (B ",") (snd r) ++ B ";", concat vals))
      | _ =>
          let* r := repeat_tail (B "," ++ quote_var d 1) (length columns) in
          let* vals := map_res (fun x => without (auto_idx m) (m_values x)) data in
          Ok (fst c, Some (head ++ join (B ",") (repeat (B "(" ++ r ++ B ")") (length data)) ++ B ";", concat vals))
      end
  end.

(** db.go.tpl:204-229 upsertOpts: the options keep the slices given to WithOmitFields and WithDuplicateKeys *)
Record opts := { so_nothing : bool; so_omit : slice; so_dup : slice }.

(** db.go.tpl:268-286, 366-388: ON CONFLICT; [om] is omitFields.  The heap, omitFields and the target. *)
Definition target_h (h : heap) (m : model V) (om dup : slice) : res ((heap * slice) * list bytes) :=
  match s_len dup with
  | S _ => Ok ((h, om), read h dup)
  | O =>
      match m_dup m with
      | Some ks => Ok (append h om ks, ks)
      | None => let* ns := key_names m in Ok ((h, om), ns)
      end
  end.
(** db.go.tpl:291-293, 410-412 *)
Definition omit_h (h : heap) (m : model V) (om : slice) : heap * slice :=
  match m_omit m with Some l => append h om l | None => (h, om) end.

(** db.go.tpl:230-313 UpsertOne *)
Definition upsert_one_pg_h (h : heap) (m : model V) (o : opts) : res (heap * request V) :=
  let c0 := cols h in
  let* keys := key_names m in
  let om1 := append (fst c0) (so_omit o) keys in
  let* c := delete_opt (fst om1) (snd c0) (auto_idx m) in
  let* values := without (auto_idx m) (m_values m) in
  let head := B "INSERT INTO " ++ db_table m ++ B " (" ++ join (B ",") (read (fst c) (snd c)) ++ B ") VALUES "
              ++ m_places m 0 in
  let* t := target_h (fst c) m (snd om1) (so_dup o) in
  let om2 := fst t in
  let om3 := if so_nothing o then om2 else omit_h (fst om2) m (snd om2) in
  let r := returned (fst om3) m in
  Ok (fst r,
      (head ++ B " ON CONFLICT(" ++ join (B ",") (snd t) ++ B ")"
       ++ (if so_nothing o then B " DO NOTHING"
           else B " DO UPDATE SET "
                ++ excluded_list (kept (read (fst om3) (snd om3)) (read (fst om3) (snd c))))
       ++ B " RETURNING " ++ join (B ",") (snd r) ++ B ";", values)).

(** db.go.tpl:316-446 Upsert; the columns of the update list are asked again *)
Definition upsert_pg_h (h : heap) (data : list (model V)) (o : opts) : res (heap * option (request V)) :=
  match data with
  | [] => Ok (h, None)
  | m :: _ =>
      let c0 := cols h in
      let* keys := key_names m in
      let om1 := append (fst c0) (so_omit o) keys in
      let* c := delete_opt (fst om1) (snd c0) (auto_idx m) in
      let* vals := map_res (fun x => without (auto_idx m) (m_values x)) data in
      let head := B "INSERT INTO " ++ db_table m ++ B " (" ++ join (B ",") (read (fst c) (snd c)) ++ B ") VALUES "
                  ++ join (B ",") (map (m_places m) (seq 0 (length data))) in
      let* t := target_h (fst c) m (snd om1) (so_dup o) in
      let om2 := fst t in
      let om3 := if so_nothing o then om2 else omit_h (fst om2) m (snd om2) in
      let c1 := if so_nothing o then (fst om3, snd c) else cols (fst om3) in
      let r := returned (fst c1) m in
      Ok (fst r,
          Some (head ++ B " ON CONFLICT(" ++ join (B ",") (snd t) ++ B ")"
                ++ (if so_nothing o then B " DO NOTHING"
                    else B " DO UPDATE SET "
                         ++ excluded_list (kept (read (fst c1) (snd om3)) (read (fst c1) (snd c1))))
                ++ B " RETURNING " ++ join (B ",") (snd r) ++ B ";", concat vals))
  end.

(** db.go.tpl:535-635 Upsert of the other dialects; [om] is the slice of the variadic parameter omittedFields *)
Definition upsert_my_h (h : heap) (data : list (model V)) (override : bool) (om : slice)
  : res (heap * option (request V)) :=
  match data with
  | [] => Ok (h, None)
  | m :: _ =>
      let c0 := cols h in
      let tail h columns omit :=
        (if override then B " ON DUPLICATE KEY UPDATE " ++ values_list (B "=") (kept (read h omit) (read h columns))
         else []) ++ B ";" in
      let rows := join (B ",") (map (m_places m) (seq 0 (length data))) in
      let args := concat (map m_values data) in
      match m_key m with
      | AutoKey pk idx _ =>
          let om1 := append (fst c0) om [pk] in
          let* c := delete_at (fst om1) (snd c0) idx in
          let* r := repeat_tail (B ",?") (s_len (snd c0)) in
          let* vals := map_res (fun x => remove_at idx (m_values x)) data in
          Ok (fst c, Some (insert_head override m (read (fst c) (snd c))
                           ++ join (B ",") (repeat (B "(" ++ r ++ B ")") (length data))
                           ++ tail (fst c) (snd c) (snd om1), concat vals))
      | SingleKey pk _ _ =>
          let om1 := append (fst c0) om [pk] in
          Ok (fst om1, Some (insert_head override m (read (fst om1) (snd c0)) ++ rows
                             ++ tail (fst om1) (snd c0) (snd om1), args))
      | CompKey _ idxs _ =>
          let head := insert_head override m (read (fst c0) (snd c0)) in
          let* c := delete_all (fst c0) (snd c0) idxs in
          Ok (fst c, Some (head ++ rows ++ tail (fst c) (snd c) om, args))
      | NoKey => Ok (fst c0, Some (tail (fst c0) (snd c0) om, []))
      end
  end.
End Calls.

(** generate.go:182-196: the generated Columns() returns a slice literal *)
Definition generated_columns (l : list bytes) (h : heap) : heap * slice := literal h l.
