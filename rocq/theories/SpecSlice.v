(** What a caller can observe of its slices: the cells of its arrays. *)
From Verif Require Import Base ModelStrconv ModelCompiler ModelGen ModelRuntime ModelSlice.

(** The content of a cell *)
Definition cell (h : heap) (a i : nat) : option bytes := nth_error (nth a h []) i.
(** A slice that a Go program can hold: its length is within its capacity and its capacity within its array *)
Definition valid (h : heap) (s : slice) : Prop :=
  s_len s <= s_cap s
  /\ (s_cap s = 0 \/ (s_arr s < length h /\ s_off s + s_cap s <= length (nth (s_arr s) h []))).
(** The cells a slice shows, and the cells after them which it could grow into *)
Definition shows (s : slice) (a i : nat) : Prop := a = s_arr s /\ s_off s <= i < s_off s + s_len s.
Definition grows (s : slice) (a i : nat) : Prop := a = s_arr s /\ s_off s + s_len s <= i < s_off s + s_cap s.

(** No cell that existed changed, except perhaps those that [P] allows *)
Definition unchanged (P : nat -> nat -> Prop) (h h' : heap) : Prop :=
  length h <= length h' /\ forall a i, a < length h -> ~ P a i -> cell h' a i = cell h a i.

(** The options as lists, when they are given *)
Definition given (h : heap) (o : opts) : upsert_opts :=
  {| o_nothing := so_nothing o; o_omit := read h (so_omit o); o_dup := read h (so_dup o) |}.

(** A call on the heap agrees with a call on lists, and changes only cells of [P] *)
Definition agrees {R} (P : nat -> nat -> Prop) (h : heap) (x : res (heap * R)) (y : res R) : Prop :=
  match x with
  | Ok (h', r) => y = Ok r /\ unchanged P h h'
  | Err => y = Err
  | Panic => y = Panic
  end.

(** Calls of a program on models whose Columns() is generated, one after the other; a panic ends them *)
Inductive scall (V : Type) :=
| CInsert (d : driver) (data : list (model V))
| COne (m : model V) (o : opts)
| CMany (data : list (model V)) (o : opts)
| CMyMany (data : list (model V)) (override : bool) (omit : slice).
Arguments CInsert {V}. Arguments COne {V}. Arguments CMany {V}. Arguments CMyMany {V}.

Section Run.
Context {V : Type}.
Variable room : nat -> nat.
Definition columns_of_first (data : list (model V)) : list bytes :=
  match data with m :: _ => m_columns m | [] => [] end.
Definition call_h (h : heap) (c : scall V) : res (heap * option (request V)) :=
  match c with
  | CInsert d data => insert_h room (generated_columns (columns_of_first data)) d h data
  | COne m o => let* p := upsert_one_pg_h room (generated_columns (m_columns m)) h m o in Ok (fst p, Some (snd p))
  | CMany data o => upsert_pg_h room (generated_columns (columns_of_first data)) h data o
  | CMyMany data ov om => upsert_my_h room (generated_columns (columns_of_first data)) h data ov om
  end.
(** the same call with the content its slices have in [h] *)
Definition call_l (h : heap) (c : scall V) : res (option (request V)) :=
  match c with
  | CInsert d data => insert d data
  | COne m o => let* r := upsert_one_pg m (given h o) in Ok (Some r)
  | CMany data o => upsert_pg data (given h o)
  | CMyMany data ov om => upsert_my data ov (read h om)
  end.
Fixpoint run_h (h : heap) (cs : list (scall V)) {struct cs} : list (res (option (request V))) :=
  match cs with
  | [] => []
  | c :: cs' =>
      match call_h h c with
      | Ok (h', r) => Ok r :: run_h h' cs'
      | Err => [Err]
      | Panic => [Panic]
      end
  end.
Fixpoint run_l (h : heap) (cs : list (scall V)) {struct cs} : list (res (option (request V))) :=
  match cs with
  | [] => []
  | c :: cs' => match call_l h c with Ok r => Ok r :: run_l h cs' | Err => [Err] | Panic => [Panic] end
  end.
Definition call_slices (c : scall V) : list slice :=
  match c with
  | CInsert _ _ => []
  | COne _ o | CMany _ o => [so_omit o; so_dup o]
  | CMyMany _ _ om => [om]
  end.
(** slices of a program without room to grow, as the arguments of a variadic call have when they are listed *)
Definition full (h : heap) (s : slice) : Prop := valid h s /\ s_len s = s_cap s.
End Run.
