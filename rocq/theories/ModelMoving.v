(** The pager of ModelPager while other programs change the table: the n-th request finds the database as it is then.
    db.go.tpl:805-1139. *)
From Verif Require Import Base ModelStrconv ModelCompiler ModelGen ModelRuntime ModelStmt ModelPager.

Section Moving.
Context {V T : Type}.
Variables (view : T -> model V) (zero : T).
(** The records that come back for a statement at the time of the n-th request, or an error *)
Variable ask : nat -> bytes -> list V -> option (list T).

(** One turn of the loop, db.go.tpl:841-975 and 992-1137, as [turn] of ModelPager; FindByPK is request [n], the page request [n+1]. *)
Definition turn_at (d : driver) (fwd : bool) (p : pager V) (v : T) (cursor : bool) (n : nat) : event T * option T :=
  match (if cursor then refetch T view (ask n) d v else Ok v) with
  | Ok v =>
      match page_stmt d fwd p (view v) cursor with
      | Ok (text, args) =>
          match ask (S n) text args with
          | Some data =>
              if N.leb (uint16 (N.of_nat (length data))) (p_limit p) then (Page data, None)
              else (Page (removelast data), Some (last data zero))
          | None => (Failure, None)
          end
      | Err => (Failure, None)
      | Panic => (Crash, None)
      end
  | Err => (Failure, None)
  | Panic => (Crash, None)
  end.
(** What a consumer that takes at most [k] pages sees, and whether the iteration ended by itself. *)
Fixpoint pages_at (d : driver) (fwd : bool) (p : pager V) (v : T) (cursor : bool) (n k : nat) {struct k} : list (event T) * bool :=
  match k with
  | O => ([], false)
  | S k' =>
      match turn_at d fwd p v cursor n with
      | (e, None) => ([e], true)
      | (e, Some v') => let '(l, fin) := pages_at d fwd p v' true (S (S n)) k' in (e :: l, fin)
      end
  end.
(** db.go.tpl:827-840, 978-991 with a cursor *)
Definition iterate_at (d : driver) (fwd : bool) (p : pager V) (v : T) (k : nat) : list (event T) * bool := pages_at d fwd p v true 0 k.
End Moving.
