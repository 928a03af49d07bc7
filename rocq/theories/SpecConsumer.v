(** What a loop body may do with a page (C98). *)
From Verif Require Import Base ModelConsumer.
Section Consumer.
Context {T : Type}.
(** The body stays within its page: [len] records in the variable, [left] records of the page behind them.
    Nothing is said about what it assigns, nor about anything after slices.Clip. *)
Fixpoint modest (len left : nat) (b : list (step T)) {struct b} : Prop :=
  match b with
  | [] => True
  | Assigns _ _ :: r => modest len left r
  | Appends xs :: r => length xs <= left /\ modest (len + length xs) (left - length xs) r
  | Cuts i j :: r => j <= len + left /\ modest (j - i) (len + left - j) r
  | Clips :: _ => True
  end.
(** Every body of a loop does, for pages of any length *)
Definition modest_bodies (body : nat -> list T -> list (step T)) : Prop := forall j page, modest (length page) 0 (body j page).
End Consumer.
