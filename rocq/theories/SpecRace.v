(** What calls that run at the same time may share. *)
From Verif Require Import Base ModelStrconv ModelCompiler ModelGen ModelRuntime ModelSlice SpecSlice.

Section Apart.
Context {V : Type}.
(** The slices of the options are slices that a Go program can hold, and the cells which a slice of omitted fields could
    grow into are not seen by the options of any call, and are not room of another call. *)
Record apart (h : heap) (l : list (model V * opts)) : Prop := {
  at_valid : forall m o, In (m, o) l -> valid h (so_omit o) /\ valid h (so_dup o);
  at_dup : forall m o m' o', In (m, o) l -> In (m', o') l ->
    forall a i, grows (so_omit o) a i -> ~ shows (so_dup o') a i /\ ~ shows (so_omit o') a i;
  at_room : forall i j m o m' o', i <> j -> nth_error l i = Some (m, o) -> nth_error l j = Some (m', o') ->
    forall a k, grows (so_omit o) a k -> ~ grows (so_omit o') a k
}.
(** Cells that some call may write: the room of the slices of omitted fields *)
Definition rooms (l : list (model V * opts)) (a i : nat) : Prop := exists m o, In (m, o) l /\ grows (so_omit o) a i.
End Apart.
