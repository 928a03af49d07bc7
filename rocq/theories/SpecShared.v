(** Records in memory (C99). *)
From Verif Require Import Base ModelShared.
Section Shared.
Context {V : Type}.
(** The pointers of the record point to structs that exist *)
Definition valid (m : memory V) (r : record V) : Prop := forall e a, r_embed r e = Some a -> a < m_next m.
(** Two pointers of one record point to different structs *)
Definition separate (r : record V) : Prop := forall e1 e2 a, r_embed r e1 = Some a -> r_embed r e2 = Some a -> e1 = e2.
(** A pointer of the record, with columns behind it, that is not nil *)
Definition carries (places : list place) (r : record V) (a : nat) : Prop := exists e i, In (Behind e i) places /\ r_embed r e = Some a.
(** The records have such a struct in common *)
Definition shares (places : list place) (r other : record V) : Prop := exists a e, carries places r a /\ r_embed other e = Some a.
(** The record reads the same in both memories *)
Definition unchanged (m m' : memory V) (r : record V) : Prop := forall p, read m' r p = read m r p.
(** The record holds the row *)
Definition holds (places : list place) (m : memory V) (r : record V) (row : list V) : Prop := map (read m r) places = map Some row.
(** The rows of the pages: without the one that follows, except in the last turn *)
Fixpoint handed_out (turns : list (list V * list (list V))) : list (list (list V)) :=
  match turns with
  | [] => []
  | [t] => [snd t]
  | t :: rest => removelast (snd t) :: handed_out rest
  end.
(** Rows have a value for each column *)
Definition full (places : list place) (turns : list (list V * list (list V))) : Prop :=
  Forall (fun t => length (fst t) = length places /\ Forall (fun row => length row = length places) (snd t)) turns.
End Shared.
