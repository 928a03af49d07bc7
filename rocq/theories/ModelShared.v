(** Prev and Next (db.go.tpl:827-976, 978-1139) and the memory of records that hold columns in structs behind pointers (type T struct { *Base; ... }): v = cursor[0] and v = data[noOfRecord-1] copy a record,
    and the copy points to the same structs.  One level of structs; columns of pointer type are in ModelScan (C69); the statements are in ModelPager. *)
From Coq Require Import List PeanoNat.
From Verif Require Import Base.
Import ListNotations.

Section Shared.
Context {V : Type}.
Variable zero : V.
(** Where a column is: field [i] of the record, or field [i] of the struct that the record's pointer [e] points to *)
Inductive place := Direct (i : nat) | Behind (e i : nat).
(** A record as a value: its own fields and its pointers *)
Record record := { r_direct : nat -> V; r_embed : nat -> option nat }.
(** The structs by address; addresses from [m_next] on are free *)
Record memory := { m_next : nat; m_struct : nat -> nat -> V }.
(** var v T *)
Definition new_record : record := {| r_direct := fun _ => zero; r_embed := fun _ => None |}.
(** What is at a place; None: the pointer is nil *)
Definition read (m : memory) (r : record) (p : place) : option V :=
  match p with
  | Direct i => Some (r_direct r i)
  | Behind e i => match r_embed r e with Some a => Some (m_struct m a i) | None => None end
  end.
(** generate.go 460-474, in Addrs(): if v.Base == nil { v.Base = new(Base) } *)
Definition allocate (st : memory * record) (p : place) : memory * record :=
  let '(m, r) := st in
  match p with
  | Direct _ => st
  | Behind e _ =>
      match r_embed r e with
      | Some _ => st
      | None =>
          ({| m_next := S (m_next m); m_struct := fun a => if Nat.eqb a (m_next m) then fun _ => zero else m_struct m a |},
           {| r_direct := r_direct r; r_embed := fun e' => if Nat.eqb e' e then Some (m_next m) else r_embed r e' |})
      end
  end.
(** database/sql: a value is stored at the address of its column *)
Definition write (st : memory * record) (px : place * V) : memory * record :=
  let '(m, r) := st in
  match fst px with
  | Direct i => (m, {| r_direct := fun j => if Nat.eqb j i then snd px else r_direct r j; r_embed := r_embed r |})
  | Behind e i =>
      match r_embed r e with
      | Some a => ({| m_next := m_next m; m_struct := fun b j => if Nat.eqb b a && Nat.eqb j i then snd px else m_struct m b j |}, r)
      | None => st
      end
  end.
(** row.Scan(Ptr(&v).Addrs()...) *)
Definition scan (places : list place) (m : memory) (r : record) (row : list V) : memory * record :=
  fold_left write (combine places row) (fold_left allocate places (m, r)).
(** for rows.Next() { var v T; rows.Scan(Ptr(&v).Addrs()...); data = append(data, v) } *)
Fixpoint scan_all (places : list place) (m : memory) (rows : list (list V)) {struct rows} : memory * list record :=
  match rows with
  | [] => (m, [])
  | row :: rest =>
      let '(m1, r) := scan places m new_record row in
      let '(m2, data) := scan_all places m1 rest in (m2, r :: data)
  end.
(** The turns of an iteration from the cursor [v]: for each the row that FindByPK found for the cursor, and the rows of the page with the one that follows it; the memory at the end and the pages.
    The last turn hands out all its rows. *)
Fixpoint loop (places : list place) (m : memory) (v : record) (turns : list (list V * list (list V))) {struct turns} : memory * list (list record) :=
  match turns with
  | [] => (m, [])
  | (found, rows) :: rest =>
      let '(m1, v1) := scan places m v found in
      let '(m2, data) := scan_all places m1 rows in
      let '(m3, pages) := loop places m2 (last data v1) rest in
      (m3, (match rest with [] => data | _ => removelast data end) :: pages)
  end.
End Shared.
Arguments record : clear implicits. Arguments memory : clear implicits.
