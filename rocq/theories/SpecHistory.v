(** A table with a key is a map from keys to records (C89). *)
From Coq Require Import List Bool ZArith.
From Verif Require Import Base ModelCompiler ModelRows ModelHistory SpecSql SpecGen SpecDb SpecStore SpecConflict.
Import ListNotations.

Section History.
Context {V St : Type}.
Variables (D : semantics V) (t : table).

(** *** The map. [content start calls x]: the record stored under the key of [x] after these calls, with their replies, beginning with the map [start]. A call that failed does nothing. *)
Definition key_eq (x y : bytes -> V) : bool := forallb (fun k => match cmp D (x (c_gopath k)) (y (c_gopath k)) with Some Eq => true | _ => false end) (key_of t).
(** The record [old], with the key it has, changed to [x] *)
Definition changed_to (x old : bytes -> V) : bytes -> V := fun path => if bmem path (map c_gopath (key_of t)) then old path else x path.
Definition after (x : bytes -> V) (o : option (bytes -> V)) (c : call V) (r : reply V) : option (bytes -> V) :=
  match r, c with
  | Done, Adds y => if key_eq y x then Some y else o
  | Done, Changes y => if key_eq y x then option_map (changed_to y) o else o
  | Done, Removes y => if key_eq y x then None else o
  | _, _ => o
  end.
Definition content (start : (bytes -> V) -> option (bytes -> V)) (tr : list (St * call V * reply V)) (x : bytes -> V) : option (bytes -> V) :=
  fold_left (fun o e => after x o (snd (fst e)) (snd e)) tr (start x).
Definition about (c : call V) : bytes -> V := match c with Adds x | Changes x | Removes x | Looks x => x end.
(** The rows hold the map: no two with the same key, one for each record *)
Definition stands (rows : list (row V)) (o : (bytes -> V) -> option (bytes -> V)) : Prop :=
  unique_on D (map c_name (key_of t)) rows = true /\
  forall x, match o x with Some y => exists r, In r rows /\ has_key_of D t r x /\ whole t y r | None => forall r, In r rows -> ~ has_key_of D t r x end.
(** The same values in the columns *)
Definition alike (x y : bytes -> V) : Prop := forall c, In c (t_columns t) -> x (c_gopath c) = y (c_gopath c).
(** What a call has to reply; [down]: the database cannot be reached *)
Definition fair (down : Prop) (o : option (bytes -> V)) (c : call V) (r : reply V) : Prop :=
  down /\ r = Failed \/
  match c with
  | Adds _ => match o with None => r = Done | Some _ => r = Failed end
  | Changes _ | Removes _ => r = Done
  | Looks x => match o with
               | None => r = Failed
               | Some y => exists z, r = Found z /\ alike y z /\ forall path, ~ In path (map c_gopath (t_columns t)) -> z path = x path
               end
  end.

(** *** The database: its rows, the values for columns that a statement leaves out, whether it can be reached *)
Variables (fl : flavour) (q : list bytes) (held : St -> list (row V)) (fresh : St -> row V) (down : St -> Prop).
Notation unique := (unique_on D (map c_name (key_of t))).
(** The statements that are sent here: one that fails leaves everything as it was. Of other statements nothing is said. *)
Definition obeys_exec (exec : St -> bytes -> list V -> option (St * option Z)) : Prop := forall s text args st, read fl text args = Some st -> target st = q ->
  match st with Insert _ _ _ Fail _ | Update _ _ _ [] None | Delete _ _ [] None =>
    match exec s text args with
    | Some (s', _) => change D unique (fresh s) (held s) st = Some (held s')
    | None => down s \/ change D unique (fresh s) (held s) st = None
    end
  | _ => True end.
Definition obeys_ask (ask : St -> bytes -> list V -> option (St * rows (V:=V))) : Prop := forall s text args st, read fl text args = Some st -> target st = q ->
  match st with
  | Insert _ cols rs Fail ret =>
      match ask s text args with
      | Some (s', out) => change D unique (fresh s) (held s) st = Some (held s') /\
          out = {| r_pending := map (fun es => map (eval D (proposed D (fresh s) cols es)) ret) rs; r_broken := false; r_closed := false; r_close_fails := false |}
      | None => down s \/ change D unique (fresh s) (held s) st = None
      end
  | Select its _ wh [] [] lim off _ =>
      match ask s text args with
      | Some (s', out) => held s' = held s /\ exists l, answers D (fun x => x) (held s) wh [] lim off l /\
          out = {| r_pending := map (fun x => map (eval D x) its) l; r_broken := false; r_closed := false; r_close_fails := false |}
      | None => down s
      end
  | _ => True
  end.
End History.
