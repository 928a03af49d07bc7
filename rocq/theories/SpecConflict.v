(** What INSERT does when a row with the same values in a unique index is there already (C86). Written from the manuals, without the code.
    PostgreSQL, INSERT: ON CONFLICT names the columns of one unique index; a second change of a row by the same command, and a conflict with another index, are errors.
    MySQL, INSERT ... ON DUPLICATE KEY UPDATE and INSERT IGNORE: every unique index counts, the first with a conflict decides which row is changed. *)
From Coq Require Import List Bool.
From Verif Require Import Base ModelCompiler SpecSql SpecGen SpecDb SpecStore.
Import ListNotations.

Section Conflict.
Context {V : Type}.
Variable D : semantics V.

(** Rows with the same values in the columns of an index. NULL is never the same. *)
Definition same_on (cs : list bytes) (a b : row V) : bool := match equal_rows D (map a cs) (map b cs) with Some true => true | _ => false end.
Fixpoint unique_on (cs : list bytes) (rows : list (row V)) {struct rows} : bool :=
  match rows with [] => true | r :: rest => negb (existsb (fun x => same_on cs r x) rest) && unique_on cs rest end.
Definition uniques (idxs : list (list bytes)) (rows : list (row V)) : bool := forallb (fun i => unique_on i rows) idxs.
(** Equality of values, as an index takes it *)
Record equality : Prop := {
  eq_sym : forall x y, cmp D x y = Some Eq -> cmp D y x = Some Eq;
  eq_trans : forall x y z, cmp D x y = Some Eq -> cmp D y z = Some Eq -> cmp D x z = Some Eq }.

(** The row that is proposed *)
Definition proposed (defaults : row V) (cols : list bytes) (es : list (expr V)) : row V := assigned (combine cols (map (eval D defaults) es)) defaults.
(** An existing row, changed by the values of the proposed one *)
Definition updated (sets : list (bytes * bytes)) (p old : row V) : row V := assigned (map (fun s => (fst s, p (snd s))) sets) old.

(** *** PostgreSQL. Rows that the command has added or changed are marked. Besides the rows: what RETURNING is evaluated for. *)
Definition checked (idxs : list (list bytes)) (st : list (bool * row V)) (out : list (row V)) : option (list (bool * row V) * list (row V)) :=
  if uniques idxs (map snd st) then Some (st, out) else None.
Definition pg_row (idxs : list (list bytes)) (c : on_conflict) (st : list (bool * row V)) (p : row V) : option (list (bool * row V) * list (row V)) :=
  match c with
  | Fail => checked idxs (st ++ [(true, p)]) [p]
  | DoNothing tgt => if existsb (fun x => same_on tgt (snd x) p) st then Some (st, []) else checked idxs (st ++ [(true, p)]) [p]
  | DoUpdate tgt sets =>
      match find (fun x => same_on tgt (snd x) p) st with
      | None => checked idxs (st ++ [(true, p)]) [p]
      | Some (true, _) => None
      | Some (false, old) => checked idxs (map (fun x => if same_on tgt (snd x) p then (true, updated sets p (snd x)) else x) st) [updated sets p old]
      end
  end.
Fixpoint pg_rows (idxs : list (list bytes)) (c : on_conflict) (st : list (bool * row V)) (ps : list (row V)) {struct ps} : option (list (bool * row V) * list (row V)) :=
  match ps with
  | [] => Some (st, [])
  | p :: ps' => match pg_row idxs c st p with
                | Some (st1, out1) => match pg_rows idxs c st1 ps' with Some (st2, out2) => Some (st2, out1 ++ out2) | None => None end
                | None => None
                end
  end.
(** The target of the conflict has to be an index *)
Definition same_names (a b : list bytes) : bool := forallb (fun x => bmem x b) a && forallb (fun x => bmem x a) b.
Definition arbiter (idxs : list (list bytes)) (c : on_conflict) : bool :=
  match c with Fail => true | DoNothing tgt | DoUpdate tgt _ => existsb (same_names tgt) idxs end.
(** The rows after the statement and the rows it returns; [None]: an error, nothing is changed *)
Definition pg_insert (idxs : list (list bytes)) (defaults : row V) (rows : list (row V)) (s : stmt V) : option (list (row V) * list (list V)) :=
  match s with
  | Insert _ cols rs c ret =>
      if forallb (fun es => Nat.eqb (length es) (length cols)) rs && arbiter idxs c
      then match pg_rows idxs c (map (fun r => (false, r)) rows) (map (proposed defaults cols) rs) with
           | Some (st, out) => Some (map snd st, map (fun r => map (eval D r) ret) out)
           | None => None
           end
      else None
  | _ => None
  end.

(** *** MySQL *)
Definition my_row (idxs : list (list bytes)) (c : on_conflict) (rows : list (row V)) (p : row V) : option (list (row V)) :=
  match find (fun i => existsb (fun r => same_on i r p) rows) idxs, c with
  | None, _ => Some (rows ++ [p])
  | Some _, Fail => None
  | Some _, DoNothing _ => Some rows
  | Some i, DoUpdate _ sets =>
      let rows' := map (fun r => if same_on i r p then updated sets p r else r) rows in
      if uniques idxs rows' then Some rows' else None
  end.
Fixpoint my_rows (idxs : list (list bytes)) (c : on_conflict) (rows : list (row V)) (ps : list (row V)) {struct ps} : option (list (row V)) :=
  match ps with
  | [] => Some rows
  | p :: ps' => match my_row idxs c rows p with Some rows' => my_rows idxs c rows' ps' | None => None end
  end.
Definition my_insert (idxs : list (list bytes)) (defaults : row V) (rows : list (row V)) (s : stmt V) : option (list (row V)) :=
  match s with
  | Insert _ cols rs c _ => if forallb (fun es => Nat.eqb (length es) (length cols)) rs then my_rows idxs c rows (map (proposed defaults cols) rs) else None
  | _ => None
  end.
End Conflict.

(** *** What is expected of an upsert *)
Section Expected.
Context {V : Type}.
Variables (D : semantics V) (t : table).
(** A record: the value at each Go path *)
Notation value x := (fun c : column => x (c_gopath c)).
Definition has_key_of (y : row V) (x : bytes -> V) : Prop := has_key D t y (value x).
Definition same_key (x x' : bytes -> V) : Prop := forall k, In k (key_of t) -> cmp D (x (c_gopath k)) (x' (c_gopath k)) = Some Eq.
(** The key is not NULL *)
Definition has_value (x : bytes -> V) : Prop := same_key x x.
(** Exactly one row has the key of the record, and it is as said *)
Definition one_row (rows : list (row V)) (x : bytes -> V) (P : row V -> Prop) : Prop :=
  exists y, In y rows /\ has_key_of y x /\ (forall y', In y' rows -> has_key_of y' x -> y' = y) /\ P y.
(** The row holds the record *)
Definition whole (x : bytes -> V) (y : row V) : Prop := forall c, In c (t_columns t) -> y (c_name c) = x (c_gopath c).
(** The columns that are neither in the key nor left out hold the record, the others what they held *)
Definition merged (left : column -> Prop) (x : bytes -> V) (old y : row V) : Prop :=
  (forall c, In c (t_columns t) -> ~ is_key t c -> ~ left c -> y (c_name c) = x (c_gopath c)) /\
  (forall n, (forall c, In c (t_columns t) -> ~ is_key t c -> ~ left c -> c_name c <> n) -> y n = old n).
(** Rows without a key of the batch are as before. The last record with its key is stored; a record that alone has its key changes the row with the key or is added. *)
Definition upserted (left : column -> Prop) (batch : list (bytes -> V)) (rows rows' : list (row V)) : Prop :=
  (forall f, (forall y x, In x batch -> has_key_of y x -> f y = false) -> filter f rows' = filter f rows) /\
  (forall l1 x l2, batch = l1 ++ x :: l2 -> (forall x', In x' l2 -> ~ same_key x' x) ->
     one_row rows' x (fun y => (forall c, In c (t_columns t) -> ~ is_key t c -> ~ left c -> y (c_name c) = x (c_gopath c)) /\
       ((forall x', In x' l1 -> ~ same_key x' x) ->
          (forall old, In old rows -> has_key_of old x -> merged left x old y) /\ ((forall old, In old rows -> ~ has_key_of old x) -> whole x y)))).
(** Existing rows stay; of the records with a new key the first is added. *)
Definition added_only (batch : list (bytes -> V)) (rows rows' : list (row V)) : Prop :=
  (exists more, rows' = rows ++ more) /\
  (forall l1 x l2, batch = l1 ++ x :: l2 -> (forall x', In x' l1 -> ~ same_key x' x) ->
     one_row rows' x (fun y => (forall old, In old rows -> has_key_of old x -> y = old) /\ ((forall old, In old rows -> ~ has_key_of old x) -> whole x y))).
End Expected.
