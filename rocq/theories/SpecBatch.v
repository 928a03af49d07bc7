(** A table with a key is a map from keys to records, also for batches and upserts (C89). *)
From Coq Require Import List Bool ZArith.
From Verif Require Import Base ModelCompiler ModelRuntime ModelRows ModelHistory ModelBatch SpecSql SpecGen SpecDb SpecStore SpecConflict SpecHistory.
Import ListNotations.

Section Batch.
Context {V St : Type}.
Variables (D : semantics V) (t : table).
Notation rec := (bytes -> V).
(** The columns that an upsert leaves as they are *)
Variable leaves : upsert_opts -> column -> bool.

(** *** The map *)
(** The record [old] changed to [x]: the key and the columns left out stay *)
Definition put_over (o : upsert_opts) (x old : rec) : rec :=
  fun path => if bmem path (map c_gopath (key_of t ++ filter (leaves o) (t_columns t))) then old path else x path.
(** What stands under the key of [z] after [y] was added, after [y] was upserted *)
Definition added (z : rec) (v : option rec) (y : rec) : option rec := if key_eq D t y z then Some y else v.
Definition put_in (o : upsert_opts) (z : rec) (v : option rec) (y : rec) : option rec :=
  if key_eq D t y z then Some (match v with Some old => put_over o y old | None => y end) else v.
Definition then_ (z : rec) (v : option rec) (a : action V) (r : reply V) : option rec :=
  match r, a with
  | _, Single c => after D t z v c r
  | Done, AddAll ys => fold_left (added z) ys v
  | Done, Put o y => put_in o z v y
  | Done, PutAll o ys => fold_left (put_in o z) ys v
  | _, _ => v
  end.
Definition contents (start : rec -> option rec) (tr : list (St * action V * reply V)) (z : rec) : option rec :=
  fold_left (fun v e => then_ z v (snd (fst e)) (snd e)) tr (start z).
(** No two have the same key *)
Definition distinct_keys (ys : list rec) : Prop := ForallOrdPairs (fun x y => key_eq D t x y = false) ys.
Definition all_new (m : rec -> option rec) (ys : list rec) : Prop := distinct_keys ys /\ forall y, In y ys -> m y = None.
(** What an action has to reply. [once]: a batch may not have the same key twice (PostgreSQL) *)
Definition fair_action (once down : Prop) (m : rec -> option rec) (a : action V) (r : reply V) : Prop :=
  down /\ r = Failed \/
  match a with
  | Single c => fair t down (m (about c)) c r
  | AddAll ys => all_new m ys /\ r = Done \/ ~ all_new m ys /\ r = Failed
  | Put _ _ => r = Done
  | PutAll _ ys => (once -> distinct_keys ys) /\ r = Done \/ once /\ ~ distinct_keys ys /\ r = Failed
  end.
(** An upsert whose records have keys, that overwrites, and changes at least one column *)
Definition overwrites (o : upsert_opts) (ys : list rec) : Prop :=
  o_nothing o = false /\ o_dup o = [] /\ (forall y, In y ys -> has_value D t y) /\ exists c, In c (t_columns t) /\ ~ is_key t c /\ leaves o c = false.

(** *** The database: upserts, as the manuals say (SpecConflict), with the key as the only unique index *)
Variables (fl : flavour) (q : list bytes) (held : St -> list (row V)) (fresh : St -> row V) (down : St -> Prop).
Notation key := (map c_name (key_of t)).
Definition obeys_upsert_ask (ask : St -> bytes -> list V -> option (St * rows (V:=V))) : Prop := forall s text args cols rs tgt sets ret,
  let st := Insert q cols rs (DoUpdate tgt sets) ret in read fl text args = Some st ->
  match ask s text args with
  | Some (s', out) => exists vs, pg_insert D [key] (fresh s) (held s) st = Some (held s', vs) /\ out = {| r_pending := vs; r_broken := false; r_closed := false; r_close_fails := false |}
  | None => down s \/ pg_insert D [key] (fresh s) (held s) st = None
  end.
Definition obeys_upsert_exec (exec : St -> bytes -> list V -> option (St * option Z)) : Prop := forall s text args cols rs tgt sets ret,
  let st := Insert q cols rs (DoUpdate tgt sets) ret in read fl text args = Some st ->
  match exec s text args with
  | Some (s', _) => my_insert D [key] (fresh s) (held s) st = Some (held s')
  | None => down s \/ my_insert D [key] (fresh s) (held s) st = None
  end.
End Batch.
