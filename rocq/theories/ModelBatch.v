(** Programs that also insert many records at once and upsert, beside the calls of ModelHistory. *)
From Coq Require Import ZArith.
From Verif Require Import Base ModelCompiler ModelGen ModelRuntime ModelRows ModelWrite ModelHistory.

Section Batch.
Context {V St : Type}.
(** The same as in ModelHistory *)
Variable conv : column -> V -> option V.
Variable ask : St -> bytes -> list V -> option (St * rows (V:=V)).
Variable exec : St -> bytes -> list V -> option (St * option Z).
Variables (int_type : column -> bool * Z) (num : Z -> V) (selects : bytes -> bytes).
Variables (d : driver) (model_of : record (V:=V) -> model V) (cols : list column) (auto : option column).

(** The options of an upsert: UpsertOption in PostgreSQL; in the other drivers override is the opposite of [o_nothing], omittedFields is [o_omit] *)
Inductive action := Single (c : call V) | AddAll (xs : list (record (V:=V))) | Put (o : upsert_opts) (x : record (V:=V)) | PutAll (o : upsert_opts) (xs : list (record (V:=V))).
(** db.go.tpl:144-194 Insert, 535-635 Upsert: ExecContext, or nothing for an empty slice *)
Definition send_all (s : St) (r : res (option (request V))) : St * reply V :=
  match r with
  | Ok (Some req) => send exec s (Ok req)
  | Ok None => (s, Done)
  | Err => (s, Failed)
  | Panic => (s, Panicked)
  end.
Definition all_done {A} (r : res A) : reply V := match r with Ok _ => Done | Err => Failed | Panic => Panicked end.
(** db.go.tpl:71-194 Insert, 230-313 and 448-532 UpsertOne, 316-446 and 535-635 Upsert *)
Definition run_action (s : St) (a : action) : St * reply V :=
  match a with
  | Single c => run_call conv ask exec int_type num selects d model_of cols auto s c
  | AddAll xs =>
      match d with
      | DPostgres => let '(s', (_, r)) := run_insert_pg conv ask s (map model_of xs) cols xs in (s', all_done r)
      | _ => send_all s (insert d (map model_of xs))
      end
  | Put o x =>
      match d with
      | DPostgres => let '(s', (_, r)) := run_upsert_one_pg conv ask s (model_of x) o cols x in (s', all_done r)
      | _ => send exec s (upsert_one_my (model_of x) (negb (o_nothing o)) (o_omit o))
      end
  | PutAll o xs =>
      match d with
      | DPostgres => let '(s', (_, r)) := run_upsert_pg conv ask s (map model_of xs) o cols xs in (s', all_done r)
      | _ => send_all s (upsert_my (map model_of xs) (negb (o_nothing o)) (o_omit o))
      end
  end.
Variable pass : St -> St.
(** The actions of a program with the state before each and the reply, and the last state *)
Fixpoint program (s : St) (acts : list action) {struct acts} : list (St * action * reply V) * St :=
  match acts with
  | [] => ([], s)
  | a :: acts' => let '(s', r) := run_action s a in let '(tr, last) := program (pass s') acts' in ((s, a, r) :: tr, last)
  end.
End Batch.
Arguments action : clear implicits.
