(** Goroutines that call the functions of ModelBatch at the same time, with one database.

    A call has three steps: it builds its statement, the database executes it, it reads the answer and returns.
    Every function sends at most one statement. The records and options of a call are its own (shared slices: ModelRace). *)
From Coq Require Import ZArith.
From Verif Require Import Base ModelCompiler ModelGen ModelRuntime ModelRows ModelWrite ModelHistory ModelBatch.

Section Concur.
Context {V St : Type}.
(** The same as in ModelBatch *)
Variable conv : column -> V -> option V.
Variable ask : St -> bytes -> list V -> option (St * rows (V:=V)).
Variable exec : St -> bytes -> list V -> option (St * option Z).
Variables (d : driver) (model_of : record (V:=V) -> model V) (cols : list column) (auto : option column).
Variable pass : St -> St.

(** What a call does with the database: QueryContext or QueryRowContext, ExecContext, or nothing and the reply is known *)
Inductive wanted := Queries (text : bytes) (args : list V) | Execs (text : bytes) (args : list V) | NoStatement (r : reply V).
Definition queries (r : res (request V)) : wanted := match r with Ok (text, args) => Queries text args | Err => NoStatement Failed | Panic => NoStatement Panicked end.
Definition execs (r : res (request V)) : wanted := match r with Ok (text, args) => Execs text args | Err => NoStatement Failed | Panic => NoStatement Panicked end.
(** db.go.tpl:73-75, 146-148, 318-320, 537-539: nothing is sent for an empty slice *)
Definition unless_empty (send : res (request V) -> wanted) (r : res (option (request V))) : wanted :=
  match r with Ok (Some q) => send (Ok q) | Ok None => NoStatement Done | Err => NoStatement Failed | Panic => NoStatement Panicked end.
(** The first step. db.go.tpl:15-62 InsertOne, 669-720 UpdateByPK, 729-755 DeleteByPK, 639-664 FindByPK, 71-190 Insert, 230-310 and 448-530 UpsertOne, 316-430 and 535-633 Upsert: up to the call of sqlConn *)
Definition prepare (a : action V) : wanted :=
  match a with
  | Single (Adds x) => match d with DPostgres => queries (insert_one DPostgres (model_of x)) | _ => execs (insert_one d (model_of x)) end
  | Single (Changes x) => execs (update_by_pk d (model_of x))
  | Single (Removes x) => execs (delete_by_pk d (model_of x))
  | Single (Looks x) => queries (find_by_pk d (model_of x))
  | AddAll xs => match d with DPostgres => unless_empty queries (insert DPostgres (map model_of xs)) | _ => unless_empty execs (insert d (map model_of xs)) end
  | Put o x => match d with DPostgres => queries (upsert_one_pg (model_of x) o) | _ => execs (upsert_one_my (model_of x) (negb (o_nothing o)) (o_omit o)) end
  | PutAll o xs => match d with DPostgres => unless_empty queries (upsert_pg (map model_of xs) o) | _ => unless_empty execs (upsert_my (map model_of xs) (negb (o_nothing o)) (o_omit o)) end
  end.
(** The second step: one statement at the database. [None]: an error *)
Inductive answer := Rows (o : option (rows (V:=V))) | Result (o : option (option Z)) | Known (r : reply V).
Definition fire (s : St) (w : wanted) : St * answer :=
  match w with
  | Queries text args => match ask s text args with Some (s', rs) => (s', Rows (Some rs)) | None => (s, Rows None) end
  | Execs text args => match exec s text args with Some (s', id) => (s', Result (Some id)) | None => (s, Result None) end
  | NoStatement r => (s, Known r)
  end.
(** The third step: reading the rows, LastInsertId. db.go.tpl:36, 52-66 InsertOne, 665 FindByPK, 122-141 Insert, 313 UpsertOne, 426-445 Upsert *)
Definition finish (a : action V) (n : answer) : reply V :=
  match n with
  | Known r => r
  | Rows None | Result None => Failed
  | Rows (Some rs) =>
      match a with
      | Single (Looks x) => let '(x', r) := row_scan conv cols x rs in match r with Ok _ => Found x' | Err => Failed | Panic => Panicked end
      | Single (Adds x) | Single (Changes x) | Single (Removes x) | Put _ x => all_done (snd (row_scan conv cols x rs))
      | AddAll xs | PutAll _ xs => all_done (snd (fill_rows conv cols xs rs))
      end
  | Result (Some id) =>
      match a with
      | Single (Adds x) => match m_insert (model_of x), auto, id with Some _, Some _, None => Failed | _, _, _ => Done end
      | _ => Done
      end
  end.

(** A goroutine: the call it makes next, given what it has called so far and the replies; where it is; what has returned *)
Inductive stage := Idle | Begun (a : action V) (w : wanted) | Executed (a : action V) (n : answer).
Definition strategy := list (action V * reply V) -> option (action V).
Record goroutine := { g_next : strategy; g_stage : stage; g_back : list (action V * reply V) }.
Definition with_stage (g : goroutine) (x : stage) : goroutine := {| g_next := g_next g; g_stage := x; g_back := g_back g |}.
Definition step_one (s : St) (g : goroutine) : St * goroutine :=
  match g_stage g with
  | Idle => (s, match g_next g (g_back g) with Some a => with_stage g (Begun a (prepare a)) | None => g end)
  | Begun a w => let '(s', n) := fire s w in (pass s', with_stage g (Executed a n))
  | Executed a n => (s, {| g_next := g_next g; g_stage := Idle; g_back := g_back g ++ [(a, finish a n)] |})
  end.
(** A schedule names the goroutine that makes the next step *)
Fixpoint step_nth (s : St) (gs : list goroutine) (i : nat) {struct gs} : St * list goroutine :=
  match gs, i with
  | [], _ => (s, [])
  | g :: r, O => let '(s', g') := step_one s g in (s', g' :: r)
  | g :: r, S j => let '(s', r') := step_nth s r j in (s', g :: r')
  end.
Definition concurrently (s : St) (gs : list goroutine) (sched : list nat) : St * list goroutine := fold_left (fun w i => step_nth (fst w) (snd w) i) sched (s, gs).
Definition launch (l : list strategy) : list goroutine := map (fun f => {| g_next := f; g_stage := Idle; g_back := [] |}) l.
End Concur.
Arguments wanted : clear implicits.
Arguments answer : clear implicits.
Arguments stage : clear implicits.
Arguments goroutine : clear implicits.
Arguments strategy : clear implicits.
