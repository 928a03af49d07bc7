(** Model of calls of UpsertOne (PostgreSQL, db.go.tpl:230-313) that run at the same time on one heap of slices.

    A call is cut at the points where it touches slices: each step below is one of the appends of ModelSlice or the reading
    that goes with it.  A step is atomic here.  The options of a call (db.go.tpl:234-237) are its own variable, the arrays behind its
    slices are shared. *)
From Verif Require Import Base ModelStrconv ModelCompiler ModelGen ModelRuntime ModelSlice.

Section Race.
Context {V : Type}.
Variable room : nat -> nat.

(** Where a call is: at its beginning; with the columns; with the key among the omitted fields; with the first part of the
    statement and the values; with the conflict target; with all omitted fields; at its end. *)
Inductive place :=
| Begins
| HasColumns (c : slice)
| HasKeys (c om : slice)
| HasHead (c om : slice) (head : bytes) (values : list V)
| HasTarget (c om : slice) (head : bytes) (values : list V) (target : list bytes)
| HasOmitted (c om : slice) (head : bytes) (values : list V) (target : list bytes)
| Ended (r : res (request V)).

Definition step (m : model V) (o : opts) (h : heap) (p : place) : heap * place :=
  match p with
  | Begins => let c := generated_columns (m_columns m) h in (fst c, HasColumns (snd c))       (* 239-244 *)
  | HasColumns c =>                                                                           (* 250, 257, 261 *)
      match key_names m with
      | Ok keys => let om := append room h (so_omit o) keys in (fst om, HasKeys c (snd om))
      | _ => (h, Ended Panic)
      end
  | HasKeys c om =>                                                                           (* 251-267 *)
      match delete_opt room h c (auto_idx m), without (auto_idx m) (m_values m) with
      | Ok (h', c'), Ok values =>
          (h', HasHead c' om (B "INSERT INTO " ++ db_table m ++ B " (" ++ join (B ",") (read h' c') ++ B ") VALUES "
                              ++ m_places m 0) values)
      | _, _ => (h, Ended Panic)
      end
  | HasHead c om head values =>                                                               (* 268-286 *)
      match target_h room h m om (so_dup o) with
      | Ok ((h', om'), t) => (h', HasTarget c om' head values t)
      | _ => (h, Ended Panic)
      end
  | HasTarget c om head values t =>                                                           (* 287-293 *)
      if so_nothing o then (h, HasOmitted c om head values t)
      else let p := omit_h room h m om in (fst p, HasOmitted c (snd p) head values t)
  | HasOmitted c om head values t =>                                                          (* 294-312 *)
      let r := returned (generated_columns (m_columns m)) h m in
      (fst r, Ended (Ok (head ++ B " ON CONFLICT(" ++ join (B ",") t ++ B ")"
                         ++ (if so_nothing o then B " DO NOTHING"
                             else B " DO UPDATE SET " ++ excluded_list (kept (read h om) (read h c)))
                         ++ B " RETURNING " ++ join (B ",") (snd r) ++ B ";", values)))
  | Ended r => (h, p)
  end.

(** The calls of a program and where they are *)
Definition calls := list ((model V * opts) * place).
(** A schedule names the call that makes the next step *)
Fixpoint move (h : heap) (ts : calls) (i : nat) {struct ts} : heap * calls :=
  match ts, i with
  | [], _ => (h, [])
  | (mo, p) :: r, O => let q := step (fst mo) (snd mo) h p in (fst q, (mo, snd q) :: r)
  | x :: r, S i' => let q := move h r i' in (fst q, x :: snd q)
  end.
Fixpoint play (h : heap) (ts : calls) (sched : list nat) {struct sched} : heap * calls :=
  match sched with [] => (h, ts) | i :: s => let q := move h ts i in play (fst q) (snd q) s end.
Definition started (l : list (model V * opts)) : calls := map (fun mo => (mo, Begins)) l.
End Race.
