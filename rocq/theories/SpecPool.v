(** What users of the pools rely on (C34). *)
From Verif Require Import Base ModelCompiler ModelGen ModelStmt ModelPool.

Section Pool.
Context {V : Type}.

(** A history of the pool, the newest event first, and the world it leads to. *)
Inductive history (d : driver) : list (event V * answer) -> world V -> Prop :=
| started : history d [] empty_world
| went_on log w e : history d log w -> history d ((e, snd (step d w e)) :: log) (fst (step d w e)).

(** Who holds which object: acquired and not yet released *)
Fixpoint give_back (u o : nat) (l : list (nat * nat)) : list (nat * nat) :=
  match l with
  | [] => []
  | (u', o') :: l' => if Nat.eqb u u' && Nat.eqb o o' then l' else (u', o') :: give_back u o l'
  end.
Fixpoint holders (log : list (event V * answer)) : list (nat * nat) :=
  match log with
  | [] => []
  | (Get u _, AObject o) :: log' => (u, o) :: holders log'
  | (Release u o, _) :: log' => give_back u o (holders log')
  | _ :: log' => holders log'
  end.
(** Users touch only objects they hold; in particular they release once and do not use afterwards. *)
Fixpoint disciplined (log : list (event V * answer)) : Prop :=
  match log with
  | [] => True
  | (e, _) :: log' =>
      match e with Do u o _ _ | Read u o | Release u o => In (u, o) (holders log') | _ => True end /\ disciplined log'
  end.

(** The statement that an object is for its holder *)
Definition view (w : world V) (o : nat) : sqlstmt V :=
  {| s_text := contents (w_bytes w) (b_text (object_at w o)); s_pos := b_pos (object_at w o);
     s_args := contents (w_args w) (b_args (object_at w o)) |}.
(** The calls on an object since it was last acquired, oldest first, and what they make of an empty statement. *)
Fixpoint calls (o : nat) (log : list (event V * answer)) : list (call V) :=
  match log with
  | [] => []
  | (Get _ _, AObject o') :: log' => if Nat.eqb o o' then [] else calls o log'
  | (Do _ o' c _, _) :: log' => if Nat.eqb o o' then calls o log' ++ [c] else calls o log'
  | _ :: log' => calls o log'
  end.
Definition after_call (d : driver) (s : sqlstmt V) (c : call V) : sqlstmt V :=
  match c with
  | CVar v => fst (var d s v)
  | CVars vs => match vars d s vs with Ok (s', _) => s' | _ => s end
  | CWrite x => put s x
  | CReset => reset s
  end.
Definition alone (d : driver) (cs : list (call V)) : sqlstmt V := fold_left (after_call d) cs empty_stmt.
End Pool.
