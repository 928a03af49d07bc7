(** Values are sent as arguments, never written into statements (C75). *)
From Verif Require Import Base ModelStrconv ModelCompiler ModelGen ModelRuntime ModelStmt ModelPager.

Section Alike.
Context {V W : Type}.
(** Values of two calls that stand in the same place *)
Variable R : V -> W -> Prop.

(** The same statement; the arguments correspond one by one. *)
Definition alike_request (r : bytes * list V) (r' : bytes * list W) : Prop := fst r = fst r' /\ Forall2 R (snd r) (snd r').
Definition alike_option {A C} (P : A -> C -> Prop) (x : option A) (y : option C) : Prop :=
  match x, y with Some a, Some c => P a c | None, None => True | _, _ => False end.
Definition alike_result {A C} (P : A -> C -> Prop) (x : res A) (y : res C) : Prop :=
  match x, y with Ok a, Ok c => P a c | Err, Err => True | Panic, Panic => True | _, _ => False end.

(** Two records of the same type: everything but their values is the same. *)
Definition alike_key (k : mkey V) (k' : mkey W) : Prop :=
  match k, k' with
  | NoKey, NoKey => True
  | AutoKey n i v, AutoKey n' i' v' | SingleKey n i v, SingleKey n' i' v' => n = n' /\ i = i' /\ R v v'
  | CompKey ns is vs, CompKey ns' is' vs' => ns = ns' /\ is = is' /\ Forall2 R vs vs'
  | _, _ => False
  end.
Record alike_model (m : model V) (m' : model W) : Prop := {
  am_db : m_db m = m_db m'; am_table : m_table m = m_table m'; am_columns : m_columns m = m_columns m'; am_sqlcolumns : m_sqlcolumns m = m_sqlcolumns m';
  am_values : Forall2 R (m_values m) (m_values m'); am_places : forall row, m_places m row = m_places m' row; am_key : alike_key (m_key m) (m_key m');
  am_dup : m_dup m = m_dup m'; am_omit : m_omit m = m_omit m'; am_insert : alike_option alike_request (m_insert m) (m_insert m');
  am_find : alike_option alike_request (m_find m) (m_find m'); am_update : alike_option alike_request (m_update m) (m_update m'); am_delete : alike_option alike_request (m_delete m) (m_delete m') }.

(** The same condition on other values *)
Definition alike_column (c : colclause V) (c' : colclause W) : Prop :=
  match c, c' with
  | Basic n, Basic n' => n = n'
  | Convert n f, Convert n' f' => n = n' /\ forall v v', R v v' -> R (f v) (f' v')
  | SqlCol n f g, SqlCol n' f' g' => n = n' /\ (forall v v', R v v' -> R (f v) (f' v')) /\ forall p, g p = g' p
  | _, _ => False
  end.
Fixpoint alike_where (w : where_clause V) (w' : where_clause W) {struct w} : Prop :=
  match w, w' with
  | WAnd l, WAnd l' | WOr l, WOr l' =>
      (fix all (l : list (where_clause V)) (l' : list (where_clause W)) : Prop :=
         match l, l' with [], [] => True | x :: l, y :: l' => alike_where x y /\ all l l' | _, _ => False end) l l'
  | WEqual c v, WEqual c' v' | WNotEqual c v, WNotEqual c' v' | WGreaterThan c v, WGreaterThan c' v' | WGreaterThanOrEqual c v, WGreaterThanOrEqual c' v'
  | WLessThan c v, WLessThan c' v' | WLessThanOrEqual c v, WLessThanOrEqual c' v' | WLike c v, WLike c' v' | WNotLike c v, WNotLike c' v' => alike_column c c' /\ R v v'
  | WIn c vs, WIn c' vs' | WNotIn c vs, WNotIn c' vs' => alike_column c c' /\ Forall2 R vs vs'
  | WIsNull c, WIsNull c' | WIsNotNull c, WIsNotNull c' => alike_column c c'
  | WBetween c a b, WBetween c' a' b' | WNotBetween c a b, WNotBetween c' a' b' => alike_column c c' /\ R a a' /\ R b b'
  | _, _ => False
  end.
Definition alike_select (q : select_stmt V) (q' : select_stmt W) : Prop :=
  q_select q = q_select q' /\ q_from q = q_from q' /\ alike_option alike_where (q_where q) (q_where q') /\ q_order q = q_order q' /\ q_group q = q_group q' /\ q_offset q = q_offset q' /\ q_limit q = q_limit q'.
Definition alike_update (u : update_stmt V) (u' : update_stmt W) : Prop :=
  e_table u = e_table u' /\ Forall2 (fun a b => alike_column (fst a) (fst b) /\ R (snd a) (snd b)) (e_set u) (e_set u') /\ alike_option alike_where (e_where u) (e_where u') /\ e_order u = e_order u' /\ e_limit u = e_limit u'.
Definition alike_pager (p : @pager V) (p' : @pager W) : Prop :=
  p_select p = p_select p' /\ p_from p = p_from p' /\ alike_option alike_where (p_where p) (p_where p') /\ p_order p = p_order p' /\ p_limit p = p_limit p'.
End Alike.

(** The calls a program makes, with the values they are given *)
Inductive call (V : Type) :=
| CInsertOne (m : model V) | CInsert (ms : list (model V))
| CUpsertOnePostgres (m : model V) (o : upsert_opts) | CUpsertPostgres (ms : list (model V)) (o : upsert_opts)
| CUpsertOne (m : model V) (override : bool) (omitted : list bytes) | CUpsert (ms : list (model V)) (override : bool) (omitted : list bytes)
| CFindByPK (m : model V) | CUpdateByPK (m : model V) | CDeleteByPK (m : model V) | CLockByPK (m : model V) (mode : bytes)
| CQuery (g : target) (q : select_stmt V) | CQueryOne (g : target) (q : select_stmt V)
| CUpdate (g : target) (u : update_stmt V) | CDelete (g : target) (u : update_stmt V)
| CPage (forward : bool) (p : pager V) (m : model V) (cursor : bool).
Arguments CInsertOne {V}. Arguments CInsert {V}. Arguments CUpsertOnePostgres {V}. Arguments CUpsertPostgres {V}. Arguments CUpsertOne {V}. Arguments CUpsert {V}.
Arguments CFindByPK {V}. Arguments CUpdateByPK {V}. Arguments CDeleteByPK {V}. Arguments CLockByPK {V}. Arguments CQuery {V}. Arguments CQueryOne {V}.
Arguments CUpdate {V}. Arguments CDelete {V}. Arguments CPage {V}.

(** What a call sends to the database; nothing for an empty batch *)
Definition once {V} (r : res (bytes * list V)) : res (option (bytes * list V)) := let* x := r in Ok (Some x).
Definition sent {V} (d : driver) (c : call V) : res (option (bytes * list V)) :=
  match c with
  | CInsertOne m => once (insert_one d m) | CInsert ms => insert d ms
  | CUpsertOnePostgres m o => once (upsert_one_pg m o) | CUpsertPostgres ms o => upsert_pg ms o
  | CUpsertOne m b l => once (upsert_one_my m b l) | CUpsert ms b l => upsert_my ms b l
  | CFindByPK m => once (find_by_pk d m) | CUpdateByPK m => once (update_by_pk d m) | CDeleteByPK m => once (delete_by_pk d m) | CLockByPK m x => once (lock_by_pk d m x)
  | CQuery g q => once (query_stmt d g q) | CQueryOne g q => once (query_one_stmt d g q)
  | CUpdate g u => once (exec_update d g u) | CDelete g u => once (exec_delete d g u)
  | CPage f p m c => once (page_stmt d f p m c)
  end.

(** The same call on other values *)
Definition alike_call {V W} (R : V -> W -> Prop) (c : call V) (c' : call W) : Prop :=
  match c, c' with
  | CInsertOne m, CInsertOne m' | CFindByPK m, CFindByPK m' | CUpdateByPK m, CUpdateByPK m' | CDeleteByPK m, CDeleteByPK m' => alike_model R m m'
  | CInsert l, CInsert l' => Forall2 (alike_model R) l l'
  | CUpsertOnePostgres m o, CUpsertOnePostgres m' o' => alike_model R m m' /\ o = o'
  | CUpsertPostgres l o, CUpsertPostgres l' o' => Forall2 (alike_model R) l l' /\ o = o'
  | CUpsertOne m b x, CUpsertOne m' b' x' => alike_model R m m' /\ b = b' /\ x = x'
  | CUpsert l b x, CUpsert l' b' x' => Forall2 (alike_model R) l l' /\ b = b' /\ x = x'
  | CLockByPK m x, CLockByPK m' x' => alike_model R m m' /\ x = x'
  | CQuery g q, CQuery g' q' | CQueryOne g q, CQueryOne g' q' => g = g' /\ alike_select R q q'
  | CUpdate g u, CUpdate g' u' | CDelete g u, CDelete g' u' => g = g' /\ alike_update R u u'
  | CPage f p m c, CPage f' p' m' c' => f = f' /\ alike_pager R p p' /\ alike_model R m m' /\ c = c'
  | _, _ => False
  end.

(** A statement a generated method writes for its receiver: a text and the fields whose values go with it *)
Definition on_fields {V} (val : column -> V) (s : option (bytes * list column)) : option (bytes * list V) :=
  match s with Some (text, fields) => Some (text, map val fields) | None => None end.
