(** Model of the pager: /repo/cmd/sqlgen/codegen/templates/db.go.tpl:805-1139. *)
From Verif Require Import Base ModelStrconv ModelCompiler ModelGen ModelRuntime ModelStmt.

Section Pager.
Context {V : Type}.

(** db.go.tpl:805-811 PaginateStmt; [p_limit] is a uint16 *)
Record pager := {
  p_select : list bytes; p_from : bytes; p_where : option (where_clause V); p_order : list (bytes * bool); p_limit : N }.

(** db.go.tpl:813-821 Paginate *)
Definition paginate (p : pager) : pager :=
  if N.eqb (p_limit p) 0 then
    {| p_select := p_select p; p_from := p_from p; p_where := p_where p; p_order := p_order p; p_limit := 100 |}
  else p.

(** Conversion to uint16. *)
Definition uint16 (n : N) : N := (n mod 65536)%N.

(** colDict[name], for the map built by the loops at 855-859 and 1006-1010: a repeated column leaves its last
    position, a missing one reads as 0. *)
Fixpoint last_index (name : bytes) (columns : list bytes) (i found : nat) : nat :=
  match columns with
  | [] => found
  | c :: cs => last_index name cs (S i) (if bseq c name then i else found)
  end.
(** values[colDict[name]] *)
Definition ordered_value (m : model V) (name : bytes) : res V :=
  match nth_error (m_values m) (last_index name (m_columns m) 0 0) with Some v => Ok v | None => Panic end.

(** db.go.tpl:861-877, Prev: the conditions on the ordered columns; [buf] is the second builder, whose placeholders
    are taken from the first one. *)
Fixpoint prev_order (d : driver) (m : model V) (l : list (bytes * bool)) (s : sqlstmt V) (buf : bytes)
  : res (sqlstmt V * bytes) :=
  match l with
  | [] => Ok (s, buf)
  | (name, asc) :: l' =>
      let* v := ordered_value m name in
      let '(s, p1) := var d s v in
      let s := put s (name ++ (if asc then B " <= " else B " >= ") ++ p1 ++ B " AND ") in
      let '(s, p2) := var d s v in
      prev_order d m l' s (buf ++ name ++ (if asc then B " < " else B " > ") ++ p2 ++ B " OR ")
  end.
Definition prev_conditions (d : driver) (m : model V) (l : list (bytes * bool)) (s : sqlstmt V) : res (sqlstmt V) :=
  match l with
  | [] => Ok s
  | _ => let* r := prev_order d m l s [] in Ok (put (fst r) (B "(" ++ snd r))
  end.

(** db.go.tpl:1012-1025 and 1027-1040, Next: one loop over the ordered columns *)
Fixpoint next_order (d : driver) (m : model V) (sep up down : bytes) (first : bool) (l : list (bytes * bool)) (s : sqlstmt V)
  : res (sqlstmt V) :=
  match l with
  | [] => Ok s
  | (name, asc) :: l' =>
      let* v := ordered_value m name in
      let s := if first then s else put s sep in
      let '(s, p) := var d s v in
      next_order d m sep up down false l' (put s (name ++ (if asc then up else down) ++ p))
  end.
Definition next_conditions (d : driver) (m : model V) (l : list (bytes * bool)) (s : sqlstmt V) : res (sqlstmt V) :=
  match l with
  | [] => Ok s
  | _ =>
      let* s := next_order d m (B " AND ") (B " >= ") (B " <= ") true l s in
      let* s := next_order d m (B " OR ") (B " > ") (B " < ") true l (put s (B " AND (")) in
      Ok (put s (B " OR "))
  end.

(** db.go.tpl:881-894 (Prev), 1045-1058 (Next): the condition on the key *)
Definition cursor_bound (d : driver) (op : bytes) (m : model V) (s : sqlstmt V) : res (sqlstmt V) :=
  match m_key m with
  | CompKey ns _ vs =>
      let* r := vars d s vs in
      Ok (put (fst r) (B "((" ++ join (B ",") ns ++ B ") " ++ op ++ B " " ++ snd r ++ B ")"))
  | AutoKey n _ v | SingleKey n _ v =>
      let '(s, p) := var d s v in Ok (put s (B "(" ++ n ++ B " " ++ op ++ B " " ++ p ++ B ")"))
  | NoKey => Panic
  end.

(** db.go.tpl:897-937 (Prev), 1060-1100 (Next): the ordering *)
Definition key_order (m : model V) (single composite : bytes) : res bytes :=
  match m_key m with
  | CompKey ns _ _ => Ok (B "(" ++ join (B ",") ns ++ B ")" ++ composite)
  | AutoKey n _ _ | SingleKey n _ _ => Ok (n ++ single)
  | NoKey => Panic
  end.
Definition page_order (fwd : bool) (m : model V) (l : list (bytes * bool)) : res bytes :=
  match l with
  | [] => if fwd then key_order m [] (B " ASC") else key_order m (B " DESC") (B " DESC")
  | _ =>
      let suffix := if snd (last l ([], true)) then B " ASC" else B " DESC" in
      let* k := key_order m suffix suffix in
      Ok (concat (map (fun o => fst o ++ if snd o : bool then B " ASC," else B " DESC,") l) ++ k)
  end.

(** db.go.tpl:849-942 (Prev, [fwd] false), 1000-1105 (Next): the statement of a page; [m] is the cursor, or the zero
    value without [cursor].  Select and FromTable are never read. *)
Definition page_stmt (d : driver) (fwd : bool) (p : pager) (m : model V) (cursor : bool) : res (bytes * list V) :=
  let s := put empty_stmt (B "SELECT " ++ join (B ",") (table_columns m) ++ B " FROM " ++ db_table m ++ B " WHERE ") in
  let* s := match p_where p with Some w => write_where d w s | None => Ok s end in
  let* s := if fwd then next_conditions d m (p_order p) s else prev_conditions d m (p_order p) s in
  let* s := if cursor then cursor_bound d (if fwd then B ">=" else B "<=") m s else Ok s in
  let* o := page_order fwd m (p_order p) in
  let s := put s (B " ORDER BY " ++ o ++ B " LIMIT " ++ format_uint (uint16 (p_limit p + 1)) ++ B ";") in
  Ok (s_text s, s_args s).

(** ** The iteration *)
Section Iterate.
Variables (T : Type) (view : T -> model V) (zero : T).
(** The database: the records that come back for a statement, or an error.  Scanning a row into the addresses of a
    fresh value is part of it. *)
Variable ask : bytes -> list V -> option (list T).

(** What the consumer gets from one call of yield. *)
Inductive event := Page (l : list T) | Failure | Crash.

(** db.go.tpl:639-666 FindByPK: the row of the cursor *)
Definition refetch (d : driver) (v : T) : res T :=
  let* r := find_by_pk d (view v) in
  match ask (fst r) (snd r) with
  | Some (x :: _) => Ok x
  | _ => Err
  end.

(** One turn of the loop, db.go.tpl:841-975 and 992-1137: what is yielded, and the next cursor unless the
    iteration is over. *)
Definition turn (d : driver) (fwd : bool) (p : pager) (v : T) (cursor : bool) : event * option T :=
  match (if cursor then refetch d v else Ok v) with
  | Ok v =>
      match page_stmt d fwd p (view v) cursor with
      | Ok (text, args) =>
          match ask text args with
          | Some data =>
              if N.leb (uint16 (N.of_nat (length data))) (p_limit p) then (Page data, None)
              else (Page (removelast data), Some (last data zero))
          | None => (Failure, None)
          end
      | Err => (Failure, None)
      | Panic => (Crash, None)
      end
  | Err => (Failure, None)
  | Panic => (Crash, None)
  end.

(** What a consumer that takes at most [k] pages sees, and whether the iteration ended by itself. *)
Fixpoint pages (d : driver) (fwd : bool) (p : pager) (v : T) (cursor : bool) (k : nat) : list event * bool :=
  match k with
  | O => ([], false)
  | S k' =>
      match turn d fwd p v cursor with
      | (e, None) => ([e], true)
      | (e, Some v') => let '(l, fin) := pages d fwd p v' true k' in (e :: l, fin)
      end
  end.
(** db.go.tpl:827-840, 978-991: Prev and Next with zero or one cursor *)
Definition iterate (d : driver) (fwd : bool) (p : pager) (cursor : option T) (k : nat) : list event * bool :=
  match cursor with
  | Some v => pages d fwd p v true k
  | None => pages d fwd p zero false k
  end.
End Iterate.
End Pager.
Arguments pager : clear implicits.
Arguments Page {T}. Arguments Failure {T}. Arguments Crash {T}.
