(** Model of /repo/cmd/sqlgen/codegen/templates/operator.go.tpl and of the statement builder and the
    statement functions of db.go.tpl:1141-1610.

    [V] is Go's type any: the values given to the operators and the arguments sent to the database.  Where-clauses
    are the ones made by the operators; a caller's own function of type WhereClause is not modelled. *)
From Verif Require Import Base ModelStrconv ModelEncoding ModelPgutil ModelCompiler ModelGen ModelRuntime.

Section Stmt.
Context {V : Type}.

(** ** The statement builder: db.go.tpl:1419-1423 SqlStmt, 1525-1529 Reset *)
Record sqlstmt := { s_text : bytes; s_pos : nat; s_args : list V }.
Definition empty_stmt : sqlstmt := {| s_text := []; s_pos := 0; s_args := [] |}.

(** db.go.tpl:1463-1473 Write, WriteString, WriteByte *)
Definition put (s : sqlstmt) (x : bytes) : sqlstmt :=
  {| s_text := s_text s ++ x; s_pos := s_pos s; s_args := s_args s |}.
(** db.go.tpl:1429-1437 Var *)
Definition var (d : driver) (s : sqlstmt) (v : V) : sqlstmt * bytes :=
  ({| s_text := s_text s; s_pos := S (s_pos s); s_args := s_args s ++ [v] |}, quote_var d (S (s_pos s))).
(** db.go.tpl:1439-1461 Vars; the slice [1:] of an empty Repeat panics *)
Definition vars (d : driver) (s : sqlstmt) (vs : list V) : res (sqlstmt * bytes) :=
  let n := length vs in
  match d with
  | DPostgres =>
      let pos := s_pos s + n in
      Ok ({| s_text := s_text s; s_pos := pos; s_args := s_args s ++ vs |},
          B "(" ++ concat (map (fun i => if Nat.ltb i (pos - 1) then quote_var d (i + 1) ++ B "," else quote_var d (i + 1))
                             (seq (s_pos s) n)) ++ B ")")
  | _ =>
      let* r := repeat_tail (B ",?") n in
      Ok ({| s_text := s_text s; s_pos := s_pos s; s_args := s_args s ++ vs |}, B "(" ++ r ++ B ")")
  end.

(** db.go.tpl:1525-1529 Reset *)
Definition reset (s : sqlstmt) : sqlstmt := empty_stmt.

(** ** Operators *)

(** sequel/clause.go: basicColumn, column, sqlColumn *)
Inductive colclause :=
| Basic (name : bytes)
| Convert (name : bytes) (convert : V -> V)
| SqlCol (name : bytes) (convert : V -> V) (sql_value : bytes -> bytes).
Definition col_name (c : colclause) : bytes := match c with Basic n | Convert n _ | SqlCol n _ _ => n end.
(** the switch on the column's interface in every operator *)
Definition to_arg (c : colclause) (v : V) : V :=
  match c with Basic _ => v | Convert _ f => f v | SqlCol _ f _ => f v end.

(** operator.go.tpl, one constructor for each function *)
Inductive where_clause :=
| WAnd (cs : list where_clause) | WOr (cs : list where_clause)
| WEqual (c : colclause) (v : V) | WNotEqual (c : colclause) (v : V)
| WIn (c : colclause) (vs : list V) | WNotIn (c : colclause) (vs : list V)
| WGreaterThan (c : colclause) (v : V) | WGreaterThanOrEqual (c : colclause) (v : V)
| WLessThan (c : colclause) (v : V) | WLessThanOrEqual (c : colclause) (v : V)
| WLike (c : colclause) (v : V) | WNotLike (c : colclause) (v : V)
| WIsNull (c : colclause) | WIsNotNull (c : colclause)
| WBetween (c : colclause) (lo hi : V) | WNotBetween (c : colclause) (lo hi : V).

Definition write_one (d : driver) (op : bytes) (c : colclause) (v : V) (s : sqlstmt) : res sqlstmt :=
  let '(s, p) := var d s (to_arg c v) in Ok (put s (col_name c ++ op ++ p)).
Definition write_many (d : driver) (op : bytes) (c : colclause) (vs : list V) (s : sqlstmt) : res sqlstmt :=
  let* r := vars d s (map (to_arg c) vs) in Ok (put (fst r) (col_name c ++ op ++ snd r)).
Definition write_two (d : driver) (op : bytes) (c : colclause) (lo hi : V) (s : sqlstmt) : res sqlstmt :=
  let '(s, p) := var d s (to_arg c lo) in
  let '(s, q) := var d s (to_arg c hi) in
  Ok (put s (col_name c ++ op ++ p ++ B " AND " ++ q)).

(** operator.go.tpl:3-213 *)
Fixpoint write_where (d : driver) (w : where_clause) (s : sqlstmt) {struct w} : res sqlstmt :=
  let rest sep :=
    fix rest (cs : list where_clause) (s : sqlstmt) : res sqlstmt :=
      match cs with
      | [] => Ok s
      | c :: cs' => let* s := write_where d c (put s sep) in rest cs' s
      end in
  let group sep cs :=
    match cs with
    | [] => Ok s
    | c :: cs' => let* s := write_where d c (put s (B "(")) in let* s := rest sep cs' s in Ok (put s (B ")"))
    end in
  match w with
  | WAnd cs => group (B " AND ") cs
  | WOr cs => group (B " OR ") cs
  | WEqual c v => write_one d (B " = ") c v s
  | WNotEqual c v => write_one d (B " <> ") c v s
  | WIn c vs => write_many d (B " IN ") c vs s
  | WNotIn c vs => write_many d (B " NOT IN ") c vs s
  | WGreaterThan c v => write_one d (B " > ") c v s
  | WGreaterThanOrEqual c v => write_one d (B " >= ") c v s
  | WLessThan c v => write_one d (B " < ") c v s
  | WLessThanOrEqual c v => write_one d (B " <= ") c v s
  | WLike c v => write_one d (B " LIKE ") c v s
  | WNotLike c v => write_one d (B " NOT LIKE ") c v s
  | WIsNull c => Ok (put s (col_name c ++ B " IS NULL"))
  | WIsNotNull c => Ok (put s (col_name c ++ B " IS NOT NULL"))
  | WBetween c lo hi => write_two d (B " BETWEEN ") c lo hi s
  | WNotBetween c lo hi => write_two d (B " NOT BETWEEN ") c lo hi s
  end.

(** operator.go.tpl:215-226 Set *)
Definition write_set (d : driver) (a : colclause * V) (s : sqlstmt) : res sqlstmt := write_one d (B " = ") (fst a) (snd a) s.

(** ** Statement functions *)

(** What the functions ask of the model type: Columner with or without SQLColumner (TableColumns), Tabler, Databaser. *)
Record target := { g_columns : option (list bytes); g_table : option bytes; g_db : option bytes }.
(** db.go.tpl:1533-1538 DbTable, 1547-1552 dbName *)
Definition g_dbname (g : target) : bytes := match g_db g with Some x => x ++ B "." | None => [] end.

(** operator.go.tpl:228-234 Asc, Desc: the column and whether it is ascending *)
Definition order_text (o : bytes * bool) (word : bytes) : bytes := fst o ++ if snd o then word else B " DESC".
Definition order_by (l : list (bytes * bool)) : bytes :=
  match l with
  | [] => []
  | o :: l' => B " ORDER BY " ++ order_text o [] ++ concat (map (fun o => B "," ++ order_text o (B " ASC")) l')
  end.
Definition write_opt (d : driver) (w : option where_clause) (s : sqlstmt) : res sqlstmt :=
  match w with Some w => write_where d w (put s (B " WHERE ")) | None => Ok s end.
Definition positive (kw : bytes) (n : N) : bytes := if N.ltb 0 n then kw ++ format_uint n else [].

(** db.go.tpl:1141-1149 SelectStmt, 1229-1235 SelectOneStmt (without limit and offset) *)
Record select_stmt := {
  q_select : list bytes; q_from : bytes; q_where : option where_clause; q_order : list (bytes * bool);
  q_group : list bytes; q_offset : N; q_limit : N }.

(** db.go.tpl:1154-1205 and 1240-1286: the part shared by QueryStmt and QueryOneStmt *)
Definition select_text (d : driver) (g : target) (q : select_stmt) : res sqlstmt :=
  let items := match q_select q, g_columns g with
               | [], Some cs => join (B ",") cs
               | [], None => B "*"
               | l, _ => join (B ",") l
               end in
  let* table := match q_from q, g_table g with
                | [], Some t => Ok (g_dbname g ++ t)
                | [], None => Err
                | f, _ => Ok (g_dbname g ++ f)
                end in
  let* s := write_opt d (q_where q) (put empty_stmt (B "SELECT " ++ items ++ B " FROM " ++ table)) in
  Ok (put s (match q_group q with [] => [] | x :: l => B " GROUP BY " ++ x ++ concat (map (fun y => B "," ++ y) l) end
             ++ order_by (q_order q))).
(** db.go.tpl:1151-1209 QueryStmt *)
Definition query_stmt (d : driver) (g : target) (q : select_stmt) : res (bytes * list V) :=
  let* s := select_text d g q in
  let s := put s (positive (B " LIMIT ") (q_limit q) ++ positive (B " OFFSET ") (q_offset q) ++ B ";") in
  Ok (s_text s, s_args s).
(** db.go.tpl:1237-1287 QueryOneStmt *)
Definition query_one_stmt (d : driver) (g : target) (q : select_stmt) : res (bytes * list V) :=
  let* s := select_text d g q in
  let s := put s (B " LIMIT 1;") in Ok (s_text s, s_args s).

(** db.go.tpl:1295-1314 UpdateStmt, DeleteStmt; the limit does not exist on PostgreSQL *)
Record update_stmt := {
  e_table : bytes; e_set : list (colclause * V); e_where : option where_clause; e_order : list (bytes * bool); e_limit : N }.
Definition exec_limit (d : driver) (n : N) : bytes := match d with DPostgres => [] | _ => positive (B " LIMIT ") n end.
Definition exec_tail (d : driver) (u : update_stmt) (s : sqlstmt) : res (bytes * list V) :=
  let* s := write_opt d (e_where u) s in
  let s := put s (order_by (e_order u) ++ exec_limit d (e_limit u) ++ B ";") in Ok (s_text s, s_args s).
Definition exec_table (g : target) (name : bytes) : bytes :=
  g_dbname g ++ match g_table g with Some t => t | None => name end.
(** db.go.tpl:1316-1397 ExecStmt, UpdateStmt *)
Fixpoint write_sets (d : driver) (l : list (colclause * V)) (s : sqlstmt) : res sqlstmt :=
  match l with [] => Ok s | a :: l' => let* s := write_set d a (put s (B ",")) in write_sets d l' s end.
Definition exec_update (d : driver) (g : target) (u : update_stmt) : res (bytes * list V) :=
  let s := put empty_stmt (B "UPDATE " ++ exec_table g (e_table u)) in
  let* s := match e_set u with
            | [] => Ok s
            | a :: l => let* s := write_set d a (put s (B " SET ")) in write_sets d l s
            end in
  exec_tail d u s.
(** db.go.tpl:1316-1397 ExecStmt, DeleteStmt (the fields of UpdateStmt without Set) *)
Definition exec_delete (d : driver) (g : target) (u : update_stmt) : res (bytes * list V) :=
  exec_tail d u (put empty_stmt (B "DELETE FROM " ++ exec_table g (e_table u))).

(** ** Format: db.go.tpl:1483-1523 *)

(** strings.Index, as the texts before and after the first occurrence *)
Fixpoint prefix_of (p s : bytes) : option bytes :=
  match p, s with
  | [], _ => Some s
  | c :: p', e :: s' => if beq c e then prefix_of p' s' else None
  | _ :: _, [] => None
  end.
Fixpoint cut (p s : bytes) : option (bytes * bytes) :=
  match prefix_of p s with
  | Some rest => Some ([], rest)
  | None => match s with
            | [] => None
            | c :: s' => match cut p s' with Some (a, b) => Some (c :: a, b) | None => None end
            end
  end.
(** The loop of Format; [strf] is db.go.tpl:1560-1610, which may panic.  Every turn drops an argument, so the
    loop runs over the arguments; args[0] of an empty slice panics. *)
Fixpoint format_loop (d : driver) (strf : V -> res bytes) (args : list V) (str : bytes) (i : nat) : res bytes :=
  match cut (quote_var d i) str with
  | None => Ok str
  | Some (before, after) =>
      match args with
      | [] => Panic
      | v :: args' =>
          let* x := strf v in
          let* r := format_loop d strf args' after (S i) in
          Ok (before ++ x ++ r)
      end
  end.
(** [expand] is false for the verbs s and v without flags *)
Definition format (d : driver) (strf : V -> res bytes) (expand : bool) (s : sqlstmt) : res bytes :=
  if expand then format_loop d strf (s_args s) (s_text s) 1 else Ok (s_text s).

End Stmt.

(** ** strf: db.go.tpl:1560-1610

    The values Format can meet; floats and times are carried as the texts FormatFloat(v,'f',10,64) and
    Format(time.RFC3339) make of them, a driver.Valuer as the value it returns.  Named types of a kind the function
    knows are the same as their kind; [LOther] is everything else (pointers, slices, structs). *)
Inductive literal :=
| LNil | LString (s : bytes) | LBool (b : bool) | LInt (z : Z) | LUint (n : N) | LFloat (text : bytes) | LTime (text : bytes)
| LRaw (s : bytes) | LValuer (v : literal) | LOther.
Fixpoint strf (printable : N -> bool) (d : driver) (v : literal) : res bytes :=
  match v with
  | LNil => Ok (B "NULL")
  | LString s => Ok (match d with DPostgres => pg_quote s | _ => go_quote printable s end)
  | LBool b => Ok (if b then B "true" else B "false")
  | LInt z => Ok (format_int z)
  | LUint n => Ok (format_uint n)
  | LFloat t => Ok t
  | LTime t => Ok (go_quote printable t)
  | LRaw s => Ok s
  | LValuer v => strf printable d v
  | LOther => Panic
  end.
Arguments sqlstmt : clear implicits.
Arguments colclause : clear implicits.
Arguments where_clause : clear implicits.
Arguments select_stmt : clear implicits.
Arguments update_stmt : clear implicits.
