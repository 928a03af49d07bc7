(** Model of /repo/cmd/sqlgen/codegen/templates/db.go.tpl: the statements and arguments that the generated
    data-access functions send to the database.

    A Go value is seen through the methods these functions call on it.  Slices returned by methods are
    fresh at each call, as the generated methods return slice literals, so the in-place appends of the template
    are plain list operations.  [Panic] is a run-time panic (slice bounds, negative Repeat, explicit panic). *)
From Verif Require Import Base ModelStrconv ModelCompiler ModelGen.

Section Runtime.
Context {V : Type}.

(** Key interfaces of sequel/sequel.go:16-47: AutoIncrKeyer, PrimaryKeyer, CompositeKeyer. *)
Inductive mkey :=
| NoKey
| AutoKey (name : bytes) (idx : nat) (v : V)
| SingleKey (name : bytes) (idx : nat) (v : V)
| CompKey (names : list bytes) (idxs : list nat) (vs : list V).

Definition request := (bytes * list V)%type.

Record model := {
  m_db : option bytes;                     (* DatabaseName(), when implemented *)
  m_table : bytes;                         (* TableName() *)
  m_columns : list bytes;                  (* Columns() *)
  m_sqlcolumns : option (list bytes);      (* SQLColumns(), when implemented *)
  m_values : list V;                       (* Values() *)
  m_places : nat -> bytes;                 (* InsertPlaceholders(row) *)
  m_key : mkey;                            (* PK() or CompositeKey() *)
  m_dup : option (list bytes);             (* DuplicateKeys(), when implemented *)
  m_omit : option (list bytes);            (* OnUpsertOmitColumns(), when implemented *)
  m_insert : option request;               (* InsertOneStmt(), when implemented *)
  m_find : option request;                 (* FindOneByPKStmt(), when implemented *)
  m_update : option request;               (* UpdateOneByPKStmt(), when implemented *)
  m_delete : option request                (* DeleteOneByPKStmt(), when implemented *)
}.

(** db.go.tpl:1533-1538 DbTable, 1540-1545 TableColumns *)
Definition db_table (m : model) : bytes :=
  match m_db m with Some db => db ++ B "." ++ m_table m | None => m_table m end.
Definition table_columns (m : model) : list bytes :=
  match m_sqlcolumns m with Some l => l | None => m_columns m end.

(** append(l[:i], l[i+1:]...) *)
Definition remove_at {A} (i : nat) (l : list A) : res (list A) :=
  if Nat.ltb i (length l) then Ok (firstn i l ++ skipn (S i) l) else Panic.
(** for i := len(idxs)-1; i >= 0; i-- { l = append(l[:idxs[i]], l[idxs[i]+1:]...) } *)
Definition remove_all {A} (idxs : list nat) (l : list A) : res (list A) :=
  fold_right (fun i acc => let* l := acc in remove_at i l) (Ok l) idxs.
Fixpoint map_res {A C} (f : A -> res C) (l : list A) : res (list C) :=
  match l with
  | [] => Ok []
  | x :: l' => let* y := f x in let* ys := map_res f l' in Ok (y :: ys)
  end.
(** strings.Repeat(s, n)[1:] *)
Definition repeat_tail (s : bytes) (n : nat) : res bytes :=
  match n with O => Panic | _ => Ok (tl (repeat_bytes s n)) end.
(** strings.Repeat(s, n-1) *)
Definition repeat_pred (s : bytes) (n : nat) : res bytes :=
  match n with O => Panic | S k => Ok (repeat_bytes s k) end.

(** the loop [for i := 1; i < n; i++ { "," + wrapVar(off+i+1) }] after a first placeholder *)
Definition more_vars (off n : nat) : bytes :=
  concat (map (fun i => B "," ++ quote_var DPostgres (off + i + 1)) (seq 1 (n - 1))).

(** ** Insert *)

(** db.go.tpl:15-68 InsertOne *)
Definition insert_one (d : driver) (m : model) : res request :=
  match m_insert m with
  | Some r => Ok r
  | None =>
      let head := B "INSERT INTO " ++ db_table m ++ B " (" ++ join (B ",") (m_columns m) ++ B ") VALUES (" in
      match d with
      | DPostgres =>
          Ok (head ++ quote_var d 1 ++ more_vars 0 (length (m_values m))
              ++ B ") RETURNING " ++ join (B ",") (table_columns m) ++ B ";", m_values m)
      | _ =>
          let* r := repeat_pred (quote_var d 1 ++ B ",") (length (m_columns m)) in
          Ok (head ++ r ++ quote_var d 1 ++ B ");", m_values m)
      end
  end.

(** The key type switch of Insert: only an AutoIncrKeyer gets its column and values removed. *)
Definition auto_idx (m : model) : option nat := match m_key m with AutoKey _ i _ => Some i | _ => None end.
Definition without {A} (i : option nat) (l : list A) : res (list A) :=
  match i with Some i => remove_at i l | None => Ok l end.

(** db.go.tpl:71-142 (PostgreSQL) and 144-194 (others) Insert; [None] when nothing is executed. *)
Definition insert (d : driver) (data : list model) : res (option request) :=
  match data with
  | [] => Ok None
  | m :: _ =>
      let* columns := without (auto_idx m) (m_columns m) in
      let head := B "INSERT INTO " ++ db_table m ++ B " (" ++ join (B ",") columns ++ B ") VALUES " in
      match d with
      | DPostgres =>
          let* vals := map_res (fun x => without (auto_idx m) (m_values x)) data in
          Ok (Some (head ++ join (B ",") (map (m_places m) (seq 0 (length data)))
                    ++ B " RETURNING " ++ join (B ",") (table_columns m) ++ B ";", concat vals))
      | _ =>
          let* r := repeat_tail (B "," ++ quote_var d 1) (length columns) in
          let* vals := map_res (fun x => without (auto_idx m) (m_values x)) data in
          Ok (Some (head ++ join (B ",") (repeat (B "(" ++ r ++ B ")") (length data)) ++ B ";", concat vals))
      end
  end.

(** ** Upsert, PostgreSQL *)

(** db.go.tpl:206-229 upsertOpts *)
Record upsert_opts := { o_nothing : bool; o_omit : list bytes; o_dup : list bytes }.

(** The columns of the update list: those whose text is not in the set *)
Definition kept (omit columns : list bytes) : list bytes := filter (fun c => negb (bmem c omit)) columns.
(** [columns[i] + " = EXCLUDED." + columns[i]] separated by commas *)
Definition excluded_list (cols : list bytes) : bytes :=
  join (B ",") (map (fun c => c ++ B " = EXCLUDED." ++ c) cols).

(** the key names appended to omitFields before the conflict target is written *)
Definition key_names (m : model) : res (list bytes) :=
  match m_key m with
  | AutoKey n _ _ | SingleKey n _ _ => Ok [n]
  | CompKey ns _ _ => Ok ns
  | NoKey => Panic
  end.
(** db.go.tpl:265-282, 366-388: the conflict target, and the names it adds to omitFields *)
Definition conflict_target (m : model) (o : upsert_opts) : res (list bytes * list bytes) :=
  match o_dup o with
  | _ :: _ => Ok (o_dup o, [])
  | [] =>
      match m_dup m with
      | Some ks => Ok (ks, ks)
      | None => let* ns := key_names m in Ok (ns, [])
      end
  end.
(** db.go.tpl:265-311, 366-421: everything from ON CONFLICT on; [columns] are the columns of the update list *)
Definition conflict_text (m : model) (o : upsert_opts) (columns : list bytes) : res bytes :=
  let* keys := key_names m in
  let* p := conflict_target m o in
  let omit := o_omit o ++ keys ++ snd p in
  Ok (B " ON CONFLICT(" ++ join (B ",") (fst p) ++ B ")"
      ++ (if o_nothing o then B " DO NOTHING"
          else B " DO UPDATE SET "
               ++ excluded_list (kept (omit ++ match m_omit m with Some l => l | None => [] end) columns))
      ++ B " RETURNING " ++ join (B ",") (table_columns m) ++ B ";").

(** db.go.tpl:230-313 UpsertOne; the update list ranges over the columns left after removing an
    auto-increment column *)
Definition upsert_one_pg (m : model) (o : upsert_opts) : res request :=
  let* columns := without (auto_idx m) (m_columns m) in
  let* values := without (auto_idx m) (m_values m) in
  let* tail := conflict_text m o columns in
  Ok (B "INSERT INTO " ++ db_table m ++ B " (" ++ join (B ",") columns ++ B ") VALUES " ++ m_places m 0 ++ tail, values).

(** db.go.tpl:316-446 Upsert; the update list ranges over model.Columns() *)
Definition upsert_pg (data : list model) (o : upsert_opts) : res (option request) :=
  match data with
  | [] => Ok None
  | m :: _ =>
      let* columns := without (auto_idx m) (m_columns m) in
      let* vals := map_res (fun x => without (auto_idx m) (m_values x)) data in
      let* tail := conflict_text m o (m_columns m) in
      Ok (Some (B "INSERT INTO " ++ db_table m ++ B " (" ++ join (B ",") columns ++ B ") VALUES "
                ++ join (B ",") (map (m_places m) (seq 0 (length data))) ++ tail, concat vals))
  end.

(** ** Upsert, other dialects *)

Definition values_list (eq : bytes) (cols : list bytes) : bytes :=
  join (B ",") (map (fun c => c ++ eq ++ B "VALUES(" ++ c ++ B ")") cols).
(** INSERT or INSERT IGNORE up to VALUES *)
Definition insert_head (override : bool) (m : model) (columns : list bytes) : bytes :=
  (if override then B "INSERT INTO " else B "INSERT IGNORE INTO ")
  ++ db_table m ++ B " (" ++ join (B ",") columns ++ B ") VALUES ".

(** db.go.tpl:501-510: the update list of a composite key; [i] counts the remaining columns, [last] is
    noOfCols-1 *)
Fixpoint comma_list (dict : list bytes) (last i : nat) (cols : list bytes) : bytes :=
  match cols with
  | [] => []
  | c :: cols' =>
      (if bmem c dict then []
       else c ++ B " =VALUES(" ++ c ++ (if Nat.ltb i last then B ")," else B ")"))
      ++ comma_list dict last (S i) cols'
  end.

(** db.go.tpl:448-532 UpsertOne.  What happens to the auto-increment value after the statement is not modelled.
    The composite branch (488-491) looks up omittedFields[i] for every i below len(names)+len(omittedFields). *)
Definition upsert_one_my (m : model) (override : bool) (omitted : list bytes) : res request :=
  let n := length (m_columns m) in
  match m_key m with
  | AutoKey pk _ _ | SingleKey pk _ _ =>
      let* r := repeat_tail (B ",?") n in
      Ok (insert_head override m (m_columns m) ++ B "(" ++ r ++ B ")"
          ++ (if override then B " ON DUPLICATE KEY UPDATE " ++ values_list (B " =") (kept (pk :: omitted) (m_columns m))
              else B ";"), m_values m)
  | CompKey names idxs _ =>
      if override then
        let* dict := match names with [] => Ok omitted | _ => Panic end in
        let* r := repeat_tail (B ",?") n in
        let* columns := remove_all idxs (m_columns m) in
        Ok (insert_head override m (m_columns m) ++ B "(" ++ r ++ B ")" ++ B " ON DUPLICATE KEY UPDATE "
            ++ comma_list dict (n - 1) 0 columns, m_values m)
      else
        let* r := repeat_tail (B ",?") n in
        Ok (insert_head override m (m_columns m) ++ B "(" ++ r ++ B ")" ++ B ";", m_values m)
  | NoKey => Panic
  end.

(** db.go.tpl:535-635 Upsert.  The placeholders of an AutoIncrKeyer use noOfCols as it was before the removal. *)
Definition upsert_my (data : list model) (override : bool) (omitted : list bytes) : res (option request) :=
  match data with
  | [] => Ok None
  | m :: _ =>
      let tail columns omit :=
        (if override then B " ON DUPLICATE KEY UPDATE " ++ values_list (B "=") (kept omit columns) else []) ++ B ";" in
      let rows := join (B ",") (map (m_places m) (seq 0 (length data))) in
      let args := concat (map m_values data) in
      match m_key m with
      | AutoKey pk idx _ =>
          let* columns := remove_at idx (m_columns m) in
          let* r := repeat_tail (B ",?") (length (m_columns m)) in
          let* vals := map_res (fun x => remove_at idx (m_values x)) data in
          Ok (Some (insert_head override m columns ++ join (B ",") (repeat (B "(" ++ r ++ B ")") (length data))
                    ++ tail columns (omitted ++ [pk]), concat vals))
      | SingleKey pk _ _ =>
          Ok (Some (insert_head override m (m_columns m) ++ rows ++ tail (m_columns m) (omitted ++ [pk]), args))
      | CompKey _ idxs _ =>
          let* columns := remove_all idxs (m_columns m) in
          Ok (Some (insert_head override m (m_columns m) ++ rows ++ tail columns omitted, args))
      | NoKey => Ok (Some (tail (m_columns m) omitted, []))
      end
  end.

(** ** Keyed statements *)

(** [(names) = (placeholders from off+1 on)] *)
Definition tuple_vars (d : driver) (n : nat) : res bytes :=
  match d with
  | DPostgres => Ok (quote_var d 1 ++ more_vars 0 n)
  | _ => let* r := repeat_pred (B "," ++ quote_var d 1) n in Ok (quote_var d 1 ++ r)
  end.
Definition keyed (d : driver) (m : model) (before after : bytes) : res request :=
  match m_key m with
  | AutoKey pk _ v | SingleKey pk _ v => Ok (before ++ B " WHERE " ++ pk ++ B " = " ++ quote_var d 1 ++ after, [v])
  | CompKey names _ vs =>
      let* r := tuple_vars d (length names) in
      Ok (before ++ B " WHERE (" ++ join (B ",") names ++ B ") = (" ++ r ++ B ")" ++ after, vs)
  | NoKey => Panic
  end.

(** db.go.tpl:639-666 FindByPK, 729-757 DeleteByPK, 779-803 LockByPK *)
Definition select_head (m : model) : bytes :=
  B "SELECT " ++ join (B ",") (table_columns m) ++ B " FROM " ++ db_table m.
Definition find_by_pk (d : driver) (m : model) : res request :=
  match m_find m with Some r => Ok r | None => keyed d m (select_head m) (B " LIMIT 1;") end.
Definition delete_by_pk (d : driver) (m : model) : res request :=
  match m_delete m with Some r => Ok r | None => keyed d m (B "DELETE FROM " ++ db_table m) (B ";") end.
Definition lock_by_pk (d : driver) (m : model) (mode : bytes) : res request :=
  keyed d m (select_head m) (B " LIMIT 1 " ++ mode ++ B ";").
(** db.go.tpl:765-777: the lock modes defined for each driver *)
Definition lock_modes (d : driver) : list bytes :=
  map B match d with
        | DPostgres => ["FOR UPDATE"; "FOR NO KEY UPDATE"; "FOR SHARE"; "FOR KEY SHARE"]%string
        | _ => ["FOR UPDATE"; "FOR SHARE"]%string
        end.

(** sort.Ints *)
Fixpoint insert_sorted (x : nat) (l : list nat) : list nat :=
  match l with [] => [x] | y :: l' => if Nat.leb x y then x :: l else y :: insert_sorted x l' end.
Definition sort_ints (l : list nat) : list nat := fold_right insert_sorted [] l.

(** the loop [for i := 1; i < n; i++ { "," + columns[i] + " = " + wrapVar(i+1) }] with a first assignment *)
Fixpoint set_vars (i : nat) (cols : list bytes) : bytes :=
  match cols with
  | [] => []
  | c :: cols' => B "," ++ c ++ B " = " ++ quote_var DPostgres (i + 1) ++ set_vars (S i) cols'
  end.
Definition set_list (d : driver) (cols : list bytes) : res bytes :=
  match d with
  | DPostgres =>
      match cols with
      | [] => Panic
      | c :: cols' => Ok (c ++ B " = " ++ quote_var d 1 ++ set_vars 1 cols')
      end
  | _ => Ok (join (B " = " ++ quote_var d 1 ++ B ",") cols ++ B " = " ++ quote_var d 1)
  end.

(** db.go.tpl:669-726 UpdateByPK *)
Definition update_by_pk (d : driver) (m : model) : res request :=
  match m_update m with
  | Some r => Ok r
  | None =>
      let head := B "UPDATE " ++ db_table m ++ B " SET " in
      match m_key m with
      | AutoKey pk idx v | SingleKey pk idx v =>
          let* columns := remove_at idx (m_columns m) in
          let* values := remove_at idx (m_values m) in
          let args := (values ++ [v]) ++ [v] in
          let* sets := set_list d columns in
          Ok (head ++ sets ++ B " WHERE " ++ pk ++ B " = "
              ++ quote_var d (match d with DPostgres => length columns + 2 | _ => 1 end) ++ B ";", args)
      | CompKey names idxs vs =>
          let* columns := remove_all (sort_ints idxs) (m_columns m) in
          let* values := remove_all (sort_ints idxs) (m_values m) in
          let* sets := set_list d columns in
          match d with
          | DPostgres =>
              let n := length columns in
              let* more := map_res (fun i => match nth_error columns i with
                                             | Some c => Ok (B "," ++ c ++ B " = " ++ quote_var d (n + i + 1))
                                             | None => Panic
                                             end) (seq 1 (length names - 1)) in
              Ok (head ++ sets ++ B " WHERE (" ++ join (B ",") names ++ B ") = (" ++ quote_var d (n + 1)
                  ++ concat more ++ B ");", values ++ vs)
          | _ =>
              let* r := repeat_pred (B "," ++ quote_var d 1) (length names) in
              Ok (head ++ sets ++ B " WHERE (" ++ join (B ",") names ++ B ") = (" ++ quote_var d 1 ++ r ++ B ");", vs)
          end
      | NoKey => Panic
      end
  end.

(** ** Execution of Insert and Upsert: sequel/result.go:18-33 and the early return of db.go.tpl:75-78, 146-149,
    320-323, 539-542.  [exec] is the database, which turns its state and a request into its next state and a
    result (LastInsertId, RowsAffected). *)
Definition empty_result : N * N := (0%N, 0%N).
Definition execute {W} (exec : W -> request -> W * res (N * N)) (w : W) (plan : res (option request)) : W * res (N * N) :=
  match plan with
  | Ok None => (w, Ok empty_result)
  | Ok (Some r) => exec w r
  | Err => (w, Err)
  | Panic => (w, Panic)
  end.

End Runtime.
Arguments mkey : clear implicits.
Arguments model : clear implicits.
Arguments request : clear implicits.

(** A value of a generated type (generate.go:140-270) as these functions see it: [val] gives the value of each
    column, [on] is config.QuoteIdentifier.  The texts are those the generated literals denote (C16, C22). *)
Section Generated.
Context {V : Type}.
Variables (printable : N -> bool) (d : driver) (on : bool) (t : table).
Definition gen_mkey (val : column -> V) : mkey V :=
  match t_auto t with
  | Some a => AutoKey (quote_id printable d on (c_name a)) (c_pos a) (val a)
  | None =>
      match t_keys t with
      | [] => NoKey
      | [k] => SingleKey (quote_id printable d on (c_name k)) (c_pos k) (val k)
      | ks => CompKey (map c_name ks) (map c_pos ks) (map val ks)
      end
  end.
Definition gen_model (db : option bytes) (tn : bytes) (sqlc : option (list bytes)) (dup omit : option (list bytes))
  (ins find upd : option (request V)) (val : column -> V) : model V :=
  {| m_db := db; m_table := tn; m_columns := map (fun c => quote_id printable d on (c_name c)) (t_columns t);
     m_sqlcolumns := sqlc; m_values := map val (gen_values t); m_places := gen_insert_placeholders d t;
     m_key := gen_mkey val; m_dup := dup; m_omit := omit; m_insert := ins; m_find := find; m_update := upd;
     m_delete := None |}.
End Generated.
