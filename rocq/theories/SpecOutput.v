(** What the source generated for a struct says, method by method, in terms of the fields of the struct (C76). *)
From Verif Require Import Base ModelStrconv ModelCompiler ModelParser ModelGen ModelMethods SpecSql SpecGo SpecGen SpecParser SpecEnd SpecSource.

(** The methods, in the order of the source *)
Inductive kind :=
| KTableName | KHasPK | KIsAuto | KScanAuto (f : sfield) | KPK (f : sfield) | KComposite (fs : list sfield)
| KSQLColumns | KColumns | KValues | KAddrs | KInsertColumns | KPlaceholders | KInsertOne | KFind | KUpdate | KValue (f : sfield) | KColumn (f : sfield).

(** The fields with a column, those of them that are inserted, updated, key fields, and the one that is generated *)
Record fields := { all : list sfield; inserted : list sfield; updated : list sfield; keys : list sfield; auto : option sfield }.
Definition fields_of (rename : bytes -> bytes) (ds : list decl) (F : fields) (ns : list bytes) : Prop :=
  column_fields rename ds (all F) ns /\ selects insert_field (all F) (inserted F) /\ selects update_field (all F) (updated F) /\ selects key_field (all F) (keys F) /\
  (forall f, auto F = Some f <-> In f (all F) /\ auto_field f).
(** The fields that identify a record *)
Definition identity (F : fields) : list sfield := match auto F with Some f => [f] | None => keys F end.

Definition missing (user : bytes -> own) (n : bytes) : bool := match user n with Missing => true | _ => false end.
Definition kinds (user : bytes -> own) (readonly sql_columns : bool) (F : fields) : list kind :=
  (if missing user (B "TableName") then [KTableName] else []) ++
  match auto F, keys F with
  | Some f, _ => [KHasPK; KIsAuto; KScanAuto f; KPK f]
  | None, [] => []
  | None, [f] => [KHasPK; KPK f]
  | None, fs => [KHasPK; KComposite fs]
  end ++
  (if missing user (B "SQLColumns") && sql_columns then [KSQLColumns] else []) ++
  (if missing user (B "Columns") then [KColumns] else []) ++
  (if missing user (B "Values") && negb readonly && nonempty (inserted F) then [KValues] else []) ++
  (if missing user (B "Addrs") then [KAddrs] else []) ++
  (if negb readonly && nonempty (inserted F) then (if Nat.eqb (length (inserted F)) (length (all F)) then [] else [KInsertColumns]) ++ [KPlaceholders; KInsertOne] else []) ++
  (if nonempty (identity F) then KFind :: (if negb readonly && nonempty (updated F) then [KUpdate] else []) else []) ++
  map KValue (all F) ++ map KColumn (all F).

(** ** What is asked of the texts that the generator puts together *)
Definition go_identifier (s : bytes) : Prop := exists c r, s = c :: r /\ word_start c = true /\ Forall (fun c => word_char c = true) r.
Definition expression_text (e : bytes) : Prop := exists x, expression e x.
Definition pointed (g : gotype) : gotype := {| ty_base := ty_base g; ty_ptr := pred (ty_ptr g) |}.
Definition through_pointer (f : sfield) : Prop := exists n, In (n, true) (f_paths f).
(** Paths of names; the paths of a field that end in a pointer *)
Definition path_text (ns : list bytes) : bytes := concat (map (fun n => B "." ++ n) ns).
Fixpoint pointers (before : list bytes) (ps : list (bytes * bool)) : list (list bytes) :=
  match ps with [] => [] | (n, p) :: r => (if p : bool then [before ++ [n]] else []) ++ pointers (before ++ [n]) r end.
(** The names are identifiers, and what the valuers, scanners and types of the field are printed as is an expression in one line. *)
Definition readable_field (valuer scanner : bytes -> gotype -> bytes) (type_text : gotype -> bytes) (new_text : bytes -> bytes) (f : sfield) : Prop :=
  Forall go_identifier (map fst (f_paths f)) /\
  (forall path, path = B "v" ++ field_path f \/ path = B "val" -> if Nat.eqb (ty_ptr (f_type f)) 0 then expression_text (valuer path (f_type f)) else expression_text (valuer (B "*" ++ path) (pointed (f_type f)))) /\
  (~ through_pointer f -> expression_text (valuer (B "v" ++ field_path f) (f_type f))) /\
  expression_text (scanner (B "&v" ++ field_path f) (f_type f)) /\ expression_text (type_text (f_type f)) /\
  (forall p, In p (pointers [] (f_paths f)) -> expression_text (new_text (path_text p))).
(** No two fields are in the same place. *)
Definition distinct_paths (ds : list decl) : Prop := NoDup (map (fun f => map fst (f_paths f)) (declared ds)).

Section Describe.
Context {V : Type}.
Variables (d : driver) (on : bool) (prefix : bytes) (own_name : bool) (go : bytes).
Variables (valuer scanner : bytes -> gotype -> bytes) (basic : gotype -> bool) (type_text : gotype -> bytes) (new_text : bytes -> bytes) (type_name : gotype -> bytes).
Variable unwrap : gotype -> bytes * bytes.             (* the SQLScanner of a type: what is before and after the column *)
Variables (before after : gotype -> list (tok V)) (item : gotype -> bytes -> list (tok V)).   (* what the SQL functions around values and columns read as *)
Variables (t : table) (F : fields) (ns : list bytes).

Definition v : bytes := B "v".
(** The receiver is the struct or a pointer to it, and is called v if it has a name. *)
Definition signature (m : gfunc) (pointer : bool) (name : bytes) (params results : list gtree) : Prop :=
  g_name m = name /\ g_params m = params /\ g_results m = results /\
  if pointer then g_receiver m = [word v; sym (B "*"); word go] else (g_receiver m = [word go] \/ g_receiver m = [word v; word go]).
Definition strings : list gtree := [bracket []; word (B "string")].
Definition anys : list gtree := [bracket []; word (B "any")].
Definition comma : gtree := sym (B ",").
Definition string_token (lit : bytes) : list gtree := [GLeaf (GStr lit)].
Definition number_token (n : nat) : list gtree := [GLeaf (GNum (itoa n))].

(** The expression for the value of a field: through its getter if a pointer may be nil on the way *)
Definition value_expr (f : sfield) (e : list gtree) : Prop :=
  (through_pointer f /\ e = call v (f_name f ++ B "Value")) \/
  (~ through_pointer f /\ trees (valuer (v ++ field_path f) (f_type f)) = Some e).
(** A method with one statement, which returns these *)
Definition returning (m : gfunc) (es : list (list gtree)) : Prop := exists s, g_body m = [s] /\ returns s es.
Definition string_list (e : list gtree) (names : list bytes) : Prop :=
  exists lits, slice_of (B "string") e (map string_token lits) /\ Forall2 (literal_names (V:=V) d on) lits names.
Definition value_list (e : list gtree) (fs : list sfield) : Prop := exists es, slice_of (B "any") e es /\ Forall2 value_expr fs es.
(** The name of the column of a field *)
Definition named (f : sfield) (n : bytes) : Prop := In (f, n) (combine (all F) ns).

(** Text put together with +, from literals and v.TableName() *)
Fixpoint sum_of (tn : bytes) (ps : list (list gtree)) : option bytes :=
  match ps with
  | [] => Some []
  | p :: r =>
      match (match p with
             | [GLeaf (GStr lit)] => go_literal lit
             | [GLeaf (GWord x); GLeaf (GSym y); GLeaf (GWord z); GGroup c []] => if bseq x v && bseq y (B ".") && bseq z (B "TableName") && beq c "(" then Some tn else None
             | _ => None
             end), sum_of tn r with
      | Some a, Some b => Some (a ++ b)
      | _, _ => None
      end
  end.
Definition text_of (tn : bytes) (e : list gtree) : option bytes := sum_of tn (split_trees (B "+") [] e).
(** The value of a field in a record, alone and in the SQL function of its type *)
Definition value_in (r : bytes -> V) (f : sfield) : V := r (field_path f).
Definition holds (r : bytes -> V) (f : sfield) : expr V := before (f_type f) ++ Val (value_in r f) :: after (f_type f).
(** The condition that the key of a row is that of the record: a comparison of values if there is one field, of rows if there are several *)
Definition key_is (r : bytes -> V) (fs : list sfield) (ks : list bytes) : cond V :=
  match fs, ks with
  | [f], [k] => Compare (One [Name k]) (B "=") (One [Val (value_in r f)])
  | _, _ => Compare (Tuple (map (fun k => [Name k]) ks)) (B "=") (Tuple (map (holds r) fs))
  end.
(** return query, args: whatever the table is called, the query is a text with this property of the table and the text. *)
Definition statement (m : gfunc) (args : list gtree -> Prop) (says : list bytes -> bytes -> Prop) : Prop :=
  exists q a, returning m [q; a] /\ args a /\ forall tn table, table_of (V:=V) d own_name t tn table -> exists text, text_of tn q = Some text /\ says table text.

(** A number in decimal digits *)
Definition number_of (s : bytes) : nat := fold_left (fun n c => 10 * n + N.to_nat (code c - 48)) s 0.
(** Text put together from literals and strconv.Itoa((row * noOfColumn) + k) *)
Fixpoint row_of (row columns : nat) (ps : list (list gtree)) : option bytes :=
  match ps with
  | [] => Some []
  | p :: r =>
      match (match p with
             | [GLeaf (GStr lit)] => go_literal lit
             | [GLeaf (GWord x); GLeaf (GSym y); GLeaf (GWord z); GGroup _ [GGroup _ [GLeaf (GWord a); GLeaf (GSym o); GLeaf (GWord b)]; GLeaf (GSym o'); GLeaf (GNum k)]] =>
                 if bseq x (B "strconv") && bseq y (B ".") && bseq z (B "Itoa") && bseq a (B "row") && bseq o (B "*") && bseq b (B "noOfColumn") && bseq o' (B "+")
                 then Some (itoa (row * columns + number_of k)) else None
             | _ => None
             end), row_of row columns r with
      | Some a, Some b => Some (a ++ b)
      | _, _ => None
      end
  end.
(** The result of InsertPlaceholders(row): one return, perhaps after a constant *)
Definition placeholder_text (m : gfunc) (row : nat) : option bytes :=
  match g_body m with
  | [Simple (r :: e)] => if is_word (B "return") r then row_of row 0 (split_trees (B "+") [] e) else None
  | [Simple [c; n; q; GLeaf (GNum k)]; Simple (r :: e)] =>
      if is_word (B "const") c && is_word (B "noOfColumn") n && is_sym (B "=") q && is_word (B "return") r then row_of row (number_of k) (split_trees (B "+") [] e) else None
  | _ => None
  end.

(** if v.A == nil { v.A = new(T) } *)
Definition allocates (p : list bytes) (s : gstmt) : Prop :=
  exists T, trees (new_text (path_text p)) = Some T /\
  s = If (selector v p ++ [sym (B "=="); word (B "nil")]) [Simple (selector v p ++ [sym (B "="); word (B "new"); paren T])].
(** if v.A != nil { if v.A.B != nil { ... } } *)
Fixpoint guards (ps : list (list bytes)) (inner : list gstmt) : list gstmt :=
  match ps with [] => inner | p :: r => [If (selector v p ++ [sym (B "!="); word (B "nil")]) (guards r inner)] end.
Definition return_nil : gstmt := Simple [word (B "return"); word (B "nil")].
(** The value of a field, seen from the path to it: what a pointer points to *)
Definition content (path : bytes) (g : gotype) (e : list gtree) : Prop :=
  (ty_ptr g = 0 /\ trees (valuer path g) = Some e) \/ (ty_ptr g <> 0 /\ trees (valuer (B "*" ++ path) (pointed g)) = Some e).

Definition describes_method (k : kind) (m : gfunc) : Prop :=
  match k with
  | KTableName => signature m false (B "TableName") [] [word (B "string")] /\ exists lit, returning m [string_token lit] /\ literal_names (V:=V) d on lit (t_name t)
  | KHasPK => signature m false (B "HasPK") [] [] /\ g_body m = []
  | KIsAuto => signature m false (B "IsAutoIncr") [] [] /\ g_body m = []
  | KScanAuto f => signature m true (B "ScanAutoIncr") [word (B "val"); word (B "int64")] [word (B "error")] /\
      exists T, trees (type_name (f_type f)) = Some T /\
      g_body m = [Simple (selector v [f_name f] ++ [sym (B "=")] ++ T ++ [paren [word (B "val")]]); return_nil]
  | KPK f => signature m false (B "PK") [] [paren [word (B "string"); comma; word (B "int"); comma; word (B "any")]] /\
      exists lit n i e, returning m [string_token lit; number_token i; e] /\ named f n /\ literal_names (V:=V) d on lit n /\ nth_error (all F) i = Some f /\ value_expr f e
  | KComposite fs => signature m false (B "CompositeKey") [] [paren (strings ++ [comma; bracket []; word (B "int"); comma] ++ anys)] /\
      exists a b c lits is ks, returning m [a; b; c] /\ slice_of (B "string") a (map string_token lits) /\ Forall2 (literal_names (V:=V) d false) lits ks /\ Forall2 named fs ks /\
      slice_of (B "int") b (map number_token is) /\ Forall2 (fun i f => nth_error (all F) i = Some f) is fs /\ value_list c fs
  | KSQLColumns => signature m false (B "SQLColumns") [] strings /\ exists e lits, returning m [e] /\ slice_of (B "string") e (map string_token lits) /\
      Forall2 (fun lit p => exists id, go_literal lit = Some (fst (unwrap (f_type (fst p))) ++ id ++ snd (unwrap (f_type (fst p)))) /\
                            (on = false -> id = snd p) /\ (on = true -> lex (V:=V) (flavour_of d) id = [Name (snd p)])) lits (combine (all F) ns)
  | KColumns => signature m false (B "Columns") [] strings /\ exists e, returning m [e] /\ string_list e ns
  | KValues => signature m false (B "Values") [] anys /\ exists e, returning m [e] /\ value_list e (inserted F)
  | KAddrs => signature m true (B "Addrs") [] anys /\
      exists ps ifs s e es, g_body m = ifs ++ [s] /\ Forall2 allocates ps ifs /\ NoDup ps /\ (forall p, In p ps <-> exists f, In f (all F) /\ In p (pointers [] (f_paths f))) /\
      (forall before q after p r, ps = before ++ q :: after -> q = p ++ r -> r <> [] -> In p ps -> In p before) /\
      returns s [e] /\ slice_of (B "any") e es /\ Forall2 (fun f x => trees (scanner (B "&v" ++ field_path f) (f_type f)) = Some x) (all F) es
  | KInsertColumns => signature m false (B "InsertColumns") [] strings /\ exists e ms, returning m [e] /\ string_list e ms /\ Forall2 named (inserted F) ms
  | KPlaceholders => signature m false (B "InsertPlaceholders") [word (B "row"); word (B "int")] [word (B "string")] /\
      let n := length (inserted F) in
      forall row, placeholder_text m row = Some (B "(" ++ join (B ",") (map (fun i => placeholder (flavour_of d) (row * n + S i)) (seq 0 n)) ++ B ")")
  | KInsertOne => signature m false (B "InsertOneStmt") [] [paren ([word (B "string"); comma] ++ anys)] /\ exists ms, Forall2 named (inserted F) ms /\
      statement m (fun a => (a = call v (B "Values") /\ inserted F = all F) \/ value_list a (inserted F))
        (fun table text => forall r, read (flavour_of d) text (map (value_in r) (inserted F)) =
           Some (Insert table ms [map (holds r) (inserted F)] Fail (match d with DPostgres => map (fun p => item (f_type (fst p)) (snd p)) (combine (all F) ns) | _ => [] end)))
  | KFind => signature m false (B "FindOneByPKStmt") [] [paren ([word (B "string"); comma] ++ anys)] /\ exists ks, Forall2 named (identity F) ks /\
      statement m (fun a => value_list a (identity F))
        (fun table text => forall r, read (flavour_of d) text (map (value_in r) (identity F)) =
           Some (Select (map (fun p => item (f_type (fst p)) (snd p)) (combine (all F) ns)) table (Some (key_is r (identity F) ks)) [] [] (Some 1%N) None []))
  | KUpdate => signature m false (B "UpdateOneByPKStmt") [] [paren ([word (B "string"); comma] ++ anys)] /\
      exists ms ks, Forall2 named (updated F) ms /\ Forall2 named (identity F) ks /\
      statement m (fun a => value_list a (updated F ++ identity F))
        (fun table text =>
           (exists sets wh, parse (flavour_of d) (lex (V:=V) (flavour_of d) text) = Some (Update table sets (Some wh) [] None) /\ map fst sets = ms) /\
           ((* but for the case of C20 *) (d = DPostgres -> length (identity F) = 1 -> length (all F) = length (updated F) + 1) ->
            forall r, read (flavour_of d) text (map (value_in r) (updated F ++ identity F)) =
              Some (Update table (combine ms (map (holds r) (updated F))) (Some (key_is r (identity F) ks)) [] None)))
  | KValue f => signature m false (f_name f ++ B "Value") [] [word (B "any")] /\
      exists e, content (v ++ field_path f) (f_type f) e /\
      g_body m = guards (pointers [] (f_paths f)) [Simple (word (B "return") :: e)] ++ (if existsb snd (f_paths f) then [return_nil] else [])
  | KColumn f =>
      exists lit n T, named f n /\ literal_names (V:=V) d on lit n /\ trees (type_text (f_type f)) = Some T /\
      signature m false (prefix ++ f_name f) []
        [word (B "sequel"); sym (B "."); word (if basic (f_type f) then B "ColumnClause" else B "ColumnConvertClause"); bracket T] /\
      if basic (f_type f)
      then g_body m = [Simple ([word (B "return"); word (B "sequel"); sym (B "."); word (B "BasicColumn")] ++ [paren (string_token lit ++ [comma] ++ selector v (map fst (f_paths f)))])]
      else exists body e, content (B "val") (f_type f) e /\
           g_body m = [Simple ([word (B "return"); word (B "sequel"); sym (B "."); word (B "Column")] ++
                               [paren (string_token lit ++ [comma] ++ selector v (map fst (f_paths f)) ++
                                       [comma; word (B "func"); paren (word (B "val") :: T); word (B "any"); brace body])])] /\
           body_of (brace body) = if Nat.eqb (ty_ptr (f_type f)) 0 then [Simple (word (B "return") :: e)]
                                  else [If [word (B "val"); sym (B "!="); word (B "nil")] [Simple (word (B "return") :: e)]; return_nil]
  end.
End Describe.
