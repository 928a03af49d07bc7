(** Model of the nested-pointer code the generator writes: /repo/cmd/sqlgen/codegen/generate.go buildScanner (460-474), the value getters
    (256-280), the column getters (281-330), getOrValue (672-678), and /repo/cmd/sqlgen/internal/compiler/compiler.go GoPtrPaths (63-77,
    113-128), IsUnderlyingPtr (134-141), fieldPaths (220-232).  A struct is a tree of embedded structs, held directly or behind a pointer. *)
From Verif Require Import Base.

(** A leaf stands for any type that is a column of its own; the flag says whether the field is a pointer. *)
Inductive shape := Leaf | Struct (fs : list (bytes * bool * shape)).
(** Values in memory *)
Inductive gval := VLeaf (n : N) | VNil | VPtr (v : gval) | VStruct (fs : list (bytes * gval)).
(** new(T) *)
Fixpoint zero (s : shape) : gval :=
  match s with
  | Leaf => VLeaf 0
  | Struct fs => VStruct (map (fun f : bytes * bool * shape => match f with (n, p, s') => (n, if p then VNil else zero s') end) fs)
  end.
Fixpoint get (n : bytes) (fs : list (bytes * gval)) : option gval :=
  match fs with [] => None | (m, v) :: r => if bseq m n then Some v else get n r end.
Fixpoint put (n : bytes) (w : gval) (fs : list (bytes * gval)) : list (bytes * gval) :=
  match fs with [] => [] | (m, v) :: r => if bseq m n then (m, w) :: r else (m, v) :: put n w r end.
(** The selector v.A.B: a pointer on the way is followed, nil panics.  Err: no such field, which does not compile. *)
Fixpoint select (v : gval) (names : list bytes) : res gval :=
  match names with
  | [] => Ok v
  | n :: r =>
      match v with
      | VStruct fs => match get n fs with Some w => select w r | None => Err end
      | VPtr (VStruct fs) => match get n fs with Some w => select w r | None => Err end
      | VNil => Panic
      | _ => Err
      end
  end.
(** v.A.B = x *)
Fixpoint store (v : gval) (names : list bytes) (x : gval) : res gval :=
  match names with
  | [] => Ok x
  | n :: r =>
      match v with
      | VStruct fs => match get n fs with Some w => let* w' := store w r x in Ok (VStruct (put n w' fs)) | None => Err end
      | VPtr (VStruct fs) => match get n fs with Some w => let* w' := store w r x in Ok (VPtr (VStruct (put n w' fs))) | None => Err end
      | VNil => Panic
      | _ => Err
      end
  end.
(** A column: the fields from the struct down to it, itself last (fieldPaths) *)
Definition column := list (bytes * bool * shape).
Definition col_path (c : column) : list bytes := map (fun f : bytes * bool * shape => fst (fst f)) c.
(** Column.GoPtrPaths: the prefixes that end in a pointer, with the type behind it *)
Fixpoint ptr_paths (pre : list bytes) (c : column) : list (list bytes * shape) :=
  match c with
  | [] => []
  | (n, p, s) :: r => let q := pre ++ [n] in if p then (q, s) :: ptr_paths q r else ptr_paths q r
  end.
Definition path_eqb (a b : list bytes) : bool := if list_eq_dec (list_eq_dec Ascii.ascii_dec) a b then true else false.
(** Table.GoPtrPaths: each once, in order of first occurrence *)
Fixpoint fresh (seen : list (list bytes)) (ps : list (list bytes * shape)) : list (list bytes * shape) :=
  match ps with
  | [] => []
  | (q, s) :: r => if existsb (path_eqb q) seen then fresh seen r else (q, s) :: fresh (q :: seen) r
  end.
Definition table_ptr_paths (cols : list column) : list (list bytes * shape) := fresh [] (flat_map (ptr_paths []) cols).
(** if v.A.B == nil { v.A.B = new(T) } *)
Definition alloc (v : gval) (p : list bytes * shape) : res gval :=
  let* x := select v (fst p) in
  match x with VNil => store v (fst p) (VPtr (zero (snd p))) | _ => Ok v end.
Fixpoint alloc_all (v : gval) (ps : list (list bytes * shape)) : res gval :=
  match ps with [] => Ok v | p :: r => let* v' := alloc v p in alloc_all v' r end.
(** Addrs: the allocations, then &v.A.B of every column, which panics like the selector *)
Fixpoint address_all (v : gval) (cols : list column) : res unit :=
  match cols with [] => Ok tt | c :: r => let* _ := select v (col_path c) in address_all v r end.
Definition addrs (v : gval) (cols : list column) : res gval :=
  let* v' := alloc_all v (table_ptr_paths cols) in
  let* _ := address_all v' cols in
  Ok v'.
(** XValue(): if v.A != nil { if v.A.B != nil { return *v.A.B } } return nil; None: nil, that is NULL *)
Fixpoint guarded (v : gval) (ps : list (list bytes * shape)) (body : res (option gval)) : res (option gval) :=
  match ps with
  | [] => body
  | p :: r => let* x := select v (fst p) in match x with VNil => Ok None | _ => guarded v r body end
  end.
Definition last_is_ptr (c : column) : bool := match rev c with (_, p, _) :: _ => p | [] => false end.
Definition value (v : gval) (c : column) : res (option gval) :=
  guarded v (ptr_paths [] c)
    (let* x := select v (col_path c) in
     if last_is_ptr c then match x with VPtr y => Ok (Some y) | VNil => Panic | _ => Err end else Ok (Some x)).
(** getOrValue: the getter when a pointer is on the way, the field itself otherwise *)
Definition get_or_value (v : gval) (c : column) : res (option gval) :=
  if existsb (fun f => snd (fst f)) c then value v c else let* x := select v (col_path c) in Ok (Some x).
(** ColumnX(): sequel.Column(name, v.A.B, …) evaluates the selector at once *)
Definition column_clause (v : gval) (c : column) : res (option gval) :=
  let* x := select v (col_path c) in
  if last_is_ptr c then match x with VPtr y => Ok (Some y) | VNil => Ok None | _ => Err end else Ok (Some x).
