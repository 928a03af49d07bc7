(** Model of /repo/cmd/sqlgen/internal/compiler/parser.go: from declarations to tables. *)
From Verif Require Import Base ModelCompiler.

(** ** Struct declarations *)
(** An *ast.Field with its types resolved: names sharing a type; an embedded struct, found in its package; an embedded
    field that is not a struct or cannot be found (parser.go:205-207, 232-234, 252-259, 285: no field results).
    Simplification: the lookup of embedded types (191-203, 237-250) is done beforehand, so a struct that embeds a pointer to
    itself has no such tree; see [explore_named] below.  The tag is the value of the configured key. *)
Inductive decl :=
| Names (names : list (bytes * bool)) (ty : gotype) (tag : bytes)
| Embeds (name : bytes) (exported : bool) (ty : gotype) (tag : bytes) (inner : list decl)
| Opaque.

(** ** Slices of int *)
(** The backing arrays, each as long as its capacity; a slice is the array and a length. *)
Definition heap := list (list nat).
Definition slice := (nat * nat)%type.
Fixpoint set_nth {A} (i : nat) (x : A) (l : list A) : list A :=
  match l, i with
  | [], _ => []
  | _ :: l', O => x :: l'
  | y :: l', S i' => y :: set_nth i' x l'
  end.
(** The built-in append with one element: in place when the capacity allows, else into a new array of twice the capacity
    (runtime.growslice below 256 elements of 8 bytes). *)
Definition append (h : heap) (s : slice) (x : nat) : heap * slice :=
  let '(a, n) := s in
  let arr := nth a h [] in
  if Nat.ltb n (length arr) then (set_nth a (set_nth n x arr) h, (a, S n))
  else (h ++ [firstn n arr ++ x :: repeat 0 (Nat.max 1 (2 * length arr) - S n)], (length h, S n)).
Definition contents (h : heap) (s : slice) : list nat := firstn (snd s) (nth (fst s) h []).

(** ** The queue, parser.go:160-346 *)
Definition path := list (bytes * bool).
(** compiler.go:216-222 typeQueue; [q_prev] is the chain of enclosing embedded fields *)
Record queued := { q_idx : slice; q_prev : path; q_decls : list decl }.
Definition field := (slice * sfield)%type.

Definition make_field (prev : path) (name : bytes) (ty : gotype) (exported embedded : bool) (tag : bytes) : sfield :=
  {| f_name := name; f_type := ty; f_exported := exported; f_embedded := embedded; f_tag := tag; f_paths := prev ++ [(name, is_ptr ty)] |}.

(** 316-325: the names of one declaration *)
Fixpoint visit_names (prev : path) (ty : gotype) (tag : bytes) (idx : slice) (k : nat) (names : list (bytes * bool)) (h : heap) : heap * list field :=
  match names with
  | [] => (h, [])
  | (n, ex) :: ns =>
      let '(h, s) := append h idx k in
      let '(h, out) := visit_names prev ty tag idx (S k) ns h in
      (h, (s, make_field prev n ty ex false tag) :: out)
  end.
(** 170-326: the declarations of one struct; the fields and the structs to visit *)
Fixpoint visit (prev : path) (idx : slice) (i : nat) (ds : list decl) (h : heap) : heap * list field * list queued :=
  match ds with
  | [] => (h, [], [])
  | Names ns ty tag :: ds' =>
      let '(h, fs) := visit_names prev ty tag idx i ns h in
      let '(h, out, q) := visit prev idx (S i) ds' h in
      (h, fs ++ out, q)
  | Embeds n ex ty tag inner :: ds' =>
      let '(h, s) := append h idx i in
      let f := make_field prev n ty ex true tag in
      let '(h, s2) := append h idx i in
      let '(h, out, q) := visit prev idx (S i) ds' h in
      (h, (s, f) :: out, {| q_idx := s2; q_prev := f_paths f; q_decls := inner |} :: q)
  | Opaque :: ds' => visit prev idx (S i) ds' h
  end.
(** 164-346: [fuel] bounds the number of structs visited; also the number visited *)
Fixpoint explore (fuel : nat) (q : list queued) (h : heap) : option (heap * list field) :=
  match q with
  | [] => Some (h, [])
  | f :: q' =>
      match fuel with
      | O => None
      | S fuel' =>
          let '(h, out, new) := visit (q_prev f) (q_idx f) 0 (q_decls f) h in
          match explore fuel' (q' ++ new) h with
          | Some (h', out') => Some (h', out ++ out')
          | None => None
          end
      end
  end.
(** The structs in a declaration, and in a list of them *)
Fixpoint structs_in (d : decl) : nat :=
  match d with Embeds _ _ _ _ inner => S (list_sum (map structs_in inner)) | _ => 0 end.
Definition structs (ds : list decl) : nat := list_sum (map structs_in ds).
(** Array 0 stands for the nil slice of the first struct. *)
Definition root (ds : list decl) : queued := {| q_idx := (0, 0); q_prev := []; q_decls := ds |}.
Definition explored (ds : list decl) : option (heap * list field) := explore (S (structs ds)) [root ds] [[]].

(** 348-358: less of sort.Slice, on the contents of the index slices *)
Fixpoint less (a b : list nat) : bool :=
  match a, b with
  | [], [] => false
  | [], _ :: _ => true
  | _ :: _, [] => false
  | x :: a', y :: b' => if Nat.eqb x y then less a' b' else Nat.ltb x y
  end.

(** ** Annotations, parser.go:30, 366-383 *)
(** the text after the first +sql: on its line; simplification: letters fold as in ASCII *)
Definition lower (c : byte) : byte := if in_range 65 90 c then ascii_of_N (code c + 32) else c.
Fixpoint until_newline (s : bytes) : bytes :=
  match s with [] => [] | c :: r => if N.eqb (code c) 10 then [] else c :: until_newline r end.
Fixpoint annotation (s : bytes) : option bytes :=
  if has_prefix (map lower s) (B "+sql:") then Some (until_newline (skipn 5 s))
  else match s with [] => None | _ :: r => annotation r end.
(** None: ignore; otherwise read-only or not *)
Fixpoint flags_of (flags : list bytes) (ro : bool) : option bool :=
  match flags with
  | [] => Some ro
  | f :: fs => if bseq f (B "readonly") then flags_of fs true else if bseq f (B "ignore") then None else flags_of fs ro
  end.
(** [doc]: the comment of the struct's declaration, if any.  The text read is that of the struct visited last (367: f, not s);
    embedded structs are queued without one. *)
Definition annotated (doc : option bytes) (ds : list decl) : option bool :=
  match doc with
  | None => Some false
  | Some text =>
      let last_doc := if Nat.eqb (structs ds) 0 then text else [] in
      match annotation last_doc with
      | Some flags => flags_of (split_byte "," flags) false
      | None => Some false
      end
  end.

(** ** One struct, parser.go:156-464 *)
Section Parse.
Variable sort : list (list nat * sfield) -> list (list nat * sfield).      (* sort.Slice with [less] *)
Variable rename : bytes -> bytes.
Variable wrap unwrap : gotype -> bytes * bytes.

Definition fields (ds : list decl) : option (list sfield) :=
  match explored ds with
  | Some (h, out) => Some (map snd (sort (map (fun f => (contents h (fst f), snd f)) out)))
  | None => None
  end.
(** None inside Ok: no table *)
Definition parse_struct (name : bytes) (doc : option bytes) (ds : list decl) : res (option table) :=
  match annotated doc ds with
  | None => Ok None
  | Some ro =>
      match fields ds with
      | Some fs =>
          let* t := build_table rename wrap unwrap name ro fs in
          Ok (match t_columns t with [] => None | _ => Some t end)
      | None => Err
      end
  end.
End Parse.

(** ** The types of one declaration group, parser.go:62-131 *)
Inductive body := Struct (ds : list decl) | Imported (ds : option (list decl)) | Other.
(** [ts_doc]: the comment of the type itself inside a group; [collect] takes that of the group *)
Record tspec := { ts_name : bytes; ts_doc : option bytes; ts_alias : bool; ts_matched : bool; ts_exported : bool; ts_body : body }.
(** 65-129: a type that is neither a struct nor taken from another package ends the group (126-127 return) *)
Fixpoint collect (doc : option bytes) (specs : list tspec) : list (bytes * option bytes * list decl) :=
  match specs with
  | [] => []
  | s :: rest =>
      if ts_alias s || negb (ts_matched s) || negb (ts_exported s) then collect doc rest
      else match ts_body s with
           | Struct ds => (ts_name s, doc, ds) :: collect doc rest
           | Imported (Some ds) => (ts_name s, doc, ds) :: collect doc rest
           | Imported None => collect doc rest
           | Other => []
           end
  end.

(** ** The same queue over named types, for structs that embed pointers to themselves *)
Definition env := bytes -> option (list decl).
(** [Embeds n ...] refers to the declarations of the type [n] (its own list is ignored). *)
Definition named_new (e : env) (ds : list decl) : list (list decl) :=
  flat_map (fun d => match d with Embeds n _ _ _ _ => match e n with Some ds' => [ds'] | None => [] end | _ => [] end) ds.
(** how many structs have been visited when the queue is empty; None: [fuel] was not enough *)
Fixpoint explore_named (e : env) (fuel : nat) (q : list (list decl)) : option nat :=
  match q with
  | [] => Some 0
  | ds :: q' =>
      match fuel with
      | O => None
      | S fuel' => option_map S (explore_named e fuel' (q' ++ named_new e ds))
      end
  end.

(** ** Struct tags *)
(** reflect.StructTag.Lookup (Go's reflect, not part of /repo), and parser.go:172-178: backticks are trimmed from the source
    text of the literal, which is otherwise used as it stands. *)
Definition dq : byte := ascii_of_N 34.
Definition bt : byte := ascii_of_N 96.
Definition bs : byte := ascii_of_N 92.
Fixpoint skip_spaces (s : bytes) : bytes := match s with [] => [] | c :: r => if beq c " " then skip_spaces r else s end.
Fixpoint tag_key (s : bytes) : bytes * bytes :=
  match s with
  | [] => ([], [])
  | c :: r => if N.leb (code c) 32 || beq c ":" || beq c dq || N.eqb (code c) 127 then ([], s) else let '(k, rest) := tag_key r in (c :: k, rest)
  end.
(** the quoted value up to the closing quote; escapes are kept *)
Fixpoint tag_value (s : bytes) : option (bytes * bytes) :=
  match s with
  | [] => None
  | c :: r =>
      if beq c dq then Some ([], r)
      else if beq c bs then match r with
                            | e :: r' => match tag_value r' with Some (v, rest) => Some (c :: e :: v, rest) | None => None end
                            | [] => None
                            end
      else match tag_value r with Some (v, rest) => Some (c :: v, rest) | None => None end
  end.
(** [fuel] bounds the number of keys; strconv.Unquote is the identity here, simplification: values without backslashes, others
    are not looked up *)
Fixpoint tag_lookup (fuel : nat) (key s : bytes) : bytes :=
  match fuel with
  | O => []
  | S fuel' =>
      let s := skip_spaces s in
      match tag_key s with
      | ([], _) => []
      | (k, c :: q :: rest) =>
          if beq c ":" && beq q dq then
            match tag_value rest with
            | Some (v, rest') => if bseq k key then (if existsb (fun x => beq x bs) v then [] else v) else tag_lookup fuel' key rest'
            | None => []
            end
          else []
      | _ => []
      end
  end.
Fixpoint trim_ticks_left (s : bytes) : bytes := match s with [] => [] | c :: r => if beq c bt then trim_ticks_left r else s end.
Definition trim_ticks (s : bytes) : bytes := rev (trim_ticks_left (rev (trim_ticks_left s))).
Definition tag_of (key literal : bytes) : bytes := let s := trim_ticks literal in tag_lookup (length s) key s.
