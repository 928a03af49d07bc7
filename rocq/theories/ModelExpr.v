(** Model of the expressions of generated code, cmd/sqlgen/codegen/expr.go, with the texts of types that go/types prints. *)
From Verif Require Import Base ModelStrconv ModelPaths ModelTypes ModelConfig.

(** The types of columns that are spelled: go/types Basic, Named (with type arguments), Pointer, Slice, Array, Map.  Functions, channels,
    structs and interfaces written in place are left out. *)
Inductive gtype :=
| TBasic (name : bytes)
| TNamed (path name : bytes) (args : list gtype)
| TPointer (t : gtype)
| TSlice (t : gtype)
| TArray (n : N) (t : gtype)
| TMap (k v : gtype).
(** types.Type.String(): packages by their paths, type arguments separated by commas *)
Fixpoint type_string (t : gtype) : bytes :=
  match t with
  | TBasic n => n
  | TNamed p n args => p ++ B "." ++ n ++ match args with [] => [] | _ => B "[" ++ join (B ",") (map type_string args) ++ B "]" end
  | TPointer t => B "*" ++ type_string t
  | TSlice t => B "[]" ++ type_string t
  | TArray n t => B "[" ++ format_uint n ++ B "]" ++ type_string t
  | TMap k v => B "map[" ++ type_string k ++ B "]" ++ type_string v
  end.

(** expr.go 13 pkgRegexp, [a-z0-9_.-] without case (the two letters outside ASCII that fold to s and k are left out) *)
Definition path_char (c : byte) : bool := is_alnum c || beq c "_" || beq c "." || beq c "-".
(** The characters from the start on that the expression can read before the point and the name *)
Fixpoint path_chars (s : bytes) : bytes :=
  match s with c :: r => if path_char c || beq c "/" then c :: path_chars r else [] | [] => [] end.
(** [a-z0-9_.-]* as far as possible, followed by \.[a-z]: what is before that point *)
Fixpoint last_point (s : bytes) : option bytes :=
  match s with
  | [] => None
  | c :: r =>
      match last_point r with
      | Some a => Some (c :: a)
      | None => if beq c "." && match r with d :: _ => is_alpha d | [] => false end then Some [] else None
      end
  end.
(** The match at the start, as segments between slashes: as many segments as possible, each starting with a letter *)
Fixpoint match_segments (segs : list bytes) : option bytes :=
  match segs with
  | (c :: r) :: rest =>
      if is_alpha c then
        match match_segments rest with
        | Some p => Some ((c :: r) ++ B "/" ++ p)
        | None => option_map (cons c) (last_point r)
        end
      else None
  | _ => None
  end.
(** FindStringSubmatch: the first submatch of the leftmost match *)
Fixpoint find_path (s : bytes) : option bytes :=
  match match_segments (split_on "/" (path_chars s)) with
  | Some p => Some p
  | None => match s with _ :: r => find_path r | [] => None end
  end.
(** filepath.Base of such a path *)
Definition base (p : bytes) : bytes := last (split_on "/" p) [].
(** strings.Replace(s, old, new, -1) *)
Definition replaced (s old new : bytes) : bytes := replace_all (length s) s old new.

Section Format.
Variable self : bytes.                    (* the path of the package that is generated *)
Variable load : bytes -> option bytes.    (* packages.Load: the name, empty when there is no such package; None: an error *)

(** 108-121 importPkgIfNeeded: the text, and the imports after it *)
Definition import_needed (l : imports) (s : bytes) : res (bytes * imports) :=
  match find_path s with
  | None => Ok (s, l)
  | Some p =>
      match import self load l p (base p) with
      | None => Panic
      | Some (l', Named_as n) => Ok (replaced s p n, l')
      | Some (l', Unloaded) => Ok (replaced s p (base p), l')
      | Some (l', Skipped) => Ok (replaced s (p ++ B ".") [], l')
      end
  end.

(** The templates that occur: text and calls of the functions 56-92; 17-20 *)
Inductive piece := Text (s : bytes) | Dot | GoPath | ElemType | AddrOfGoPath | BaseType | Addr | Len.
Record params := { p_path : bytes; p_ptr : bool; p_len : N; p_type : option gtype }.
(** 51-53 without the leading ampersand *)
Definition go_path (a : params) : bytes := match p_path a with c :: r => if beq c "&" then r else p_path a | [] => [] end.
(** 60-72; 79-88 *)
Definition elem_type (t : gtype) : gtype := match t with TArray _ e | TSlice e | TPointer e => e | _ => t end.
Fixpoint base_type (t : gtype) : gtype := match t with TPointer e => base_type e | _ => t end.
Definition fill (a : params) (l : imports) (p : piece) : res (bytes * imports) :=
  match p with
  | Text s => Ok (s, l)
  | Dot => Ok (p_path a, l)
  | GoPath => Ok (go_path a, l)
  | ElemType => match p_type a with Some t => import_needed l (type_string (elem_type t)) | None => Panic end
  | AddrOfGoPath => Ok (if p_ptr a then go_path a else B "&" ++ go_path a, l)
  | BaseType => match p_type a with Some t => import_needed l (type_string (base_type t)) | None => Panic end
  | Addr => Ok (B "&" ++ go_path a, l)
  | Len => if (p_len a =? 0)%N then Panic else Ok (format_uint (p_len a), l)
  end.
Fixpoint execute (a : params) (l : imports) (ps : list piece) : res (bytes * imports) :=
  match ps with
  | [] => Ok ([], l)
  | p :: r => match fill a l p with
              | Ok (s, l1) => match execute a l1 r with Ok (s', l2) => Ok (s ++ s', l2) | Err => Err | Panic => Panic end
              | Err => Err
              | Panic => Panic
              end
  end.
(** 42-106 Format *)
Definition format (l : imports) (ps : list piece) (a : params) : res (bytes * imports) :=
  match execute a l ps with Ok (s, l1) => import_needed l1 s | Err => Err | Panic => Panic end.
End Format.
