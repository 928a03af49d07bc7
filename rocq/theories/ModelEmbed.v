(** Model of structs that embed generated models: which methods Go promotes, what the generator then writes for the outer
    struct, and what the functions of db.go.tpl see of a value of it.

    Method names are followed, their types are taken to be right.  Fields whose names are those of methods are not
    followed. *)
From Verif Require Import Base ModelStrconv ModelCompiler ModelGen ModelMethods ModelRuntime.

Section Embed.
Context {V : Type}.

(** A struct type with a value of it: its table (compiler.go:33-46), the names of the methods declared on it, what the
    generated methods of this very type return for the value, and the structs embedded in it. *)
Inductive struct := Struct (st_table : table) (st_methods : list bytes) (st_own : model V) (st_embeds : list struct).
Definition st_table (s : struct) : table := match s with Struct t _ _ _ => t end.
Definition st_methods (s : struct) : list bytes := match s with Struct _ ms _ _ => ms end.
Definition st_own (s : struct) : model V := match s with Struct _ _ m _ => m end.
Definition st_embeds (s : struct) : list struct := match s with Struct _ _ _ es => es end.

(** The Go Programming Language Specification, Selectors: a method is looked for at the shallowest depth where it is
    declared, and there must be exactly one there. *)
Fixpoint at_depth (d : nat) (s : struct) {struct d} : list struct :=
  match d with O => [s] | S d' => flat_map (at_depth d') (st_embeds s) end.
Fixpoint height (s : struct) : nat :=
  match s with Struct _ _ _ es => S (fold_right Nat.max 0 (map height es)) end.
Fixpoint search (n : bytes) (s : struct) (d fuel : nat) {struct fuel} : option struct :=
  match fuel with
  | O => None
  | S f =>
      match filter (fun x => bmem n (st_methods x)) (at_depth d s) with
      | [] => search n s (S d) f
      | [x] => Some x
      | _ => None
      end
  end.
Definition find_method (n : bytes) (s : struct) : option struct := search n s 0 (height s).

(** compiler.go:93-99: what types.MissingMethod says while the generator runs, when the struct itself has no methods; [seen]
    are the embedded structs as they are loaded (codegen.go:227-231: without the generated file of the package at work,
    with those of other packages) *)
Definition promoted (t : table) (m : model V) (seen : list struct) (n : bytes) : own :=
  match find_method n (Struct t [] m seen) with Some _ => Has | None => Missing end.
(** generate.go:130-350 for the struct; [es] are the embedded structs of the finished program *)
Definition generate (prefix : bytes) (strict : bool) (t : table) (m : model V) (seen es : list struct) : res struct :=
  let* ms := gen_methods prefix strict (promoted t m seen) t in Ok (Struct t (map m_name ms) m es).

(** ** What a value of the struct is for db.go.tpl *)
Definition has (n : bytes) (s : struct) : bool := match find_method n s with Some _ => true | None => false end.
Definition call {R} (n : bytes) (f : model V -> R) (none : R) (s : struct) : R :=
  match find_method n s with Some x => f (st_own x) | None => none end.
(** PK() of a type that has it *)
Definition pk_of (m : model V) : option (bytes * nat * V) :=
  match m_key m with AutoKey n i v | SingleKey n i v => Some (n, i, v) | _ => None end.
(** the type switches of db.go.tpl (e.g. 247-263, 729-757) on the interfaces of sequel/sequel.go:60-80 *)
Definition seen_key (s : struct) : mkey V :=
  if has (B "HasPK") s then
    match call (B "PK") pk_of None s with
    | Some (n, i, v) => if has (B "IsAutoIncr") s then AutoKey n i v else SingleKey n i v
    | None =>
        match call (B "CompositeKey") (fun m => Some (m_key m)) None s with
        | Some (CompKey ns is vs) => CompKey ns is vs
        | _ => NoKey
        end
    end
  else NoKey.
Definition seen_model (s : struct) : model V :=
  {| m_db := call (B "DatabaseName") m_db None s;
     m_table := call (B "TableName") m_table [] s;
     m_columns := call (B "Columns") m_columns [] s;
     m_sqlcolumns := call (B "SQLColumns") m_sqlcolumns None s;
     m_values := call (B "Values") m_values [] s;
     m_places := call (B "InsertPlaceholders") m_places (fun _ => []) s;
     m_key := seen_key s;
     m_dup := call (B "DuplicateKeys") m_dup None s;
     m_omit := call (B "OnUpsertOmitColumns") m_omit None s;
     m_insert := call (B "InsertOneStmt") m_insert None s;
     m_find := call (B "FindOneByPKStmt") m_find None s;
     m_update := call (B "UpdateOneByPKStmt") m_update None s;
     m_delete := call (B "DeleteOneByPKStmt") m_delete None s |}.
End Embed.
Arguments struct : clear implicits.
