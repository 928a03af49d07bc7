(** What a database does with the statements of a migration. *)
From Coq Require Import List Bool.
From Verif Require Import Base ModelMigration.
Import ListNotations.

(** A table: its columns in order; None: there is no such table *)
Definition table := option (list tcol).
(** The names PostgreSQL's catalogue gives to types (udt_name); others are their own name *)
Definition catalogue : list (bytes * bytes) :=
  [(B "bigint", B "int8"); (B "integer", B "int4"); (B "int", B "int4"); (B "smallint", B "int2"); (B "double precision", B "float8"); (B "real", B "float4");
   (B "serial", B "int4"); (B "serial2", B "int2"); (B "serial4", B "int4"); (B "serial8", B "int8"); (B "bigserial", B "int8"); (B "smallserial", B "int2"); (B "char(1)", B "bpchar(1)")].
Fixpoint assoc (k : bytes) (l : list (bytes * bytes)) : option bytes := match l with [] => None | (a, b) :: r => if bseq a k then Some b else assoc k r end.
Definition stored (ty : bytes) : bytes := match assoc ty catalogue with Some c => c | None => ty end.
(** Not types of their own: only CREATE TABLE and ADD COLUMN know them *)
Definition pseudo (ty : bytes) : bool := existsb (bseq ty) [B "serial"; B "serial2"; B "serial4"; B "serial8"; B "bigserial"; B "smallserial"].
Definition names (t : list tcol) : list bytes := map t_name t.
Fixpoint no_dup (l : list bytes) : bool := match l with [] => true | x :: r => negb (existsb (bseq x) r) && no_dup r end.
Section Run.
(** Whether the values of the rows can be converted; whether the table has rows; MySQL or PostgreSQL *)
Variable cast : bytes -> bytes -> bool.
Variable rows : bool.
Variable mysql : bool.
Definition st (ty : bytes) : bytes := if mysql then ty else stored ty.
Definition change (n : bytes) (f : tcol -> tcol) (t : list tcol) : list tcol := map (fun c => if bseq (t_name c) n then f c else c) t.
Definition do_action (t : list tcol) (a : action) : option (list tcol) :=
  match a with
  | SetType n ty =>
      if existsb (bseq n) (names t) && negb (pseudo ty) && forallb (fun c => if bseq (t_name c) n then cast (t_type c) ty else true) t
      then Some (change n (fun c => TCol (t_name c) (st ty) (t_null c) (t_default c)) t) else None
  | SetNotNull n => if existsb (bseq n) (names t) then Some (change n (fun c => TCol (t_name c) (t_type c) false (t_default c)) t) else None
  | SetDefault n d => if existsb (bseq n) (names t) then Some (change n (fun c => TCol (t_name c) (t_type c) (t_null c) (Some d)) t) else None
  | Add n None _ _ => None (* a column needs a type *)
  | Add n (Some ty) null d =>
      if negb (existsb (bseq n) (names t)) && negb (rows && negb null && negb (pseudo ty) && match d with None => true | Some _ => false end)
      then Some (t ++ [TCol n (st ty) (null && negb (pseudo ty)) d]) else None
  | Drop n => if existsb (bseq n) (names t) then Some (filter (fun c => negb (bseq (t_name c) n)) t) else None
  end.
Fixpoint do_actions (t : list tcol) (l : list action) : option (list tcol) :=
  match l with [] => Some t | a :: r => match do_action t a with Some t' => do_actions t' r | None => None end end.
Definition do_stmt (t : table) (s : stmt) : option table :=
  match s, t with
  | Create _ _, Some _ => Some t
  | Create cols pk, None =>
      if no_dup (map m_name cols) && forallb (fun k => existsb (bseq k) (map m_name cols)) pk && negb (mysql && match cols with [] => true | _ => false end)
      then Some (Some (map (fun m => TCol (m_name m) (st (m_type m)) (m_null m && negb (pseudo (m_type m)) && negb (existsb (bseq (m_name m)) pk)) (m_default m)) cols))
      else None
  | Alter acts, Some cols =>
      match acts, mysql with
      | [], false => None (* ALTER TABLE t; is a syntax error in PostgreSQL *)
      | _, _ => match do_actions cols acts with
                | Some [] => if mysql then None else Some (Some []) (* MySQL keeps at least one column *)
                | Some t' => Some (Some t')
                | None => None
                end
      end
  | Alter _, None => None
  end.
Fixpoint do_stmts (t : table) (l : list stmt) : option table :=
  match l with [] => Some t | s :: r => match do_stmt t s with Some t' => do_stmts t' r | None => None end end.
End Run.
(** The columns a driver reads back *)
Definition columns_of (t : table) : list tcol := match t with Some l => l | None => [] end.
