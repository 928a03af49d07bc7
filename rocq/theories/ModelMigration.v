(** Migrations: cmd/sqlgen/codegen/dialect/postgres/migration.go 18-173, mysql/migration.go 12-167, sqlite/migration.go 9-11. *)
From Coq Require Import List Bool.
From Verif Require Import Base.
Import ListNotations.

(** One column of the model: ColumnName, DataType, GoNullable, Default (already through format) *)
Record mcol := MCol { m_name : bytes; m_type : bytes; m_null : bool; m_default : option bytes }.
(** One row of information_schema.columns: column_name, ColumnDataType() (udt_name with its length), is_nullable, column_default.
    postgres/column.go 12-37. Simplified: the length is already part of the type text. *)
Record tcol := TCol { t_name : bytes; t_type : bytes; t_null : bool; t_default : option bytes }.
(** What the two sections of the file contain. Simplified: statements as trees; the commas, quotes and layout of the text are left out. *)
Inductive action :=
| SetType (name ty : bytes)          (* ALTER n SET DATA TYPE ty *)
| SetNotNull (name : bytes)          (* ALTER n SET NOT NULL *)
| SetDefault (name d : bytes)        (* ALTER n SET DEFAULT d *)
| Add (name : bytes) (ty : option bytes) (null : bool) (d : option bytes) (* ADD COLUMN n [ty] [NOT NULL] [DEFAULT d] *)
| Drop (name : bytes).               (* DROP COLUMN n *)
Inductive stmt :=
| Create (cols : list mcol) (pk : list bytes)  (* CREATE TABLE IF NOT EXISTS t (…, CONSTRAINT … PRIMARY KEY (…)) *)
| Alter (acts : list action).                  (* ALTER TABLE t … *)

(** lo.FindIndexOf with slices.Delete: the first existing column of that name, and the others. postgres/migration.go 45-49 *)
Fixpoint take_col (n : bytes) (l : list tcol) : option (tcol * list tcol) :=
  match l with
  | [] => None
  | c :: r => if bseq (t_name c) n then Some (c, r) else match take_col n r with Some (x, r') => Some (x, c :: r') | None => None end
  end.
(** The comparison loop. postgres/migration.go 43-64: updated pairs, new columns, existing columns that are left *)
Fixpoint compare_cols (model : list mcol) (ex : list tcol) : list (tcol * mcol) * list mcol * list tcol :=
  match model with
  | [] => ([], [], ex)
  | m :: r =>
      match take_col (m_name m) ex with
      | Some (c, ex') =>
          let '(u, n, d) := compare_cols r ex' in
          if bseq (m_type m) (t_type c) && Bool.eqb (m_null m) (t_null c) then (u, n, d) else ((c, m) :: u, n, d)
      | None => let '(u, n, d) := compare_cols r ex in (u, m :: n, d)
      end
  end.
(** postgres/migration.go 119-129, 130-140, 141-150 *)
Definition up_updated (p : tcol * mcol) : list action := [SetType (m_name (snd p)) (m_type (snd p))].
Definition down_updated (p : tcol * mcol) : list action :=
  let o := fst p in
  SetType (t_name o) (t_type o) :: (if t_null o then [] else [SetNotNull (t_name o)]) ++ match t_default o with Some d => [SetDefault (t_name o) d] | None => [] end.
Definition up_new (m : mcol) : list action := [Add (m_name m) (Some (m_type m)) (m_null m) (m_default m)].
Definition down_new (m : mcol) : list action := [Drop (m_name m)].
Definition up_left (c : tcol) : list action := [Drop (t_name c)].
Definition down_left (c : tcol) : list action := [Add (t_name c) None (t_null c) (t_default c)].
(** Migrate; None: ErrNoNewMigration. postgres/migration.go 66-68. Simplified: connecting and reading the columns is the argument ex. *)
Definition pg_migrate (model : list mcol) (pk : list bytes) (ex : list tcol) : option (list stmt * list stmt) :=
  let '(u, n, d) := compare_cols model ex in
  match u, n with
  | [], [] => None
  | _, _ => Some ([Create model pk; Alter (flat_map up_updated u ++ flat_map up_new n ++ flat_map up_left d)],
                  [Alter (flat_map down_updated u ++ flat_map down_new n ++ flat_map down_left d)])
  end.
(** mysql/migration.go 12-167: the comparison is commented out (33-60), newCols stays empty *)
Definition my_migrate (model : list mcol) (pk : list bytes) (ex : list tcol) : option (list stmt * list stmt) :=
  Some ([Create model pk; Alter (flat_map up_left ex)], [Alter (flat_map down_left ex)]).
(** sqlite/migration.go 9-11 *)
Definition lite_migrate (model : list mcol) (pk : list bytes) (ex : list tcol) : option (list stmt * list stmt) := Some ([], []).
