(** Names, types and defaults a migration file can say, and what is meant by a default. dval, gcol and ecol are the types of ModelScript.v. *)
From Coq Require Import List Bool ZArith.
From Verif Require Import SpecSql Base LemmasUtf8 LemmasGen3 ModelUtf8 ModelGen ModelMigration ModelScript SpecScript.
Import ListNotations.

Definition my_of (d : driver) : bool := match d with DMySQL => true | _ => false end.
(** Strings without quotes and, in MySQL, without backslashes *)
Definition plain_string (my : bool) (s : bytes) : Prop := ~ In squote s /\ (my = true -> ~ In backslash s).
Section Ok.
Variable printable : N -> bool.
Variable format_float : N -> bytes.
Variable d : driver.
(** Names of one line; without backticks in MySQL, of printable characters other than the double quote and the backslash in PostgreSQL (C24) *)
Definition name_ok (n : bytes) : Prop :=
  exists us, us <> [] /\ n = utf8 us /\ Forall (fun u => scalar u = true) us /\ ~ In 10%N us /\
    match d with DMySQL => ~ In (code backtick) us | _ => Forall (sayable printable) us end.
Definition value_ok (v : dval) : Prop :=
  match v with
  | DStr s => one_line s /\ plain_string (my_of d) s
  | DBool _ | DInt _ => True
  | DFloat f => exists ts, default_text (my_of d) (format_float f) ts
  | DRaw s => exists ts, default_text (my_of d) s ts
  | DBytes _ | DOther => False
  end.
(** The tokens mean the value *)
Definition denotes (v : dval) (ts : list stok) : Prop :=
  match v with
  | DStr s => ts = [St s]
  | DBool b => ts = [Wd (if b then B "true" else B "false")]
  | DInt z => exists ds, Forall (fun c => is_digit c = true) ds /\ SpecSql.number_of ds = Z.abs_N z /\ ts = (if Z.ltb z 0 then [Sy "-"] else []) ++ [Wd ds]
  | DFloat f => piece (my_of d) (format_float f) = Some ts
  | DRaw s => piece (my_of d) s = Some ts
  | DBytes _ | DOther => False
  end.
Definition column_ok (g : gcol) : Prop :=
  name_ok (g_name g) /\ (exists ts, type_text (my_of d) (g_type g) ts) /\ match g_default g with Some v => value_ok v | None => True end.
Definition column_is (g : gcol) (m : mcol) : Prop :=
  m_name m = g_name g /\ m_type m = g_type g /\ m_null m = g_null g /\
  match g_default g, m_default m with Some v, Some x => exists ts, default_text (my_of d) x ts /\ denotes v ts | None, None => True | _, _ => False end.
(** Columns of the database *)
Definition row_ok (e : ecol) : Prop :=
  name_ok (e_name e) /\ (exists ts, type_text (my_of d) (e_udt e) ts) /\ match e_default e with Some x => exists ts, default_text (my_of d) x ts | None => True end.
Definition sized (ty : bytes) (n : Z) (x : bytes) : Prop :=
  exists ds, x = ty ++ B "(" ++ ds ++ B ")" /\ ds <> [] /\ Forall (fun c => is_digit c = true) ds /\ SpecSql.number_of ds = Z.to_N n.
Definition positive (x : option Z) : Prop := match x with Some n => (0 < n)%Z | None => False end.
(** The type with its length in characters, if there is one, or else its precision, if there is one *)
Definition row_type (e : ecol) (ty : bytes) : Prop :=
  (positive (e_chars e) -> forall n, e_chars e = Some n -> sized (e_udt e) n ty) /\
  (~ positive (e_chars e) -> positive (e_time e) -> forall k, e_time e = Some k -> sized (e_udt e) k ty) /\
  (~ positive (e_chars e) -> ~ positive (e_time e) -> ty = e_udt e).
Definition row_is (e : ecol) (c : tcol) : Prop := t_name c = e_name e /\ t_null c = e_null e /\ t_default c = e_default e /\ row_type e (t_type c).
End Ok.
