(** What parsing a struct has to do (C41-C44, C60-C62). *)
From Coq Require Import Permutation Sorted.
From Verif Require Import Base ModelCompiler ModelParser.

(** ** The fields of a struct in declaration order, those of an embedded struct in its place *)
Definition field_at (prev : list (bytes * bool)) (n : bytes) (ty : gotype) (exported embedded : bool) (tag : bytes) : sfield :=
  {| f_name := n; f_type := ty; f_exported := exported; f_embedded := embedded; f_tag := tag; f_paths := prev ++ [(n, Nat.leb 1 (ty_ptr ty))] |}.
Fixpoint decl_fields (prev : list (bytes * bool)) (d : decl) : list sfield :=
  match d with
  | Names ns ty tag => map (fun n => field_at prev (fst n) ty (snd n) false tag) ns
  | Embeds n ex ty tag inner => field_at prev n ty ex true tag :: flat_map (decl_fields (prev ++ [(n, Nat.leb 1 (ty_ptr ty))])) inner
  | Opaque => []
  end.
Definition declared (ds : list decl) : list sfield := flat_map (decl_fields []) ds.

(** ** Tags *)
Definition white (c : byte) : Prop := (9 <= code c <= 13)%N \/ code c = 32%N.
(** [core] is [s] without the white space around it. *)
Definition trimmed (s core : bytes) : Prop :=
  exists a b, s = a ++ core ++ b /\ Forall white a /\ Forall white b /\
  (forall c r, core = c :: r -> ~ white c) /\ (forall c r, core = r ++ [c] -> ~ white c).
(** The parts of a tag between commas. *)
Definition tag_parts (tag : bytes) (parts : list bytes) : Prop := parts <> [] /\ Forall (fun p => ~ In "," p)%char parts /\ join (B ",") parts = tag.
Definition tag_name (tag n : bytes) : Prop := exists p ps, tag_parts tag (p :: ps) /\ trimmed p n.
(** An option stands alone or before a colon. *)
Definition has_option (tag o : bytes) : Prop :=
  exists p ps q core, tag_parts tag (p :: ps) /\ In q ps /\ trimmed q core /\ core <> [] /\ (core = o \/ exists v, core = o ++ B ":" ++ v).
Definition excluded (f : sfield) : Prop := tag_name (f_tag f) (B "-").
(** The fields that have a column *)
Definition has_column (f : sfield) : Prop :=
  f_exported f = true /\ f_embedded f = false /\ ~ excluded f /\ ~ (ty_ptr (f_type f) = 0 /\ ty_base (f_type f) = table_type).
(** Names of letters, digits and underscores that begin with a letter; the code points U+017F and U+212A count as letters (s and
    k without regard to case). *)
Definition letter (c : byte) : Prop := (65 <= code c <= 90)%N \/ (97 <= code c <= 122)%N.
Definition digit (c : byte) : Prop := (48 <= code c <= 57)%N.
Inductive word : bytes -> Prop :=
| word_nil : word []
| word_ascii c r : letter c \/ digit c \/ c = "_"%char -> word r -> word (c :: r)
| word_long_s a b r : code a = 197%N -> code b = 191%N -> word r -> word (a :: b :: r)
| word_kelvin a b c r : code a = 226%N -> code b = 132%N -> code c = 170%N -> word r -> word (a :: b :: c :: r).
Definition good_name (n : bytes) : Prop := exists c r, n = c :: r /\ ~ digit c /\ c <> "_"%char /\ word n.
(** The name of the column of a field: the name in the tag, otherwise that of the field, renamed. *)
Definition column_name (rename : bytes -> bytes) (f : sfield) (n : bytes) : Prop :=
  (tag_name (f_tag f) [] /\ n = rename (f_name f)) \/ (tag_name (f_tag f) n /\ n <> []).
Definition auto_field (f : sfield) : Prop := has_option (f_tag f) (B "auto_increment").
Definition key_field (f : sfield) : Prop := (has_option (f_tag f) (B "pk") \/ has_option (f_tag f) (B "primary_key")) /\ ~ auto_field f.
Definition readonly_field (f : sfield) : Prop := has_option (f_tag f) (B "readonly").
(** A column holds what its field says. *)
Definition column_for (rename : bytes -> bytes) (f : sfield) (c : column) : Prop :=
  c_goname c = f_name f /\ c_gopath c = concat (map (fun p => B "." ++ fst p) (f_paths f)) /\ c_type c = f_type f /\
  column_name rename f (c_name c) /\ (c_readonly c = true <-> readonly_field f) /\ c_paths c = f_paths f.
(** The members of a list that meet a condition, in order. *)
Inductive selects {A} (P : A -> Prop) : list A -> list A -> Prop :=
| sel_nil : selects P [] []
| sel_yes x l m : P x -> selects P l m -> selects P (x :: l) (x :: m)
| sel_no x l m : ~ P x -> selects P l m -> selects P (x :: l) m.
(** What the fields have to be for the struct to be accepted. *)
Definition acceptable (rename : bytes -> bytes) (fs : list sfield) : Prop :=
  Forall (fun f => ty_ptr (f_type f) <= 1) fs /\
  (forall f n, In f fs -> tag_name (f_tag f) n -> n = [] \/ n = B "-" \/ good_name n) /\
  exists gs ns, selects has_column fs gs /\ Forall2 (column_name rename) gs ns /\ NoDup ns /\
  (exists autos, selects auto_field gs autos /\ length autos <= 1) /\
  (forall f, In f gs -> auto_field f \/ key_field f -> ~ readonly_field f).
(** The table says what the fields say: its columns, its key and its auto-increment column *)
Definition describes (rename : bytes -> bytes) (fs : list sfield) (t : table) : Prop :=
  exists gs ks, selects has_column fs gs /\ Forall2 (column_for rename) gs (t_columns t) /\
  selects (fun x => key_field (fst x)) (combine gs (t_columns t)) ks /\ t_keys t = map snd ks /\
  (forall c, t_auto t = Some c <-> exists f, In (f, c) (combine gs (t_columns t)) /\ auto_field f).

(** ** Sorting: sort.Slice gives some sorted permutation *)
Definition sorts (sort : list (list nat * sfield) -> list (list nat * sfield)) : Prop :=
  forall l, Permutation (sort l) l /\ StronglySorted (fun x y => less (fst y) (fst x) = false) (sort l).

(** ** Shapes for which the order is right *)
(** Only the last declaration of a struct may have several names. *)
Definition single (d : decl) : Prop := match d with Names ns _ _ => length ns <= 1 | _ => True end.
Fixpoint ungrouped (ds : list decl) : Prop := match ds with [] => True | [_] => True | d :: ds' => single d /\ ungrouped ds' end.
(** At most [n] structs embedded in one another. *)
Fixpoint shallow (n : nat) (d : decl) : Prop :=
  match d with
  | Embeds _ _ _ _ inner => ungrouped inner /\ match n with O => inner = [] | S n' => fold_right (fun d P => shallow n' d /\ P) True inner end
  | _ => True
  end.
