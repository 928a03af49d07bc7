(** How types are written in a Go file, and what the pieces of an expression stand for. *)
From Verif Require Import Base ModelStrconv ModelConfig ModelExpr.

(** ** Names of the language *)
Definition letter (c : byte) : Prop := (65 <= code c <= 90 \/ 97 <= code c <= 122)%N.
Definition digit (c : byte) : Prop := (48 <= code c <= 57)%N.
Definition word_byte (c : byte) : Prop := letter c \/ digit c \/ c = "_"%char.
Definition path_byte (c : byte) : Prop := word_byte c \/ c = "."%char \/ c = "-"%char.
Definition identifier (s : bytes) : Prop := exists c r, s = c :: r /\ letter c /\ Forall word_byte r.
(** An import path whose segments start with letters *)
Definition lettered (seg : bytes) : Prop := exists c r, seg = c :: r /\ letter c /\ Forall path_byte r.
Inductive import_path : bytes -> Prop :=
| path_one seg : lettered seg -> import_path seg
| path_more seg p : lettered seg -> import_path p -> import_path (seg ++ "/"%char :: p).

(** ** Types *)
(** The packages a type mentions *)
Inductive mentions (p : bytes) : gtype -> Prop :=
| in_name n args : mentions p (TNamed p n args)
| in_args q n args t : In t args -> mentions p t -> mentions p (TNamed q n args)
| in_pointer t : mentions p t -> mentions p (TPointer t)
| in_slice t : mentions p t -> mentions p (TSlice t)
| in_array n t : mentions p t -> mentions p (TArray n t)
| in_key k v : mentions p k -> mentions p (TMap k v)
| in_value k v : mentions p v -> mentions p (TMap k v).
(** The type written in Go, [Q p q] saying that [q] is written before the names of package [p] *)
Section Written.
Variable Q : bytes -> bytes -> Prop.
Inductive written : gtype -> bytes -> Prop :=
| w_basic n : identifier n -> written (TBasic n) n
| w_name p n q : identifier n -> Q p q -> written (TNamed p n []) (q ++ n)
| w_generic p n q args s : identifier n -> Q p q -> written_list args s -> written (TNamed p n args) (q ++ n ++ "["%char :: s ++ ["]"%char])
| w_pointer t s : written t s -> written (TPointer t) ("*"%char :: s)
| w_slice t s : written t s -> written (TSlice t) ("["%char :: "]"%char :: s)
| w_array n t s : written t s -> written (TArray n t) ("["%char :: format_uint n ++ "]"%char :: s)
| w_map k v a b : written k a -> written v b -> written (TMap k v) (B "map[" ++ a ++ "]"%char :: b)
with written_list : list gtype -> bytes -> Prop :=
| w_last t s : written t s -> written_list [t] s
| w_next t u ts s r : written t s -> written_list (u :: ts) r -> written_list (t :: u :: ts) (s ++ ","%char :: r).
End Written.
(** The paths themselves, as in types.Type.String() *)
Definition by_path (p q : bytes) : Prop := q = p ++ ["."%char].
(** The names of a file of the package [self] with these imports *)
Definition by_name (self : bytes) (l : imports) (p q : bytes) : Prop := p = self /\ q = [] \/ exists n, In (p, n) l /\ q = n ++ ["."%char].
(** A type of the language: it can be written, with every package by its path *)
Definition go_type (t : gtype) (s : bytes) : Prop := written by_path t s.

(** ** Expressions *)
(** The variable without and with its address *)
Definition variable (a : params) (g : bytes) : Prop := p_path a = "&"%char :: g \/ p_path a = g /\ forall r, g <> "&"%char :: r.
Inductive element : gtype -> gtype -> Prop :=
| e_array n t : element (TArray n t) t
| e_slice t : element (TSlice t) t
| e_pointer t : element (TPointer t) t
| e_basic n : element (TBasic n) (TBasic n)
| e_named p n args : element (TNamed p n args) (TNamed p n args)
| e_map k v : element (TMap k v) (TMap k v).
Inductive stripped : gtype -> gtype -> Prop :=
| s_pointer t u : stripped t u -> stripped (TPointer t) u
| s_other t : (forall u, t <> TPointer u) -> stripped t t.
Inductive stands (Q : bytes -> bytes -> Prop) (a : params) : piece -> bytes -> Prop :=
| st_text s : stands Q a (Text s) s
| st_dot : stands Q a Dot (p_path a)
| st_path g : variable a g -> stands Q a GoPath g
| st_addr g : variable a g -> stands Q a Addr ("&"%char :: g)
| st_addr_ptr g : variable a g -> p_ptr a = true -> stands Q a AddrOfGoPath g
| st_addr_val g : variable a g -> p_ptr a = false -> stands Q a AddrOfGoPath ("&"%char :: g)
| st_elem t u s : p_type a = Some t -> element t u -> written Q u s -> stands Q a ElemType s
| st_base t u s : p_type a = Some t -> stripped t u -> written Q u s -> stands Q a BaseType s
| st_len : p_len a <> 0%N -> stands Q a Len (format_uint (p_len a)).
Inductive reads (Q : bytes -> bytes -> Prop) (a : params) : list piece -> bytes -> Prop :=
| r_nil : reads Q a [] []
| r_cons p ps s r : stands Q a p s -> reads Q a ps r -> reads Q a (p :: ps) (s ++ r).
(** The types an expression spells *)
Definition asks (a : params) (ps : list piece) (t : gtype) : Prop :=
  exists u, p_type a = Some u /\ (In ElemType ps /\ element u t \/ In BaseType ps /\ stripped u t).
(** All its names are of one package (or of none) that can be looked up *)
Definition one_package (load : bytes -> option bytes) (t : gtype) : Prop :=
  exists p, (forall q, mentions q t -> q = p) /\ import_path p /\ load p <> None.
(** A package whose path has a slash, or is its own name in the file, or the package of the file *)
Definition simple (self : bytes) (l : imports) (p : bytes) : Prop := p = self \/ In "/"%char p \/ In (p, p) l.
(** Package names are names *)
Definition names_only (l : imports) : Prop := forall p n, In (p, n) l -> ~ In "/"%char n.
Definition finds_names (load : bytes -> option bytes) : Prop := forall p n, load p = Some n -> ~ In "/"%char n.
(** What may stand before and after a qualified name: no points or slashes, and a character that is in no path *)
Definition bracket (c : byte) : Prop := ~ path_byte c /\ c <> "/"%char.
Definition before (a : bytes) : Prop := ~ In "."%char a /\ ~ In "/"%char a /\ (a = [] \/ exists b c, a = b ++ [c] /\ bracket c).
Definition after (ps : list piece) : Prop := ps = [] \/ exists c r ps', ps = Text (c :: r) :: ps' /\ bracket c.
