(** The texts that are rendered from the templates of the columns. *)
From Verif Require Import Base ModelStrconv ModelTypes ModelConfig ModelExpr ModelResolve ModelColumn LemmasBase PropConfig SpecSource LemmasSource SpecExpr LemmasExpr PropExpr SpecTyping LemmasTyping LemmasTyping2.
Import ModelColumn.

(** ** The shapes of the templates *)
Inductive vshape := VConv (k : bytes) | VPlain | VText | VSlice | VList (p n : bytes) | VCall (p n : bytes) | VCallSlice (p n : bytes) | VTime | VRaw | VRawJSON | VBytea | VFun (f : bytes).
Definition lib (pre p n post : bytes) : piece := Text (pre ++ p ++ "."%char :: n ++ post).
Definition vpieces (v : vshape) : list piece :=
  match v with
  | VConv k => [Text ("("%char :: k ++ B ")("); GoPath; Text (B ")")]
  | VPlain => [GoPath]
  | VText => [Text (B "string("); GoPath; Text (B "[:])")]
  | VSlice => [GoPath; Text (B "[:]")]
  | VList p n => [lib (B "(") p n (B "["); ElemType; Text (B "])("); GoPath; Text (B ")")]
  | VCall p n => [lib [] p n (B "["); ElemType; Text (B "]("); GoPath; Text (B ")")]
  | VCallSlice p n => [lib [] p n (B "["); ElemType; Text (B "]("); GoPath; Text (B "[:])")]
  | VTime => [Text (B "(time.Time)("); GoPath; Text (B ")")]
  | VRaw => [Text (B "database/sql.RawBytes("); GoPath; Text (B ")")]
  | VRawJSON => [Text (B "(string)("); GoPath; Text (B ")")]
  | VBytea => [Text (pgtype_path ++ B ".ByteArray("); GoPath; Text (B ")")]
  | VFun f => [lib [] encoding_path f (B "("); GoPath; Text (B ")")]
  end.
Definition ints : list bytes := [B "int"; B "int8"; B "int16"; B "int32"; B "int64"; B "uint"; B "uint8"; B "uint16"; B "uint32"].
Definition scalar_values (last_ : vshape) : list (bytes * vshape) :=
  [(B "rune", VConv (B "string")); (B "byte", VPlain); (B "string", VConv (B "string")); (B "bool", VConv (B "bool"))] ++ map (fun k => (k, VConv (B "int64"))) ints ++
  [(B "uint64", last_); (B "float32", VConv (B "float64")); (B "float64", VConv (B "float64")); (B "time.Time", VTime); (B "sql.RawBytes", VRaw); (B "encoding/json.RawMessage", VRawJSON)].
Definition numbers : list (bytes * bytes) :=
  [(B "int", B "Int"); (B "int8", B "Int8"); (B "int16", B "Int16"); (B "int32", B "Int32"); (B "int64", B "Int64"); (B "uint", B "Uint"); (B "uint8", B "Uint8"); (B "uint16", B "Uint16"); (B "uint32", B "Uint32"); (B "uint64", B "Uint64"); (B "float32", B "Float32"); (B "float64", B "Float64")].
Definition mysql_values : list (bytes * vshape) :=
  scalar_values VPlain ++ [(B "[...]rune", VText); (B "[...]byte", VSlice); (B "[]string", VList sqltype_path (B "StringSlice")); (B "[]byte", VPlain); (B "[]bool", VList sqltype_path (B "BoolSlice"))] ++
  map (fun x => (B "[]" ++ fst x, VList sqltype_path (snd x ++ B "Slice"))) numbers ++ [(B "*", VFun (B "JSONValue"))].
Definition pg_values : list (bytes * vshape) :=
  scalar_values (VConv (B "int64")) ++ [(B "[...]rune", VText); (B "[...]byte", VSlice); (B "[...]string", VCallSlice pgtype_path (B "StringArray")); (B "[...]bool", VCallSlice pgtype_path (B "BoolArray"));
  (B "[]string", VCall pgtype_path (B "StringArray")); (B "[]rune", VText); (B "[]byte", VPlain); (B "[]bool", VList pgtype_path (B "BoolArray")); (B "[][]byte", VBytea)] ++
  map (fun x => (B "[]" ++ fst x, VList pgtype_path (snd x ++ B "Array"))) numbers ++ [(B "*", VFun (B "JSONValue"))].
Definition values (d : dialect) : list (bytes * vshape) := match d with Postgres => pg_values | _ => mysql_values end.
Lemma values_table d : map (fun r => (fst r, parse_template (fst (snd r)))) (table d) = map (fun x => (fst x, Some (vpieces (snd x)))) (values d).
Proof. destruct d; vm_compute; reflexivity. Qed.
Inductive sshape := SAddrOf | SGeneric (f : bytes) | SBase (f : bytes) | SFun (f : bytes) | SArray (f : bytes) | SList (p n : bytes) | SRaw | SRawJSON | SCallSlice (p n : bytes) | SBoolArray | SRunes | SBytea.
Definition spieces (v : sshape) : list piece :=
  match v with
  | SAddrOf => [AddrOfGoPath]
  | SGeneric f => [lib [] encoding_path f (B "["); ElemType; Text (B "]("); Addr; Text (B ")")]
  | SBase f => [lib [] encoding_path f (B "["); BaseType; Text (B "]("); Addr; Text (B ")")]
  | SFun f => [lib [] encoding_path f (B "("); Addr; Text (B ")")]
  | SArray f => [lib [] encoding_path f (B "("); GoPath; Text (B "[:],"); Len; Text (B ")")]
  | SList p n => [lib (B "(*") p n (B "["); ElemType; Text (B "])("); AddrOfGoPath; Text (B ")")]
  | SRaw => [Text (B "(*database/sql.RawBytes)("); AddrOfGoPath; Text (B ")")]
  | SRawJSON => [Text (B "("); AddrOfGoPath; Text (B ")")]
  | SCallSlice p n => [lib [] p n (B "["); ElemType; Text (B "]("); GoPath; Text (B "[:])")]
  | SBoolArray => [lib (B "(*") pgtype_path (B "BoolArray") (B "["); ElemType; Text (B "])("); AddrOfGoPath; Text (B "[:])")]
  | SRunes => [Text (types_path ++ B ".FixedSizeRunes("); GoPath; Text (B ")")]
  | SBytea => [Text (pgtype_path ++ B ".ByteArray("); GoPath; Text (B ")")]
  end.
Definition scalar_scans : list (bytes * sshape) :=
  [(B "rune", SAddrOf); (B "byte", SAddrOf); (B "string", SGeneric (B "StringScanner")); (B "bool", SGeneric (B "BoolScanner"))] ++ map (fun x => (fst x, SGeneric (snd x ++ B "Scanner"))) numbers ++
  [(B "time.Time", SFun (B "TimeScanner")); (B "sql.RawBytes", SRaw); (B "encoding/json.RawMessage", SRawJSON)].
Definition mysql_scans : list (bytes * sshape) :=
  scalar_scans ++ [(B "[...]rune", SArray (B "RuneArrayScanner")); (B "[...]byte", SArray (B "ByteArrayScanner")); (B "[]string", SList sqltype_path (B "StringSlice")); (B "[]byte", SBase (B "StringScanner")); (B "[]bool", SList sqltype_path (B "BoolSlice"))] ++
  map (fun x => (B "[]" ++ fst x, SList sqltype_path (snd x ++ B "Slice"))) numbers ++ [(B "*", SFun (B "JSONScanner"))].
Definition pg_scans : list (bytes * sshape) :=
  scalar_scans ++ [(B "[...]rune", SArray (B "RuneArrayScanner")); (B "[...]byte", SArray (B "ByteArrayScanner")); (B "[...]string", SCallSlice pgtype_path (B "StringArray")); (B "[...]bool", SBoolArray);
  (B "[]string", SList pgtype_path (B "StringArray")); (B "[]rune", SRunes); (B "[]byte", SAddrOf); (B "[]bool", SList pgtype_path (B "BoolArray")); (B "[][]byte", SBytea)] ++
  map (fun x => (B "[]" ++ fst x, SList pgtype_path (snd x ++ B "Array"))) numbers ++ [(B "*", SFun (B "JSONScanner"))].
Definition scans_of (d : dialect) : list (bytes * sshape) := match d with Postgres => pg_scans | _ => mysql_scans end.
Lemma scans_table d : map (fun r => (fst r, parse_template (snd (snd r)))) (table d) = map (fun x => (fst x, Some (spieces (snd x)))) (scans_of d).
Proof. destruct d; vm_compute; reflexivity. Qed.
Lemma entry_in l k v s : entry l k = Some (v, s) -> In (k, (v, s)) l.
Proof. induction l as [|[k' e] l IH]; [ discriminate | ]. cbn [entry]. destruct (bseq k' k) eqn:E; [ apply bseq_eq in E as ->; intros [= ->]; now left | intros H; right; now apply IH ]. Qed.
Lemma value_shape d k v s : entry (table d) k = Some (v, s) -> exists sh, In (k, sh) (values d) /\ parse_template v = Some (vpieces sh).
Proof.
  intros E. apply entry_in in E. apply (in_map (fun r => (fst r, parse_template (fst (snd r))))) in E. rewrite values_table in E. apply in_map_iff in E. destruct E as ([k' sh] & [= -> E] & I). exists sh. split; [ exact I | now symmetry ].
Qed.
Lemma scan_shape d k v s : entry (table d) k = Some (v, s) -> exists sh, In (k, sh) (scans_of d) /\ parse_template s = Some (spieces sh).
Proof.
  intros E. apply entry_in in E. apply (in_map (fun r => (fst r, parse_template (snd (snd r))))) in E. rewrite scans_table in E. apply in_map_iff in E. destruct E as ([k' sh] & [= -> E] & I). exists sh. split; [ exact I | now symmetry ].
Qed.
Lemma value_entry d k : In k (map fst (table d)) -> exists v s, entry (table d) k = Some (v, s).
Proof.
  induction (table d) as [|[k' [v s]] l IH]; [ intros [] | ]. cbn [map fst entry]. intros I. destruct (bseq k' k) eqn:E; [ eauto | ]. destruct I as [ -> | I ]; [ now rewrite (proj2 (bseq_eq k k) eq_refl) in E | now apply IH ].
Qed.

(** ** Fields as they are written *)
Section Paths.
Variable P : program.
Lemma identifier_bytes n : identifier n -> exists c r, n = c :: r /\ letter c /\ Forall path_byte (c :: r).
Proof. intros (c & r & -> & L & F). exists c, r. split; [ reflexivity | ]. split; [ exact L | ]. constructor; [ now left; left | ]. eapply Forall_impl; [ | exact F ]. intros b W. now left. Qed.
Lemma reaches_lettered s t : reaches P s t -> lettered s.
Proof.
  assert (H : reaches P s t -> exists c r, s = c :: r /\ letter c /\ Forall path_byte (c :: r)).
  { induction 1 as [ x t V I K | p t f u _ (c & r & -> & L & F) Fl I K ]; [ now apply identifier_bytes | ]. exists c, (r ++ "."%char :: f). split; [ reflexivity | ]. split; [ exact L | ].
    destruct (identifier_bytes f I) as (a & b & -> & La & Fa). inversion F; subst. constructor; [ assumption | ]. apply Forall_app. split; [ assumption | ]. constructor; [ right; now left | exact Fa ]. }
  intros R. destruct (H R) as (c & r & -> & L & F). exists c, r. inversion F; auto.
Qed.
Lemma lettered_no_slash s : lettered s -> ~ In "/"%char s.
Proof. intros (c & r & -> & L & F) [ E | I ]; [ subst c; unfold letter in L; cbn in L; lia | ]. rewrite Forall_forall in F. destruct (F _ I) as [ [ X | [ X | X ] ] | [ X | X ] ]; unfold letter, digit in *; cbn in *; try lia; discriminate. Qed.
Lemma reaches_field p f t u : reaches P p t -> field P t f u -> identifier f -> ~ In f keywords -> reaches P (p ++ "."%char :: f) u.
Proof. intros. eapply re_field; eassumption. Qed.
End Paths.

(** ** Rendering *)
Section Render.
Variables (P : program) (load : bytes -> option bytes) (l : imports).
Notation self := (own_path P).
Hypothesis Rd : ready P load l.
Lemma library_path p : In p [encoding_path; sqltype_path; pgtype_path] -> import_path p /\ In "/"%char p.
Proof.
  assert (L : forall s, match s with c :: r => is_alpha c && forallb path_char r | [] => false end = true -> lettered s).
  { intros [|c r] H; [ discriminate | ]. apply andb_true_iff in H as [H1 H2]. exists c, r. split; [ reflexivity | ]. split.
    - unfold is_alpha, is_upper, is_lower, in_range in H1. unfold letter. rewrite orb_true_iff, !andb_true_iff, !N.leb_le in H1. exact H1.
    - rewrite forallb_forall in H2. apply Forall_forall. intros b Ib. specialize (H2 b Ib). unfold path_char, is_alnum, is_alpha, is_upper, is_lower, is_digit, in_range in H2. unfold path_byte, word_byte, letter, digit. rewrite !orb_true_iff, !andb_true_iff, !N.leb_le, !beq_eq in H2. tauto. }
  intros I. split.
  - repeat (destruct I as [<-|I]); [ | | | destruct I ].
    + apply (path_more (B "github.com") (B "si3nloong/sqlgen/sequel/encoding")); [ now apply L | ]. apply (path_more (B "si3nloong") (B "sqlgen/sequel/encoding")); [ now apply L | ]. apply (path_more (B "sqlgen") (B "sequel/encoding")); [ now apply L | ]. apply (path_more (B "sequel") (B "encoding")); [ now apply L | ]. apply path_one. now apply L.
    + apply (path_more (B "github.com") (B "si3nloong/sqlgen/sequel/sqltype")); [ now apply L | ]. apply (path_more (B "si3nloong") (B "sqlgen/sequel/sqltype")); [ now apply L | ]. apply (path_more (B "sqlgen") (B "sequel/sqltype")); [ now apply L | ]. apply (path_more (B "sequel") (B "sqltype")); [ now apply L | ]. apply path_one. now apply L.
    + apply (path_more (B "github.com") (B "si3nloong/sqlgen/sequel/driver/postgres/pgtype")); [ now apply L | ]. apply (path_more (B "si3nloong") (B "sqlgen/sequel/driver/postgres/pgtype")); [ now apply L | ]. apply (path_more (B "sqlgen") (B "sequel/driver/postgres/pgtype")); [ now apply L | ]. apply (path_more (B "sequel") (B "driver/postgres/pgtype")); [ now apply L | ]. apply (path_more (B "driver") (B "postgres/pgtype")); [ now apply L | ]. apply (path_more (B "postgres") (B "pgtype")); [ now apply L | ]. apply path_one. now apply L.
  - repeat (destruct I as [<-|I]); [ | | | destruct I ]; vm_compute; tauto.
Qed.
(** A template with a package of the library *)
Lemma render_lib pre p name mid tail a s0 c :
  In p [encoding_path; sqltype_path; pgtype_path] -> before pre -> identifier name -> (exists b r, mid = b :: r /\ bracket b) -> ~ In "/"%char mid ->
  (forall x, In (Text x) tail -> ~ In "/"%char x) -> ~ In "/"%char (p_path a) -> reads by_path a tail s0 ->
  (forall t, asks a tail t -> one_package load t /\ forall q, mentions q t -> mentions q c) ->
  exists out l', format self load l (lib pre p name mid :: tail) a = Ok (out, l') /\ incl l l' /\
  (usable P l' c -> exists n s, In (p, n) l' /\ fine P l' p /\ reads (by_name self l') a tail s /\ out = pre ++ n ++ "."%char :: name ++ mid ++ s).
Proof.
  intros Ip Pre Id (b & r & Em & Br) Nm HT HP Rt One. destruct (rd_load _ _ _ Rd p Ip) as [Lp Np]. destruct (library_path p Ip) as [Pp Sp].
  assert (Rt' : reads by_path a (Text mid :: tail) (mid ++ s0)) by (constructor; [ constructor | exact Rt ]).
  assert (AS : forall t, asks a (Text mid :: tail) t -> asks a tail t) by (intros t (u & E & [ [ [ X | I ] Y ] | [ [ X | I ] Y ] ]); try discriminate; exists u; (split; [ exact E | ]); [ left | right ]; now split).
  destruct (C73_expression_partial self load l pre p name (Text mid :: tail) a (mid ++ s0) (rd_distinct _ _ _ Rd) (rd_self _ _ _ Rd) (rd_names _ _ _ Rd) (rd_finds _ _ _ Rd) Pp Np Lp Pre Id) as (out & l' & E & D' & I' & NS' & Nw & Rs).
  - right. subst mid. now exists b, r, tail.
  - intros x [ [= <-] | I ]; auto.
  - exact HP.
  - exact Rt'.
  - intros t A. apply (One t (AS t A)).
  - exists out, l'. split; [ | split; [ exact I' | ] ].
    + rewrite <- E. unfold format, lib. cbn [execute fill]. destruct (execute self load a l tail) as [ [s l1] | | ]; try reflexivity. replace ((pre ++ p ++ "."%char :: name) ++ mid ++ s) with ((pre ++ p ++ "."%char :: name ++ mid) ++ s); [ reflexivity | ]. rewrite <- !app_assoc. cbn [app]. now rewrite <- app_assoc.
    + intros U. assert (Sm : forall q, needed c q -> simple self l' q) by (intros q N; exact (proj1 (U q N))). destruct Rs as (n & s & Ipn & Rs & Eo); [ apply Sm; now right | intros t q A M; apply Sm; left; now apply (One t (AS t A)) | ].
      inversion Rs as [ | ? ? s1 s2 St Rs' ]; subst. inversion St; subst. exists n, s2. split; [ exact Ipn | ]. split; [ apply (U p); now right | ]. split; [ exact Rs' | reflexivity ].
Qed.
(** A template with the field only *)
Lemma render_field ps a pre parent f post :
  execute self load a l ps = Ok (pre ++ parent ++ "."%char :: f ++ post, l) -> before pre -> post = [] \/ (exists c r, post = c :: r /\ bracket c) -> lettered parent -> identifier f ->
  parent <> self -> load parent = Some [] -> In (parent, parent) l \/ ~ In parent (map fst l) /\ ~ In parent (map snd l) ->
  exists l', format self load l ps a = Ok (pre ++ parent ++ "."%char :: f ++ post, l') /\ incl l l'.
Proof.
  intros E Pre Po Lt Id Np Lp Cs. destruct (C73_variable_partial self load l pre parent f post (rd_distinct _ _ _ Rd) (rd_self _ _ _ Rd) Pre Po Lt Id Np Lp Cs) as (l' & E' & I' & _). exists l'. split; [ | exact I' ].
  rewrite <- E'. unfold format. rewrite E. cbn [execute fill].
  assert (G : go_path {| p_path := parent ++ "."%char :: f; p_ptr := false; p_len := 0; p_type := None |} = parent ++ "."%char :: f).
  { unfold go_path. cbn [p_path]. destruct Lt as (c & r & -> & Lc & _). cbn [app]. destruct (beq c "&") eqn:Ec; [ | reflexivity ]. apply beq_eq in Ec as ->. unfold letter in Lc. cbn in Lc. lia. }
  rewrite G, app_nil_r. now rewrite <- app_assoc.
Qed.
End Render.
