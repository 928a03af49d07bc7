(** What the key of a column type says about the type. *)
From Verif Require Import Base ModelStrconv ModelTypes ModelConfig ModelExpr ModelResolve ModelColumn LemmasBase SpecExpr LemmasExpr PropResolve SpecTyping LemmasTyping.

(** The text of a type with every name replaced by what it stands for; a struct by its own name *)
Section Says.
Variable e : env.
Inductive says : gtype -> bytes -> Prop :=
| sy_basic n : says (TBasic n) n
| sy_struct p n args fs : under e p n args = UStruct fs -> says (TNamed p n args) (type_string (TNamed p n args))
| sy_name p n args u s : under e p n args = UOf u -> says u s -> says (TNamed p n args) s
| sy_pointer u s : says u s -> says (TPointer u) ("*"%char :: s)
| sy_slice u s : says u s -> says (TSlice u) ("["%char :: "]"%char :: s)
| sy_array n u s : says u s -> says (TArray n u) ("["%char :: format_uint n ++ "]"%char :: s).
Definition bare (s : bytes) : Prop := s = [] \/ exists r c, s = r ++ [c] /\ (c = "*"%char \/ c = "]"%char).
Lemma walk_says keys f : forall prev t s r, walk_type f e keys prev t s = Some r -> bare s ->
  match r with Done x => (exists y, says prev y /\ x = s ++ y) \/ bare x | Found k => bare k /\ In k keys end.
Proof.
  induction f as [|f IH]; [ discriminate | ]. intros prev t s r. destruct prev as [ n | p n args | u | u | n u | k v ]; cbn [walk_type].
  - intros [= <-] _. left. exists n. split; [ constructor | reflexivity ].
  - destruct (under e p n args) as [ fs | u | ] eqn:U.
    + intros [= <-] _. left. eexists. split; [ econstructor; exact U | reflexivity ].
    + destruct (bmem s keys) eqn:M; [ intros [= <-] Bs; split; [ exact Bs | now apply bmem_In ] | ]. destruct (bseq (type_string u) (type_string t)); [ intros [= <-] Bs; now right | ].
      intros H Bs. specialize (IH _ _ _ _ H Bs). destruct r as [ k | x ]; [ exact IH | ]. destruct IH as [ (y & Sy & ->) | Bx ]; [ | now right ]. left. exists y. split; [ now apply (sy_name _ _ _ u) | reflexivity ].
    + destruct (bmem s keys) eqn:M; intros [= <-] Bs; [ split; [ exact Bs | now apply bmem_In ] | now right ].
  - intros H Bs. assert (B' : bare (s ++ B "*")) by (right; exists s, "*"%char; split; [ reflexivity | now left ]). specialize (IH _ _ _ _ H B'). destruct r as [ k | x ]; [ exact IH | ].
    destruct IH as [ (y & Sy & ->) | Bx ]; [ | now right ]. left. exists ("*"%char :: y). split; [ now constructor | now rewrite <- app_assoc ].
  - intros H Bs. assert (B' : bare (s ++ B "[]")) by (right; exists (s ++ B "["), "]"%char; split; [ now rewrite <- app_assoc | now right ]). specialize (IH _ _ _ _ H B'). destruct r as [ k | x ]; [ exact IH | ].
    destruct IH as [ (y & Sy & ->) | Bx ]; [ | now right ]. left. eexists. split; [ constructor; exact Sy | now rewrite <- app_assoc ].
  - intros H Bs. assert (B' : bare (s ++ B "[" ++ format_uint n ++ B "]")) by (right; exists (s ++ B "[" ++ format_uint n), "]"%char; split; [ now rewrite <- !app_assoc | now right ]). specialize (IH _ _ _ _ H B'). destruct r as [ k | x ]; [ exact IH | ].
    destruct IH as [ (y & Sy & ->) | Bx ]; [ | now right ]. left. eexists. split; [ constructor; exact Sy | rewrite <- !app_assoc; reflexivity ].
  - intros [= <-] Bs. now right.
Qed.
Definition closed_off (s : bytes) : bool := match rev s with c :: _ => beq c "*" || beq c "]" | [] => true end.
Lemma bare_closed s : bare s -> closed_off s = true.
Proof. unfold closed_off. intros [ -> | (r & c & -> & [ -> | -> ]) ]; [ reflexivity | | ]; now rewrite rev_app_distr. Qed.
Lemma bare_keys d k : In k (map fst (table d)) -> bare k -> k = B "*".
Proof.
  intros I Bk. apply bare_closed in Bk. assert (H : forallb (fun x => negb (closed_off x) || bseq x (B "*")) (map fst (table d)) = true) by (destruct d; vm_compute; reflexivity).
  rewrite forallb_forall in H. specialize (H k I). rewrite Bk in H. now apply bseq_eq in H.
Qed.
Lemma fixed_digits s x : fixed_array s = Some x -> exists n, s = "["%char :: n ++ "]"%char :: x /\ n <> [] /\ Forall (fun b => is_digit b = true) n.
Proof.
  assert (A : forall r, exists m, r = m ++ after_digits r /\ Forall (fun b => is_digit b = true) m).
  { induction r as [|b r (m & E & F)]; [ exists []; now split | ]. cbn [after_digits]. destruct (is_digit b) eqn:Db; [ exists (b :: m); split; [ cbn [app]; now rewrite <- E | now constructor ] | exists []; split; [ reflexivity | constructor ] ]. }
  unfold fixed_array. destruct s as [|c [|b r]]; try discriminate. destruct (beq c "[" && is_digit b) eqn:C; [ | discriminate ]. apply andb_true_iff in C as [C Db]. apply beq_eq in C as ->. destruct (A r) as (m & E & F). destruct (after_digits r) as [|q w]; [ discriminate | ].
  destruct (beq q "]" && bmem w _) eqn:Z; [ | discriminate ]. intros [= <-]. apply andb_true_iff in Z as [Z _]. apply beq_eq in Z as ->. exists (b :: m). split; [ rewrite E; reflexivity | ]. split; [ discriminate | now constructor ].
Qed.
(** The key, with the text of the type: one star is left out, a length is replaced by points *)
Lemma key_says d f t k : column_data_type f e (map fst (table d)) t = Some (Some k) -> In k (map fst (table d)) /\
  (k = B "*" \/ exists y, says t y /\ (y = k \/ y = "*"%char :: k \/ exists n x, In x [B "rune"; B "string"; B "byte"] /\ y = "["%char :: n ++ "]"%char :: x /\ k = B "[...]" ++ x /\ n <> [] /\ Forall (fun b => is_digit b = true) n)).
Proof.
  unfold column_data_type. destruct (walk_type f e (map fst (table d)) t t []) as [r|] eqn:W; [ | discriminate ]. pose proof (walk_says _ _ _ _ _ _ W (or_introl eq_refl)) as H. destruct r as [ x | x ].
  - intros [= <-]. destruct H as [Bx Ix]. split; [ exact Ix | left; now apply (bare_keys d) ].
  - intros [= F]. unfold finish in F. destruct (bmem x _) eqn:M.
    + injection F as <-. apply bmem_In in M. split; [ exact M | ]. destruct H as [ (y & Sy & Ey) | Bx ]; [ cbn [app] in Ey; subst y; right; exists x; split; [ exact Sy | now left ] | left; now apply (bare_keys d) ].
    + destruct x as [|c r]; [ discriminate | ]. destruct (beq c "*" && bmem r _) eqn:Q.
      * injection F as <-. apply andb_true_iff in Q as [Q1 Q2]. apply beq_eq in Q1 as ->. apply bmem_In in Q2. split; [ exact Q2 | ]. destruct H as [ (y & Sy & Ey) | Bx ]; [ cbn [app] in Ey; subst y; right; exists ("*"%char :: r); split; [ exact Sy | right; now left ] | ].
        left. apply (bare_keys d); [ exact Q2 | ]. destruct Bx as [ Bx | (r' & c & E & C) ]; [ discriminate | ]. destruct r' as [|b r']; [ injection E as <- ->; now left | ]. injection E as <- ->. right. now exists r', c.
      * destruct (fixed_array (c :: r)) as [x|] eqn:FA; [ | discriminate ]. destruct (bmem _ _) eqn:M' in F; [ | discriminate ]. injection F as <-. split; [ now apply bmem_In | ].
        assert (Ix : In x [B "rune"; B "string"; B "byte"]). { clear - FA. unfold fixed_array in FA. destruct r as [|b r]; [ discriminate | ]. destruct (_ && is_digit b); [ | discriminate ]. destruct (after_digits r); [ discriminate | ]. destruct (beq a "]" && bmem l _) eqn:Z; [ | discriminate ]. injection FA as <-. apply andb_true_iff in Z as [_ Z]. now apply bmem_In in Z. }
        destruct (fixed_digits _ _ FA) as (n & E & Nn & Dn). right. destruct H as [ (y & Sy & Ey) | Bx ].
        -- cbn [app] in Ey. subst y. exists (c :: r). split; [ exact Sy | ]. right. right. exists n, x. split; [ exact Ix | ]. split; [ exact E | ]. split; [ reflexivity | now split ].
        -- exfalso. apply bare_closed in Bx. rewrite E in Bx. unfold closed_off in Bx. cbn [rev] in Bx. rewrite rev_app_distr in Bx. cbn [rev] in Bx. destruct Ix as [ <- | [ <- | [ <- | [] ] ] ]; discriminate Bx.
Qed.
End Says.
Lemma digits_split n m a b : Forall (fun b => is_digit b = true) n -> Forall (fun b => is_digit b = true) m -> n ++ "]"%char :: a = m ++ "]"%char :: b -> n = m /\ a = b.
Proof.
  revert m. induction n as [|c n IH]; intros [|e m] F G E; cbn [app] in E.
  - now injection E as ->.
  - injection E as <- _. inversion G. discriminate.
  - injection E as -> _. inversion F. discriminate.
  - injection E as -> E. inversion F; inversion G; subst. destruct (IH m) as [-> ->]; auto.
Qed.
Section Meaning.
Variable P : program.
Variable e : env.
Hypothesis Pr : proper P.
Hypothesis Ag : agrees e P.
Lemma import_path_head p : import_path p -> exists c r, p = c :: r /\ letter c.
Proof. intros [ s (c & r & -> & L & _) | s q (c & r & -> & L & _) _ ]; cbn [app]; eauto. Qed.
Lemma unnamed_under u : (forall q m us, u <> TNamed q m us) -> underlying P u u.
Proof. intros N. destruct u as [ n | p n args | u | u | n u | k v ]; [ constructor | destruct (N p n args eq_refl) | constructor.. ]. Qed.
Lemma under_valid t u : valid P t -> underlying P t u -> valid P u.
Proof. intros V U. inversion U as [ ? ? ? ? D E | ? ? ? ? I | | | | | ]; subst; try exact V; [ exact (proj1 (pr_under P Pr _ _ _ _ D E)) | ]. inversion V as [ | ? ? ? ? F | ? ? ? ? ? Vt | | | | ]; subst; constructor; [ inversion F; assumption | assumption ]. Qed.
Lemma under_unnamed t u : underlying P t u -> forall q m us, u <> TNamed q m us.
Proof. intros U. inversion U as [ ? ? ? ? D E | | | | | | ]; subst; try discriminate. exact (proj2 (pr_under P Pr _ _ _ _ D E)). Qed.
Lemma letter_other c : letter c -> c <> "["%char /\ c <> "*"%char.
Proof. intros L. split; intros ->; unfold letter in L; cbn in L; lia. Qed.
(** One step: what the type stands for is written in the same way *)
Lemma says_under t s : says e t s -> valid P t ->
  (exists u, underlying P t u /\ says e u s /\ (forall q m us, u <> TNamed q m us)) \/
  (exists p n args fs, t = TNamed p n args /\ declared P p n args /\ stands_for P p n args = UStruct fs /\ s = type_string t).
Proof.
  intros Sy V. destruct Sy as [ n | p n args fs E | p n args u s E Su | u s Su | u s Su | n u s Su ]; try (left; eexists; split; [ solve [constructor] | split; [ now constructor | discriminate ] ]).
  - inversion V as [ | ? ? ? D | ? ? ? ? I | | | | ]; subst; [ | rewrite (ag_library e P Ag _ _ _ _ I) in E; discriminate ]. rewrite (ag_under e P Ag _ _ _ D) in E. right. exists p, n, args, fs. auto.
  - left. inversion V as [ | ? ? ? D | ? ? ? ? I | | | | ]; subst.
    + rewrite (ag_under e P Ag _ _ _ D) in E. exists u. split; [ now constructor | ]. split; [ exact Su | exact (proj2 (pr_under P Pr _ _ _ _ D E)) ].
    + rewrite (ag_library e P Ag _ _ _ _ I) in E. injection E as <-. exists (TSlice t). split; [ econstructor; exact I | ]. split; [ exact Su | discriminate ].
Qed.
Lemma predeclared_head n : In n predeclared -> exists c r, n = c :: r /\ letter c.
Proof. intros I. assert (H : Forall (fun n => exists c r, n = c :: r /\ letter c) predeclared) by (repeat constructor; eexists _, _; (split; [ reflexivity | ]); unfold letter; right; split; vm_compute; discriminate). rewrite Forall_forall in H. now apply H. Qed.
Lemma struct_head p n args : declared P p n args -> exists c r, type_string (TNamed p n args) = c :: r /\ letter c.
Proof. intros D. destruct (pr_word P Pr _ _ _ D) as (_ & _ & I). destruct (import_path_head p I) as (c & r & -> & L). cbn [type_string app]. eexists c, _. split; [ reflexivity | exact L ]. Qed.
Lemma says_star t s : says e t ("*"%char :: s) -> valid P t -> exists u, underlying P t (TPointer u) /\ says e u s /\ valid P u.
Proof.
  intros Sy V. destruct (says_under t _ Sy V) as [ (u & U & Su & N) | (p & n & args & fs & -> & D & _ & E) ].
  - pose proof (under_valid t u V U) as Vu. inversion Su; subst; try discriminate.
    + inversion Vu as [ ? I | | | | | | ]; subst. destruct (predeclared_head _ I) as (c & r & [= <- _] & L). destruct (letter_other _ L); contradiction.
    + now destruct (N p n args).
    + now destruct (N p n args).
    + inversion Vu; subst. eauto.
  - destruct (struct_head _ _ _ D) as (c & r & E' & L). rewrite E' in E. injection E as <- _. destruct (letter_other _ L); contradiction.
Qed.
Lemma says_bracket t s : says e t ("["%char :: s) -> valid P t ->
  (exists u y, underlying P t (TSlice u) /\ s = "]"%char :: y /\ says e u y /\ valid P u) \/ (exists n u y, underlying P t (TArray n u) /\ s = format_uint n ++ "]"%char :: y /\ says e u y /\ valid P u).
Proof.
  intros Sy V. destruct (says_under t _ Sy V) as [ (u & U & Su & N) | (p & n & args & fs & -> & D & _ & E) ].
  - pose proof (under_valid t u V U) as Vu. inversion Su; subst.
    + inversion Vu as [ ? I | | | | | | ]; subst. destruct (predeclared_head _ I) as (c & r & [= <- _] & L). destruct (letter_other _ L); contradiction.
    + now destruct (N p n args).
    + now destruct (N p n args).
    + inversion Vu; subst. left. eexists _, _. split; [ exact U | ]. split; [ reflexivity | now split ].
    + inversion Vu; subst. right. eexists _, _, _. split; [ exact U | ]. split; [ reflexivity | now split ].
  - destruct (struct_head _ _ _ D) as (c & r & E' & L). rewrite E' in E. injection E as <- _. destruct (letter_other _ L); contradiction.
Qed.
(** A text that starts with a letter *)
Lemma says_word t c s : says e t (c :: s) -> letter c -> valid P t ->
  (underlying P t (TBasic (c :: s)) /\ In (c :: s) predeclared) \/ (exists p n args fs, t = TNamed p n args /\ declared P p n args /\ stands_for P p n args = UStruct fs /\ c :: s = type_string t).
Proof.
  intros Sy L V. destruct (says_under t _ Sy V) as [ (u & U & Su & N) | H ]; [ left | now right ]. pose proof (under_valid t u V U) as Vu. inversion Su; subst.
  - inversion Vu; subst. auto.
  - now destruct (N p n args).
  - now destruct (N p n args).
  - destruct (letter_other _ L); contradiction.
  - destruct (letter_other _ L); contradiction.
  - destruct (letter_other _ L); contradiction.
Qed.
(** A name without a point is no struct *)
Lemma says_scalar t k : says e t k -> In k predeclared -> valid P t -> underlying P t (TBasic k).
Proof.
  intros Sy I V. destruct (predeclared_head k I) as (c & r & -> & L). destruct (says_word t c r Sy L V) as [ [U _] | (p & n & args & fs & -> & D & _ & E) ]; [ exact U | exfalso ].
  assert (H : forallb (fun k => negb (existsb (beq ".") k)) predeclared = true) by (vm_compute; reflexivity). rewrite forallb_forall in H. specialize (H _ I). rewrite E in H. cbn [type_string] in H. rewrite existsb_app in H.
  change (B "." ++ n ++ match args with [] => [] | _ => B "[" ++ join (B ",") (map type_string args) ++ B "]" end) with ("."%char :: n ++ match args with [] => [] | _ => B "[" ++ join (B ",") (map type_string args) ++ B "]" end) in H. cbn [existsb] in H. rewrite orb_true_r in H. discriminate.
Qed.
(** What a type stands for is one type. *)
Lemma underlying_one t a b : underlying P t a -> underlying P t b -> a = b.
Proof.
  intros Ua Ub. inversion Ua as [ ? ? ? ? D E | ? ? ? ? I | | | | | ]; subst; inversion Ub as [ ? ? ? ? D' E' | ? ? ? ? I' | | | | | ]; subst; try reflexivity.
  - congruence.
  - match goal with X : stands_for P ?p ?n [?t] = UOf ?u |- _ => pose proof (ag_library e P Ag p n _ t I') as L end. rewrite (ag_under e P Ag _ _ _ D) in L. congruence.
  - match goal with X : stands_for P ?p ?n [?t] = UOf ?u |- _ => pose proof (ag_library e P Ag p n _ t I) as L end. rewrite (ag_under e P Ag _ _ _ D') in L. congruence.
Qed.
Lemma says_list t x : says e t ("["%char :: "]"%char :: x) -> valid P t -> exists u, underlying P t (TSlice u) /\ says e u x /\ valid P u.
Proof.
  intros Sy V. destruct (says_bracket t _ Sy V) as [ (u & y & U & [= <-] & Su & Vu) | (n & u & y & U & E & _) ]; [ eauto | exfalso ].
  pose proof (format_uint_digits n) as F. pose proof (format_uint_nonempty n) as N. destruct (format_uint n) as [|c r]; [ contradiction | ]. injection E as <- _. inversion F. discriminate.
Qed.
Lemma says_fixed t n x : says e t ("["%char :: n ++ "]"%char :: x) -> n <> [] -> Forall (fun b => is_digit b = true) n -> valid P t -> exists m u, underlying P t (TArray m u) /\ says e u x /\ valid P u.
Proof.
  intros Sy Nn F V. destruct (says_bracket t _ Sy V) as [ (u & y & U & E & Su & Vu) | (m & u & y & U & E & Su & Vu) ].
  - destruct n as [|c n]; [ contradiction | ]. injection E as -> _. inversion F. discriminate.
  - destruct (digits_split _ _ _ _ F (format_uint_digits m) E) as [_ ->]. eauto.
Qed.
Lemma says_points t x : says e t ("["%char :: "."%char :: x) -> valid P t -> False.
Proof.
  intros Sy V. destruct (says_bracket t _ Sy V) as [ (u & y & U & E & Su & Vu) | (m & u & y & U & E & Su & Vu) ]; [ discriminate | ].
  pose proof (format_uint_digits m) as F. pose proof (format_uint_nonempty m) as N. destruct (format_uint m) as [|c r]; [ contradiction | ]. injection E as <- _. inversion F. discriminate.
Qed.
(** The names of structs *)
Lemma identifier_no c n : identifier n -> ~ word_byte c -> ~ In c n.
Proof. intros (b & r & -> & L & F) N [ -> | I ]; [ apply N; now left | ]. rewrite Forall_forall in F. exact (N (F _ I)). Qed.
Lemma last_dot p n q m : ~ In "."%char n -> ~ In "."%char m -> p ++ "."%char :: n = q ++ "."%char :: m -> p = q /\ n = m.
Proof.
  intros Nn Nm. revert q. induction p as [|c p IH]; intros [|b q] E; cbn [app] in E.
  - now injection E as ->.
  - injection E as <- E. destruct Nn. rewrite E. apply in_or_app. right. now left.
  - injection E as -> E. destruct Nm. rewrite <- E. apply in_or_app. right. now left.
  - injection E as -> E. destruct (IH q E) as [-> ->]. auto.
Qed.
Lemma type_string_name p n args q m : declared P p n args -> type_string (TNamed p n args) = q ++ "."%char :: m -> ~ In "."%char m -> ~ In "["%char m -> ~ In "["%char q -> p = q /\ n = m /\ args = [].
Proof.
  intros D E N1 N2 N3. destruct (pr_word P Pr _ _ _ D) as (Wn & _ & _). assert (Nd : ~ In "."%char n) by (apply identifier_no; [ exact Wn | unfold word_byte, letter, digit; cbn; intros [ X | [ X | X ] ]; [ lia | lia | discriminate ] ]).
  assert (A : args = []). { destruct args as [|u us]; [ reflexivity | exfalso ]. assert (I : In "["%char (q ++ "."%char :: m)) by (rewrite <- E; cbn [type_string]; apply in_or_app; right; apply in_or_app; right; apply in_or_app; right; now left). apply in_app_or in I as [ I | [ I | I ] ]; [ contradiction | discriminate | contradiction ]. }
  subst args. cbn [type_string] in E. rewrite app_nil_r in E. destruct (last_dot p n q m Nd N1 E) as [-> ->]. auto.
Qed.
End Meaning.
