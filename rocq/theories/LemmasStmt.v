(** Conditions written by the operators, read back. *)
From Verif Require Import Base ModelStrconv ModelCompiler ModelGen ModelRuntime ModelStmt SpecSql SpecGen SpecRuntime SpecStmt
  LemmasBase LemmasSql LemmasSql2 LemmasSql3 LemmasGen LemmasGen2 LemmasSql4 LemmasRuntime.

Section W.
Context {V : Type}.
Notation tok := (tok V).
Notation wc := (where_clause V).
Implicit Types (fl : flavour) (w : wc) (s : sqlstmt V) (ts r : list tok).

(** Induction over conditions *)
Section Ind.
Variable P : wc -> Prop.
Hypothesis PAnd : forall cs, Forall P cs -> P (WAnd cs).
Hypothesis POr : forall cs, Forall P cs -> P (WOr cs).
Hypothesis POther : forall w, match w with WAnd _ | WOr _ => False | _ => True end -> P w.
Fixpoint where_induction w : P w :=
  let all := fix all (cs : list wc) : Forall P cs := match cs with [] => Forall_nil P | c :: cs' => Forall_cons c (where_induction c) (all cs') end in
  match w with
  | WAnd cs => PAnd cs (all cs)
  | WOr cs => POr cs (all cs)
  | w => POther w I
  end.
End Ind.

(** ** The tokens and arguments of a condition *)
Fixpoint sep_by (t : tok) (l : list (list tok)) : list tok :=
  match l with [] => [] | [x] => x | x :: l' => x ++ t :: sep_by t l' end.
Definition boxed (t : tok) (l : list (list tok)) : list tok := match l with [] => [] | _ => Sym "(" :: sep_by t l ++ [Sym ")"] end.
Definition ko (x : string) : tok := Kw (B x).

Section Fl.
Variable fl : flavour.
Notation nm c := (Name (V:=V) (name_of fl c)).
Fixpoint wtoks w : list tok :=
  match w with
  | WAnd cs => boxed (ko "AND") (map wtoks cs)
  | WOr cs => boxed (ko "OR") (map wtoks cs)
  | WEqual c v => [nm c; Op (B "="); Val (given c v)]
  | WNotEqual c v => [nm c; Op (B "<>"); Val (given c v)]
  | WGreaterThan c v => [nm c; Op (B ">"); Val (given c v)]
  | WGreaterThanOrEqual c v => [nm c; Op (B ">="); Val (given c v)]
  | WLessThan c v => [nm c; Op (B "<"); Val (given c v)]
  | WLessThanOrEqual c v => [nm c; Op (B "<="); Val (given c v)]
  | WIn c vs => [nm c; ko "IN"] ++ row_toks (vals (map (given c) vs))
  | WNotIn c vs => [nm c; ko "NOT"; ko "IN"] ++ row_toks (vals (map (given c) vs))
  | WLike c v => [nm c; ko "LIKE"; Val (given c v)]
  | WNotLike c v => [nm c; ko "NOT"; ko "LIKE"; Val (given c v)]
  | WIsNull c => [nm c; ko "IS"; ko "NULL"]
  | WIsNotNull c => [nm c; ko "IS"; ko "NOT"; ko "NULL"]
  | WBetween c lo hi => [nm c; ko "BETWEEN"; Val (given c lo); ko "AND"; Val (given c hi)]
  | WNotBetween c lo hi => [nm c; ko "NOT"; ko "BETWEEN"; Val (given c lo); ko "AND"; Val (given c hi)]
  end.
End Fl.
Fixpoint wvals w : list V :=
  match w with
  | WAnd cs | WOr cs => concat (map wvals cs)
  | WEqual c v | WNotEqual c v | WGreaterThan c v | WGreaterThanOrEqual c v | WLessThan c v | WLessThanOrEqual c v
  | WLike c v | WNotLike c v => [given c v]
  | WIn c vs | WNotIn c vs => map (given c) vs
  | WIsNull _ | WIsNotNull _ => []
  | WBetween c lo hi | WNotBetween c lo hi => [given c lo; given c hi]
  end.

(** ** Writing *)
Definition in_step (d : driver) s : Prop := d = DPostgres -> s_pos s = length (s_args s).
(** [writes d f vs ts]: [f] appends a text spelling [ts] with the arguments [vs]. *)
Definition writes (d : driver) (f : sqlstmt V -> res (sqlstmt V)) (vs : list V) (ts : list tok) : Prop :=
  forall s, in_step d s -> exists text s', f s = Ok s' /\ in_step d s' /\ s_text s' = s_text s ++ text /\ s_args s' = s_args s ++ vs /\
  spells (flavour_of d) (length (s_args s)) text vs ts.

Lemma given_arg c (v : V) : to_arg c v = given c v.
Proof. destruct c; reflexivity. Qed.
Lemma text_name (c : colclause V) : col_name c = text_of c.
Proof. destruct c; reflexivity. Qed.
Lemma col_spells d (c : colclause V) n : names_a_column (flavour_of d) c -> spells (flavour_of d) n (col_name c) [] [Name (V:=V) (name_of (flavour_of d) c)].
Proof.
  intros [x L]. unfold name_of. rewrite text_name. rewrite L. apply spells_lex; [exact L|reflexivity].
Qed.
Lemma var_text d s : in_step d s -> quote_var d (S (s_pos s)) = placeholder (flavour_of d) (S (length (s_args s))).
Proof. unfold in_step. intros I. rewrite quote_var_place. destruct d; cbn [flavour_of placeholder]; try reflexivity. rewrite I by reflexivity. reflexivity. Qed.

Lemma write_one_spells d op (ots : list tok) c v : names_a_column (flavour_of d) c ->
  (forall n, spells (flavour_of d) n op [] ots) -> headed op = true -> op <> [] -> tailed op = true ->
  writes d (write_one d op c v) [given c v] ([Name (name_of (flavour_of d) c)] ++ ots ++ [Val (given c v)]).
Proof.
  intros NC SO H NE T s IS. unfold write_one, var. cbn [s_pos]. rewrite given_arg. eexists. eexists. split; [reflexivity|].
  split; [unfold in_step; cbn; intros D; rewrite app_length, IS by exact D; cbn; lia|]. cbn [put s_text s_args].
  split; [reflexivity|]. split; [reflexivity|]. rewrite var_text by exact IS.
  apply spells_rr; [apply col_spells, NC| |destruct op; [contradiction|exact H]|destruct op; [contradiction|discriminate]].
  apply spells_lr; [apply SO|apply spells_var|exact T].
Qed.
Lemma write_two_spells d op (ots : list tok) c lo hi : names_a_column (flavour_of d) c ->
  (forall n, spells (flavour_of d) n op [] ots) -> headed op = true -> op <> [] -> tailed op = true ->
  writes d (write_two d op c lo hi) [given c lo; given c hi]
    ([Name (name_of (flavour_of d) c)] ++ ots ++ [Val (given c lo)] ++ [ko "AND"] ++ [Val (given c hi)]).
Proof.
  intros NC SO H NE T s IS. unfold write_two, var. cbn [s_pos s_args s_text]. rewrite !given_arg. eexists. eexists. split; [reflexivity|].
  assert (IS2 : in_step d {| s_text := s_text s; s_pos := S (s_pos s); s_args := s_args s ++ [given c lo] |})
    by (unfold in_step; cbn; intros D; rewrite app_length, IS by exact D; cbn; lia).
  split; [unfold in_step; cbn; intros D; rewrite !app_length, IS by exact D; cbn; lia|]. cbn [put s_text s_args].
  split; [reflexivity|]. split; [rewrite <- app_assoc; reflexivity|]. rewrite var_text by exact IS.
  pose proof (var_text d _ IS2) as VT. cbn [s_pos s_args] in VT. rewrite VT.
  apply spells_rr; [apply col_spells, NC| |destruct op; [contradiction|exact H]|destruct op; [contradiction|discriminate]].
  apply spells_lr; [apply SO| |exact T]. change [given c lo; given c hi] with ([given c lo] ++ [given c hi]).
  apply spells_app_r; [apply spells_var| |reflexivity|discriminate].
  apply spells_lr; [destruct d; unfold ko; sconst| |reflexivity].
  replace (S (length (s_args s ++ [given c lo]))) with (S (length (s_args s) + length [given c lo])) by (rewrite app_length; reflexivity).
  apply spells_var.
Qed.
Lemma pg_vars n : forall pos top, 0 < n -> top = pos + n ->
  concat (map (fun i => if Nat.ltb i (top - 1) then quote_var DPostgres (i + 1) ++ B "," else quote_var DPostgres (i + 1)) (seq pos n))
  = join (B ",") (places Postgres pos n).
Proof.
  induction n as [|n IH]; intros pos top P E; [lia|]. rewrite places_S. cbn [seq map concat].
  destruct n as [|n].
  - cbn [seq map concat places]. replace (Nat.ltb pos (top - 1)) with false by (symmetry; apply Nat.ltb_ge; lia).
    rewrite app_nil_r, Nat.add_1_r. reflexivity.
  - replace (Nat.ltb pos (top - 1)) with true by (symmetry; apply Nat.ltb_lt; lia).
    rewrite (IH (S pos) top) by lia. destruct (places Postgres (S pos) (S n)) as [|p ps] eqn:EP; [discriminate|].
    cbn [join]. rewrite <- app_assoc, Nat.add_1_r. reflexivity.
Qed.
Lemma write_many_spells d op (ots : list tok) c vs : names_a_column (flavour_of d) c -> vs <> [] \/ d = DPostgres ->
  (forall n, spells (flavour_of d) n op [] ots) -> headed op = true -> op <> [] -> tailed op = true ->
  writes d (write_many d op c vs) (map (given c) vs) ([Name (name_of (flavour_of d) c)] ++ ots ++ row_toks (vals (map (given c) vs))).
Proof.
  intros NC NV SO H NE T s IS. unfold write_many.
  assert (MV : map (to_arg c) vs = map (given c) vs) by (apply map_ext; intros; apply given_arg). rewrite MV.
  set (us := map (given c) vs) in *. assert (NU : us <> [] \/ d = DPostgres) by (destruct NV; [left; unfold us; destruct vs; [contradiction|discriminate]|now right]).
  assert (VS : exists s', vars d s us = Ok (s', B "(" ++ join (B ",") (places (flavour_of d) (length (s_args s)) (length us)) ++ B ")")
    /\ in_step d s' /\ s_text s' = s_text s /\ s_args s' = s_args s ++ us).
  { unfold vars. destruct d; cbn [flavour_of].
    - rewrite (repeat_tail_places MySQL (length (s_args s))); [|discriminate|destruct NU; [destruct us; [contradiction|cbn; lia]|discriminate]].
      cbn [bind]. eexists. split; [reflexivity|]. split; [discriminate|]. auto.
    - exists {| s_text := s_text s; s_pos := s_pos s + length us; s_args := s_args s ++ us |}. split; [|split; [|split; [reflexivity|reflexivity]]].
      + do 3 f_equal. f_equal. rewrite <- IS by reflexivity. destruct us as [|u us']; [reflexivity|]. apply pg_vars; [cbn; lia|reflexivity].
      + intros _. cbn. rewrite app_length, IS by reflexivity. reflexivity.
    - rewrite (repeat_tail_places SQLite (length (s_args s))); [|discriminate|destruct NU; [destruct us; [contradiction|cbn; lia]|discriminate]].
      cbn [bind]. eexists. split; [reflexivity|]. split; [discriminate|]. auto. }
  destruct VS as (s' & E & IS' & ET & EA). rewrite E. cbn [bind fst snd]. eexists. eexists. split; [reflexivity|].
  split; [exact IS'|]. cbn [put s_text s_args]. rewrite ET, EA. split; [reflexivity|]. split; [reflexivity|].
  apply spells_rr; [apply col_spells, NC| |destruct op; [contradiction|exact H]|destruct op; [contradiction|discriminate]].
  apply spells_lr; [apply SO|apply spells_row|exact T].
Qed.
Lemma vars_empty d s c op : d <> DPostgres -> write_many d op c [] s = Panic.
Proof. intros N. unfold write_many, vars. destruct d; [reflexivity|contradiction|reflexivity]. Qed.

(** Empty lists panic on the databases whose placeholders have no number. *)
Fixpoint empty_in w : Prop :=
  let any := fix any (cs : list wc) := match cs with [] => False | c :: cs' => empty_in c \/ any cs' end in
  match w with
  | WAnd cs | WOr cs => any cs
  | WIn _ vs | WNotIn _ vs => vs = []
  | _ => False
  end.
Definition any_in (cs : list wc) : Prop := exists c, In c cs /\ empty_in c.
Lemma any_in_fix (cs : list wc) : (fix any (cs : list wc) := match cs with [] => False | c :: cs' => empty_in c \/ any cs' end) cs <-> any_in cs.
Proof.
  unfold any_in. induction cs as [|c cs IH]; [split; [contradiction|intros (c & [] & _)]|]. rewrite IH. split.
  - intros [H|(x & I & H)]; [exists c|exists x]; split; auto; [now left|now right].
  - intros (x & [->|I] & H); [now left|right; eauto].
Qed.
Lemma all_fix (P : wc -> Prop) (cs : list wc) : (fix all (cs : list wc) := match cs with [] => True | c :: cs' => P c /\ all cs' end) cs <-> Forall P cs.
Proof.
  induction cs as [|c cs IH]; [split; auto|]. rewrite IH. split; [intros [A C]; constructor; assumption|intros F; inversion F; auto].
Qed.
Lemma empty_in_dec w : empty_in w \/ ~ empty_in w.
Proof.
  induction w as [cs F|cs F|w H] using where_induction.
  - change (empty_in (WAnd cs)) with ((fix any (cs : list wc) := match cs with [] => False | c :: cs' => empty_in c \/ any cs' end) cs).
    rewrite any_in_fix. unfold any_in. induction F as [|c cs D F IH]; [right; intros (c & [] & _)|].
    destruct D as [D|D]; [left; exists c; split; [now left|exact D]|]. destruct IH as [(x & I & E)|N]; [left; exists x; split; [now right|exact E]|].
    right. intros (x & [<-|I] & E); [contradiction|apply N; eauto].
  - change (empty_in (WOr cs)) with ((fix any (cs : list wc) := match cs with [] => False | c :: cs' => empty_in c \/ any cs' end) cs).
    rewrite any_in_fix. unfold any_in. induction F as [|c cs D F IH]; [right; intros (c & [] & _)|].
    destruct D as [D|D]; [left; exists c; split; [now left|exact D]|]. destruct IH as [(x & I & E)|N]; [left; exists x; split; [now right|exact E]|].
    right. intros (x & [<-|I] & E); [contradiction|apply N; eauto].
  - destruct w; try contradiction; try (right; exact (fun x => x)).
    + destruct vs; [now left|right; discriminate].
    + destruct vs; [now left|right; discriminate].
Qed.

(** The loop over the following clauses *)
Definition rest_of d (sep : bytes) := fix rest (cs : list wc) (s : sqlstmt V) : res (sqlstmt V) :=
  match cs with [] => Ok s | c :: cs' => let* s := write_where d c (put s sep) in rest cs' s end.
Definition group_of d (sep : bytes) (cs : list wc) s : res (sqlstmt V) :=
  match cs with
  | [] => Ok s
  | c :: cs' => let* s := write_where d c (put s (B "(")) in let* s := rest_of d sep cs' s in Ok (put s (B ")"))
  end.
Lemma write_and d cs s : write_where d (WAnd cs) s = group_of d (B " AND ") cs s.
Proof. destruct cs; reflexivity. Qed.
Lemma write_or d cs s : write_where d (WOr cs) s = group_of d (B " OR ") cs s.
Proof. destruct cs; reflexivity. Qed.

Lemma in_step_put d s x : in_step d s -> in_step d (put s x).
Proof. exact (fun H => H). Qed.

Lemma rest_spells d sep (t : tok) cs : (forall n, spells (flavour_of d) n sep [] [t]) -> headed sep = true -> sep <> [] -> tailed sep = true ->
  Forall (fun c => writes d (write_where d c) (wvals c) (wtoks (flavour_of d) c)) cs ->
  forall s0 s base bvs bts, in_step d s -> s_text s = s_text s0 ++ base -> s_args s = s_args s0 ++ bvs ->
  spells (flavour_of d) (length (s_args s0)) base bvs bts ->
  exists text s', rest_of d sep cs s = Ok s' /\ in_step d s' /\ s_text s' = s_text s0 ++ text /\ s_args s' = s_args s0 ++ bvs ++ concat (map wvals cs) /\
  spells (flavour_of d) (length (s_args s0)) text (bvs ++ concat (map wvals cs)) (bts ++ concat (map (fun c => t :: wtoks (flavour_of d) c) cs)).
Proof.
  intros SS H NE T F. induction F as [|c cs W F IH]; intros s0 s base bvs bts IS ET EA SP.
  - exists base, s. cbn [map concat rest_of]. rewrite !app_nil_r. auto.
  - cbn [rest_of]. destruct (W (put s sep) (in_step_put _ _ _ IS)) as (tx & s1 & E1 & IS1 & ET1 & EA1 & SP1). rewrite E1. cbn [bind].
    cbn [put s_text s_args] in ET1, EA1, SP1. destruct (IH s0 s1 (base ++ sep ++ tx) (bvs ++ wvals c) (bts ++ [t] ++ wtoks (flavour_of d) c) IS1) as (text & s' & E & IS' & ET' & EA' & SP').
    + rewrite ET1, ET, <- !app_assoc. reflexivity.
    + rewrite EA1, EA, <- !app_assoc. reflexivity.
    + apply spells_app_r; [exact SP| |destruct sep; [contradiction|exact H]|destruct sep; [contradiction|discriminate]].
      apply spells_lr; [apply SS| |exact T]. rewrite EA, app_length in SP1. exact SP1.
    + exists text, s'. split; [exact E|]. split; [exact IS'|]. split; [exact ET'|]. split; [rewrite EA', <- !app_assoc; reflexivity|].
      eapply spells_eq; [exact SP'|reflexivity|rewrite <- !app_assoc; reflexivity|cbn [map concat]; rewrite <- !app_assoc; reflexivity].
Qed.
Lemma sep_by_concat {A} (t : tok) (f : A -> list tok) x l : sep_by t (map f (x :: l)) = f x ++ concat (map (fun c => t :: f c) l).
Proof.
  revert x. induction l as [|y l IH]; intros x; [cbn; rewrite app_nil_r; reflexivity|].
  change (sep_by t (map f (x :: y :: l))) with (f x ++ t :: sep_by t (map f (y :: l))). rewrite IH. reflexivity.
Qed.
Lemma group_spells d sep (t : tok) cs : (forall n, spells (flavour_of d) n sep [] [t]) -> headed sep = true -> sep <> [] -> tailed sep = true ->
  Forall (fun c => writes d (write_where d c) (wvals c) (wtoks (flavour_of d) c)) cs ->
  writes d (group_of d sep cs) (concat (map wvals cs)) (boxed t (map (wtoks (flavour_of d)) cs)).
Proof.
  intros SS H NE T F s IS. destruct F as [|c cs W F].
  - exists [], s. cbn. rewrite !app_nil_r. repeat split; auto. apply spells_nil.
  - cbn [group_of]. destruct (W (put s (B "(")) (in_step_put _ _ _ IS)) as (tx & s1 & E1 & IS1 & ET1 & EA1 & SP1). rewrite E1. cbn [bind].
    cbn [put s_text s_args] in ET1, EA1, SP1.
    destruct (rest_spells d sep t cs SS H NE T F s s1 (B "(" ++ tx) (wvals c) ([Sym "("] ++ wtoks (flavour_of d) c) IS1) as (text & s' & E & IS' & ET' & EA' & SP').
    + rewrite ET1, <- app_assoc. reflexivity.
    + exact EA1.
    + apply spells_lr; [destruct d; sconst|exact SP1|reflexivity].
    + rewrite E. cbn [bind]. exists (text ++ B ")"), (put s' (B ")")). split; [reflexivity|]. split; [exact IS'|].
      cbn [put s_text s_args]. split; [rewrite ET', <- app_assoc; reflexivity|]. split; [exact EA'|].
      cbn [map boxed]. change (wtoks ?f c :: map ?g cs) with (map g (c :: cs)). rewrite sep_by_concat.
      eapply spells_eq; [apply spells_app_r with (s2 := B ")") (vs2 := []) (ts2 := [Sym ")"]); [exact SP'| |reflexivity|discriminate]|reflexivity|rewrite app_nil_r; reflexivity|].
      * destruct d; sconst.
      * rewrite <- !app_assoc. reflexivity.
Qed.

Lemma where_spells d w : all_columns (names_a_column (flavour_of d)) w -> ~ empty_in w \/ d = DPostgres ->
  writes d (write_where d w) (wvals w) (wtoks (flavour_of d) w).
Proof.
  induction w as [cs F|cs F|w O] using where_induction; intros C N.
  - intros s. rewrite write_and. revert s. change (writes d (group_of d (B " AND ") cs) (wvals (WAnd cs)) (wtoks (flavour_of d) (WAnd cs))).
    apply group_spells; try reflexivity; try discriminate; [intros; unfold ko; sconst|].
    apply all_fix in C. apply Forall_forall. intros c I. rewrite Forall_forall in F, C. apply F; [exact I|apply C, I|].
    destruct N as [N|N]; [left|now right]. intros E. apply N. apply any_in_fix. exists c. auto.
  - intros s. rewrite write_or. revert s. change (writes d (group_of d (B " OR ") cs) (wvals (WOr cs)) (wtoks (flavour_of d) (WOr cs))).
    apply group_spells; try reflexivity; try discriminate; [intros; unfold ko; sconst|].
    apply all_fix in C. apply Forall_forall. intros c I. rewrite Forall_forall in F, C. apply F; [exact I|apply C, I|].
    destruct N as [N|N]; [left|now right]. intros E. apply N. apply any_in_fix. exists c. auto.
  - assert (NULL : forall (c : colclause V) tx (ots : list tok), names_a_column (flavour_of d) c -> (forall n, spells (flavour_of d) n tx [] ots) -> headed tx = true -> tx <> [] ->
      writes d (fun s => Ok (put s (col_name c ++ tx))) [] ([Name (name_of (flavour_of d) c)] ++ ots)).
    { intros c tx ots NC SP H NE s IS. exists (col_name c ++ tx), (put s (col_name c ++ tx)). cbn [put s_text s_args]. rewrite app_nil_r. repeat split; auto.
      apply spells_rr; [apply col_spells, NC|apply SP|exact H|exact NE]. }
    destruct w; try contradiction; cbn [write_where wvals wtoks all_columns] in *;
    try (apply (write_one_spells d _ [_]); [exact C|intros; sconst|reflexivity|discriminate|reflexivity]);
    try (apply (write_one_spells d _ [_; _]); [exact C|intros; sconst|reflexivity|discriminate|reflexivity]);
    try (apply (write_many_spells d _ [_]); [exact C|destruct N; [left; exact H|now right]|intros; sconst|reflexivity|discriminate|reflexivity]);
    try (apply (write_many_spells d _ [_; _]); [exact C|destruct N; [left; exact H|now right]|intros; sconst|reflexivity|discriminate|reflexivity]);
    try (apply (write_two_spells d _ [_]); [exact C|intros; sconst|reflexivity|discriminate|reflexivity]);
    try (apply (write_two_spells d _ [_; _]); [exact C|intros; sconst|reflexivity|discriminate|reflexivity]).
    + apply (NULL c (B " IS NULL") [ko "IS"; ko "NULL"]); [exact C|intros; sconst|reflexivity|discriminate].
    + apply (NULL c (B " IS NOT NULL") [ko "IS"; ko "NOT"; ko "NULL"]); [exact C|intros; sconst|reflexivity|discriminate].
Qed.
End W.
