(** Conditions written by the operators: parsing. *)
From Verif Require Import Base ModelStrconv ModelCompiler ModelGen ModelRuntime ModelStmt SpecSql SpecGen SpecRuntime SpecStmt
  LemmasBase LemmasSql LemmasSql2 LemmasSql3 LemmasGen LemmasGen2 LemmasSql4 LemmasRuntime LemmasStmt.

Section P.
Context {V : Type}.
Notation tok := (tok V).
Notation wc := (where_clause V).
Implicit Types (fl : flavour) (w : wc) (ts r : list tok).

(** ** Cutting at the ANDs *)
Lemma split_and_nonempty ts : forall d i, split_and d i ts <> [].
Proof.
  assert (P : forall (t : tok) x, match x with a :: l => (t :: a) :: l | [] => [[t]] end <> []) by (intros t [|a l]; discriminate).
  destruct ts as [|t ts]; intros d i; [discriminate|]. cbn [split_and].
  destruct (is_sym "(" t); [apply P|]. destruct (is_sym ")" t); [apply P|]. destruct d; [|apply P].
  destruct (is_kw (B "AND") t); [destruct i; [apply P|discriminate]|]. destruct (is_kw (B "BETWEEN") t); apply P.
Qed.
Lemma split_and_deep ts : forall d e i r, until (fun _ => false) d ts = Some (ts, []) ->
  split_and (S (d + e)) i (ts ++ r) = glue ts (split_and (S e) i r).
Proof.
  induction ts as [|t ts IH]; intros d e i r H.
  - destruct d; [|discriminate H]. cbn [app Nat.add]. unfold glue. destruct (split_and (S e) i r) eqn:E; [destruct (split_and_nonempty _ _ _ E)|reflexivity].
  - cbn [until split_and app] in *.
    assert (P : forall x, match x with Some (a, b) => Some (t :: a, b) | None => None end = Some (t :: ts, []) -> x = Some (ts, @nil tok)).
    { intros [[a b]|] E; [inversion E; reflexivity|discriminate]. }
    assert (G : forall x : list (list tok), x <> [] -> match glue ts x with a :: l => (t :: a) :: l | [] => [[t]] end = glue (t :: ts) x).
    { intros [|a l] N; [congruence|reflexivity]. }
    pose proof (split_and_nonempty r (S e) i) as NE.
    destruct (is_sym "(" t).
    { apply P in H. change (S (S (d + e))) with (S (S d + e)). rewrite (IH (S d) e i r H). apply G, NE. }
    destruct (is_sym ")" t).
    { destruct d; [discriminate|]. apply P in H. cbn [pred Nat.add]. rewrite (IH d e i r H). apply G, NE. }
    assert (H' : until (fun _ => false) d ts = Some (ts, [])) by (destruct d; apply P in H; exact H).
    rewrite (IH d e i r H'). apply G, NE.
Qed.
Definition cuts ts : Prop := forall r, split_and 0 false (ts ++ r) = glue ts (split_and 0 false r).
Lemma cuts_nil : cuts [].
Proof. intros r. unfold glue. cbn [app]. destruct (split_and 0 false r) eqn:E; [destruct (split_and_nonempty _ _ _ E)|reflexivity]. Qed.
Lemma cuts_one (t : tok) : plain_tok t = true -> is_kw (B "AND") t = false -> is_kw (B "BETWEEN") t = false -> cuts [t].
Proof.
  unfold plain_tok. intros P A W r. cbn [app split_and]. destruct (is_sym "(" t), (is_sym ")" t); try discriminate. rewrite A, W.
  destruct (split_and 0 false r) eqn:E; [destruct (split_and_nonempty _ _ _ E)|reflexivity].
Qed.
Lemma cuts_app a b : cuts a -> cuts b -> cuts (a ++ b).
Proof.
  intros A C r. rewrite <- app_assoc, A, C. destruct (split_and 0 false r) eqn:E; [destruct (split_and_nonempty _ _ _ E)|].
  cbn [glue]. rewrite app_assoc. reflexivity.
Qed.
Lemma cuts_paren ts : balanced ts -> cuts (Sym "(" :: ts ++ [Sym ")"]).
Proof.
  intros Bl r. cbn [app split_and is_sym beq Ascii.eqb Bool.eqb]. rewrite <- app_assoc.
  pose proof (split_and_deep ts 0 0 false ([Sym ")"] ++ r) Bl) as E. cbn [Nat.add] in E. rewrite E.
  cbn [app split_and is_sym beq Ascii.eqb Bool.eqb pred]. destruct (split_and 0 false r) eqn:ER; [destruct (split_and_nonempty _ _ _ ER)|].
  cbn [glue]. cbn [app]. rewrite <- app_assoc. reflexivity.
Qed.
Lemma cuts_split ts : cuts ts -> split_and 0 false ts = [ts].
Proof. intros C. specialize (C []). rewrite app_nil_r in C. rewrite C. cbn. rewrite app_nil_r. reflexivity. Qed.
Lemma cuts_and l : l <> [] -> Forall cuts l -> split_and 0 false (sep_by (ko "AND") l) = l.
Proof.
  intros NE F. induction F as [|x l C F IH]; [congruence|]. destruct l as [|y l]; [cbn [sep_by]; apply cuts_split, C|].
  change (sep_by (ko "AND") (x :: y :: l)) with (x ++ ko "AND" :: sep_by (ko "AND") (y :: l)). rewrite C.
  change (split_and 0 false (ko "AND" :: ?t)) with ([] :: split_and 0 false t). rewrite IH by discriminate. cbn [glue]. rewrite app_nil_r. reflexivity.
Qed.
Lemma split_or (l : list (list tok)) : l <> [] -> Forall (passes (is_kw (B "OR"))) l -> split (is_kw (B "OR")) 0 (sep_by (ko "OR") l) = l.
Proof.
  intros NE F. induction F as [|x l C F IH]; [congruence|]. destruct l as [|y l]; [cbn [sep_by]; apply split_one, C|].
  change (sep_by (ko "OR") (x :: y :: l)) with (x ++ ko "OR" :: sep_by (ko "OR") (y :: l)).
  rewrite split_sep by (auto; reflexivity). rewrite IH by discriminate. reflexivity.
Qed.

(** ** The parts of a condition *)
Lemma passes_sep_by sep (t : tok) l : plain_tok t = true -> sep t = false -> Forall (passes sep) l -> passes sep (sep_by t l).
Proof.
  intros P S F. induction F as [|x l C F IH]; [apply passes_nil|]. destruct l as [|y l]; [exact C|].
  change (sep_by t (x :: y :: l)) with (x ++ t :: sep_by t (y :: l)). apply passes_app; [exact C|]. apply passes_cons; assumption.
Qed.
Lemma passes_boxed sep (t : tok) l : plain_tok t = true -> Forall balanced l -> passes sep (boxed t l).
Proof.
  intros P F. destruct l as [|x l]; [apply passes_nil|]. cbn [boxed]. apply passes_paren. apply passes_sep_by; auto.
Qed.
Lemma cuts_boxed (t : tok) l : plain_tok t = true -> Forall balanced l -> cuts (boxed t l).
Proof.
  intros P F. destruct l as [|x l]; [apply cuts_nil|]. cbn [boxed]. apply cuts_paren. apply passes_sep_by; auto.
Qed.
Lemma balanced_vals (vs : list V) : balanced (commas (vals vs)).
Proof. apply balanced_commas. apply Forall_forall. intros x I. apply in_map_iff in I. destruct I as (v & <- & _). reflexivity. Qed.
Lemma passes_row sep (vs : list V) : passes sep (row_toks (vals vs)).
Proof. apply passes_paren, balanced_vals. Qed.

(** keywords that conditions contain outside parentheses *)
Definition own_words : list bytes := map B ["NOT"; "IN"; "LIKE"; "IS"; "NULL"; "BETWEEN"; "AND"]%string.
Definition harmless (sep : tok -> bool) : Prop :=
  (forall n, sep (Name n) = false) /\ (forall o, sep (Op o) = false) /\ (forall v, sep (Val v) = false) /\ (forall k, In k own_words -> sep (Kw k) = false).
Ltac own := unfold own_words; cbn [map In]; tauto.
Lemma wtoks_passes sep fl w : harmless sep -> passes sep (wtoks fl w).
Proof.
  intros (HN & HO & HV & HK). revert sep HN HO HV HK.
  induction w as [cs F|cs F|w O] using where_induction; intros sep HN HO HV HK.
  - cbn [wtoks]. apply passes_boxed; [reflexivity|]. apply Forall_forall. intros x I. apply in_map_iff in I. destruct I as (c & <- & I).
    rewrite Forall_forall in F. apply (F c I); reflexivity.
  - cbn [wtoks]. apply passes_boxed; [reflexivity|]. apply Forall_forall. intros x I. apply in_map_iff in I. destruct I as (c & <- & I).
    rewrite Forall_forall in F. apply (F c I); reflexivity.
  - destruct w; try contradiction; cbn [wtoks app]; unfold ko;
    repeat first [apply passes_row | apply passes_cons; [reflexivity|first [apply HN|apply HO|apply HV|apply HK; own]|] | apply passes_nil].
Qed.
Lemma wtoks_balanced fl w : balanced (wtoks fl w).
Proof. apply wtoks_passes. repeat split; reflexivity. Qed.
Lemma harmless_or : harmless (is_kw (B "OR")).
Proof. repeat split; try reflexivity. intros k I. unfold own_words in I. cbn [map In] in I. repeat destruct I as [<-|I]; try reflexivity. contradiction. Qed.
Lemma wtoks_cuts fl w : cuts (wtoks fl w).
Proof.
  assert (BF : forall (cs : list wc), Forall balanced (map (wtoks fl) cs)).
  { intros cs. apply Forall_forall. intros x I. apply in_map_iff in I. destruct I as (c & <- & _). apply wtoks_balanced. }
  assert (C1 : forall (t : tok) ts, plain_tok t = true -> is_kw (B "AND") t = false -> is_kw (B "BETWEEN") t = false -> cuts ts -> cuts (t :: ts)).
  { intros t ts P A W C. change (t :: ts) with ([t] ++ ts). apply cuts_app; [apply cuts_one; assumption|exact C]. }
  assert (BT : forall lo hi, cuts [Kw (B "BETWEEN"); Val lo; Kw (B "AND"); Val hi]).
  { intros lo hi r. change (split_and 0 false ([Kw (B "BETWEEN"); Val lo; Kw (B "AND"); Val hi] ++ r)) with
    (let push (t : tok) x := match x with a :: l => (t :: a) :: l | [] => [[t]] end in
     push (Kw (B "BETWEEN")) (push (Val lo) (push (Kw (B "AND")) (push (Val hi) (split_and 0 false r))))).
    destruct (split_and 0 false r) eqn:E; [destruct (split_and_nonempty _ _ _ E)|]. reflexivity. }
  destruct w; cbn [wtoks app]; unfold ko; try (apply cuts_boxed; [reflexivity|apply BF]);
  repeat first [apply BT | apply cuts_paren, balanced_vals | apply C1; [reflexivity|reflexivity|reflexivity|] | apply cuts_nil].
Qed.

(** ** What a condition's tokens mean *)
Fixpoint den fl w : option (cond V) :=
  match w with
  | WAnd [] | WOr [] | WIn _ [] | WNotIn _ [] => None
  | WAnd cs => obind (all_some (map (den fl) cs)) (fun l => Some (chain Conj l))
  | WOr cs => obind (all_some (map (den fl) cs)) (fun l => Some (chain Disj l))
  | w => Some (meaning fl w)
  end.
Fixpoint height w : nat :=
  match w with WAnd [] | WOr [] => 0 | WAnd cs | WOr cs => S (list_max (map height cs)) | _ => 0 end.

Definition atom (f : nat) ts : option (cond V) :=
  match ts with
  | Sym c :: r =>
      if beq c "(" then match group 0 r with Some (inner, []) => condition f inner | _ => predicate ts end
      else predicate ts
  | _ => predicate ts
  end.
Lemma condition_atoms f ts : condition (S f) ts =
  obind (all_some (map (fun ts => obind (all_some (map (atom f) (split_and 0 false ts))) (fun l => Some (chain Conj l)))
    (split (is_kw (B "OR")) 0 ts))) (fun l => Some (chain Disj l)).
Proof. reflexivity. Qed.
Lemma condition_and f l : l <> [] -> Forall (passes (is_kw (B "OR"))) l -> Forall cuts l ->
  condition (S f) (sep_by (ko "AND") l) = obind (all_some (map (atom f) l)) (fun l => Some (chain Conj l)).
Proof.
  intros NE P C. rewrite condition_atoms, split_one by (apply passes_sep_by; auto). cbn [map]. rewrite cuts_and by assumption.
  destruct (all_some (map (atom f) l)); reflexivity.
Qed.
Lemma condition_or f l : l <> [] -> Forall (passes (is_kw (B "OR"))) l -> Forall cuts l ->
  condition (S f) (sep_by (ko "OR") l) = obind (all_some (map (atom f) l)) (fun l => Some (chain Disj l)).
Proof.
  intros NE P C. rewrite condition_atoms, split_or by assumption. f_equal. f_equal. apply map_ext_in. intros x I.
  rewrite Forall_forall in C. rewrite cuts_split by (apply C, I). cbn [map all_some]. destruct (atom f x); reflexivity.
Qed.
Lemma condition_one f ts : passes (is_kw (B "OR")) ts -> cuts ts -> condition (S f) ts = atom f ts.
Proof.
  intros P C. rewrite condition_atoms, split_one by exact P. cbn [map]. rewrite cuts_split by exact C. cbn [map all_some].
  destruct (atom f ts); reflexivity.
Qed.

Lemma operand_name n : parse_operand (V:=V) [Name n] = Some (One [Name n]).
Proof. apply parse_operand_one; reflexivity. Qed.
Lemma operand_val (v : V) : parse_operand [Val v] = Some (One [Val v]).
Proof. apply parse_operand_one; reflexivity. Qed.
Lemma operand_row (vs : list V) : vs <> [] -> parse_operand (row_toks (vals vs)) = Some (Tuple (vals vs)).
Proof.
  intros NE. apply parse_operand_tuple; [destruct vs; [contradiction|discriminate]|].
  apply forallb_forall. intros x I. apply in_map_iff in I. destruct I as (v & <- & _). reflexivity.
Qed.
Lemma predicate_kw n k r : pred_start (Kw (V:=V) k) = true ->
  predicate (V:=V) (Name n :: Kw k :: r) =
    if bseq k (B "IS") then
            match r with
            | [Kw a] => if bseq a (B "NULL") then Some (IsNull false (One [Name n])) else None
            | [Kw a; Kw b] => if bseq a (B "NOT") && bseq b (B "NULL") then Some (IsNull true (One [Name n])) else None
            | _ => None
            end
          else if bseq k (B "NOT") then match r with Kw k2 :: r2 => pred_tail true (One [Name n]) k2 r2 | _ => None end
          else pred_tail false (One [Name n]) k r.
Proof.
  intros P. unfold predicate. change (Name n :: Kw k :: r) with ([Name (V:=V) n] ++ Kw k :: r).
  rewrite until_stop by (auto; reflexivity). rewrite operand_name. reflexivity.
Qed.
Lemma leaf_den fl w : match w with WAnd _ | WOr _ => False | _ => True end -> predicate (wtoks fl w) = den fl w.
Proof.
  assert (CMP : forall n o v, comparison o = true -> predicate (V:=V) [Name n; Op o; Val v] = Some (Compare (One [Name n]) o (One [Val v]))).
  { intros n o v C. apply (predicate_cmp [Name n] o [Val v]); [reflexivity|apply operand_name|exact C|apply operand_val|reflexivity]. }
  assert (BTW : forall neg l lo hi, pred_tail (V:=V) neg l (B "BETWEEN") [Val lo; Kw (B "AND"); Val hi] = Some (Between neg l (One [Val lo]) (One [Val hi]))).
  { intros. unfold pred_tail. change (bseq (B "BETWEEN") (B "IN")) with false. change (bseq (B "BETWEEN") (B "LIKE")) with false.
    change (bseq (B "BETWEEN") (B "BETWEEN")) with true. cbv iota.
    change (split (is_kw (B "AND")) 0 [Val lo; Kw (B "AND"); Val hi]) with [[Val lo]; [Val hi]]. cbv iota. rewrite !operand_val. reflexivity. }
  assert (LIKE : forall neg l v, pred_tail (V:=V) neg l (B "LIKE") [Val v] = Some (Like neg l (One [Val v]))).
  { intros. unfold pred_tail. change (bseq (B "LIKE") (B "IN")) with false. change (bseq (B "LIKE") (B "LIKE")) with true. cbv iota. rewrite operand_val. reflexivity. }
  assert (IN : forall neg l vs, pred_tail (V:=V) neg l (B "IN") (row_toks (vals vs)) = match vs with [] => None | _ => Some (InList neg l (vals vs)) end).
  { intros neg l vs. unfold pred_tail. change (bseq (B "IN") (B "IN")) with true. cbv iota. destruct vs as [|v vs]; [reflexivity|]. rewrite operand_row by discriminate. reflexivity. }
  assert (VM : forall c (vs : list V), vals (map (given c) vs) = map (fun v => [Val (given c v)]) vs) by (intros; unfold vals; apply map_map).
  intros L. destruct w; try contradiction; cbn [wtoks den meaning app]; unfold ko; try (apply CMP; reflexivity);
  rewrite predicate_kw by reflexivity.
  - change (bseq (B "IN") (B "IS")) with false. change (bseq (B "IN") (B "NOT")) with false. cbv iota. rewrite IN, VM. destruct vs; reflexivity.
  - change (bseq (B "NOT") (B "IS")) with false. change (bseq (B "NOT") (B "NOT")) with true. cbv iota. rewrite IN, VM. destruct vs; reflexivity.
  - change (bseq (B "LIKE") (B "IS")) with false. change (bseq (B "LIKE") (B "NOT")) with false. cbv iota. apply LIKE.
  - change (bseq (B "NOT") (B "IS")) with false. change (bseq (B "NOT") (B "NOT")) with true. cbv iota. apply LIKE.
  - reflexivity.
  - reflexivity.
  - change (bseq (B "BETWEEN") (B "IS")) with false. change (bseq (B "BETWEEN") (B "NOT")) with false. cbv iota. apply BTW.
  - change (bseq (B "NOT") (B "IS")) with false. change (bseq (B "NOT") (B "NOT")) with true. cbv iota. apply BTW.
Qed.
Lemma leaf_atom fl w f : match w with WAnd _ | WOr _ => False | _ => True end -> atom f (wtoks fl w) = predicate (wtoks fl w).
Proof. intros L. destruct w; try contradiction; reflexivity. Qed.

Lemma atom_den fl w : forall f, height w <= f -> atom f (wtoks fl w) = den fl w.
Proof.
  assert (PF : forall (cs : list wc), Forall (passes (is_kw (B "OR"))) (map (wtoks fl) cs)).
  { intros cs. apply Forall_forall. intros x I. apply in_map_iff in I. destruct I as (c & <- & _). apply wtoks_passes, harmless_or. }
  assert (CF : forall (cs : list wc), Forall cuts (map (wtoks fl) cs)).
  { intros cs. apply Forall_forall. intros x I. apply in_map_iff in I. destruct I as (c & <- & _). apply wtoks_cuts. }
  assert (BF : forall (cs : list wc) (t : tok), plain_tok t = true -> balanced (sep_by t (map (wtoks fl) cs))).
  { intros cs t P. apply passes_sep_by; [exact P|reflexivity|]. apply Forall_forall. intros x I. apply in_map_iff in I. destruct I as (c & <- & _). apply wtoks_balanced. }
  assert (MF : forall (cs : list wc) f, Forall (fun w => forall f, height w <= f -> atom f (wtoks fl w) = den fl w) cs -> list_max (map height cs) <= f ->
    map (atom f) (map (wtoks fl) cs) = map (den fl) cs).
  { intros cs f F LE. rewrite map_map. apply map_ext_in. intros c I. rewrite Forall_forall in F. apply F; [exact I|].
    apply list_max_le in LE. rewrite Forall_forall in LE. apply LE, in_map, I. }
  induction w as [cs F|cs F|w L] using where_induction; intros f H.
  - destruct cs as [|c cs]; [reflexivity|].
    change (height (WAnd (c :: cs))) with (S (list_max (map height (c :: cs)))) in H. destruct f as [|f]; [lia|].
    change (wtoks fl (WAnd (c :: cs))) with (Sym "(" :: sep_by (ko "AND") (map (wtoks fl) (c :: cs)) ++ [Sym ")"]).
    unfold atom. change (beq "(" "(") with true. cbv iota. rewrite group_close by (apply BF; reflexivity).
    rewrite condition_and by first [discriminate|apply PF|apply CF]. rewrite MF by (auto; lia). reflexivity.
  - destruct cs as [|c cs]; [reflexivity|].
    change (height (WOr (c :: cs))) with (S (list_max (map height (c :: cs)))) in H. destruct f as [|f]; [lia|].
    change (wtoks fl (WOr (c :: cs))) with (Sym "(" :: sep_by (ko "OR") (map (wtoks fl) (c :: cs)) ++ [Sym ")"]).
    unfold atom. change (beq "(" "(") with true. cbv iota. rewrite group_close by (apply BF; reflexivity).
    rewrite condition_or by first [discriminate|apply PF|apply CF]. rewrite MF by (auto; lia). reflexivity.
  - rewrite leaf_atom by exact L. apply leaf_den, L.
Qed.
Lemma sep_by_length (t : tok) l x : In x l -> length x <= length (sep_by t l).
Proof.
  induction l as [|y l IH]; [contradiction|]. intros [->|I].
  - destruct l; cbn [sep_by]; rewrite ?app_length; lia.
  - destruct l as [|z l]; [contradiction|]. change (sep_by t (y :: z :: l)) with (y ++ t :: sep_by t (z :: l)). specialize (IH I).
    rewrite app_length. cbn [length]. lia.
Qed.
Lemma height_length fl w : height w <= pred (length (wtoks fl w)).
Proof.
  assert (G : forall (t : tok) (cs : list wc), cs <> [] -> Forall (fun w => height w <= pred (length (wtoks fl w))) cs ->
    S (list_max (map height cs)) <= pred (length (boxed t (map (wtoks fl) cs)))).
  { intros t cs NE F. destruct cs as [|c cs]; [congruence|]. cbn [boxed map]. change (wtoks fl c :: map (wtoks fl) cs) with (map (wtoks fl) (c :: cs)).
    cbn [length pred]. rewrite app_length. cbn [length]. rewrite Nat.add_1_r. apply le_n_S. change (height c :: map height cs) with (map height (c :: cs)).
    apply list_max_le. apply Forall_forall. intros k I.
    apply in_map_iff in I. destruct I as (x & <- & I). rewrite Forall_forall in F. specialize (F x I).
    pose proof (sep_by_length t _ _ (in_map (wtoks fl) _ _ I)). lia. }
  induction w as [cs F|cs F|w L] using where_induction.
  - destruct cs as [|c cs]; [cbn; lia|]. apply (G (ko "AND") (c :: cs)); [discriminate|exact F].
  - destruct cs as [|c cs]; [cbn; lia|]. apply (G (ko "OR") (c :: cs)); [discriminate|exact F].
  - destruct w; try contradiction; cbn [height]; lia.
Qed.
Lemma where_den fl w : where_p (wtoks fl w) = den fl w.
Proof.
  unfold where_p. pose proof (height_length fl w) as H. destruct (length (wtoks fl w)) as [|n] eqn:E.
  - destruct w; try discriminate E; (destruct cs; [reflexivity|discriminate E]).
  - rewrite condition_one by (try apply wtoks_cuts; apply wtoks_passes, harmless_or). apply atom_den. cbn in H. lia.
Qed.

(** ** Solid conditions mean something, others nothing *)
Lemma all_some_none {A} (l : list (option A)) : In None l -> all_some l = None.
Proof. induction l as [|[a|] l IH]; [contradiction| |reflexivity]. intros [H|I]; [discriminate|]. cbn [all_some]. rewrite IH by exact I. reflexivity. Qed.
Lemma solid_all (cs : list wc) : (fix all (cs : list wc) := match cs with [] => True | c :: cs' => solid c /\ all cs' end) cs <-> Forall solid cs.
Proof. apply all_fix. Qed.
Lemma solid_and cs : solid (WAnd (V:=V) cs) <-> cs <> [] /\ Forall solid cs.
Proof. cbn [solid]. rewrite solid_all. reflexivity. Qed.
Lemma solid_or cs : solid (WOr (V:=V) cs) <-> cs <> [] /\ Forall solid cs.
Proof. cbn [solid]. rewrite solid_all. reflexivity. Qed.
Lemma solid_dec w : solid w \/ ~ solid w.
Proof.
  assert (G : forall cs : list wc, Forall (fun w => solid w \/ ~ solid w) cs -> cs <> [] /\ Forall solid cs \/ ~ (cs <> [] /\ Forall solid cs)).
  { intros cs F. destruct cs as [|c cs]; [right; intros [N _]; congruence|].
    assert (Forall solid (c :: cs) \/ ~ Forall solid (c :: cs)) as [H|H].
    { clear - F. induction F as [|x l [D|D] F IH]; [left; constructor| |right; intros X; inversion X; contradiction].
      destruct IH as [H|H]; [left; constructor; assumption|right; intros X; inversion X; contradiction]. }
    - left. split; [discriminate|exact H].
    - right. intros [_ X]. contradiction. }
  induction w as [cs F|cs F|w L] using where_induction; [rewrite solid_and; apply G, F|rewrite solid_or; apply G, F|].
  destruct w; try contradiction; try (left; exact I); cbn [solid]; destruct vs; (right; congruence) || (left; discriminate).
Qed.
Lemma den_solid fl w : solid w -> den fl w = Some (meaning fl w).
Proof.
  assert (G : forall (cs : list wc), Forall (fun w => solid w -> den fl w = Some (meaning fl w)) cs -> Forall solid cs -> all_some (map (den fl) cs) = Some (map (meaning fl) cs)).
  { intros cs F S. apply all_some_map. intros c I. rewrite Forall_forall in F, S. apply F, S; exact I. }
  induction w as [cs F|cs F|w L] using where_induction; intros S.
  - apply solid_and in S. destruct S as [NE S]. specialize (G cs F S). destruct cs as [|c cs]; [congruence|].
    change (den fl (WAnd (c :: cs))) with (obind (all_some (map (den fl) (c :: cs))) (fun l => Some (chain Conj l))). rewrite G. destruct cs; reflexivity.
  - apply solid_or in S. destruct S as [NE S]. specialize (G cs F S). destruct cs as [|c cs]; [congruence|].
    change (den fl (WOr (c :: cs))) with (obind (all_some (map (den fl) (c :: cs))) (fun l => Some (chain Disj l))). rewrite G. destruct cs; reflexivity.
  - destruct w; try contradiction; try reflexivity; (destruct vs; [cbn in S; congruence|reflexivity]).
Qed.
Lemma den_hollow fl w : ~ solid w -> den fl w = None.
Proof.
  assert (G : forall (cs : list wc), Forall (fun w => ~ solid w -> den fl w = None) cs -> ~ Forall solid cs -> all_some (map (den fl) cs) = None).
  { intros cs F N. induction F as [|c cs D F IH]; [destruct N; constructor|]. cbn [map]. destruct (solid_dec c) as [S|S].
    - rewrite (den_solid fl c S). cbn [all_some]. rewrite IH; [reflexivity|]. intros X. apply N. constructor; assumption.
    - rewrite (D S). reflexivity. }
  induction w as [cs F|cs F|w L] using where_induction; intros N.
  - rewrite solid_and in N. destruct cs as [|c cs]; [reflexivity|].
    change (den fl (WAnd (c :: cs))) with (obind (all_some (map (den fl) (c :: cs))) (fun l => Some (chain Conj l))).
    rewrite G; [reflexivity|exact F|]. intros X. apply N. split; [discriminate|exact X].
  - rewrite solid_or in N. destruct cs as [|c cs]; [reflexivity|].
    change (den fl (WOr (c :: cs))) with (obind (all_some (map (den fl) (c :: cs))) (fun l => Some (chain Disj l))).
    rewrite G; [reflexivity|exact F|]. intros X. apply N. split; [discriminate|exact X].
  - destruct w; try contradiction; try (destruct N; exact I); (destruct vs; [reflexivity|destruct N; discriminate]).
Qed.
Lemma empty_hollow w : empty_in w -> ~ solid w.
Proof.
  induction w as [cs F|cs F|w L] using where_induction; intros E.
  - apply any_in_fix in E. destruct E as (c & I & E). rewrite solid_and. intros [_ S]. rewrite Forall_forall in F, S. exact (F c I E (S c I)).
  - apply any_in_fix in E. destruct E as (c & I & E). rewrite solid_or. intros [_ S]. rewrite Forall_forall in F, S. exact (F c I E (S c I)).
  - destruct w; try contradiction; cbn in *; congruence.
Qed.

(** Empty lists panic where placeholders carry no number. *)
Definition static (d : driver) : Prop := d <> DPostgres.
Lemma where_total d w : forall s, (empty_in w -> static d -> write_where d w s = Panic) /\ (~ empty_in w \/ d = DPostgres -> exists s', write_where d w s = Ok s').
Proof.
  assert (R : forall sep cs, Forall (fun w => forall s, (empty_in w -> static d -> write_where d w s = Panic) /\ (~ empty_in w \/ d = DPostgres -> exists s', write_where d w s = Ok s')) cs ->
    forall s, (any_in cs -> static d -> rest_of d sep cs s = Panic) /\ (~ any_in cs \/ d = DPostgres -> exists s', rest_of d sep cs s = Ok s')).
  { intros sep cs F. induction F as [|c cs D F IH]; intros s.
    - split; [intros (x & [] & _)|]. intros _. eexists. reflexivity.
    - destruct (D (put s sep)) as [P O]. cbn [rest_of]. split.
      + intros (x & I & E) ST. destruct (empty_in_dec c) as [EC|NC]; [rewrite (P EC ST); reflexivity|].
        destruct (O (or_introl NC)) as (s1 & ->). cbn [bind]. apply (IH s1); [|exact ST]. destruct I as [->|I]; [contradiction|]. exists x. auto.
      + intros N. destruct O as (s1 & ->). { destruct N as [N|N]; [left|now right]. intros X. apply N. exists c. split; [now left|exact X]. }
        cbn [bind]. apply IH. destruct N as [N|N]; [left|now right]. intros (x & I & E). apply N. exists x. split; [now right|exact E]. }
  assert (G : forall sep cs, Forall (fun w => forall s, (empty_in w -> static d -> write_where d w s = Panic) /\ (~ empty_in w \/ d = DPostgres -> exists s', write_where d w s = Ok s')) cs ->
    forall s, (any_in cs -> static d -> group_of d sep cs s = Panic) /\ (~ any_in cs \/ d = DPostgres -> exists s', group_of d sep cs s = Ok s')).
  { intros sep cs F s. destruct F as [|c cs D F]; [split; [intros (x & [] & _)|intros _; eexists; reflexivity]|]. cbn [group_of].
    destruct (D (put s (B "("))) as [P O]. split.
    - intros (x & I & E) ST. destruct (empty_in_dec c) as [EC|NC]; [rewrite (P EC ST); reflexivity|].
      destruct (O (or_introl NC)) as (s1 & ->). cbn [bind]. destruct I as [->|I]; [contradiction|]. rewrite (proj1 (R sep cs F s1)); [reflexivity| |exact ST]. exists x. auto.
    - intros N. destruct O as (s1 & ->). { destruct N as [N|N]; [left|now right]. intros X. apply N. exists c. split; [now left|exact X]. }
      cbn [bind]. destruct (proj2 (R sep cs F s1)) as (s2 & ->). { destruct N as [N|N]; [left|now right]. intros (x & I & E). apply N. exists x. split; [now right|exact E]. }
      eexists. reflexivity. }
  induction w as [cs F|cs F|w L] using where_induction; intros s.
  - rewrite write_and. change (empty_in (WAnd cs)) with ((fix any (cs : list wc) := match cs with [] => False | c :: cs' => empty_in c \/ any cs' end) cs).
    rewrite any_in_fix. apply G, F.
  - rewrite write_or. change (empty_in (WOr cs)) with ((fix any (cs : list wc) := match cs with [] => False | c :: cs' => empty_in c \/ any cs' end) cs).
    rewrite any_in_fix. apply G, F.
  - destruct w; try contradiction; cbn [empty_in write_where]; (split; [try contradiction|]); try (intros _; eexists; reflexivity).
    + intros -> ST. apply vars_empty, ST.
    + intros [N| ->]; [|unfold write_many, vars; eexists; reflexivity]. unfold write_many, vars. destruct d; try (eexists; reflexivity);
      (rewrite (repeat_tail_places MySQL 0); [eexists; reflexivity|discriminate|rewrite map_length; destruct vs; [congruence|cbn; lia]]).
    + intros -> ST. apply vars_empty, ST.
    + intros [N| ->]; [|unfold write_many, vars; eexists; reflexivity]. unfold write_many, vars. destruct d; try (eexists; reflexivity);
      (rewrite (repeat_tail_places MySQL 0); [eexists; reflexivity|discriminate|rewrite map_length; destruct vs; [congruence|cbn; lia]]).
Qed.

(** ** Reading a condition text *)
Lemma read_split fl text (vs : list V) ts : spells fl 0 text vs ts -> bind_args (lex fl text) vs = Some ts /\ existsb is_bad ts = false.
Proof.
  intros (t0 & R & P & NB & M). specialize (M [] [] eq_refl). cbn [app] in M. rewrite app_nil_r in M.
  unfold lex. rewrite (reads_lex _ _ _ _ _ R). unfold bind_args. rewrite (highest_seq _ _ P), Nat.eqb_refl. cbn [andb].
  replace (forallb _ (seq 1 (length vs))) with true.
  2:{ symmetry. apply forallb_forall. intros k I. apply in_seq in I. apply existsb_exists. exists (Param k).
      split; [apply plist_In; rewrite P; apply in_seq; lia|apply Nat.eqb_refl]. }
  rewrite M. split; [reflexivity|].
  destruct (existsb is_bad ts) eqn:E; [|reflexivity]. exfalso. apply existsb_exists in E. destruct E as (t & I & Bd).
  subst ts. apply in_map_iff in I. destruct I as (t1 & E & I1). destruct t; try discriminate Bd.
  destruct t1; try discriminate E; cbn [bind_tok] in E.
  - assert (J : In k (plist t0)) by (apply plist_In, I1). rewrite P in J. apply in_seq in J.
    destruct k as [|k]; [lia|]. destruct (nth_error vs k) eqn:EN; [discriminate|]. apply nth_error_None in EN. lia.
  - apply bads_In in NB. auto.
Qed.
Lemma spells_cond fl text (vs : list V) ts : spells fl 0 text vs ts -> read_cond fl text vs = where_p ts.
Proof. intros S. destruct (read_split _ _ _ _ S) as [E N]. unfold read_cond. rewrite E. cbn [obind]. rewrite N. reflexivity. Qed.

(** The outcome of a condition written into an empty statement. *)
Lemma condition_reads d w : all_columns (names_a_column (flavour_of d)) w ->
  match write_where d w empty_stmt with
  | Ok s => read_cond (flavour_of d) (s_text s) (s_args s) = den (flavour_of d) w
  | Panic => static d /\ empty_in w
  | Err => False
  end.
Proof.
  intros C. assert (D : ~ empty_in w \/ d = DPostgres \/ (empty_in w /\ static d)).
  { destruct (empty_in_dec w) as [E|E]; [right|now left]. unfold static. destruct d; [right|left|right]; (reflexivity || (split; [exact E|discriminate])). }
  destruct D as [N|[N|[E S]]].
  3:{ rewrite (proj1 (where_total d w empty_stmt) E S). auto. }
  all: destruct (where_spells d w C ltac:(auto) empty_stmt) as (text & s' & E & IS & ET & EA & SP); [intros _; reflexivity|];
    rewrite E, ET, EA; cbn [empty_stmt s_text s_args app length] in *; rewrite (spells_cond _ _ _ _ SP); apply where_den.
Qed.
End P.
