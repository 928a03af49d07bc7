(** Texts together with the arguments of their placeholders.

    [spells fl n s vs ts]: with [n] placeholders before it, the text [s] reads as the tokens [ts] once its own
    placeholders, numbered [n+1] onwards, are replaced by the arguments [vs]. *)
From Verif Require Import Base ModelStrconv SpecSql SpecGen LemmasBase LemmasSql LemmasSql2 LemmasSql3 LemmasGen LemmasGen2.

Section Spells.
Context {V : Type}.
Notation tok := (tok V).
Implicit Types (fl : flavour) (s : bytes) (ts : list tok) (n : nat) (vs : list V).

Definition spells fl n s vs ts : Prop :=
  exists ts0, reads fl n s ts0 (n + length vs) /\ plist ts0 = seq (S n) (length vs) /\ bads ts0 = false /\
  forall pre post : list V, length pre = n -> map (bind_tok (pre ++ vs ++ post)) ts0 = ts.

Lemma spells_eq fl n s vs ts s' vs' ts' : spells fl n s vs ts -> s = s' -> vs = vs' -> ts = ts' -> spells fl n s' vs' ts'.
Proof. intros H -> -> ->. exact H. Qed.

Lemma plist_seq_app (t1 t2 : list tok) n a b :
  plist t1 = seq (S n) a -> plist t2 = seq (S (n + a)) b -> plist (t1 ++ t2) = seq (S n) (a + b).
Proof. intros P1 P2. rewrite plist_app, P1, P2, seq_app. reflexivity. Qed.

Lemma spells_app_r fl n s1 vs1 ts1 s2 vs2 ts2 :
  spells fl n s1 vs1 ts1 -> spells fl (n + length vs1) s2 vs2 ts2 -> headed s2 = true -> s2 <> [] ->
  spells fl n (s1 ++ s2) (vs1 ++ vs2) (ts1 ++ ts2).
Proof.
  intros (t1 & R1 & P1 & B1 & M1) (t2 & R2 & P2 & B2 & M2) H NE. exists (t1 ++ t2).
  split; [rewrite app_length, Nat.add_assoc; eapply reads_app_r; eassumption|].
  split; [rewrite app_length; apply plist_seq_app; assumption|]. split; [rewrite bads_app, B1, B2; reflexivity|].
  intros pre post L. rewrite map_app. f_equal.
  - rewrite <- app_assoc. apply M1. exact L.
  - rewrite <- app_assoc, app_assoc. apply M2. rewrite app_length, L. reflexivity.
Qed.
Lemma spells_app_l fl n s1 vs1 ts1 s2 vs2 ts2 :
  spells fl n s1 vs1 ts1 -> spells fl (n + length vs1) s2 vs2 ts2 -> tailed s1 = true ->
  spells fl n (s1 ++ s2) (vs1 ++ vs2) (ts1 ++ ts2).
Proof.
  intros (t1 & R1 & P1 & B1 & M1) (t2 & R2 & P2 & B2 & M2) H. exists (t1 ++ t2).
  split; [rewrite app_length, Nat.add_assoc; eapply reads_app_l; eassumption|].
  split; [rewrite app_length; apply plist_seq_app; assumption|]. split; [rewrite bads_app, B1, B2; reflexivity|].
  intros pre post L. rewrite map_app. f_equal.
  - rewrite <- app_assoc. apply M1. exact L.
  - rewrite <- app_assoc, app_assoc. apply M2. rewrite app_length, L. reflexivity.
Qed.
(** Without arguments in the first or the second part. *)
Lemma spells_lr fl n s1 ts1 s2 vs2 ts2 : spells fl n s1 [] ts1 -> spells fl n s2 vs2 ts2 -> tailed s1 = true ->
  spells fl n (s1 ++ s2) vs2 (ts1 ++ ts2).
Proof. intros A C T. apply (spells_app_l fl n s1 [] ts1 s2 vs2 ts2); [exact A| |exact T]. rewrite Nat.add_0_r. exact C. Qed.
Lemma spells_rr fl n s1 ts1 s2 vs2 ts2 : spells fl n s1 [] ts1 -> spells fl n s2 vs2 ts2 -> headed s2 = true -> s2 <> [] ->
  spells fl n (s1 ++ s2) vs2 (ts1 ++ ts2).
Proof. intros A C H NE. apply (spells_app_r fl n s1 [] ts1 s2 vs2 ts2); [exact A| |exact H|exact NE]. rewrite Nat.add_0_r. exact C. Qed.

Definition inert (t : tok) : bool := match t with Param _ | Bad => false | _ => true end.
Lemma inert_facts ts : forallb inert ts = true -> ~ In Bad ts /\ no_param ts /\ plist ts = [] /\ bads ts = false.
Proof.
  intros F. rewrite forallb_forall in F.
  assert (A : ~ In Bad ts) by (intros I; specialize (F _ I); discriminate).
  assert (C : no_param ts) by (intros k I; specialize (F _ I); discriminate).
  split; [exact A|]. split; [exact C|]. split; [|apply bads_In; exact A].
  destruct (plist ts) as [|k l] eqn:E; [reflexivity|]. exfalso. apply (C k). apply plist_In. rewrite E. now left.
Qed.
Lemma spells_reads fl n s ts : reads fl n s ts n -> forallb inert ts = true -> spells fl n s [] ts.
Proof.
  intros R F. destruct (inert_facts ts F) as (A & C & P & D). exists ts. cbn [length seq]. rewrite Nat.add_0_r.
  split; [exact R|]. split; [exact P|]. split; [exact D|]. intros. apply bind_none. exact P.
Qed.
Lemma spells_lex fl n s ts : lex fl s = ts -> forallb inert ts = true -> spells fl n s [] ts.
Proof. intros L F. destruct (inert_facts ts F) as (A & C & _). apply spells_reads; [apply lex_piece; assumption|exact F]. Qed.
Lemma spells_nil fl n : spells fl n [] [] [].
Proof. apply spells_reads; [apply reads_nil|reflexivity]. Qed.

Lemma bind_param (pre vs post : list V) (v : V) : bind_tok (pre ++ (v :: vs) ++ post) (Param (S (length pre))) = Val v.
Proof. cbn [bind_tok]. rewrite nth_error_app2 by lia. rewrite Nat.sub_diag. reflexivity. Qed.
Lemma spells_var fl n v : spells fl n (placeholder fl (S n)) [v] [Val v].
Proof.
  exists [Param (S n)]. cbn [length]. rewrite Nat.add_1_r. split; [|split; [reflexivity|split; [reflexivity|]]].
  - destruct fl; try (split; [exact I|intros; reflexivity]). apply reads_dollar.
  - intros pre post <-. cbn [map]. f_equal. exact (bind_param pre [] post v).
Qed.

(** Comma separated lists. *)
Inductive spells_all fl : nat -> list bytes -> list (list V) -> list (list tok) -> Prop :=
| SA_nil n : spells_all fl n [] [] []
| SA_cons n s vs ts ss vss tss : spells fl n s vs ts -> spells_all fl (n + length vs) ss vss tss ->
    spells_all fl n (s :: ss) (vs :: vss) (ts :: tss).

Lemma spells_join fl n ss vss tss : spells_all fl n ss vss tss -> spells fl n (join (B ",") ss) (concat vss) (commas tss).
Proof.
  induction 1 as [n|n s vs ts ss vss tss S SA IH]; [apply spells_nil|].
  inversion SA; subst; cbn [join commas concat]; [rewrite app_nil_r; exact S|]. cbn [join commas concat] in IH.
  change (ts ++ Sym "," :: ?x) with (ts ++ ([Sym ","] ++ x)).
  apply spells_app_r; [exact S| |reflexivity|discriminate].
  apply spells_lr; [|exact IH|reflexivity]. apply spells_reads; [apply reads_comma|reflexivity].
Qed.
Lemma spells_all_map fl {A} (f : A -> bytes) (g : A -> list tok) l n :
  (forall x m, In x l -> spells fl m (f x) [] (g x)) -> spells_all fl n (map f l) (map (fun _ => []) l) (map g l).
Proof.
  revert n. induction l as [|x l IH]; intros n H; cbn [map]; [constructor|].
  constructor; [apply H; now left|]. apply IH. intros y m I. apply H. now right.
Qed.
Lemma concat_nils {A} (l : list A) : concat (map (fun _ => @nil V) l) = [].
Proof. induction l; auto. Qed.
Lemma spells_list fl n {A} (f : A -> bytes) (g : A -> list tok) l :
  (forall x m, In x l -> spells fl m (f x) [] (g x)) -> spells fl n (join (B ",") (map f l)) [] (commas (map g l)).
Proof. intros H. eapply spells_eq; [apply spells_join, (spells_all_map fl f g l); exact H|reflexivity|apply concat_nils|reflexivity]. Qed.
Lemma spells_list2 fl n (ss : list bytes) (tss : list (list tok)) :
  Forall2 (fun s t => forall m, spells fl m s [] t) ss tss -> spells fl n (join (B ",") ss) [] (commas tss).
Proof.
  intros F. eapply spells_eq; [apply spells_join with (vss := map (fun _ => []) ss) (tss := tss)|reflexivity|apply concat_nils|reflexivity].
  revert n. induction F; intros n; cbn [map]; constructor; auto.
Qed.

(** Placeholders of a list of arguments *)
Definition vals vs : list (list tok) := map (fun v => [Val v]) vs.
Definition places fl n m : list bytes := map (fun i => placeholder fl (n + i)) (seq 1 m).
Lemma places_S fl n m : places fl n (S m) = placeholder fl (S n) :: places fl (S n) m.
Proof.
  unfold places. cbn [seq map]. rewrite Nat.add_1_r. f_equal. rewrite <- seq_shift, map_map. apply map_ext. intros i. f_equal. lia.
Qed.
Lemma spells_places fl vs : forall n, spells_all fl n (places fl n (length vs)) (map (fun v => [v]) vs) (vals vs).
Proof.
  induction vs as [|v vs IH]; intros n; cbn [length]; [constructor|]. rewrite places_S. cbn [map vals].
  constructor; [apply spells_var|]. cbn [length]. rewrite Nat.add_1_r. apply IH.
Qed.
Lemma concat_single {A} (l : list A) : concat (map (fun v => [v]) l) = l.
Proof. induction l; cbn; congruence. Qed.
Lemma spells_vars fl n vs : spells fl n (join (B ",") (places fl n (length vs))) vs (commas (vals vs)).
Proof. eapply spells_eq; [apply spells_join, spells_places|reflexivity|apply concat_single|reflexivity]. Qed.
Lemma spells_row fl n vs : spells fl n (B "(" ++ join (B ",") (places fl n (length vs)) ++ B ")") vs (row_toks (vals vs)).
Proof.
  unfold row_toks. change (Sym "(" :: ?x) with ([Sym (V:=V) "("] ++ x).
  apply spells_lr; [apply spells_lex; [destruct fl; reflexivity|reflexivity]| |reflexivity].
  eapply spells_eq; [apply spells_app_r with (vs2 := []) (s2 := B ")") (ts2 := [Sym ")"])|reflexivity|apply app_nil_r|reflexivity];
    [apply spells_vars|apply spells_lex; [destruct fl; reflexivity|reflexivity]|reflexivity|discriminate].
Qed.
Lemma vals_exprs vs : forallb is_expr (vals vs) = true.
Proof. induction vs; cbn; auto. Qed.
Lemma vals_length vs : length (vals vs) = length vs.
Proof. apply map_length. Qed.

(** The end: a text and all its arguments. *)
Lemma spells_read fl s vs ts : spells fl 0 s vs ts -> read fl s vs = parse fl ts.
Proof.
  intros (t0 & R & P & NB & M). erewrite read_parse; [|exact R|exact P|exact NB].
  specialize (M [] [] eq_refl). cbn [app] in M. rewrite app_nil_r in M. rewrite M. reflexivity.
Qed.
Lemma spells_count fl s vs ts (args : list V) : spells fl 0 s vs ts -> length args <> length vs -> read fl s args = None.
Proof.
  intros (t0 & R & P & NB & M) NE. unfold read, lex. rewrite (reads_lex _ _ _ _ _ R). unfold bind_args.
  rewrite (highest_seq _ _ P). destruct (Nat.eqb_spec (length vs) (length args)); [congruence|reflexivity].
Qed.

(** Conversely, a text whose tokens are those of a row spells the row. *)
Lemma map_bind_seq (vs : list V) : forall pre post,
  map (fun j => map (bind_tok (pre ++ vs ++ post)) [Param (length pre + j + 1)]) (seq 0 (length vs)) = vals vs.
Proof.
  induction vs as [|v vs IH]; intros pre post; [reflexivity|]. cbn [length seq map vals]. f_equal.
  - rewrite Nat.add_0_r, Nat.add_1_r. f_equal. apply (bind_param pre vs post v).
  - rewrite <- seq_shift, map_map. specialize (IH (pre ++ [v]) post). rewrite <- app_assoc in IH. cbn [app] in IH.
    etransitivity; [|exact IH]. apply map_ext. intros j. cbn [map app]. do 3 f_equal. rewrite app_length. cbn [length]. lia.
Qed.
Lemma row_params_plist n k m : flat_map plist (map (fun j => [Param (V:=V) (n + j + 1)]) (seq k m)) = seq (n + k + 1) m.
Proof.
  revert k. induction m as [|m IH]; intros k; [reflexivity|]. cbn [seq map flat_map plist app].
  rewrite IH. do 2 f_equal. lia.
Qed.
Lemma spells_given_row fl n s vs :
  lex_from fl n s = Sym "(" :: commas (map (fun j => [Param (n + j + 1)]) (seq 0 (length vs))) ++ [Sym (V:=V) ")"] ->
  spells fl n s vs (row_toks (vals vs)).
Proof.
  intros L. set (ts0 := Sym "(" :: commas (map (fun j => [Param (n + j + 1)]) (seq 0 (length vs))) ++ [Sym (V:=V) ")"]) in *.
  assert (NB : bads ts0 = false).
  { unfold ts0. change (Sym "(" :: ?x) with ([Sym (V:=V) "("] ++ x). rewrite !bads_app, bads_commas. cbn [bads existsb is_bad orb].
    rewrite orb_false_r. generalize (seq 0 (length vs)). intros l. induction l; cbn; auto. }
  assert (PL : plist ts0 = seq (S n) (length vs)).
  { unfold ts0. change (Sym "(" :: ?x) with ([Sym (V:=V) "("] ++ x). rewrite !plist_app, plist_commas, row_params_plist.
    cbn [plist flat_map app]. rewrite app_nil_r. f_equal. lia. }
  destruct (lex_reads (V:=V) fl n s) as [n' R]; [rewrite L; apply bads_In; exact NB|]. rewrite L in R.
  exists ts0. split; [|split; [exact PL|split; [exact NB|]]].
  - pose proof (reads_count _ _ _ _ _ R) as C. replace (n + length vs) with n'; [exact R|]. rewrite C. f_equal.
    rewrite <- (seq_length (length vs) (S n)), <- PL. clear. unfold params, plist. induction ts0 as [|t ts IH]; [reflexivity|].
    destruct t; cbn [filter flat_map app length]; auto.
  - intros pre post <-. unfold ts0, row_toks. cbn [map bind_tok]. f_equal. rewrite map_app. f_equal.
    rewrite map_commas by reflexivity. f_equal. rewrite map_map. apply map_bind_seq.
Qed.
End Spells.

(** Constant texts, for a given flavour or for any. *)
Lemma spells_any {V} fl n s (ts : list (tok V)) :
  lex MySQL s = ts -> lex Postgres s = ts -> lex SQLite s = ts -> forallb inert ts = true -> spells fl n s [] ts.
Proof. intros A C E F. apply spells_lex; [destruct fl; assumption|exact F]. Qed.
Ltac sconst :=
  match goal with
  | |- spells MySQL _ _ _ _ => eapply spells_lex; [vm_compute; reflexivity|reflexivity]
  | |- spells Postgres _ _ _ _ => eapply spells_lex; [vm_compute; reflexivity|reflexivity]
  | |- spells SQLite _ _ _ _ => eapply spells_lex; [vm_compute; reflexivity|reflexivity]
  | |- _ => eapply spells_any; [vm_compute; reflexivity|vm_compute; reflexivity|vm_compute; reflexivity|reflexivity]
  end.
