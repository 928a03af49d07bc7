(** C96: workers that lock a record, change it and write it back lose no update - if the update is sent in the transaction, which UpdateByPK cannot do. *)
From Coq Require Import List Bool ZArith Lia Permutation.
From Verif Require Import Base ModelCompiler ModelGen ModelRuntime ModelRows ModelWrite ModelHistory SpecSql SpecGen SpecRuntime SpecDb SpecStore SpecRows SpecConflict SpecWrite SpecHistory
  LemmasBase LemmasCompiler LemmasGen LemmasRuntime7 LemmasStore LemmasRows LemmasConflict PropRuntime PropRows PropGen PropConflict PropQuery PropWrite PropHistory ModelLock SpecLock.
Import SpecRows ListNotations.

Section Workers.
Context {V St : Type}.
(** As in PropHistory *)
Variables (printable : N -> bool) (rename : bytes -> bytes) (wrap unwrap : gotype -> bytes * bytes).
Variables (sname : bytes) (ro : bool) (fs : list sfield) (t : table).
Hypothesis BUILT : build_table rename wrap unwrap sname ro fs = Ok t.
Hypothesis PATHS : NoDup (map c_gopath (t_columns t)).
Variables (d : driver) (on own : bool) (db : option bytes) (tn own_tn : bytes) (dup omit : option (list bytes)) (q : list bytes).
Hypothesis WRITTEN : all_written t.
Notation nothing := (fun _ : column => [] : list (tok V)).
Notation name := (fun c : column => [Name (c_name c)] : list (tok V)).
Hypothesis READ : readable d t nothing nothing name.
Hypothesis ADR : addresses (V:=V) d own t own_tn q.
Hypothesis U : usable (V:=V) d on t db tn None q (map name (t_columns t)).
Hypothesis BARE : bare_keys V d t.
Variables (pi pf pu : list piece) (ci cf cu : list column) (ti tf tu : bytes).
Hypothesis GF : gen_find_by_pk printable d own t = Some (pf, cf).
Hypothesis GU : gen_update_by_pk printable d own t = Some (pu, cu).
Hypothesis TU : eval_pieces own_tn pu = Some tu.
Notation model_of := (record_model printable t d on db tn None dup omit (fun val => Some (ti, map val ci)) (fun val => Some (tf, map val cf)) (fun val => Some (tu, map val cu))).
(** SQLite has no row locks: there LockByPK always fails (C29). *)
Hypothesis NLITE : d <> DSQLite.
(** The database *)
Variables (D : semantics V) (held : St -> list (row V)) (fresh : St -> row V) (owner : St -> row V -> option nat).
Hypothesis EQ : equality D.
Variables (conv : column -> V -> option V) (ask : St -> option nat -> bytes -> list V -> verdict (St * rows (V:=V))) (exec : St -> option nat -> bytes -> list V -> verdict St) (commit : St -> nat -> St).
Hypothesis LOCK : obeys_lock D t (flavour_of d) q held owner ask.
Hypothesis UPDATE : obeys_update D t (flavour_of d) q held fresh owner exec.
Hypothesis COMMIT : obeys_commit held owner commit.
Hypothesis BYKEY : by_key D t owner.
Hypothesis LOSSLESS : forall c v, In c (t_columns t) -> conv c v = Some v.
Notation act := (act conv ask exec commit d model_of (gen_addrs t)).
Notation turn := (turn conv ask exec commit d model_of (gen_addrs t)).
Notation together := (together conv ask exec commit d model_of (gen_addrs t)).
Notation fl := (flavour_of d).
Notation key := (map c_name (key_of t)).
Notation same := (same_on D key).
Notation has := (has_key_of D t).
Notation stands := (stands D t).
Notation value r := (fun c : column => r (c_gopath c)).
Notation chosen x := (chosen_by D (Some (key_equals t nothing nothing (fun c : column => x (c_gopath c))))).
Let W : wf t := build_table_wf _ _ _ _ _ _ _ BUILT.
Let HASKEY : key_of t <> [].
Proof. clear -GF. unfold gen_find_by_pk, has_pk in GF. unfold key_of. destruct (t_auto t); [discriminate|]. destruct (t_keys t); discriminate. Qed.

(** *** The statements *)
Lemma chosen_is x r : chosen x r = true <-> has r x.
Proof. apply chosen_key; [exact HASKEY|intros; split; reflexivity]. Qed.
Lemma lock_is x mode words : In (mode, words) (locks d) -> exists text args, lock_by_pk d (model_of x) mode = Ok (text, args) /\
  exists words', In (mode, words') (locks d) /\ read fl text args = Some (Select (map name (t_columns t)) q (Some (key_equals t nothing nothing (value x))) [] [] (Some 1%N) None words').
Proof.
  intros I. destruct (C29_generated_partial printable rename wrap unwrap sname ro fs t BUILT d on db tn None dup omit (fun val => Some (ti, map val ci)) (fun _ => None) (fun val => Some (tu, map val cu)) q _ U HASKEY BARE x Logic.eq_refl) as (_ & _ & H).
  assert (IM : In mode (lock_modes d)). { clear -I NLITE. unfold locks in I. apply in_map_iff in I as (ws & E & I). assert (mode = B "FOR " ++ join (B " ") ws) as -> by congruence. destruct d; [| |congruence]; cbn [In] in I; repeat (destruct I as [<-|I]; [cbn; auto 6|]); destruct I. }
  destruct (H mode IM NLITE) as (ws & IW & text & args & E & R). exists text, args. split; [exact E|]. exists ws. auto.
Qed.
(** A mode has one list of words. *)
Lemma one_mode mode ws ws' : In (mode, ws) (locks d) -> In (mode, ws') (locks d) -> ws = ws'.
Proof.
  unfold locks. intros I I'. apply in_map_iff in I as (a & E & I). apply in_map_iff in I' as (b & E' & I'). assert (EM : B "FOR " ++ join (B " ") a = B "FOR " ++ join (B " ") b) by congruence. assert (a = ws) as <- by congruence. assert (b = ws') as <- by congruence. clear E E'.
  destruct d; [| |destruct I]; cbn [In] in I, I'; repeat (destruct I as [<-|I]); try contradiction; repeat (destruct I' as [<-|I']); try contradiction; try reflexivity; exfalso; vm_compute in EM; discriminate.
Qed.
Lemma update_where y s : exists sets g, read fl tu (map (value y) cu) = Some (Update q sets (Some (key_equals t nothing nothing (value y))) [] None) /\ (forall r, ~ has r y -> g r = r) /\
  (forall r, has r y -> (forall k, In k (key_of t) -> g r (c_name k) = r (c_name k)) /\ (forall c, In c (t_columns t) -> ~ In c (key_of t) -> g r (c_name c) = y (c_gopath c))) /\
  change D (unique_on D key) (fresh s) (held s) (Update q sets (Some (key_equals t nothing nothing (value y))) [] None) = if unique_on D key (map g (held s)) then Some (map g (held s)) else None.
Proof.
  destruct (update_is printable rename wrap unwrap sname ro fs t BUILT d own own_tn q WRITTEN READ ADR pf pu cf cu tu GF GU TU D held fresh y s) as (f & R & g & G1 & G2 & CH).
  destruct (C20_update_by_pk_partial printable rename wrap unwrap sname ro fs t BUILT d nothing nothing name READ own own_tn q ADR pu cu GU (fun _ _ => count printable rename wrap unwrap sname ro fs t BUILT d own WRITTEN pu cu GU)) as (text & ups & _ & _ & _ & E & R').
  assert (text = tu) as -> by congruence. specialize (R' y). cbv beta in R'. rewrite R in R'.
  assert (SW : snd f = Some (key_equals t nothing nothing (value y))) by congruence. rewrite SW in *. exists (fst f), g. auto.
Qed.

(** *** One key *)
Lemma one_of_key rows o x r r' : stands rows o -> In r rows -> In r' rows -> has r x -> has r' x -> r = r'.
Proof.
  intros [UN _] I I' K K'. pose proof (has_same D t EQ r r' x K K') as S1. apply unique_iff in UN. clear -EQ UN I I' S1.
  induction UN as [|a rows F UN IH]; [destruct I|]. rewrite Forall_forall in F. destruct I as [->|I], I' as [->|I']; [reflexivity| | |apply IH; assumption].
  - rewrite (F r' I') in S1. discriminate.
  - rewrite (same_sym D EQ), (F r I) in S1. discriminate.
Qed.
Lemma at_most_one_key s o x : stands (held s) o -> at_most_one D held s (Some (key_equals t nothing nothing (value x))).
Proof. intros ST r r' I I' C C'. apply chosen_is in C, C'. eapply one_of_key; eauto. Qed.
Lemma has_alike r x y : alike t x y -> has r x <-> has r y.
Proof. intros A. unfold has_key_of, has_key. split; intros H k I; specialize (H k I); [rewrite <- (A k (key_in t W k I))|rewrite (A k (key_in t W k I))]; exact H. Qed.
Lemma key_eq_alike x y z : alike t x y -> key_eq D t x z = key_eq D t y z.
Proof. intros A. unfold key_eq. assert (H : forall l, incl l (key_of t) -> forallb (fun k => match cmp D (x (c_gopath k)) (z (c_gopath k)) with Some Eq => true | _ => false end) l = forallb (fun k => match cmp D (y (c_gopath k)) (z (c_gopath k)) with Some Eq => true | _ => false end) l); [|apply H; intros k I; exact I].
  induction l as [|k l IH]; intros IN; [reflexivity|]. cbn [forallb]. rewrite (A k (key_in t W k (IN k (or_introl Logic.eq_refl)))), IH; [reflexivity|]. intros k' I. apply IN. right. exact I. Qed.

(** *** What the workers work on: [start] is in the table under the key of [x0]; worker [i] has a record with this key and changes what it gets by [f i], but not the key. *)
Variables (s0 : St) (x0 start : bytes -> V) (mode : bytes) (words : list bytes) (x : nat -> bytes -> V) (f : nat -> (bytes -> V) -> bytes -> V).
Variable o0 : (bytes -> V) -> option (bytes -> V).
Hypothesis START : stands (held s0) o0.
Hypothesis THERE : o0 x0 = Some start.
Hypothesis NOLOCK : forall r, owner s0 r = None.
Hypothesis MODE : In (mode, words) (locks d).
Hypothesis EXCL : exclusive words.
Hypothesis SAMEKEY : forall i, key_eq D t x0 (x i) = true.
Hypothesis KEEPS : forall i y k, In k (key_of t) -> f i y (c_gopath k) = y (c_gopath k).
Hypothesis COLUMNS : forall i y z, alike t y z -> alike t (f i y) (f i z).
Lemma has_i i r : has r (x i) <-> has r x0.
Proof. split; intros H; eapply (has_trans D t EQ); try exact H; [rewrite (key_eq_sym D t EQ)|]; apply SAMEKEY. Qed.

(** The state of the row: [y] is stored, [who] holds it; other rows are as they were *)
Definition at_rest (s : St) (y : bytes -> V) (who : option nat) : Prop :=
  (exists o z, stands (held s) o /\ o x0 = Some z /\ alike t y z) /\ (forall r, has r x0 -> owner s r = who) /\ (forall r, ~ has r x0 -> In r (held s) <-> In r (held s0)).
Lemma the_row s y who : at_rest s y who -> exists r, In r (held s) /\ has r x0 /\ whole t y r.
Proof. intros ((o & z & ST & E & A) & _). pose proof ST as [_ H]. specialize (H x0). rewrite E in H. destruct H as (r & I & K & WH). exists r. split; [exact I|]. split; [exact K|]. intros c IC. rewrite (A c IC). apply WH, IC. Qed.
Lemma free_iff s y who session z : at_rest s y who -> (forall r, has r z <-> has r x0) -> free D held owner s session (Some (key_equals t nothing nothing (value z))) <-> who = None \/ who = session.
Proof.
  intros A HZ. split.
  - intros F. destruct (the_row s y who A) as (r & I & K & _). destruct A as (_ & OW & _). rewrite <- (OW r K). apply F; [exact I|]. apply chosen_is, HZ, K.
  - intros C r I CH. destruct A as (_ & OW & _). apply chosen_is, HZ in CH. rewrite (OW r CH). exact C.
Qed.
Lemma holds_key s s' y who i z : at_rest s y who -> (forall r, has r z <-> has r x0) -> SpecLock.holds D t held owner s s' (Some i) (Some (key_equals t nothing nothing (value z))) -> forall r, has r x0 -> owner s' r = Some i.
Proof.
  intros A HZ H r K. destruct (the_row s y who A) as (r0 & I & K0 & _). apply (H r). exists r0. split; [exact I|]. split; [apply chosen_is, HZ, K0|]. eapply (has_same D t EQ); eauto.
Qed.

(** Locking *)
Lemma locking i s y who w rest : at_rest s y who -> w_todo w = LockRow mode :: rest -> w_rec w = x i ->
  let '(s', w') := act i s w in
  (who <> None /\ who <> Some i /\ s' = s /\ w' = w) \/ ((who = None \/ who = Some i) /\ at_rest s' y (Some i) /\ w_todo w' = rest /\ w_failed w' = false /\ alike t y (w_rec w')).
Proof.
  intros A TD RC. pose proof A as ((o & z & ST & E & AL) & OW & FR). unfold ModelLock.act. rewrite TD. unfold sends_lock. rewrite RC.
  destruct (lock_is (x i) mode words MODE) as (text & args & EL & ws & IW & R). rewrite EL. rewrite (one_mode mode ws words IW MODE) in R.
  pose proof (LOCK s (Some i) text args _ _ _ R EXCL (at_most_one_key s o (x i) ST)) as P. pose proof (free_iff s y who (Some i) (x i) A (has_i i)) as FI. destruct (ask s (Some i) text args) as [| |[s' out]].
  - left. split; [|split; [|split; reflexivity]]; intros ->; apply P, FI; auto.
  - contradiction.
  - destruct P as (F & HS & HO & l & AN & ->). apply FI in F. destruct (find_is printable t d own pf cf GF D held (x i) s l AN) as (L1 & L2).
    pose proof (scanned_by D t conv PATHS l (x i)) as SC. change (gen_addrs t) with (t_columns t). destruct (row_scan _ _ _ _) as [rec [[]| |]]; [| |contradiction].
    + destruct SC as (r & rl & -> & RF1 & RF2). destruct (L1 r (or_introl Logic.eq_refl)) as (I1 & K). apply has_i in K. cbn [goes w_todo w_failed w_rec]. right. split; [exact F|]. cbn [goes w_todo w_failed w_rec]. split; [|split; [reflexivity|split; [reflexivity|]]].
      * split; [exists o, z; rewrite HS; auto|]. split; [|rewrite HS; exact FR]. apply (holds_key s s' y who i (x i) A (has_i i) HO).
      * intros c IC. specialize (RF1 c IC). rewrite (LOSSLESS c _ IC), (only_one D t EQ (held s) o x0 z r ST E I1 K c IC) in RF1. rewrite (AL c IC). congruence.
    + exfalso. destruct SC as [->|(y' & rl & _ & c & IC & SC)]; [|rewrite (LOSSLESS c _ IC) in SC; discriminate]. destruct (the_row s y who A) as (r & I1 & K & _). apply (L2 Logic.eq_refl r I1), has_i, K.
Qed.
(** Updating, in the transaction of [i] or not *)
Lemma updating session s y who w rest g : at_rest s y who -> w_rec w = g -> (forall k, In k (key_of t) -> g (c_gopath k) = y (c_gopath k)) ->
  let '(s', w') := sends_update exec d model_of session s w rest in
  (who <> None /\ who <> session /\ s' = s /\ w' = w) \/ ((who = None \/ who = session) /\ at_rest s' g (match session with Some i => Some i | None => who end) /\ w' = goes rest (w_rec w)).
Proof.
  intros A RC KG. pose proof A as ((o & z & ST & E & AL) & OW & FR). unfold sends_update. rewrite RC.
  assert (UB : update_by_pk d (model_of g) = Ok (tu, map (value g) cu)) by reflexivity. rewrite UB.
  destruct (the_row s y who A) as (r1 & I1 & K1 & WH1).
  assert (KX : key_eq D t g x0 = true). { assert (KY : key_eq D t y x0 = true) by (apply (whole_has D t W y r1 x0 WH1), K1). apply (key_eq_iff D t) in KY. apply (key_eq_iff D t). intros k IK. rewrite (KG k IK). apply KY, IK. }
  assert (HG : forall r, has r g <-> has r x0). { intros r. split; intros H; eapply (has_trans D t EQ); try exact H; [|rewrite (key_eq_sym D t EQ)]; exact KX. }
  destruct (update_where g s) as (sets & h & R & H1 & H2 & CH). destruct (change_step D t W EQ PATHS (held s) o g h ST H1 H2) as (UN & ST'). rewrite UN in CH.
  pose proof (UPDATE s session tu _ _ _ R (at_most_one_key s o g ST)) as P. rewrite CH in P. pose proof (free_iff s y who session g A HG) as FI. destruct (exec s session tu _) as [| |s'].
  - left. split; [|split; [|split; reflexivity]]; intros ->; apply P, FI; auto.
  - discriminate.
  - destruct P as (F & HS & HO). apply FI in F. right. split; [exact F|]. split; [|reflexivity]. assert (HS' : held s' = map h (held s)) by congruence. split; [|split].
    + eexists. exists (changed_to t g z). rewrite HS'. split; [exact ST'|]. cbv beta. rewrite KX, E. split; [reflexivity|]. intros c IC. unfold changed_to. destruct (bmem (c_gopath c) (map c_gopath (key_of t))) eqn:BM; [|reflexivity].
      apply bmem_In in BM. apply in_map_iff in BM as (k & EP & IK). rewrite <- (AL c IC), <- EP. apply KG, IK.
    + intros r K. destruct session as [i|]; [exact (holds_key s s' y who i g A HG HO r K)|]. rewrite (HO r). apply OW, K.
    + assert (DEC : forall r, has r x0 \/ ~ has r x0). { intros r. destruct (chosen x0 r) eqn:C; [left; apply chosen_is, C|right; intros K; apply chosen_is in K; congruence]. }
      assert (HF : forall r, has (h r) x0 <-> has r x0). { intros r. destruct (DEC r) as [K|K]; [|rewrite H1; [reflexivity|rewrite HG; exact K]]. destruct (H2 r (proj2 (HG r) K)) as [HK _]. split; [intros _; exact K|]. intros _ k IK. rewrite (HK k IK). apply K, IK. }
      intros r N. rewrite HS', <- (FR r N), in_map_iff. split.
      * intros (r' & <- & I). rewrite H1; [exact I|]. rewrite HG, <- HF. exact N.
      * intros I. exists r. split; [apply H1; rewrite HG; exact N|exact I].
Qed.
Lemma committing s y who i : at_rest s y who -> at_rest (commit s i) y (match who with Some j => if Nat.eqb j i then None else Some j | None => None end).
Proof.
  intros ((o & z & ST & E & AL) & OW & FR). destruct (COMMIT s i) as [HS HO]. split; [exists o, z; rewrite HS; auto|]. split; [|rewrite HS; exact FR]. intros r K. specialize (OW r K). destruct (HO r) as [H1 H2]. destruct who as [j|].
  - destruct (Nat.eqb_spec j i) as [->|N]; [apply H1, OW|]. rewrite H2; [exact OW|]. rewrite OW. congruence.
  - rewrite H2; [exact OW|]. rewrite OW. discriminate.
Qed.
Lemma rests0 : at_rest s0 start None.
Proof. split; [exists o0, start; split; [exact START|]; split; [exact THERE|intros c _; reflexivity]|]. split; [intros r _; apply NOLOCK|reflexivity]. Qed.

(** *** The update in the transaction *)
Definition in_tx (i : nat) : worker V := goes [LockRow mode; Modify (f i); UpdateTx; Commit] (x i).
Definition result (order : list nat) : bytes -> V := fold_left (fun y i => f i y) order start.
Definition stage (y : bytes -> V) (who : option nat) (order : list nat) (i : nat) (w : worker V) : Prop := w_failed w = false /\
  (w_todo w = [LockRow mode; Modify (f i); UpdateTx; Commit] /\ w_rec w = x i /\ who <> Some i /\ ~ In i order \/
   w_todo w = [Modify (f i); UpdateTx; Commit] /\ alike t y (w_rec w) /\ who = Some i /\ ~ In i order \/
   w_todo w = [UpdateTx; Commit] /\ alike t (f i y) (w_rec w) /\ who = Some i /\ ~ In i order \/
   w_todo w = [Commit] /\ who = Some i /\ In i order \/
   w_todo w = [] /\ who <> Some i /\ In i order).
Definition inv (s : St) (ws : nat -> worker V) (order : list nat) : Prop := NoDup order /\ exists who, at_rest s (result order) who /\ forall i, stage (result order) who order i (ws i).
(** The order in which the updates are made *)
Definition moved (st : (St * (nat -> worker V)) * list nat) (i : nat) : (St * (nat -> worker V)) * list nat :=
  let st' := turn (fst st) i in
  (st', snd st ++ if (length (w_todo (snd (fst st) i)) =? 2) && (length (w_todo (snd st' i)) =? 1) then [i] else []).
Definition order_of (sched : list nat) : list nat := snd (fold_left moved sched ((s0, in_tx), [])).
Lemma moved_run sched : forall st, fst (fold_left moved sched st) = fold_left turn sched (fst st).
Proof. induction sched as [|i sched IH]; intros st; [reflexivity|]. cbn [fold_left]. rewrite IH. reflexivity. Qed.
Lemma stage_other y who who' order i j w : i <> j -> stage y who order i w -> who <> Some i -> who' <> Some i -> forall y' order', (In i order' <-> In i order) -> stage y' who' order' i w.
Proof.
  intros NE (NF & C) N N' y' order' IO. split; [exact NF|]. destruct C as [(? & ? & ? & ?)|[(? & ? & ? & ?)|[(? & ? & ? & ?)|[(? & ? & ?)|(? & ? & ?)]]]]; try congruence.
  - left. rewrite IO. auto.
  - do 4 right. rewrite IO. auto.
Qed.
Lemma turn_at st i : snd (turn st i) i = snd (act i (fst st) (snd st i)).
Proof. unfold ModelLock.turn. destruct (act _ _ _) as [s' w']. cbn [snd]. rewrite Nat.eqb_refl. reflexivity. Qed.
Lemma inv_step s ws order i : inv s ws order -> let st' := turn (s, ws) i in inv (fst st') (snd st') (order ++ if (length (w_todo (ws i)) =? 2) && (length (w_todo (snd st' i)) =? 1) then [i] else []).
Proof.
  intros (ND & who & A & G). cbv zeta. rewrite turn_at. unfold ModelLock.turn. cbn [fst snd].
  assert (SAME : forall s' w', s' = s -> w' = ws i -> inv s' (fun j => if j =? i then w' else ws j) order). { intros s' w' -> ->. split; [exact ND|]. exists who. split; [exact A|]. intros j. destruct (Nat.eqb_spec j i) as [->|NE]; apply G. }
  destruct (G i) as (NF & C). destruct C as [(TD & RC & NW & NI)|[(TD & RC & -> & NI)|[(TD & RC & -> & NI)|[(TD & -> & II)|(TD & NW & II)]]]]; rewrite TD; cbn [length Nat.eqb andb].
  - rewrite app_nil_r. pose proof (locking i s (result order) who (ws i) _ A TD RC) as L. destruct (act i s (ws i)) as [s' w']. cbn [fst snd].
    destruct L as [(_ & _ & ES & EW)|([->| ->] & A' & TD' & NF' & AL)]; [apply SAME; assumption| |congruence]. split; [exact ND|]. exists (Some i). split; [exact A'|]. intros j. destruct (Nat.eqb_spec j i) as [->|NE].
    + split; [exact NF'|]. right. left. auto.
    + apply (stage_other (result order) None (Some i) order j i (ws j) NE (G j)); [discriminate|congruence|reflexivity].
  - unfold ModelLock.act. rewrite TD. cbn [fst snd goes w_todo length Nat.eqb]. rewrite app_nil_r. split; [exact ND|]. exists (Some i). split; [exact A|]. intros j. destruct (Nat.eqb_spec j i) as [->|NE]; [|apply G].
    split; [reflexivity|]. right. right. left. split; [reflexivity|]. split; [apply COLUMNS, RC|]. auto.
  - assert (KG : forall k, In k (key_of t) -> w_rec (ws i) (c_gopath k) = result order (c_gopath k)). { intros k IK. rewrite <- (RC k (key_in t W k IK)). apply KEEPS, IK. }
    pose proof (updating (Some i) s (result order) (Some i) (ws i) [Commit] (w_rec (ws i)) A Logic.eq_refl KG) as P. unfold ModelLock.act. rewrite TD. destruct (sends_update _ _ _ _ _ _ _) as [s' w'].
    destruct P as [(_ & N & _)|(_ & A' & ->)]; [congruence|]. cbn [fst snd goes w_todo length Nat.eqb].
    assert (RES : result (order ++ [i]) = f i (result order)) by (unfold result; rewrite fold_left_app; reflexivity).
    split; [apply (Permutation_NoDup (Permutation_cons_append order i)); constructor; assumption|]. exists (Some i). split.
    + destruct A' as ((o & z & ST & E & AL) & OW & FR). split; [|split; assumption]. exists o, z. split; [exact ST|]. split; [exact E|]. intros c IC. rewrite RES, (RC c IC). apply AL, IC.
    + intros j. destruct (Nat.eqb_spec j i) as [->|NE].
      * split; [reflexivity|]. do 3 right. left. split; [reflexivity|]. split; [reflexivity|]. apply in_app_iff. right. left. reflexivity.
      * apply (stage_other (result order) (Some i) (Some i) order j i (ws j) NE (G j)); [congruence|congruence|]. rewrite in_app_iff. split; [intros [I|[I|[]]]; [exact I|congruence]|auto].
  - unfold ModelLock.act. rewrite TD. cbn [fst snd]. rewrite app_nil_r. split; [exact ND|]. exists None. pose proof (committing s (result order) (Some i) i A) as A'. cbv iota beta in A'. rewrite Nat.eqb_refl in A'. split; [exact A'|]. intros j. destruct (Nat.eqb_spec j i) as [->|NE].
    + split; [reflexivity|]. do 4 right. split; [reflexivity|]. split; [discriminate|exact II].
    + apply (stage_other (result order) (Some i) None order j i (ws j) NE (G j)); [congruence|discriminate|reflexivity].
  - rewrite app_nil_r. unfold ModelLock.act. rewrite TD. apply SAME; reflexivity.
Qed.
Lemma inv_all sched : inv (fst (together s0 in_tx sched)) (snd (together s0 in_tx sched)) (order_of sched).
Proof.
  assert (GEN : forall l st, inv (fst (fst st)) (snd (fst st)) (snd st) -> inv (fst (fst (fold_left moved l st))) (snd (fst (fold_left moved l st))) (snd (fold_left moved l st))).
  { induction l as [|i l IH]; intros st I; [exact I|]. cbn [fold_left]. apply IH. destruct st as [[s ws] order]. exact (inv_step s ws order i I). }
  specialize (GEN sched ((s0, in_tx), [])). rewrite moved_run in GEN. apply GEN. cbn [fst snd]. split; [constructor|]. exists None. split; [exact rests0|]. intros i. split; [reflexivity|]. left. split; [reflexivity|]. split; [reflexivity|]. split; [discriminate|intros []].
Qed.
Lemma stored_row s y who : at_rest s y who -> one_row D t (held s) x0 (whole t y).
Proof. intros A. destruct (the_row s y who A) as (r & I & K & WH). exists r. split; [exact I|]. split; [exact K|]. split; [|exact WH]. intros r' I' K'. destruct A as ((o & z & ST & _) & _). eapply one_of_key; eauto. Qed.

(** With the update sent in the transaction, for any number of workers and any schedule: there is an order of the workers that have updated, each once, which only grows at the end,
    such that the row holds the result of their changes one after the other; no worker fails and no other row is touched.
    Missing: UpdateByPK itself cannot be used for this (refuted below); shared locks; keys that the workers change. *)
Theorem C96_locked_partial : exists order : list nat -> list nat, order [] = [] /\ forall sched,
  let '(s, ws) := together s0 in_tx sched in
  (forall i, order (sched ++ [i]) = order sched \/ order (sched ++ [i]) = order sched ++ [i]) /\ NoDup (order sched) /\
  (forall i, In i (order sched) <-> w_todo (ws i) = [Commit] \/ w_todo (ws i) = []) /\
  one_row D t (held s) x0 (whole t (result (order sched))) /\ (forall i, w_failed (ws i) = false) /\ (forall r, ~ has r x0 -> In r (held s) <-> In r (held s0)).
Proof.
  exists order_of. split; [reflexivity|]. intros sched. pose proof (inv_all sched) as (ND & who & A & G). destruct (together s0 in_tx sched) as [s ws]. cbn [fst snd] in *. split; [|split; [exact ND|split; [|split; [exact (stored_row s _ who A)|split; [intros i; apply G|apply A]]]]].
  - intros i. assert (M : forall st, snd (moved st i) = snd st \/ snd (moved st i) = snd st ++ [i]). { intros st. unfold moved. cbn [snd]. destruct (_ && _)%bool; [right; reflexivity|left; apply app_nil_r]. }
    unfold order_of. rewrite fold_left_app. cbn [fold_left]. apply M.
  - intros i. destruct (G i) as (_ & [(TD & _ & _ & N)|[(TD & _ & _ & N)|[(TD & _ & _ & N)|[(TD & _ & N)|(TD & _ & N)]]]]); rewrite TD; (split; [intros I|intros [I|I]]); try discriminate; try contradiction; auto.
Qed.
(** Nobody waits forever: as long as a worker is not done, there is one whose next step succeeds. *)
Theorem C96_no_deadlock sched i : let '(s, ws) := together s0 in_tx sched in w_todo (ws i) <> [] -> exists j, length (w_todo (snd (turn (s, ws) j) j)) < length (w_todo (ws j)).
Proof.
  pose proof (inv_all sched) as (ND & who & A & G). destruct (together s0 in_tx sched) as [s ws]. cbn [fst snd] in *. intros TD0.
  assert (X : exists j, who = Some j \/ (who = None /\ j = i)) by (destruct who as [j|]; [exists j; auto|exists i; auto]). destruct X as (j & X). exists j. rewrite turn_at. cbn [fst snd].
  destruct (G j) as (NF & C). destruct C as [(TD & RC & NW & NI)|[(TD & RC & E & NI)|[(TD & RC & E & NI)|[(TD & E & II)|(TD & NW & II)]]]].
  - destruct X as [X|[-> ->]]; [congruence|]. pose proof (locking i s _ None (ws i) _ A TD RC) as L. destruct (act i s (ws i)) as [s' w']. destruct L as [(N & _)|(_ & _ & TD' & _)]; [congruence|]. cbn [snd]. rewrite TD', TD. cbn [length]. lia.
  - unfold ModelLock.act. rewrite TD. cbn. lia.
  - assert (KG : forall k, In k (key_of t) -> w_rec (ws j) (c_gopath k) = result (order_of sched) (c_gopath k)). { intros k IK. rewrite <- (RC k (key_in t W k IK)). apply KEEPS, IK. }
    pose proof (updating (Some j) s _ who (ws j) [Commit] (w_rec (ws j)) A Logic.eq_refl KG) as P. unfold ModelLock.act. rewrite TD. destruct (sends_update _ _ _ _ _ _ _) as [s' w']. destruct P as [(_ & N & _)|(_ & _ & ->)]; [congruence|]. cbn. lia.
  - unfold ModelLock.act. rewrite TD. cbn. lia.
  - destruct X as [X|[_ ->]]; [congruence|contradiction].
Qed.

(** *** UpdateByPK while the record is locked *)
Definition by_db (i : nat) : worker V := goes [LockRow mode; Modify (f i); UpdateDb; Commit] (x i).
(** It waits for the lock of its own transaction, which is held until it returns. Whatever the schedule: no worker gets beyond UpdateByPK, nothing is ever written. *)
Theorem C96_update_db_refuted sched : let '(s, ws) := together s0 by_db sched in
  (forall i, In UpdateDb (w_todo (ws i)) /\ w_failed (ws i) = false) /\ one_row D t (held s) x0 (whole t start).
Proof.
  assert (H : exists who, at_rest (fst (together s0 by_db sched)) start who /\ forall i, let w := snd (together s0 by_db sched) i in w_failed w = false /\
    (w_todo w = [LockRow mode; Modify (f i); UpdateDb; Commit] /\ w_rec w = x i /\ who <> Some i \/ w_todo w = [Modify (f i); UpdateDb; Commit] /\ alike t start (w_rec w) /\ who = Some i \/ w_todo w = [UpdateDb; Commit] /\ alike t (f i start) (w_rec w) /\ who = Some i)).
  { induction sched as [|i sched IH] using rev_ind.
    - exists None. split; [exact rests0|]. intros i. cbv zeta. split; [reflexivity|]. left. split; [reflexivity|]. split; [reflexivity|discriminate].
    - unfold ModelLock.together in *. rewrite fold_left_app. cbn [fold_left]. destruct (fold_left turn sched (s0, by_db)) as [s ws]. cbn [fst snd] in IH. destruct IH as (who & A & G). unfold ModelLock.turn. cbn [fst snd].
      assert (SAME : forall s' w', s' = s -> w' = ws i -> exists who, at_rest (fst (s', fun j => if j =? i then w' else ws j)) start who /\ forall k, let w := snd (s', fun j => if j =? i then w' else ws j) k in w_failed w = false /\
        (w_todo w = [LockRow mode; Modify (f k); UpdateDb; Commit] /\ w_rec w = x k /\ who <> Some k \/ w_todo w = [Modify (f k); UpdateDb; Commit] /\ alike t start (w_rec w) /\ who = Some k \/ w_todo w = [UpdateDb; Commit] /\ alike t (f k start) (w_rec w) /\ who = Some k)).
      { intros s' w' -> ->. exists who. split; [exact A|]. intros k. cbn [snd]. destruct (Nat.eqb_spec k i) as [->|NE]; apply G. }
      destruct (G i) as (NF & [(TD & RC & NW)|[(TD & RC & ->)|(TD & RC & ->)]]).
      + pose proof (locking i s start who (ws i) _ A TD RC) as L. destruct (act i s (ws i)) as [s' w']. destruct L as [(_ & _ & ES & EW)|([->| ->] & A' & TD' & NF' & AL)]; [apply SAME; assumption| |congruence].
        exists (Some i). split; [exact A'|]. intros k. cbn [snd]. destruct (Nat.eqb_spec k i) as [->|NE]; [split; [exact NF'|]; right; left; auto|]. destruct (G k) as (NFk & [(a & b & _)|[(_ & _ & E)|(_ & _ & E)]]); [|discriminate..]. split; [exact NFk|]. left. split; [exact a|]. split; [exact b|congruence].
      + unfold ModelLock.act. rewrite TD. exists (Some i). split; [exact A|]. intros k. cbn [snd]. destruct (Nat.eqb_spec k i) as [->|NE]; [|apply G]. split; [reflexivity|]. right. right. split; [reflexivity|]. split; [apply COLUMNS, RC|reflexivity].
      + assert (KG : forall k, In k (key_of t) -> w_rec (ws i) (c_gopath k) = start (c_gopath k)). { intros k IK. rewrite <- (RC k (key_in t W k IK)). apply KEEPS, IK. }
        pose proof (updating None s start (Some i) (ws i) [Commit] (w_rec (ws i)) A Logic.eq_refl KG) as P. unfold ModelLock.act. rewrite TD. destruct (sends_update _ _ _ _ _ _ _) as [s' w']. destruct P as [(_ & _ & ES & EW)|([E|E] & _)]; [apply SAME; assumption|discriminate..]. }
  destruct H as (who & A & G). destruct (together s0 by_db sched) as [s ws]. cbn [fst snd] in *. split; [|exact (stored_row s start who A)]. intros i. destruct (G i) as (NF & C). split; [|exact NF]. destruct C as [(-> & _)|[(-> & _)|(-> & _)]]; cbn [In]; auto.
Qed.

(** *** UpdateByPK after the transaction *)
Definition late (i : nat) : worker V := goes [LockRow mode; Modify (f i); Commit; UpdateDb] (x i).
Lemma turn_lock s ws y i rest : at_rest s y None -> w_todo (ws i) = LockRow mode :: rest -> w_rec (ws i) = x i ->
  exists s' ws', turn (s, ws) i = (s', ws') /\ at_rest s' y (Some i) /\ w_todo (ws' i) = rest /\ alike t y (w_rec (ws' i)) /\ forall k, k <> i -> ws' k = ws k.
Proof.
  intros A TD RC. pose proof (locking i s y None (ws i) rest A TD RC) as L. unfold ModelLock.turn. cbn [fst snd]. destruct (act i s (ws i)) as [s' w']. destruct L as [(N & _)|(_ & A' & TD' & _ & AL)]; [congruence|].
  eexists _, _. split; [reflexivity|]. cbv beta. rewrite Nat.eqb_refl. split; [exact A'|]. split; [exact TD'|]. split; [exact AL|]. intros k NE. destruct (Nat.eqb_spec k i); [contradiction|reflexivity].
Qed.
Lemma turn_modify s ws i g rest : w_todo (ws i) = Modify g :: rest -> exists ws', turn (s, ws) i = (s, ws') /\ ws' i = goes rest (g (w_rec (ws i))) /\ forall k, k <> i -> ws' k = ws k.
Proof.
  intros TD. unfold ModelLock.turn, ModelLock.act. cbn [fst snd]. rewrite TD. eexists. split; [reflexivity|]. cbv beta. rewrite Nat.eqb_refl. split; [reflexivity|]. intros k NE. destruct (Nat.eqb_spec k i); [contradiction|reflexivity].
Qed.
Lemma turn_commit s ws y i rest : at_rest s y (Some i) -> w_todo (ws i) = Commit :: rest -> exists s' ws', turn (s, ws) i = (s', ws') /\ at_rest s' y None /\ ws' i = goes rest (w_rec (ws i)) /\ forall k, k <> i -> ws' k = ws k.
Proof.
  intros A TD. pose proof (committing s y (Some i) i A) as A'. cbv iota beta in A'. rewrite Nat.eqb_refl in A'. unfold ModelLock.turn, ModelLock.act. cbn [fst snd]. rewrite TD. eexists _, _. split; [reflexivity|]. cbv beta. rewrite Nat.eqb_refl. split; [exact A'|]. split; [reflexivity|]. intros k NE. destruct (Nat.eqb_spec k i); [contradiction|reflexivity].
Qed.
Lemma turn_update s ws y i rest : at_rest s y None -> w_todo (ws i) = UpdateDb :: rest -> (forall k, In k (key_of t) -> w_rec (ws i) (c_gopath k) = y (c_gopath k)) ->
  exists s' ws', turn (s, ws) i = (s', ws') /\ at_rest s' (w_rec (ws i)) None /\ ws' i = goes rest (w_rec (ws i)) /\ forall k, k <> i -> ws' k = ws k.
Proof.
  intros A TD KG. pose proof (updating None s y None (ws i) rest (w_rec (ws i)) A Logic.eq_refl KG) as P. unfold ModelLock.turn, ModelLock.act. cbn [fst snd]. rewrite TD. destruct (sends_update _ _ _ _ _ _ _) as [s' w']. destruct P as [(N & _)|(_ & A' & ->)]; [congruence|].
  eexists _, _. split; [reflexivity|]. cbv beta. rewrite Nat.eqb_refl. split; [exact A'|]. split; [reflexivity|]. intros k NE. destruct (Nat.eqb_spec k i); [contradiction|reflexivity].
Qed.
Lemma whole_alike (y z : bytes -> V) (r : row V) : alike t y z -> whole t z r -> whole t y r.
Proof. intros A WH c IC. rewrite (A c IC). apply WH, IC. Qed.
(** Two workers finish without an error, and the row holds the change of the second only. *)
Theorem C96_commit_first_refuted i j : i <> j -> exists sched, let '(s, ws) := together s0 late sched in
  ws i = goes [] (w_rec (ws i)) /\ ws j = goes [] (w_rec (ws j)) /\ one_row D t (held s) x0 (whole t (f j start)).
Proof.
  intros NE. exists [i; i; i; j; j; j; i; j]. unfold ModelLock.together. cbn [fold_left].
  destruct (turn_lock s0 late start i [Modify (f i); Commit; UpdateDb] rests0 Logic.eq_refl Logic.eq_refl) as (s1 & w1 & E1 & A1 & T1 & L1 & O1). rewrite E1.
  destruct (turn_modify s1 w1 i _ _ T1) as (w2 & E2 & T2 & O2). rewrite E2.
  destruct (turn_commit s1 w2 start i [UpdateDb] A1) as (s3 & w3 & E3 & A3 & T3 & O3); [rewrite T2; reflexivity|]. rewrite E3.
  assert (NE' : j <> i) by congruence. assert (J3 : w3 j = late j) by (rewrite (O3 j NE'), (O2 j NE'), (O1 j NE'); reflexivity).
  destruct (turn_lock s3 w3 start j [Modify (f j); Commit; UpdateDb] A3) as (s4 & w4 & E4 & A4 & T4 & L4 & O4); [rewrite J3; reflexivity|rewrite J3; reflexivity|]. rewrite E4.
  destruct (turn_modify s4 w4 j _ _ T4) as (w5 & E5 & T5 & O5). rewrite E5.
  destruct (turn_commit s4 w5 start j [UpdateDb] A4) as (s6 & w6 & E6 & A6 & T6 & O6); [rewrite T5; reflexivity|]. rewrite E6.
  assert (RI : w6 i = goes [UpdateDb] (f i (w_rec (w1 i)))) by (rewrite (O6 i NE), (O5 i NE), (O4 i NE), T3, T2; reflexivity).
  assert (RJ : w6 j = goes [UpdateDb] (f j (w_rec (w4 j)))) by (rewrite T6, T5; reflexivity).
  destruct (turn_update s6 w6 start i [] A6) as (s7 & w7 & E7 & A7 & T7 & O7); [rewrite RI; reflexivity|intros k IK; rewrite RI; cbn [goes w_rec]; rewrite (KEEPS i _ k IK); symmetry; apply (L1 k (key_in t W k IK))|]. rewrite E7.
  assert (RJ7 : w7 j = goes [UpdateDb] (f j (w_rec (w4 j)))) by (rewrite (O7 j NE'); exact RJ).
  destruct (turn_update s7 w7 (w_rec (w6 i)) j [] A7) as (s8 & w8 & E8 & A8 & T8 & O8); [rewrite RJ7; reflexivity| |].
  { intros k IK. rewrite RJ7, RI. cbn [goes w_rec]. rewrite (KEEPS i _ k IK), (KEEPS j _ k IK), <- (L4 k (key_in t W k IK)). apply (L1 k (key_in t W k IK)). }
  rewrite E8. split; [rewrite (O8 i NE), T7; reflexivity|]. split; [rewrite T8; reflexivity|].
  destruct (stored_row s8 _ None A8) as (r & I & K & UQ & WH). exists r. split; [exact I|]. split; [exact K|]. split; [exact UQ|]. eapply whole_alike; [|exact WH]. rewrite RJ7. cbn [goes w_rec]. apply COLUMNS, L4.
Qed.
End Workers.

(** ** A concrete case: the table of three columns of C89. The state: the rows, and who holds an id *)
Definition lk_state : Type := list (row Z) * (Z -> option nat).
Definition lk_owner (s : lk_state) (r : row Z) : option nat := snd s (r (B "id")).
Definition lk_fresh (_ : lk_state) : row Z := fun _ => 0%Z.
Definition lk_mine (s : lk_state) (session : option nat) (l : list (row Z)) : bool :=
  forallb (fun r => match lk_owner s r, session with None, _ => true | Some j, Some i => Nat.eqb j i | _, _ => false end) l.
Definition lk_hold (s : lk_state) (session : option nat) (l : list (row Z)) : Z -> option nat :=
  match session with None => snd s | Some i => fun z => if existsb (fun r => Z.eqb (r (B "id")) z) l then Some i else snd s z end.
Definition lk_ask (d : driver) (s : lk_state) (session : option nat) (text : bytes) (args : list Z) : verdict (lk_state * rows (V:=Z)) :=
  match read (flavour_of d) text args with
  | Some (Select its _ wh _ _ lim off _) => let l := filter (chosen_by wr_db wh) (fst s) in
      if lk_mine s session l then Says ((fst s, lk_hold s session l), complete (map (fun x => map (eval wr_db x) its) (cut_to lim off l)) false) else Waits
  | _ => Refused
  end.
Definition lk_exec (d : driver) (s : lk_state) (session : option nat) (text : bytes) (args : list Z) : verdict lk_state :=
  match read (flavour_of d) text args with
  | Some (Update q sets wh ords lim) => let l := filter (chosen_by wr_db wh) (fst s) in
      if lk_mine s session l then match change wr_db hi_unique (lk_fresh s) (fst s) (Update q sets wh ords lim) with Some rows' => Says (rows', lk_hold s session l) | None => Refused end else Waits
  | _ => Refused
  end.
Definition lk_commit (s : lk_state) (i : nat) : lk_state := (fst s, fun z => match snd s z with Some j => if Nat.eqb j i then None else Some j | None => None end).
Lemma lk_free s session wh : lk_mine s session (filter (chosen_by wr_db wh) (fst s)) = true <-> free wr_db fst lk_owner s session wh.
Proof.
  unfold lk_mine, free. rewrite forallb_forall. split; intros H r.
  - intros I C. specialize (H r (proj2 (filter_In _ _ _) (conj I C))). cbv beta in H. destruct (lk_owner s r) as [j|], session as [i|]; auto; try discriminate. apply Nat.eqb_eq in H as ->. auto.
  - intros I. apply filter_In in I as [I C]. destruct (H r I C) as [-> | ->]; [reflexivity|]. destruct session; [apply Nat.eqb_refl|reflexivity].
Qed.
Lemma lk_same r r' : same_on wr_db [B "id"] r r' = true <-> r (B "id") = r' (B "id").
Proof. unfold same_on. cbn [map equal_rows]. cbn [cmp wr_db option_map]. rewrite <- Z.compare_eq_iff. destruct (Z.compare _ _); cbn; split; congruence. Qed.
Lemma lk_holds s rows' session wh : SpecLock.holds wr_db t_one fst lk_owner s (rows', lk_hold s session (filter (chosen_by wr_db wh) (fst s))) session wh.
Proof.
  intros r. unfold lk_owner. cbn [snd]. destruct session as [i|]; [|reflexivity]. change (map c_name (key_of t_one)) with [B "id"]. cbn [lk_hold]. destruct (existsb _ _) eqn:E; split; intros H; try reflexivity.
  - exfalso. apply existsb_exists in E as (r0 & I & E). apply filter_In in I as [I C]. apply Z.eqb_eq in E. apply lk_same in E. rewrite (H r0 I C) in E. discriminate.
  - exfalso. destruct H as (r0 & I & C & S1). apply lk_same in S1. assert (X : true = false); [|discriminate]. rewrite <- E. symmetry. apply existsb_exists. exists r0. split; [apply filter_In; auto|]. apply Z.eqb_eq, S1.
Qed.
Example C96_hypotheses : forall d, obeys_lock wr_db t_one (flavour_of d) [B "users"] fst lk_owner (lk_ask d) /\ obeys_update wr_db t_one (flavour_of d) [B "users"] fst lk_fresh lk_owner (lk_exec d) /\
  obeys_commit fst lk_owner lk_commit /\ by_key wr_db t_one lk_owner.
Proof.
  intros d. split; [|split; [|split]].
  - intros s session text args its wh words R _ _. unfold lk_ask. rewrite R. cbv zeta. pose proof (lk_free s session wh) as F. destruct (lk_mine _ _ _); [|intros X; apply F in X; discriminate].
    split; [apply F; reflexivity|]. split; [reflexivity|]. split; [apply lk_holds|]. eexists. split; [|reflexivity]. eexists. split; [reflexivity|]. split; [|reflexivity]. induction (filter _ (fst s)) as [|a l IH]; [constructor|]. constructor; [exact IH|]. apply Forall_forall. intros b _. unfold not_after. discriminate.
  - intros s session text args sets wh R _. unfold lk_exec. rewrite R. cbv zeta. pose proof (lk_free s session wh) as F. destruct (lk_mine _ _ _); [|intros X; apply F in X; discriminate].
    change (map c_name (key_of t_one)) with [B "id"]. destruct (change _ _ _ _ _) as [rows'|] eqn:C; [|reflexivity]. split; [apply F; reflexivity|]. split; [reflexivity|apply lk_holds].
  - intros s i. split; [reflexivity|]. intros r. unfold lk_owner, lk_commit. cbn [snd]. split; intros H; destruct (snd s (r (B "id"))) as [j|]; try congruence.
    + assert (j = i) as -> by congruence. rewrite Nat.eqb_refl. reflexivity.
    + destruct (Nat.eqb_spec j i); congruence.
  - intros s r r' S1. change (map c_name (key_of t_one)) with [B "id"] in S1. apply lk_same in S1. unfold lk_owner. rewrite S1. reflexivity.
Qed.
(** Record 1 is locked and changed by two workers: one adds 1, the other doubles. *)
Definition lk_start (y : bytes -> Z) : option (bytes -> Z) := if (y (B ".ID") =? 1)%Z then Some (wr_rec 1 5 50) else if (y (B ".ID") =? 2)%Z then Some (wr_rec 2 6 60) else None.
Definition lk_change (i : nat) (y : bytes -> Z) : bytes -> Z := fun path => if bseq path (B ".Age") then match i with 0 => (y path + 1)%Z | _ => (2 * y path)%Z end else y path.
Example C96_start : stands wr_db t_one [wr_row 1 5 50; wr_row 2 6 60] lk_start /\ lk_start (wr_rec 1 0 0) = Some (wr_rec 1 5 50) /\ (forall r, lk_owner ([wr_row 1 5 50; wr_row 2 6 60], fun _ => None) r = None) /\
  (forall d, d <> DSQLite -> In (B "FOR UPDATE", [B "UPDATE"]) (locks d)) /\ exclusive [B "UPDATE"] /\ key_eq wr_db t_one (wr_rec 1 0 0) (wr_rec 1 0 0) = true /\
  (forall i y k, In k (key_of t_one) -> lk_change i y (c_gopath k) = y (c_gopath k)) /\ (forall i y z, alike t_one y z -> alike t_one (lk_change i y) (lk_change i z)).
Proof.
  assert (HK : forall r y, has_key_of wr_db t_one r y <-> r (B "id") = y (B ".ID")). { intros r y. rewrite <- Z.compare_eq_iff. unfold has_key_of, has_key, t_one. cbn [key_of t_auto t_keys In]. split; [intros H; specialize (H _ (or_introl Logic.eq_refl)); exact (f_equal (fun o => match o with Some c => c | None => Gt end) H)|]. intros H k [<-|[]]. exact (f_equal Some H). }
  split; [|split; [reflexivity|split; [reflexivity|split; [|split; [left; reflexivity|split; [reflexivity|split]]]]]].
  - split; [reflexivity|]. intros y. unfold lk_start. destruct (Z.eqb_spec (y (B ".ID")) 1) as [E|N]; [|destruct (Z.eqb_spec (y (B ".ID")) 2) as [E|N2]].
    + exists (wr_row 1 5 50). split; [left; reflexivity|]. split; [apply HK; rewrite E; reflexivity|]. intros c I. unfold t_one in I. cbn [t_columns In] in I. repeat (destruct I as [<-|I]; [reflexivity|]). destruct I.
    + exists (wr_row 2 6 60). split; [right; left; reflexivity|]. split; [apply HK; rewrite E; reflexivity|]. intros c I. unfold t_one in I. cbn [t_columns In] in I. repeat (destruct I as [<-|I]; [reflexivity|]). destruct I.
    + intros r [<-|[<-|[]]] H; apply HK in H; [apply N|apply N2]; rewrite <- H; reflexivity.
  - intros [] N; [left; reflexivity|left; reflexivity|congruence].
  - intros i y k I. unfold t_one in I. cbn [key_of t_auto t_keys In] in I. destruct I as [<-|[]]. reflexivity.
  - intros i y z A c I. specialize (A c I). unfold lk_change. rewrite A. reflexivity.
Qed.
Definition lk_run (d : driver) (todo : nat -> list (instr Z)) (sched : list nat) : list (list Z) * list nat * list bool :=
  let '(s, ws) := together (fun _ v => Some v) (lk_ask d) (lk_exec d) lk_commit d (hi_model d) (gen_addrs t_one) ([wr_row 1 5 50; wr_row 2 6 60], fun _ => None) (fun i => goes (todo i) (wr_rec 1 0 0)) sched in
  (map wr_show (fst s), map (fun i => length (w_todo (ws i))) [0; 1], map (fun i => w_failed (ws i)) [0; 1]).
Example C96_case : forall d, d <> DSQLite ->
  let sched := [0; 1; 0; 1; 0; 1; 0; 1; 1; 1; 1; 0; 1] in
  lk_run d (fun i => [LockRow (B "FOR UPDATE"); Modify (lk_change i); UpdateTx; Commit]) sched = ([[1; 5; 102]; [2; 6; 60]]%Z, [0; 0], [false; false]) /\
  lk_run d (fun i => [LockRow (B "FOR UPDATE"); Modify (lk_change i); UpdateDb; Commit]) sched = ([[1; 5; 50]; [2; 6; 60]]%Z, [2; 4], [false; false]) /\
  lk_run d (fun i => [LockRow (B "FOR UPDATE"); Modify (lk_change i); Commit; UpdateDb]) [0; 0; 0; 1; 1; 1; 0; 1] = ([[1; 5; 100]; [2; 6; 60]]%Z, [0; 0], [false; false]).
Proof. intros [] N; [| |congruence]; vm_compute; auto. Qed.
Print Assumptions C96_locked_partial.
Print Assumptions C96_no_deadlock.
Print Assumptions C96_update_db_refuted.
Print Assumptions C96_commit_first_refuted.
