(** C89: under any sequence of calls a table with a key behaves as a map from keys to records. *)
From Coq Require Import List Bool ZArith Lia Permutation.
From Verif Require Import Base ModelCompiler ModelGen ModelRuntime ModelRows ModelWrite ModelHistory SpecSql SpecGen SpecRuntime SpecDb SpecStore SpecRows SpecConflict SpecWrite SpecHistory
  LemmasBase LemmasCompiler LemmasGen LemmasRuntime7 LemmasStore LemmasRows LemmasConflict PropRuntime PropRows PropGen PropConflict PropQuery PropWrite.
Import SpecRows ListNotations.

(** ** Rows and the map *)
Section Map.
Context {V : Type}.
Variables (D : semantics V) (t : table).
Hypothesis W : wf t.
Hypothesis EQ : equality D.
Hypothesis PATHS : NoDup (map c_gopath (t_columns t)).
Notation key := (map c_name (key_of t)).
Notation same := (same_on D key).
Notation has := (has_key_of D t).
Notation stands := (stands D t).

Lemma key_eq_iff x y : key_eq D t x y = true <-> same_key D t x y.
Proof. unfold key_eq, same_key. rewrite forallb_forall. split; intros H k I; specialize (H k I); destruct (cmp D _ _) as [[]|]; congruence. Qed.
Lemma key_eq_sym x y : key_eq D t x y = key_eq D t y x.
Proof. apply eq_true_iff_eq. rewrite !key_eq_iff. split; intros H k I; apply (eq_sym D EQ), H, I. Qed.
Lemma whole_has y r x : whole t y r -> has r x <-> key_eq D t y x = true.
Proof. intros H. rewrite key_eq_iff. unfold has_key_of, has_key, same_key. split; intros K k I; specialize (K k I); rewrite (H k (key_in t W k I)) in *; exact K. Qed.
Lemma has_trans r x z : has r x -> key_eq D t x z = true -> has r z.
Proof. rewrite key_eq_iff. intros H K k I. eapply (eq_trans D EQ); [apply H, I|apply K, I]. Qed.
Lemma has_same r r' x : has r x -> has r' x -> same r r' = true.
Proof. intros H K. apply same_iff. intros n I. apply in_map_iff in I as (k & <- & I). eapply (eq_trans D EQ); [apply H, I|]. apply (eq_sym D EQ), K, I. Qed.
Lemma whole_same y r p : whole t y p -> same r p = true <-> has r y.
Proof.
  intros H. rewrite same_iff. split.
  - intros K k I. rewrite <- (H k (key_in t W k I)). apply K, in_map, I.
  - intros K n I. apply in_map_iff in I as (k & <- & I). rewrite (H k (key_in t W k I)). apply K, I.
Qed.
Lemma unique_last rows p : unique_on D key (rows ++ [p]) = true -> unique_on D key rows = true /\ forall r, In r rows -> same r p = false.
Proof.
  induction rows as [|r rows IH]; cbn [app unique_on]; [split; [reflexivity|intros r []]|]. rewrite andb_true_iff, negb_true_iff. intros [N U]. destruct (IH U) as (U1 & H). rewrite existsb_app in N. apply orb_false_iff in N as [N1 N2]. cbn [existsb] in N2. rewrite orb_false_r in N2. rewrite N1, U1. split; [reflexivity|]. intros x [<-|I]; [exact N2|apply H, I].
Qed.
Lemma unique_filter f rows : unique_on D key rows = true -> unique_on D key (filter f rows) = true.
Proof.
  rewrite !unique_iff. induction 1 as [|r rows F U IH]; cbn [filter]; [constructor|]. destruct (f r); [|exact IH]. constructor; [|exact IH]. rewrite Forall_forall in *. intros x I. apply filter_In in I as [I _]. apply F, I.
Qed.
Lemma only_one rows o x y r : stands rows o -> o x = Some y -> In r rows -> has r x -> whole t y r.
Proof.
  intros [U H] E I K. specialize (H x). rewrite E in H. destruct H as (r' & I' & K' & WH). replace r with r'; [exact WH|]. apply unique_iff in U. pose proof (has_same r r' x K K') as S1. clear -EQ U I I' S1.
  induction U as [|a rows F U IH]; [destruct I|]. rewrite Forall_forall in F. destruct I as [->|I], I' as [->|I']; [reflexivity| | |apply IH; assumption].
  - rewrite (F r' I') in S1. discriminate.
  - rewrite (same_sym D EQ), (F r I) in S1. discriminate.
Qed.

Lemma add_free rows o y p : stands rows o -> whole t y p -> unique_on D key (rows ++ [p]) = match o y with None => true | Some _ => false end.
Proof.
  intros [U H] WH. specialize (H y). destruct (o y) as [z|].
  - destruct H as (r & I & K & _). destruct (unique_on D key (rows ++ [p])) eqn:E; [|reflexivity]. apply unique_last in E as [_ E]. rewrite <- (E r I). symmetry. apply (whole_same y r p WH), K.
  - apply unique_app; [exact U|]. destruct (existsb _ rows) eqn:E; [|reflexivity]. apply existsb_exists in E as (r & I & K). exfalso. apply (H r I), (whole_same y r p WH), K.
Qed.
Lemma add_step rows o y p : stands rows o -> whole t y p -> unique_on D key (rows ++ [p]) = true -> stands (rows ++ [p]) (fun x => if key_eq D t y x then Some y else o x).
Proof.
  intros [U H] WH UN. split; [exact UN|]. intros x. destruct (key_eq D t y x) eqn:E.
  - exists p. split; [apply in_app_iff; right; left; reflexivity|]. split; [apply (whole_has y p x WH), E|exact WH].
  - specialize (H x). destruct (o x) as [z|].
    + destruct H as (r & I & K). exists r. split; [apply in_app_iff; left; exact I|exact K].
    + intros r I K. apply in_app_iff in I as [I|[<-|[]]]; [exact (H r I K)|]. apply (whole_has y p x WH) in K. congruence.
Qed.
Lemma change_step rows o y (f : row V -> row V) : stands rows o -> (forall r, ~ has r y -> f r = r) ->
  (forall r, has r y -> (forall k, In k (key_of t) -> f r (c_name k) = r (c_name k)) /\ (forall c, In c (t_columns t) -> ~ In c (key_of t) -> f r (c_name c) = y (c_gopath c))) ->
  unique_on D key (map f rows) = true /\ stands (map f rows) (fun x => if key_eq D t y x then option_map (changed_to t y) (o x) else o x).
Proof.
  intros ST F1 F2. destruct ST as [U H]. pose proof (conj U H) as ST.
  assert (DEC : forall r, has r y \/ ~ has r y). { intros r. unfold has_key_of, has_key. clear. induction (key_of t) as [|k l IH]; [left; intros k []|]. destruct (cmp D (r (c_name k)) (y (c_gopath k))) as [[]|] eqn:E; [|right; intros X; specialize (X k (or_introl eq_refl)); congruence..].
    destruct IH as [IH|IH]; [left; intros k' [<-|I]; [exact E|apply IH, I]|right; intros X; apply IH; intros k' I; apply X; right; exact I]. }
  assert (KF : forall r k, In k (key_of t) -> f r (c_name k) = r (c_name k)). { intros r k I. destruct (DEC r) as [K|K]; [apply (F2 r K), I|rewrite (F1 r K); reflexivity]. }
  assert (SF : forall r z, same (f r) z = same r z). { intros r z. unfold same_on. replace (map (f r) key) with (map r key); [reflexivity|]. rewrite !map_map. apply map_ext_in. intros k I. symmetry. apply KF, I. }
  assert (HF : forall r x, has (f r) x <-> has r x). { intros r x. unfold has_key_of, has_key. split; intros K k I; specialize (K k I); rewrite KF in * by exact I; exact K. }
  assert (UN : unique_on D key (map f rows) = true) by (rewrite (unique_map D EQ); [exact U|exact SF]). split; [exact UN|]. split; [exact UN|].
  intros x. specialize (H x). destruct (o x) as [z|].
  - destruct H as (r & I & K & WH). assert (WZ : has r y -> whole t (changed_to t y z) (f r)).
    { intros KY c IC. unfold changed_to. destruct (bmem (c_gopath c) (map c_gopath (key_of t))) eqn:E.
      - apply bmem_In in E. apply in_map_iff in E as (k & EP & IK). assert (k = c) as ->; [|rewrite (KF r c IK); apply WH, IC]. clear -PATHS EP IK IC W. pose proof (key_in t W k IK) as IK'. clear IK.
        induction (t_columns t) as [|a l IH]; [destruct IC|]. cbn [map] in PATHS. inversion PATHS as [|a' l' NI ND]; subst. destruct IC as [->|IC], IK' as [->|IK]; [reflexivity| | |apply IH; assumption]; exfalso; apply NI; [rewrite <- EP|rewrite EP]; apply in_map; assumption.
      - apply (F2 r KY); [exact IC|]. intros IK. apply bmem_not_In in E. apply E, in_map, IK. }
    destruct (key_eq D t y x) eqn:E; cbn [option_map].
    + exists (f r). split; [apply in_map, I|]. split; [apply HF, K|]. apply WZ. rewrite key_eq_sym in E. eapply has_trans; eauto.
    + exists r. split; [|split; assumption]. rewrite <- (F1 r); [apply in_map, I|]. intros KY. assert (X : key_eq D t y x = true); [|congruence]. apply key_eq_iff. intros k IK. eapply (eq_trans D EQ); [apply (eq_sym D EQ), KY, IK|apply K, IK].
  - assert (N : forall r, In r (map f rows) -> ~ has r x) by (intros r I; apply in_map_iff in I as (r0 & <- & I); rewrite HF; apply H, I). destruct (key_eq D t y x); exact N.
Qed.
Lemma remove_step rows o y (f : row V -> bool) : stands rows o -> (forall r, f r = true <-> ~ has r y) -> stands (filter f rows) (fun x => if key_eq D t y x then None else o x).
Proof.
  intros ST F. pose proof ST as [U H]. split; [apply unique_filter, U|]. intros x. destruct (key_eq D t y x) eqn:E.
  - intros r I K. apply filter_In in I as [_ I]. apply (proj1 (F r) I). rewrite key_eq_sym in E. eapply has_trans; eauto.
  - specialize (H x). destruct (o x) as [z|].
    + destruct H as (r & I & K & WH). exists r. split; [|split; assumption]. apply filter_In. split; [exact I|]. apply F. intros KY. assert (X : key_eq D t y x = true); [|congruence]. apply key_eq_iff. intros k IK. eapply (eq_trans D EQ); [apply (eq_sym D EQ), KY, IK|apply K, IK].
    + intros r I. apply filter_In in I as [I _]. apply H, I.
Qed.
End Map.

(** ** Generated models *)
Section Calls.
Context {V St : Type}.
Variables (printable : N -> bool) (rename : bytes -> bytes) (wrap unwrap : gotype -> bytes * bytes).
Variables (sname : bytes) (ro : bool) (fs : list sfield) (t : table).
Hypothesis BUILT : build_table rename wrap unwrap sname ro fs = Ok t.
Hypothesis PATHS : NoDup (map c_gopath (t_columns t)).
Variables (d : driver) (on own : bool) (db : option bytes) (tn own_tn : bytes) (dup omit : option (list bytes)) (q : list bytes).
(** All columns are written; no functions around columns *)
Hypothesis WRITTEN : all_written t.
Notation nothing := (fun _ : column => [] : list (tok V)).
Notation name := (fun c : column => [Name (c_name c)] : list (tok V)).
Hypothesis READ : readable d t nothing nothing name.
Hypothesis ADR : addresses (V:=V) d own t own_tn q.
Hypothesis U : usable (V:=V) d on t db tn None q (map name (t_columns t)).
Hypothesis BARE : bare_keys V d t.
(** The generated statements *)
Variables (pi pf pu : list piece) (ci cf cu : list column) (ti tf tu : bytes).
Hypothesis GI : gen_insert_one printable d own t = Some (pi, ci).
Hypothesis GF : gen_find_by_pk printable d own t = Some (pf, cf).
Hypothesis GU : gen_update_by_pk printable d own t = Some (pu, cu).
Hypothesis TI : eval_pieces own_tn pi = Some ti.
Hypothesis TF : eval_pieces own_tn pf = Some tf.
Hypothesis TU : eval_pieces own_tn pu = Some tu.
Notation model_of := (record_model printable t d on db tn None dup omit (fun val => Some (ti, map val ci)) (fun val => Some (tf, map val cf)) (fun val => Some (tu, map val cu))).
(** The database *)
Variables (D : semantics V) (held : St -> list (row V)) (fresh : St -> row V) (down : St -> Prop).
Hypothesis EQ : equality D.
Variables (conv : column -> V -> option V) (ask : St -> bytes -> list V -> option (St * rows (V:=V))) (exec : St -> bytes -> list V -> option (St * option Z)).
Hypothesis EXEC : obeys_exec D t (flavour_of d) q held fresh down exec.
Hypothesis ASK : obeys_ask D t (flavour_of d) q held fresh down ask.
(** Values come back as they were sent *)
Hypothesis LOSSLESS : forall c v, In c (t_columns t) -> conv c v = Some v.
Variables (int_type : column -> bool * Z) (num : Z -> V) (selects : bytes -> bytes).
Notation run_call := (run_call conv ask exec int_type num selects d model_of (gen_addrs t) (t_auto t)).
(** Between the calls nobody else changes the table. *)
Variable pass : St -> St.
Hypothesis PASS : forall s, held (pass s) = held s.
Notation history := (history conv ask exec int_type num selects d model_of (gen_addrs t) (t_auto t) pass).
Notation value r := (fun c : column => r (c_gopath c)).
Notation fl := (flavour_of d).
Notation key := (map c_name (key_of t)).
Notation unique := (unique_on D key).
Let W : wf t := build_table_wf _ _ _ _ _ _ _ BUILT.
Let HASKEY : key_of t <> [].
Proof. clear -GF. unfold gen_find_by_pk, has_pk in GF. unfold key_of. destruct (t_auto t); [discriminate|]. destruct (t_keys t); discriminate. Qed.
Lemma plain_wrappers : wrappers_are_functions D t nothing nothing.
Proof. intros val c I. exists (val c). intros r. reflexivity. Qed.
Lemma key_is k : In k (key_of t) <-> is_key t k.
Proof. unfold key_of, is_key. destruct (t_auto t) as [a|] eqn:A; [destruct WRITTEN; congruence|]. split; [auto|]. intros [H|H]; [exact H|discriminate]. Qed.

Lemma insert_is x s : exists p ret, whole t x p /\ read fl ti (map (value x) ci) = Some (Insert q (map c_name ci) [map (holding nothing nothing (value x)) ci] Fail ret) /\
  (d = DPostgres -> ret = map name (t_columns t)) /\ proposed D (fresh s) (map c_name ci) (map (holding nothing nothing (value x)) ci) = p /\
  change D unique (fresh s) (held s) (Insert q (map c_name ci) [map (holding nothing nothing (value x)) ci] Fail ret) = if unique (held s ++ [p]) then Some (held s ++ [p]) else None.
Proof.
  destruct (own_insert printable rename wrap unwrap sname ro fs t BUILT d nothing nothing name READ own own_tn q ADR D fresh plain_wrappers pi ci ti x GI TI s) as (ret & new & R & RET & PRO & R1 & R2).
  exists new, ret. split; [|split; [exact R|split; [exact RET|split; [exact PRO|]]]].
  - intros c I. assert (IC : insertable t c) by (split; [exact I|]; split; [apply WRITTEN, I|]; destruct WRITTEN as [-> _]; discriminate). exact (Logic.eq_sym (R1 c IC (fresh s))).
  - unfold change. cbn [map forallb]. rewrite !map_length, Nat.eqb_refl. cbn [andb]. unfold proposed in PRO. rewrite PRO. reflexivity.
Qed.
Lemma count : length (t_columns t) = length cu.
Proof.
  clear TU. unfold gen_update_by_pk in GU. destruct (has_pk t && negb (t_readonly t)); [|discriminate]. destruct (columns_without_pk t) as [|c0 l0] eqn:E; [discriminate|]. rewrite <- E in GU. assert (cu = columns_without_pk t ++ key_columns t) as -> by congruence.
  apply Permutation_length, NoDup_Permutation.
  - eapply NoDup_map_inv. apply (wf_names t W).
  - assert (K : key_columns t = key_of t) by reflexivity. rewrite K. assert (ND : NoDup (key_of t)). { unfold key_of. destruct WRITTEN as [-> _]. apply (wf_keys_nodup t W). }
    assert (NU : NoDup (columns_without_pk t)) by (apply NoDup_filter; eapply NoDup_map_inv; apply (wf_names t W)). assert (DIS : forall c, In c (columns_without_pk t) -> ~ In c (key_of t)) by (intros c I J; apply (columns_without_pk_spec t c W) in I as (_ & _ & N); apply N, key_is, J).
    clear -ND NU DIS. induction (columns_without_pk t) as [|c l IH]; [exact ND|]. inversion NU; subst. cbn [app]. constructor; [|apply IH; [assumption|intros c' I; apply DIS; right; exact I]]. rewrite in_app_iff. intros [I|I]; [contradiction|]. apply (DIS c (or_introl Logic.eq_refl) I).
  - intros c. rewrite in_app_iff. change (key_columns t) with (key_of t). split.
    + intros I. destruct (bmem (c_name c) (map c_name (t_keys t))) eqn:X.
      * right. apply key_is. left. apply bmem_In in X. apply in_map_iff in X as (k & EN & IK). rewrite <- (wf_name_inj t k c W (proj1 (wf_keys t W k IK)) I EN). exact IK.
      * left. apply (columns_without_pk_spec t c W). split; [exact I|]. split; [apply WRITTEN, I|]. apply bmem_not_In in X. intros [K|K]; [apply X, in_map, K|destruct WRITTEN; congruence].
    + intros [I|I]; [exact (without_pk_incl t c I)|exact (key_in t W c I)].
Qed.
Lemma update_is y s : exists f, read fl tu (map (value y) cu) = Some (Update q (fst f) (snd f) [] None) /\ exists g, (forall r, ~ has_key_of D t r y -> g r = r) /\
  (forall r, has_key_of D t r y -> (forall k, In k (key_of t) -> g r (c_name k) = r (c_name k)) /\ (forall c, In c (t_columns t) -> ~ In c (key_of t) -> g r (c_name c) = y (c_gopath c))) /\
  change D unique (fresh s) (held s) (Update q (fst f) (snd f) [] None) = if unique (map g (held s)) then Some (map g (held s)) else None.
Proof.
  destruct (C20_update_by_pk_partial printable rename wrap unwrap sname ro fs t BUILT d nothing nothing name READ own own_tn q ADR pu cu GU (fun _ _ => count)) as (text & ups & CU & UP & SB & E & R).
  assert (text = tu) as -> by congruence. exists (map (fun c => (c_name c, holding nothing nothing (value y) c)) ups, Some (key_equals t nothing nothing (value y))). cbn [fst snd]. split; [apply R|].
  assert (NB : forall k, In k (key_of t) -> nothing k = [] /\ nothing k = []) by (intros; split; reflexivity).
  assert (IN : incl ups (t_columns t)) by (intros c I; apply UP in I; apply I).
  assert (ND : NoDup (map c_name ups)). { pose proof (wf_names t W) as ND. clear - SB ND. induction SB as [|c l m SB IH|c l m SB IH]; cbn in *; [constructor| |inversion ND; auto].
    inversion ND; subst. constructor; [|auto]. intros I. apply H1. clear - SB I. induction SB as [|? ? ? ? IH|? ? ? ? IH]; cbn in *; [exact I|destruct I; auto|auto]. }
  exists (fun r => if chosen_by D (Some (key_equals t nothing nothing (value y))) r then assigned (map (fun s => (fst s, eval D r (snd s))) (map (fun c => (c_name c, holding nothing nothing (value y) c)) ups)) r else r). split; [|split].
  - intros r N. rewrite (chosen_not D t nothing nothing r (value y) HASKEY NB N). reflexivity.
  - intros r K. rewrite (proj2 (chosen_key D t nothing nothing r (value y) HASKEY NB) K), map_map. cbn [fst snd]. destruct (rewritten_assigned D t nothing nothing r r ups (value y) plain_wrappers IN ND) as [R1 R2]. split.
    + intros k I. apply R2. intros c IC EN. assert (c = k) as -> by (apply (wf_name_inj t c k W); [apply IN, IC|apply (key_in t W k I)|exact EN]). apply UP in IC. destruct IC as (_ & _ & NK). apply NK, key_is, I.
    + intros c I NK. symmetry. refine (R1 c _ r). apply UP. split; [exact I|]. split; [apply WRITTEN, I|]. rewrite <- key_is. exact NK.
  - reflexivity.
Qed.
Lemma delete_is y s : exists text args wh, delete_by_pk d (model_of y) = Ok (text, args) /\ read fl text args = Some (Delete q wh [] None) /\ exists f, (forall r, f r = true <-> ~ has_key_of D t r y) /\
  change D unique (fresh s) (held s) (Delete q wh [] None) = Some (filter f (held s)).
Proof.
  destruct (C29_generated_partial printable rename wrap unwrap sname ro fs t BUILT d on db tn None dup omit (fun val => Some (ti, map val ci)) (fun _ => None) (fun val => Some (tu, map val cu)) q _ U HASKEY BARE y Logic.eq_refl) as (_ & (text & args & E & R) & _).
  exists text, args. eexists. split; [exact E|]. split; [exact R|]. eexists. split; [|reflexivity]. intros r. cbv beta. rewrite negb_true_iff.
  rewrite <- (chosen_key D t nothing nothing r (value y) HASKEY) by (intros; split; reflexivity). destruct (chosen_by D _ r); split; congruence.
Qed.
Lemma find_read : forall x, read fl tf (map (value x) cf) = Some (Select (map name (gen_addrs t)) q (Some (key_equals t nothing nothing (value x))) [] [] (Some 1%N) None []).
Proof.
  destruct (C19_find_by_pk_partial printable rename wrap unwrap sname ro fs t BUILT d nothing nothing name READ own own_tn q ADR pf cf GF) as (_ & text & E & R). assert (text = tf) as -> by congruence. exact R.
Qed.
Lemma find_is x s l : answers D (fun x => x) (held s) (Some (key_equals t nothing nothing (value x))) [] (Some 1%N) None l ->
  (forall r, In r l -> In r (held s) /\ has_key_of D t r x) /\ (l = [] -> forall r, In r (held s) -> ~ has_key_of D t r x).
Proof.
  assert (CH : forall r, chosen_by D (Some (key_equals t nothing nothing (value x))) r = true <-> has_key_of D t r x) by (intros r; apply chosen_key; [exact HASKEY|intros; split; reflexivity]).
  intros (l0 & P & _ & ->). cbn [cut_to N.to_nat Pos.to_nat Pos.iter_op].
  assert (M : forall r, In r l0 <-> In r (held s) /\ has_key_of D t r x). { intros r. rewrite <- CH, <- (filter_In (fun r => chosen_by D (Some (key_equals t nothing nothing (value x))) r)). split; intros I; [eapply Permutation_in; [exact P|exact I]|eapply Permutation_in; [symmetry; exact P|exact I]]. }
  split.
  - intros r I. apply M. destruct l0 as [|a l0]; [destruct I|]. destruct I as [<-|[]]. left. reflexivity.
  - intros L r I K. destruct l0 as [|a l0]; [|discriminate]. apply (proj2 (M r) (conj I K)).
Qed.

Notation stands := (stands D t).
Notation content := (content (St:=St) D t).
Lemma content_snoc start tr s c r x : content start (tr ++ [(s, c, r)]) x = after D t x (content start tr x) c r.
Proof. unfold SpecHistory.content. rewrite fold_left_app. reflexivity. Qed.
Lemma stands_ext rows o o' : (forall x, o x = o' x) -> stands rows o -> stands rows o'.
Proof. intros E [UN H]. split; [exact UN|]. intros x. specialize (H x). rewrite E in H. exact H. Qed.

Lemma one_call start tr s c : stands (held s) (content start tr) -> let '(s', r) := run_call s c in fair t (down s) (content start tr (about c)) c r /\ stands (held s') (content start (tr ++ [(s, c, r)])).
Proof.
  intros ST. assert (FAIL : forall c', stands (held s) (content start (tr ++ [(s, c', Failed)]))). { intros c'. eapply stands_ext; [|exact ST]. intros x. rewrite content_snoc. destruct c'; reflexivity. }
  destruct c as [x|y|y|x]; cbn [ModelHistory.run_call about].
  - destruct (insert_is x s) as (p & ret & WH & R & RET & PRO & CH). pose proof (add_free D t W (held s) _ x p ST WH) as FREE.
    assert (ADDED : unique (held s ++ [p]) = true -> stands (held s ++ [p]) (content start (tr ++ [(s, Adds x, Done)]))).
    { intros UN. eapply stands_ext; [|exact (add_step D t W (held s) _ x p ST WH UN)]. intros z. rewrite content_snoc. reflexivity. }
    assert (IO : insert_one d (model_of x) = Ok (ti, map (value x) ci)) by reflexivity.
    assert (OTHERS : d <> DPostgres -> let '(s', (_, r)) := run_insert_one exec int_type num selects s d (model_of x) (t_auto t) x in fair t (down s) (content start tr x) (Adds x) (done r) /\ stands (held s') (content start (tr ++ [(s, Adds x, done r)]))).
    { intros _. unfold run_insert_one. rewrite IO. pose proof (EXEC s ti (map (value x) ci) _ R Logic.eq_refl) as P. cbv beta iota in P. rewrite CH in P. destruct (exec s ti _) as [[s' id]|].
      - destruct (unique (held s ++ [p])) eqn:UN; [|discriminate]. assert (HS : held s' = held s ++ [p]) by congruence. destruct WRITTEN as [-> _].
        replace (match m_insert (model_of x) with Some _ | _ => (s', (x, Ok tt)) end) with (s', (x, Ok tt)) by reflexivity. cbn [done]. split; [|rewrite HS; apply ADDED; reflexivity]. right. destruct (content start tr x); [discriminate|reflexivity].
      - cbn [done]. split; [|apply FAIL]. destruct P as [P|P]; [left; auto|]. right. destruct (content start tr x); [reflexivity|]. rewrite FREE in P. discriminate. }
    destruct d eqn:DD; [specialize (OTHERS ltac:(discriminate)); destruct (run_insert_one _ _ _ _ _ _ _ _ _) as [s' [x' r]]; exact OTHERS| |specialize (OTHERS ltac:(discriminate)); destruct (run_insert_one _ _ _ _ _ _ _ _ _) as [s' [x' r]]; exact OTHERS].
    clear OTHERS. unfold run_insert_one_pg. rewrite IO. cbn [write_row]. pose proof (ASK s ti (map (value x) ci) _ R Logic.eq_refl) as P. cbv beta iota in P. rewrite CH in P. destruct (ask s ti _) as [[s' rs]|].
    + destruct P as [P ->]. destruct (unique (held s ++ [p])) eqn:UN; [|discriminate]. assert (HS : held s' = held s ++ [p]) by congruence. cbn [map]. rewrite PRO, (RET Logic.eq_refl).
      pose proof (scanned_by D t conv PATHS [p] x) as F. cbn [map] in F. destruct (row_scan _ _ _ _) as [rec [[]| |]]; cbn [done].
      * split; [|rewrite HS; apply ADDED; reflexivity]. right. destruct (content start tr x); [discriminate|reflexivity].
      * exfalso. destruct F as [F|(y & rest & _ & c & I & F)]; [discriminate|]. rewrite (LOSSLESS c _ I) in F. discriminate.
      * contradiction.
    + cbn [done]. split; [|apply FAIL]. destruct P as [P|P]; [left; auto|]. right. destruct (content start tr x); [reflexivity|]. rewrite FREE in P. discriminate.
  - destruct (update_is y s) as (f & R & g & G1 & G2 & CH). destruct (change_step D t W EQ PATHS (held s) _ y g ST G1 G2) as (UN & ST'). rewrite UN in CH.
    change (update_by_pk d (model_of y)) with (Ok (tu, map (value y) cu)). cbn [send]. pose proof (EXEC s tu (map (value y) cu) _ R Logic.eq_refl) as P. cbv beta iota in P. rewrite CH in P. destruct (exec s tu _) as [[s' id]|].
    + assert (HS : held s' = map g (held s)) by congruence. split; [right; reflexivity|]. rewrite HS. eapply stands_ext; [|exact ST']. intros x. rewrite content_snoc. reflexivity.
    + split; [|apply FAIL]. left. split; [|reflexivity]. destruct P as [P|P]; [exact P|discriminate].
  - destruct (delete_is y s) as (text & args & wh & E & R & f & F & CH). pose proof (remove_step D t EQ (held s) _ y f ST F) as ST'.
    rewrite E. cbn [send]. pose proof (EXEC s text args _ R Logic.eq_refl) as P. cbv beta iota in P. rewrite CH in P. destruct (exec s text args) as [[s' id]|].
    + assert (HS : held s' = filter f (held s)) by congruence. split; [right; reflexivity|]. rewrite HS. eapply stands_ext; [|exact ST']. intros x. rewrite content_snoc. reflexivity.
    + split; [|apply FAIL]. left. split; [|reflexivity]. destruct P as [P|P]; [exact P|discriminate].
  - change (find_by_pk d (model_of x)) with (Ok (tf, map (value x) cf)). cbn [write_row]. pose proof (ASK s tf (map (value x) cf) _ (find_read x) Logic.eq_refl) as P. cbv beta iota in P. destruct (ask s tf _) as [[s' rs]|].
    + destruct P as (HS & l & P & ->). destruct (find_is x s l P) as (L1 & L2). clear P.
      pose proof (scanned_by D t conv PATHS l x) as F. assert (KEEP : forall r, match r with Done => False | _ => True end -> stands (held s') (content start (tr ++ [(s, Looks x, r)]))). { intros r NR. rewrite HS. eapply stands_ext; [|exact ST]. intros z. rewrite content_snoc. destruct r; [contradiction|reflexivity..]. }
      change (map name (gen_addrs t)) with (map name (t_columns t)). destruct (row_scan _ _ _ _) as [rec [[]| |]]; [| |contradiction].
      * split; [|apply KEEP; exact I]. right. destruct F as (r & rest & -> & RF1 & RF2). destruct (L1 r (or_introl Logic.eq_refl)) as (I1 & K). destruct (content start tr x) as [y|] eqn:C; [|exfalso; destruct ST as [_ ST]; specialize (ST x); rewrite C in ST; exact (ST r I1 K)].
        exists rec. split; [reflexivity|]. split; [|exact RF2]. intros c IC. specialize (RF1 c IC). rewrite (LOSSLESS c _ IC), (only_one D t EQ (held s) _ x y r ST C I1 K c IC) in RF1. congruence.
      * split; [|apply KEEP; exact I]. right. destruct F as [->|(y & rest & _ & c & IC & F)]; [|rewrite (LOSSLESS c _ IC) in F; discriminate]. destruct (content start tr x) as [y|] eqn:C; [|reflexivity]. exfalso. destruct ST as [_ ST]. specialize (ST x). rewrite C in ST. destruct ST as (r & I1 & K & _). exact (L2 Logic.eq_refl r I1 K).
    + split; [|apply FAIL]. left. auto.
Qed.
Lemma all_calls start cs : forall tr s, stands (held s) (content start tr) -> let '(tr', last) := history s cs in stands (held last) (content start (tr ++ tr')) /\
  forall pre s1 c r post, tr' = pre ++ (s1, c, r) :: post -> fair t (down s1) (content start (tr ++ pre) (about c)) c r.
Proof.
  induction cs as [|c cs IH]; intros tr s ST; cbn [ModelHistory.history].
  - rewrite app_nil_r. split; [exact ST|]. intros [|a pre]; discriminate.
  - pose proof (one_call start tr s c ST) as ONE. destruct (run_call s c) as [s' r]. destruct ONE as [F ST']. rewrite <- (PASS s') in ST'. specialize (IH _ _ ST'). destruct (history (pass s') cs) as [tr' last]. destruct IH as [IH1 IH2]. rewrite <- app_assoc in IH1. split; [exact IH1|].
    intros [|a pre] s1 c1 r1 post E; cbn [app] in E.
    + injection E as <- <- <- <-. rewrite app_nil_r. exact F.
    + injection E as <- E. specialize (IH2 _ _ _ _ _ E). rewrite <- app_assoc in IH2. exact IH2.
Qed.
(** Every call replies what the map says: InsertOne succeeds exactly for a key that is not there, FindByPK returns the record last written under the key, also when the record was written by several calls;
    only when the database cannot be reached does a call fail otherwise. Missing: columns written by the database, functions around columns, keys of records changed in memory by the calls. *)
Theorem C89_replies_partial start s0 cs pre s c r post : stands (held s0) start -> fst (history s0 cs) = pre ++ (s, c, r) :: post -> fair t (down s) (content start pre (about c)) c r.
Proof. intros ST E. pose proof (all_calls start cs [] s0 ST) as H. destruct (history s0 cs) as [tr last]. destruct H as [_ H]. exact (H _ _ _ _ _ E). Qed.
(** The table at the end holds the map: one row for each key, with the values of its record *)
Theorem C89_table_partial start s0 cs : stands (held s0) start -> let '(tr, last) := history s0 cs in
  forall x, match content start tr x with Some y => one_row D t (held last) x (whole t y) | None => forall r, In r (held last) -> ~ has_key_of D t r x end.
Proof.
  intros ST. pose proof (all_calls start cs [] s0 ST) as H. destruct (history s0 cs) as [tr last]. destruct H as [H _]. cbn [app] in H. intros x. pose proof H as [UN H']. specialize (H' x). destruct (content start tr x) as [y|] eqn:C; [|exact H'].
  destruct H' as (r & I & K & WH). exists r. split; [exact I|]. split; [exact K|]. split; [|exact WH]. intros r' I' K'. pose proof (has_same D t EQ r r' x K K') as S1. apply unique_iff in UN. clear -EQ UN I I' S1.
  induction UN as [|a rows F UN IH]; [destruct I|]. rewrite Forall_forall in F. destruct I as [->|I], I' as [->|I']; [reflexivity| | |apply IH; assumption].
  - rewrite (F r' I') in S1. discriminate.
  - rewrite (same_sym D EQ), (F r I) in S1. discriminate.
Qed.
(** What was inserted is found: with no other successful call on that key between, and the database reachable *)
Theorem C89_found_partial s0 cs s x s1 mid post r y : held s0 = [] -> fst (history s0 cs) = (s, Adds x, Done) :: mid ++ (s1, Looks y, r) :: post ->
  key_eq D t x y = true -> (forall e, In e mid -> key_eq D t (about (snd (fst e))) y = false \/ snd e = Failed \/ exists z, snd (fst e) = Looks z) -> ~ down s1 ->
  exists z, r = Found z /\ alike t x z.
Proof.
  intros H0 E K MID UP. assert (ST : stands (held s0) (fun _ => None)) by (rewrite H0; split; [reflexivity|intros z r0 []]).
  pose proof (C89_replies_partial (fun _ => None) s0 cs ((s, Adds x, Done) :: mid) s1 (Looks y) r post ST) as H. cbn [app] in H. specialize (H E). destruct H as [[DN _]|H]; [contradiction|].
  assert (C : content (fun _ => None) ((s, Adds x, Done) :: mid) y = Some x).
  { unfold SpecHistory.content. cbn [fold_left snd fst after]. rewrite K. clear -MID. induction mid as [|[[sm cm] rm] mid IH]; [reflexivity|]. cbn [fold_left snd fst]. replace (after D t y (Some x) cm rm) with (Some x); [apply IH; intros e I; apply MID; right; exact I|].
    destruct (MID _ (or_introl Logic.eq_refl)) as [X|[X|(z & X)]]; cbn [snd fst] in X; [|subst rm; destruct cm; reflexivity|subst cm; destruct rm; reflexivity]. destruct rm; [|destruct cm; reflexivity..]. destruct cm; cbn [about] in X; cbn [after]; rewrite ?X; reflexivity. }
  cbn [about] in H. rewrite C in H. destruct H as (z & -> & AL & _). exists z. auto.
Qed.
End Calls.

(** ** A concrete case: a table of three columns. The state: the rows, and whether the database can be reached for the statements to come *)
Definition hi_state : Type := list (row Z) * list bool.
Definition hi_down (s : hi_state) : Prop := hd false (snd s) = true.
Definition hi_pass (s : hi_state) : hi_state := (fst s, tl (snd s)).
Definition hi_fresh (_ : hi_state) : row Z := fun _ => 0%Z.
Notation hi_unique := (unique_on wr_db [B "id"]).
Definition hi_exec (d : driver) (s : hi_state) (text : bytes) (args : list Z) : option (hi_state * option Z) :=
  if hd false (snd s) then None else
  match read (flavour_of d) text args with
  | Some st => match change wr_db hi_unique (hi_fresh s) (fst s) st with Some rows' => Some ((rows', snd s), None) | None => None end
  | None => None
  end.
Definition hi_ask (d : driver) (s : hi_state) (text : bytes) (args : list Z) : option (hi_state * rows (V:=Z)) :=
  if hd false (snd s) then None else
  match read (flavour_of d) text args with
  | Some (Insert q cols rs c ret) =>
      match change wr_db hi_unique (hi_fresh s) (fst s) (Insert q cols rs c ret) with
      | Some rows' => Some ((rows', snd s), complete (map (fun es => map (eval wr_db (proposed wr_db (hi_fresh s) cols es)) ret) rs) false)
      | None => None
      end
  | Some (Select its _ wh _ _ lim off _) => Some (s, complete (map (fun x => map (eval wr_db x) its) (cut_to lim off (filter (chosen_by wr_db wh) (fst s)))) false)
  | _ => None
  end.
Definition hi_text (tn : bytes) (g : option (list piece * list column)) (val : column -> Z) : option (request Z) :=
  match g with Some (ps, cols) => match eval_pieces tn ps with Some text => Some (text, map val cols) | None => None end | None => None end.
Definition hi_model (d : driver) : (bytes -> Z) -> model Z :=
  record_model (fun _ => true) t_one d false None (B "users") None None None (hi_text (B "users") (gen_insert_one (fun _ => true) d true t_one)) (hi_text (B "users") (gen_find_by_pk (fun _ => true) d true t_one)) (hi_text (B "users") (gen_update_by_pk (fun _ => true) d true t_one)).
Definition hi_run (d : driver) := history (fun _ v => Some v) (hi_ask d) (hi_exec d) (fun _ => (true, 64%Z)) (fun z => z) (fun n => n) d (hi_model d) (gen_addrs t_one) (t_auto t_one) hi_pass.
Example C89_hypotheses : forall d, ex_build ex_one = Ok t_one /\ NoDup (map c_gopath (t_columns t_one)) /\ all_written t_one /\ readable d t_one wr_none wr_none wr_item /\ addresses (V:=Z) d true t_one (B "users") [B "users"] /\
  usable (V:=Z) d false t_one None (B "users") None [B "users"] (map (fun c => [Name (c_name c)]) (t_columns t_one)) /\ bare_keys Z d t_one /\ equality wr_db /\
  obeys_exec wr_db t_one (flavour_of d) [B "users"] fst hi_fresh hi_down (hi_exec d) /\ obeys_ask wr_db t_one (flavour_of d) [B "users"] fst hi_fresh hi_down (hi_ask d) /\ (forall s, fst (hi_pass s) = fst s) /\
  stands wr_db t_one [] (fun _ => None) /\
  (exists pi ci ti, gen_insert_one (fun _ => true) d true t_one = Some (pi, ci) /\ eval_pieces (B "users") pi = Some ti) /\ (exists pf cf tf, gen_find_by_pk (fun _ => true) d true t_one = Some (pf, cf) /\ eval_pieces (B "users") pf = Some tf) /\
  exists pu cu tu, gen_update_by_pk (fun _ => true) d true t_one = Some (pu, cu) /\ eval_pieces (B "users") pu = Some tu.
Proof.
  intros d. split; [reflexivity|]. split; [repeat constructor; cbn; intuition discriminate|]. split; [apply (usable_case d false)|].
  split; [intros c I; unfold t_one in I; cbn [t_columns In] in I; repeat (destruct I as [<-|I]; [split; [apply plain_nameb; reflexivity|split; [apply LemmasGen.wrapped_none; reflexivity|apply LemmasGen.selected_none; [reflexivity|apply plain_nameb; reflexivity]]]|]); destruct I|].
  split; [destruct d; reflexivity|]. split; [destruct d; unfold t_one; ex_usable; (eexists; split; [right; left; reflexivity|split; [reflexivity|discriminate]])|]. split; [intros L; cbn in L; inversion L as [|n H]; inversion H|]. split; [apply C88_hypotheses|].
  split; [|split; [|split; [reflexivity|split; [split; [reflexivity|intros x r []]|]]]].
  - intros s text args st R T. unfold hi_exec, hi_down. rewrite R. destruct (hd false (snd s)); [destruct st as [? ? ? [] ?|? ? ? ? ? ? ? ?|? ? ? [] []|? ? [] []]; auto|].
    destruct st as [? ? ? [] ?|? ? ? ? ? ? ? ?|? ? ? [] []|? ? [] []]; try exact I; change (map c_name (key_of t_one)) with [B "id"]; destruct (change _ _ _ _ _) as [rows'|] eqn:C; auto.
  - intros s text args st R T. unfold hi_ask, hi_down. rewrite R. destruct (hd false (snd s)); [destruct st as [? ? ? [] ?|? ? ? [] [] ? ? ?|? ? ? [] []|? ? [] []]; auto|].
    destruct st as [? ? ? [] ?|? ? ? [] [] ? ? ?|? ? ? [] []|? ? [] []]; try exact I.
    + change (map c_name (key_of t_one)) with [B "id"]. destruct (change _ _ _ _ _) as [rows'|] eqn:C; auto.
    + split; [reflexivity|]. eexists. split; [|reflexivity]. eexists. split; [reflexivity|]. split; [|reflexivity]. induction (filter _ (fst s)) as [|a l IH]; [constructor|]. constructor; [exact IH|]. apply Forall_forall. intros b _. unfold not_after. discriminate.
  - split; [|split]; destruct d; (do 3 eexists; split; [reflexivity|vm_compute; reflexivity]).
Qed.
(** Insert 1 and 2, insert 1 again, change 2, find both, delete 1 while the database is away and again, find both *)
Example C89_case : forall d, let '(tr, last) := hi_run d ([], [false; false; false; false; false; false; true]) [Adds (wr_rec 1 5 50); Adds (wr_rec 2 6 60); Adds (wr_rec 1 7 70); Changes (wr_rec 2 8 80); Looks (wr_rec 1 0 0); Looks (wr_rec 2 0 0); Removes (wr_rec 1 0 0); Removes (wr_rec 1 0 0); Looks (wr_rec 1 0 0); Looks (wr_rec 2 0 0)] in
  map (fun e => match snd e with Done => [] | Found x => wr_read x | Failed => [(-1)%Z] | Panicked => [(-2)%Z] end) tr = [[]; []; [-1]; []; [1; 5; 50]; [2; 8; 80]; [-1]; []; [-1]; [2; 8; 80]]%Z /\ map wr_show (fst last) = [[2; 8; 80]%Z].
Proof. intros []; vm_compute; split; reflexivity. Qed.
Print Assumptions C89_replies_partial.
Print Assumptions C89_table_partial.
Print Assumptions C89_found_partial.
