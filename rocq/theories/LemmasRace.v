(** Calls that run at the same time: what one step may write, and what the rest of a call depends on. *)
From Verif Require Import Base ModelStrconv ModelCompiler ModelGen ModelRuntime ModelSlice ModelRace SpecSlice SpecRace LemmasSlice.
From Coq Require Import Lia.

Section Trans.
Variable room : nat -> nat.

(** the slices a call works with *)
Record held (h : heap) (om dup : slice) : Prop := {
  hd_om : valid h om; hd_dup : valid h dup; hd_apart : forall a i, grows om a i -> ~ shows dup a i }.
Record fresh (h : heap) (om dup c : slice) : Prop := {
  fr_valid : valid h c; fr_in : s_arr c < length h;
  fr_om : forall i, ~ shows om (s_arr c) i /\ ~ grows om (s_arr c) i;
  fr_dup : forall i, ~ shows dup (s_arr c) i }.
(** [h'] has the arrays of [h], and differs from it only in cells of [P] *)
Record within (P : nat -> nat -> Prop) (h h' : heap) : Prop := {
  wi_size : length h <= length h';
  wi_arrays : forall a, a < length h -> length (nth a h' []) = length (nth a h []);
  wi_cells : forall a i, a < length h -> ~ P a i -> cell h' a i = cell h a i }.

Lemma within_refl : forall P h, within P h h.
Proof. intros P h. split; reflexivity. Qed.
Lemma within_more : forall (P Q : nat -> nat -> Prop) h h', (forall a i, P a i -> Q a i) -> within P h h' -> within Q h h'.
Proof. intros P Q h h' I [a b c]. split; [exact a|exact b|]. intros x i L N. apply c; [exact L|]. intros K. exact (N (I x i K)). Qed.
Lemma within_trans : forall P h h1 h2, within P h h1 -> within P h1 h2 -> within P h h2.
Proof.
  intros P h h1 h2 [a b c] [a' b' c']. split; [lia| |].
  - intros x L. rewrite b' by lia. apply b. exact L.
  - intros x i L N. rewrite c' by (try lia; exact N). apply c; assumption.
Qed.

Lemma keep_valid : forall P h h' s, within P h h' -> valid h s -> valid h' s.
Proof. intros P h h' s [a b c] Vd. exact (valid_keep h h' s Vd a b). Qed.
Lemma keep_read : forall P h h' s, within P h h' -> valid h s -> (forall a i, shows s a i -> ~ P a i) -> read h' s = read h s.
Proof.
  intros P h h' s [a b c] Vd N. apply read_cells. intros x i Sh. apply c; [exact (valid_in h s x i Vd (or_introl Sh))|exact (N x i Sh)].
Qed.

Lemma append_within : forall h s xs, valid h s -> within (grows s) h (fst (append room h s xs)).
Proof. intros h s xs Vd. destruct (append_ok room h s xs Vd) as [a1 a2 a3 a4 a5 a6]. split; assumption. Qed.
(** where the cells of the longer slice come from *)
Lemma append_grows : forall h s xs a i, valid h s -> grows (snd (append room h s xs)) a i -> grows s a i \/ length h <= a.
Proof.
  intros h s xs a i Vd [G1 G2]. destruct (append_ok room h s xs Vd) as [a1 a2 a3 a4 a5 a6].
  destruct a6 as [[e1 [e2 [e3 e4]]]|[e _]]; [left|right; lia]. split; [congruence|]. rewrite e2, e3 in G2. lia.
Qed.
Lemma append_shows : forall h s xs a i, valid h s -> shows (snd (append room h s xs)) a i -> shows s a i \/ grows s a i \/ length h <= a.
Proof.
  intros h s xs a i Vd [G1 G2]. destruct (append_ok room h s xs Vd) as [a1 a2 a3 a4 a5 a6].
  destruct a6 as [[e1 [e2 [e3 e4]]]|[e _]]; [|right; right; lia].
  assert (LC : s_len (snd (append room h s xs)) <= s_cap (snd (append room h s xs))) by (destruct a2; assumption).
  rewrite e2 in G2. rewrite e3 in LC.
  destruct (Nat.lt_ge_cases i (s_off s + s_len s)); [left|right; left]; split; try congruence; lia.
Qed.

Lemma held_append : forall h om dup xs, held h om dup -> held (fst (append room h om xs)) (snd (append room h om xs)) dup.
Proof.
  intros h om dup xs [a b c]. pose proof (append_within h om xs a) as W.
  split; [exact (ap_valid _ _ _ _ _ (append_ok room h om xs a))|exact (keep_valid _ _ _ _ W b)|].
  intros x i G Sh. destruct (append_grows h om xs x i a G) as [G'|L]; [exact (c x i G' Sh)|].
  pose proof (valid_in h dup x i b (or_introl Sh)). lia.
Qed.
Lemma fresh_append : forall h om dup c xs, held h om dup -> fresh h om dup c ->
  fresh (fst (append room h om xs)) (snd (append room h om xs)) dup c
  /\ read (fst (append room h om xs)) c = read h c.
Proof.
  intros h om dup c xs [a b d] [v i f g]. pose proof (append_within h om xs a) as W. split.
  - split; [exact (keep_valid _ _ _ _ W v)|destruct W; lia| |exact g]. intros k. split; intros G.
    + destruct (append_shows h om xs _ _ a G) as [X|[X|X]]; [exact (proj1 (f k) X)|exact (proj2 (f k) X)|lia].
    + destruct (append_grows h om xs _ _ a G) as [X|X]; [exact (proj2 (f k) X)|lia].
  - apply (keep_read _ _ _ _ W v). intros x k [-> _] G. exact (proj2 (f k) G).
Qed.
Lemma dup_append : forall h om dup xs, held h om dup -> read (fst (append room h om xs)) dup = read h dup.
Proof.
  intros h om dup xs [a b d]. apply (keep_read _ _ _ _ (append_within h om xs a) b). intros x i Sh G. exact (d x i G Sh).
Qed.

(** anything that happens elsewhere *)
Lemma held_frame : forall P h h' om dup, within P h h' -> held h om dup -> held h' om dup.
Proof. intros P h h' om dup W [a b c]. split; [exact (keep_valid _ _ _ _ W a)|exact (keep_valid _ _ _ _ W b)|exact c]. Qed.
Lemma fresh_frame : forall P h h' om dup c, within P h h' -> fresh h om dup c -> fresh h' om dup c.
Proof. intros P h h' om dup c W [a b d e]. split; [exact (keep_valid _ _ _ _ W a)|destruct W; lia|exact d|exact e]. Qed.

Lemma literal_within : forall P h l, within P h (h ++ [l]).
Proof.
  intros P h l. split; [rewrite app_length; lia| |].
  - intros a A. rewrite app_nth1 by exact A. reflexivity.
  - intros a i A _. unfold cell. rewrite app_nth1 by exact A. reflexivity.
Qed.
Lemma literal_fresh : forall h om dup l, held h om dup -> fresh (h ++ [l]) om dup (snd (literal h l)).
Proof.
  intros h om dup l [a b d]. cbn [literal snd]. split; cbn [s_arr].
  - split; cbn; [lia|right]. rewrite app_length. cbn. split; [lia|].
    rewrite app_nth2, Nat.sub_diag by lia. cbn. lia.
  - rewrite app_length. cbn. lia.
  - intros i. split; intros X; [pose proof (valid_in h om _ i a (or_introl X))|pose proof (valid_in h om _ i a (or_intror X))]; lia.
  - intros i X. pose proof (valid_in h dup _ i b (or_introl X)). lia.
Qed.
Lemma literal_read : forall h l, read (h ++ [l]) (snd (literal h l)) = l.
Proof.
  intros h l. unfold read. cbn [literal snd s_arr s_off s_len]. rewrite app_nth2, Nat.sub_diag by lia. cbn [nth skipn].
  apply firstn_all.
Qed.

(** the columns lose the auto-increment column *)
Lemma delete_opt_ok : forall h om dup c i, held h om dup -> fresh h om dup c ->
  match without i (read h c) with
  | Ok cs => exists h' c', delete_opt room h c i = Ok (h', c') /\ read h' c' = cs
               /\ within (fun a _ => a = s_arr c) h h' /\ fresh h' om dup c' /\ s_arr c' = s_arr c
  | Err => False
  | Panic => delete_opt room h c i = Panic
  end.
Proof.
  intros h om dup c i [a b d] [v n f g]. destruct i as [i|]; cbn [without delete_opt].
  2: { exists h, c. split; [reflexivity|]. split; [reflexivity|]. split; [apply within_refl|].
       split; [split; assumption|reflexivity]. }
  unfold remove_at. rewrite (valid_len h c v). destruct (Nat.ltb_spec i (s_len c)) as [L|L].
  - destruct (delete_ok room h c i v L) as [h' [c' [E [R [V1 [S1 [S2 [S3 [e1 [e2 [e3 e4]]]]]]]]]]].
    exists h', c'. split; [exact E|]. split; [exact R|]. split; [|split; [|exact e1]].
    + split; [exact S1|exact S2|]. intros x j A N. apply S3; [exact A|]. intros X _. exact (N X).
    + split; [exact V1|lia|rewrite e1; exact f|rewrite e1; exact g].
  - apply delete_panic. exact L.
Qed.
End Trans.

(** ** Places *)
Section Places.
Context {V : Type}.
Variable room : nat -> nat.
Notation place := (@place V).

(** cells a call may write from here on, and cells whose content matters to it *)
Definition writes (o : opts) (p : place) (a i : nat) : Prop :=
  match p with
  | Begins => grows (so_omit o) a i
  | HasColumns c => grows (so_omit o) a i \/ a = s_arr c
  | HasKeys c om | HasHead c om _ _ | HasTarget c om _ _ _ | HasOmitted c om _ _ _ => grows om a i \/ a = s_arr c
  | Ended _ => False
  end.
Definition reads (o : opts) (p : place) (a i : nat) : Prop :=
  match p with
  | Begins | HasColumns _ => shows (so_omit o) a i \/ shows (so_dup o) a i
  | HasKeys c om | HasHead c om _ _ | HasTarget c om _ _ _ | HasOmitted c om _ _ _ => shows om a i \/ shows (so_dup o) a i
  | Ended _ => False
  end.
Definition good (h : heap) (o : opts) (p : place) : Prop :=
  match p with
  | Begins => held h (so_omit o) (so_dup o)
  | HasColumns c => held h (so_omit o) (so_dup o) /\ fresh h (so_omit o) (so_dup o) c
  | HasKeys c om | HasHead c om _ _ | HasTarget c om _ _ _ | HasOmitted c om _ _ _ =>
      held h om (so_dup o) /\ fresh h om (so_dup o) c
  | Ended _ => True
  end.

(** the rest of a call on lists *)
Section Rest.
Variables (m : model V) (nothing : bool) (dup : list bytes).
Definition rest5 (c om : list bytes) (head : bytes) (values : list V) (t : list bytes) : res (request V) :=
  Ok (head ++ B " ON CONFLICT(" ++ join (B ",") t ++ B ")"
      ++ (if nothing then B " DO NOTHING" else B " DO UPDATE SET " ++ excluded_list (kept om c))
      ++ B " RETURNING " ++ join (B ",") (table_columns m) ++ B ";", values).
Definition rest4 (c om : list bytes) (head : bytes) (values : list V) (t : list bytes) : res (request V) :=
  rest5 c (if nothing then om else om ++ match m_omit m with Some l => l | None => [] end) head values t.
Definition rest3 (c om : list bytes) (head : bytes) (values : list V) : res (request V) :=
  let* p := conflict_target m {| o_nothing := nothing; o_omit := []; o_dup := dup |} in
  rest4 c (om ++ snd p) head values (fst p).
Definition rest2 (c om : list bytes) : res (request V) :=
  let* cs := without (auto_idx m) c in
  let* values := without (auto_idx m) (m_values m) in
  rest3 cs om (B "INSERT INTO " ++ db_table m ++ B " (" ++ join (B ",") cs ++ B ") VALUES " ++ m_places m 0) values.
Definition rest1 (c om : list bytes) : res (request V) :=
  let* keys := key_names m in rest2 c (om ++ keys).
End Rest.
Definition rest (m : model V) (o : opts) (h : heap) (p : place) : res (request V) :=
  let n := so_nothing o in
  let dup := read h (so_dup o) in
  match p with
  | Begins => rest1 m n dup (m_columns m) (read h (so_omit o))
  | HasColumns c => rest1 m n dup (read h c) (read h (so_omit o))
  | HasKeys c om => rest2 m n dup (read h c) (read h om)
  | HasHead c om head values => rest3 m n dup (read h c) (read h om) head values
  | HasTarget c om head values t => rest4 m n (read h c) (read h om) head values t
  | HasOmitted c om head values t => rest5 m n (read h c) (read h om) head values t
  | Ended r => r
  end.

Lemma key_names_err : forall m : model V, key_names m <> Err.
Proof. intros m. unfold key_names. destruct (m_key m); discriminate. Qed.
Lemma without_not_err : forall {A} i (l : list A), without i l <> Err.
Proof. intros A [i|] l; cbn [without]; [unfold remove_at; destruct (Nat.ltb _ _)|]; discriminate. Qed.

(** the whole of a call is UpsertOne on lists *)
Lemma rest_whole : forall m o h, rest m o h Begins = upsert_one_pg m (given h o).
Proof.
  intros m o h. unfold rest, rest1, rest2, rest3, rest4, rest5, upsert_one_pg, conflict_text, given. cbn [o_nothing o_omit o_dup].
  destruct (key_names m) as [keys| |] eqn:K; cbn [bind].
  - destruct (without (auto_idx m) (m_columns m)) as [cs| |]; cbn [bind]; [|reflexivity|reflexivity].
    destruct (without (auto_idx m) (m_values m)) as [vs| |]; cbn [bind]; [|reflexivity|reflexivity].
    unfold conflict_target. cbn [o_dup].
    destruct (read h (so_dup o)) as [|x xs]; [destruct (m_dup m) as [ks|]; [|rewrite K]|]; cbn [bind fst snd];
      (destruct (so_nothing o); rewrite <- !app_assoc; reflexivity).
  - destruct (key_names_err _ K).
  - destruct (without (auto_idx m) (m_columns m)) as [cs| |] eqn:W; cbn [bind]; [|destruct (without_not_err _ _ W)|reflexivity].
    destruct (without (auto_idx m) (m_values m)) as [vs| |] eqn:W'; cbn [bind]; [reflexivity|destruct (without_not_err _ _ W')|reflexivity].
Qed.

(** what happens elsewhere leaves a call as it is *)
Lemma good_frame : forall P h h' o p, within P h h' -> good h o p -> good h' o p.
Proof.
  intros P h h' o p W. destruct p; cbn [good]; try (intros [G F]; split; [exact (held_frame _ _ _ _ _ W G)|exact (fresh_frame _ _ _ _ _ _ W F)]).
  - intros G. exact (held_frame _ _ _ _ _ W G).
  - intros _. exact I.
Qed.
Lemma rest_frame : forall P h h' m o p, within P h h' -> good h o p ->
  (forall a i, writes o p a i \/ reads o p a i -> ~ P a i) -> rest m o h' p = rest m o h p.
Proof.
  intros P h h' m o p W G N.
  assert (RD : forall om, held h om (so_dup o) -> (forall a i, shows om a i \/ shows (so_dup o) a i -> ~ P a i) ->
               read h' om = read h om /\ read h' (so_dup o) = read h (so_dup o)).
  { intros om [a b c] Q. split; [apply (keep_read _ _ _ _ W a)|apply (keep_read _ _ _ _ W b)];
      intros x i Sh; apply Q; [left|right]; exact Sh. }
  assert (RC : forall om c, fresh h om (so_dup o) c -> (forall i, ~ P (s_arr c) i) -> read h' c = read h c).
  { intros om c [a b d e] Q. apply (keep_read _ _ _ _ W a). intros x i [-> _]. apply Q. }
  destruct p as [|c|c om|c om hd vs|c om hd vs t|c om hd vs t|r]; cbn [good writes reads] in *; unfold rest; cbv zeta.
  - destruct (RD _ G (fun a i X => N a i (or_intror X))) as [-> ->]. reflexivity.
  - destruct G as [G F]. destruct (RD _ G (fun a i X => N a i (or_intror X))) as [-> ->].
    rewrite (RC _ _ F (fun i => N _ i (or_introl (or_intror eq_refl)))). reflexivity.
  - destruct G as [G F]. destruct (RD _ G (fun a i X => N a i (or_intror X))) as [-> ->].
    rewrite (RC _ _ F (fun i => N _ i (or_introl (or_intror eq_refl)))). reflexivity.
  - destruct G as [G F]. destruct (RD _ G (fun a i X => N a i (or_intror X))) as [-> ->].
    rewrite (RC _ _ F (fun i => N _ i (or_introl (or_intror eq_refl)))). reflexivity.
  - destruct G as [G F]. destruct (RD _ G (fun a i X => N a i (or_intror X))) as [-> _].
    rewrite (RC _ _ F (fun i => N _ i (or_introl (or_intror eq_refl)))). reflexivity.
  - destruct G as [G F]. destruct (RD _ G (fun a i X => N a i (or_intror X))) as [-> _].
    rewrite (RC _ _ F (fun i => N _ i (or_introl (or_intror eq_refl)))). reflexivity.
  - reflexivity.
Qed.

(** ** One step *)
Record stepped (m : model V) (o : opts) (h : heap) (p : place) (h' : heap) (p' : place) : Prop := {
  sd_within : within (writes o p) h h';
  sd_writes : forall a i, writes o p' a i -> writes o p a i \/ length h <= a;
  sd_reads : forall a i, reads o p' a i -> reads o p a i \/ writes o p a i \/ length h <= a;
  sd_good : good h' o p';
  sd_rest : rest m o h' p' = rest m o h p
}.

Lemma stepped_end : forall m o h p r, rest m o h p = r -> stepped m o h p h (Ended r).
Proof. intros m o h p r E. split; [apply within_refl|intros a i []|intros a i []|exact I|symmetry; exact E]. Qed.

(** append on the omitted fields, from one place to another *)
Lemma append_stepped : forall m o h p p' c om xs,
  held h om (so_dup o) -> fresh h om (so_dup o) c ->
  (forall a i, writes o p a i <-> grows om a i \/ a = s_arr c) ->
  (forall a i, reads o p a i <-> shows om a i \/ shows (so_dup o) a i) ->
  (forall a i, writes o p' a i <-> grows (snd (append room h om xs)) a i \/ a = s_arr c) ->
  (forall a i, reads o p' a i <-> shows (snd (append room h om xs)) a i \/ shows (so_dup o) a i) ->
  (good (fst (append room h om xs)) o p'
   <-> held (fst (append room h om xs)) (snd (append room h om xs)) (so_dup o)
       /\ fresh (fst (append room h om xs)) (snd (append room h om xs)) (so_dup o) c) ->
  rest m o (fst (append room h om xs)) p' = rest m o h p ->
  stepped m o h p (fst (append room h om xs)) p'.
Proof.
  intros m o h p p' c om xs Hd Fr W R W' R' G E. destruct (fresh_append room h om (so_dup o) c xs Hd Fr) as [Fr' _].
  split.
  - apply (within_more (grows om)); [intros a i X; apply W; left; exact X|]. apply append_within. destruct Hd; assumption.
  - intros a i X. apply W' in X. destruct X as [X|X]; [|left; apply W; right; exact X].
    destruct (append_grows room h om xs a i (hd_om _ _ _ Hd) X) as [Y|Y]; [left; apply W; left; exact Y|right; exact Y].
  - intros a i X. apply R' in X. destruct X as [X|X]; [|left; apply R; right; exact X].
    destruct (append_shows room h om xs a i (hd_om _ _ _ Hd) X) as [Y|[Y|Y]];
      [left; apply R; left; exact Y|right; left; apply W; left; exact Y|right; right; exact Y].
  - apply G. split; [apply held_append; exact Hd|exact Fr'].
  - exact E.
Qed.

Lemma step_ok : forall m o h p, good h o p -> stepped m o h p (fst (step room m o h p)) (snd (step room m o h p)).
Proof.
  intros m o h p G. destruct p as [|c|c om|c om hd vs|c om hd vs t|c om hd vs t|r]; cbn [good] in G.
  - change (fst (step room m o h Begins)) with (h ++ [m_columns m]).
    change (snd (step room m o h Begins)) with (@HasColumns V (snd (literal h (m_columns m)))).
    pose proof (literal_fresh h _ _ (m_columns m) G) as F.
    assert (Q : forall P, within P h (h ++ [m_columns m])) by (intros P; apply literal_within).
    split.
    + apply Q.
    + intros a i [X|X]; [left; exact X|right; cbn in X; lia].
    + intros a i X. left. exact X.
    + split; [exact (held_frame _ _ _ _ _ (Q (fun _ _ => False)) G)|exact F].
    + unfold rest. cbv zeta. rewrite literal_read. destruct G as [a b d].
      rewrite (keep_read _ _ _ _ (Q (fun _ _ => False)) a) by (intros; intros []).
      rewrite (keep_read _ _ _ _ (Q (fun _ _ => False)) b) by (intros; intros []). reflexivity.
  - destruct G as [G F]. unfold step. destruct (key_names m) as [keys| |] eqn:K; cbn [fst snd].
    + apply (append_stepped m o h _ _ c (so_omit o) keys G F); try (intros; cbn [writes reads good]; reflexivity).
      unfold rest, rest1. cbv zeta. rewrite K. cbn [bind].
      rewrite (ap_read _ _ _ _ _ (append_ok room h (so_omit o) keys (hd_om _ _ _ G))), (dup_append room _ _ _ keys G).
      rewrite (proj2 (fresh_append room h _ _ c keys G F)). reflexivity.
    + destruct (key_names_err _ K).
    + apply stepped_end. unfold rest, rest1. cbv zeta. rewrite K. reflexivity.
  - destruct G as [G F]. unfold step. pose proof (delete_opt_ok room h om (so_dup o) c (auto_idx m) G F) as D.
    destruct (without (auto_idx m) (read h c)) as [cs| |] eqn:W; [|destruct D|].
    2: { rewrite D. cbn [fst snd]. apply stepped_end. unfold rest, rest2. cbv zeta. rewrite W. reflexivity. }
    destruct D as [h' [c' [E [R [Wi [F' A]]]]]]. rewrite E.
    destruct (without (auto_idx m) (m_values m)) as [vs| |] eqn:W'; cbn [fst snd].
    + split.
      * apply (within_more (fun a _ => a = s_arr c)); [intros a i X; right; exact X|exact Wi].
      * intros a i [X|X]; left; cbn [writes]; [left; exact X|right; congruence].
      * intros a i X. left. exact X.
      * split; [exact (held_frame _ _ _ _ _ Wi G)|exact F'].
      * unfold rest, rest2. cbv zeta. rewrite W, W'. cbn [bind]. rewrite R. destruct G as [a b d], F as [v n f g].
        rewrite (keep_read _ _ _ _ Wi a) by (intros x i Sh X; subst x; exact (proj1 (f i) Sh)).
        rewrite (keep_read _ _ _ _ Wi b) by (intros x i Sh X; subst x; exact (g i Sh)). reflexivity.
    + destruct (without_not_err _ _ W').
    + apply stepped_end. unfold rest, rest2. cbv zeta. rewrite W, W'. reflexivity.
  - destruct G as [G F]. unfold step, target_h. pose proof (valid_len h _ (hd_dup _ _ _ G)) as L.
    assert (SAME : forall t, rest4 m (so_nothing o) (read h c) (read h om) hd vs t = rest m o h (HasHead c om hd vs)
                   -> stepped m o h (HasHead c om hd vs) h (HasTarget c om hd vs t)).
    { intros t E. split; [apply within_refl|intros a i X; left; exact X|intros a i X; left; exact X|split; assumption|exact E]. }
    destruct (s_len (so_dup o)) as [|n] eqn:LN.
    + destruct (m_dup m) as [ks|] eqn:MD.
      * replace (match Ok (append room h om ks, ks) with Ok (h', om', t) => (h', HasTarget c om' hd vs t) | _ => (h, Ended Panic) end)
          with (fst (append room h om ks), HasTarget c (snd (append room h om ks)) hd vs ks) by (destruct (append room h om ks); reflexivity).
        cbn [fst snd].
        apply (append_stepped m o h _ _ c om ks G F); try (intros; cbn [writes reads good]; reflexivity).
        unfold rest, rest3, conflict_target. cbv zeta. cbn [o_dup]. rewrite MD.
        destruct (read h (so_dup o)); [|discriminate L]. cbn [bind fst snd].
        rewrite (ap_read _ _ _ _ _ (append_ok room h om ks (hd_om _ _ _ G))).
        rewrite (proj2 (fresh_append room h _ _ c ks G F)). reflexivity.
      * destruct (key_names m) as [ns| |] eqn:K; cbn [bind fst snd].
        -- apply SAME. unfold rest, rest3, conflict_target. cbv zeta. cbn [o_dup]. rewrite MD, K.
           destruct (read h (so_dup o)); [|discriminate L]. cbn [bind fst snd]. rewrite app_nil_r. reflexivity.
        -- destruct (key_names_err _ K).
        -- apply stepped_end. unfold rest, rest3, conflict_target. cbv zeta. cbn [o_dup]. rewrite MD, K.
           destruct (read h (so_dup o)); [|discriminate L]. reflexivity.
    + cbn [fst snd]. apply SAME. unfold rest, rest3, conflict_target. cbv zeta. cbn [o_dup].
      destruct (read h (so_dup o)); [discriminate L|]. cbn [bind fst snd]. rewrite app_nil_r. reflexivity.
  - destruct G as [G F]. unfold step, omit_h.
    assert (SAME : (if so_nothing o then read h om else read h om ++ match m_omit m with Some l => l | None => [] end) = read h om
                   -> stepped m o h (HasTarget c om hd vs t) h (HasOmitted c om hd vs t)).
    { intros E. split; [apply within_refl|intros a i X; left; exact X|intros a i X; left; exact X|split; assumption|].
      unfold rest, rest4. cbv zeta. rewrite E. reflexivity. }
    destruct (so_nothing o) eqn:N; [apply SAME; reflexivity|].
    destruct (m_omit m) as [l|] eqn:MO; cbn [fst snd]; [|apply SAME; apply app_nil_r].
    apply (append_stepped m o h _ _ c om l G F); try (intros; cbn [writes reads good]; reflexivity).
    unfold rest, rest4. cbv zeta. rewrite N, MO, (ap_read _ _ _ _ _ (append_ok room h om l (hd_om _ _ _ G))).
    rewrite (proj2 (fresh_append room h _ _ c l G F)). reflexivity.
  - destruct G as [G F].
    assert (RT : within (fun _ _ => False) h (fst (returned (generated_columns (m_columns m)) h m))
                 /\ snd (returned (generated_columns (m_columns m)) h m) = table_columns m).
    { unfold returned, table_columns. destruct (m_sqlcolumns m) as [l|]; cbn [fst snd].
      - split; [apply within_refl|reflexivity].
      - split; [apply literal_within|apply literal_read]. }
    destruct RT as [W E]. unfold step. cbv zeta. cbn [fst snd]. split.
    + apply (within_more (fun _ _ => False)); [intros a i []|exact W].
    + intros a i [].
    + intros a i [].
    + exact I.
    + unfold rest, rest5. cbv zeta. rewrite E. reflexivity.
  - apply stepped_end. reflexivity.
Qed.

(** ** All calls *)
Variable h0 : heap.
Record fine (l : list (model V * opts)) (h : heap) (ts : @calls V) : Prop := {
  fi_list : map fst ts = l;
  fi_good : forall i m o p, nth_error ts i = Some ((m, o), p) -> good h o p /\ rest m o h p = upsert_one_pg m (given h0 o);
  fi_apart : forall i j m o p m' o' p', i <> j -> nth_error ts i = Some ((m, o), p) -> nth_error ts j = Some ((m', o'), p') ->
    forall a k, writes o p a k -> ~ writes o' p' a k /\ ~ reads o' p' a k;
  fi_rooms : forall i m o p, nth_error ts i = Some ((m, o), p) -> forall a k, a < length h0 -> writes o p a k -> rooms l a k;
  fi_within : within (rooms l) h0 h
}.

Lemma reach : forall h o (p : place) a k, good h o p -> writes o p a k \/ reads o p a k -> a < length h.
Proof.
  intros h o p a k G X.
  assert (H1 : forall om, held h om (so_dup o) -> grows om a k \/ shows om a k \/ shows (so_dup o) a k -> a < length h).
  { intros om [v w d] [Y|[Y|Y]]; [exact (valid_in h om a k v (or_intror Y))|exact (valid_in h om a k v (or_introl Y))|exact (valid_in h _ a k w (or_introl Y))]. }
  destruct p as [|c|c om|c om hd vs|c om hd vs t|c om hd vs t|r]; cbn [good writes reads] in *.
  1: { apply (H1 _ G). tauto. }
  6: { tauto. }
  all: destruct G as [G F]; destruct X as [[X| ->]|X]; [apply (H1 _ G); tauto|destruct F; assumption|apply (H1 _ G); tauto].
Qed.

Lemma move_nth : forall (ts : @calls V) h i k,
  nth_error (snd (move room h ts i)) k
  = match nth_error ts k with
    | Some (mo, p) => Some (mo, if Nat.eqb k i then snd (step room (fst mo) (snd mo) h p) else p)
    | None => None
    end.
Proof.
  intros ts. induction ts as [|[mo p] ts IH]; intros h i k; [destruct i, k; reflexivity|].
  destruct i as [|i]; destruct k as [|k]; cbn [move nth_error fst snd Nat.eqb]; try reflexivity.
  - destruct (nth_error ts k) as [[mo' p']|]; reflexivity.
  - apply IH.
Qed.
Lemma move_heap : forall (ts : @calls V) h i,
  fst (move room h ts i)
  = match nth_error ts i with Some (mo, p) => fst (step room (fst mo) (snd mo) h p) | None => h end.
Proof.
  intros ts. induction ts as [|[mo p] ts IH]; intros h i; [destruct i; reflexivity|].
  destruct i as [|i]; cbn [move nth_error fst snd]; [reflexivity|apply IH].
Qed.
Lemma move_list : forall (ts : @calls V) h i, map fst (snd (move room h ts i)) = map fst ts.
Proof.
  intros ts. induction ts as [|[mo p] ts IH]; intros h i; [destruct i; reflexivity|].
  destruct i as [|i]; cbn [move map fst snd]; [reflexivity|rewrite IH; reflexivity].
Qed.

Lemma fine_move : forall l h ts i, fine l h ts -> fine l (fst (move room h ts i)) (snd (move room h ts i)).
Proof.
  intros l h ts i [f1 f2 f3 f4 f5].
  destruct (nth_error ts i) as [[[m o] p]|] eqn:E.
  2: { assert (X : snd (move room h ts i) = ts).
       { apply list_ext. intros k. rewrite move_nth. destruct (nth_error ts k) as [[mo q]|] eqn:Q; [|reflexivity].
         destruct (Nat.eqb_spec k i) as [->|]; [congruence|reflexivity]. }
       rewrite X, move_heap, E. split; assumption. }
  destruct (f2 i m o p E) as [G R]. pose proof (step_ok m o h p G) as SD.
  assert (HE : fst (move room h ts i) = fst (step room m o h p)) by (rewrite move_heap, E; reflexivity).
  assert (NE : forall k m' o' p', nth_error (snd (move room h ts i)) k = Some ((m', o'), p') ->
            (k = i /\ m' = m /\ o' = o /\ p' = snd (step room m o h p)) \/ (k <> i /\ nth_error ts k = Some ((m', o'), p'))).
  { intros k m' o' p' X. rewrite move_nth in X. destruct (nth_error ts k) as [[mo q]|] eqn:Q; [|discriminate X].
    destruct (Nat.eqb_spec k i) as [->|N].
    - left. rewrite E in Q. injection Q as <- <-. cbn [fst snd] in X. injection X as <- <- <-. repeat split.
    - right. split; [exact N|congruence]. }
  rewrite HE. destruct SD as [s1 s2 s3 s4 s5].
  assert (LE : length h0 <= length h) by (destruct f5; assumption).
  split.
  - rewrite move_list. exact f1.
  - intros k m' o' p' X. destruct (NE k m' o' p' X) as [[-> [-> [-> ->]]]|[N Y]].
    + split; [exact s4|rewrite s5; exact R].
    + destruct (f2 k m' o' p' Y) as [G' R']. split; [exact (good_frame _ _ _ _ _ s1 G')|].
      rewrite (rest_frame _ _ _ m' o' p' s1 G'); [exact R'|].
      intros a j Z C. destruct (f3 i k m o p m' o' p' (not_eq_sym N) E Y a j C) as [Z1 Z2]. destruct Z as [Z|Z]; [exact (Z1 Z)|exact (Z2 Z)].
  - intros k j m1 o1 p1 m2 o2 p2 N X1 X2 a q Wr.
    destruct (NE k m1 o1 p1 X1) as [[-> [-> [-> ->]]]|[N1 Y1]]; destruct (NE j m2 o2 p2 X2) as [[-> [-> [-> ->]]]|[N2 Y2]].
    + congruence.
    + destruct (s2 a q Wr) as [Z|Z]; [exact (f3 i j m o p m2 o2 p2 N E Y2 a q Z)|].
      destruct (f2 j m2 o2 p2 Y2) as [G2 _].
      split; intros C; [pose proof (reach h o2 p2 a q G2 (or_introl C))|pose proof (reach h o2 p2 a q G2 (or_intror C))]; lia.
    + destruct (f3 k i m1 o1 p1 m o p N1 Y1 E a q Wr) as [Z1 Z2]. destruct (f2 k m1 o1 p1 Y1) as [G1 _].
      pose proof (reach h o1 p1 a q G1 (or_introl Wr)) as LT.
      split; intros C; [destruct (s2 a q C) as [D|D]; [exact (Z1 D)|lia]|destruct (s3 a q C) as [D|[D|D]]; [exact (Z2 D)|exact (Z1 D)|lia]].
    + exact (f3 k j m1 o1 p1 m2 o2 p2 N Y1 Y2 a q Wr).
  - intros k m' o' p' X a q A Wr. destruct (NE k m' o' p' X) as [[-> [-> [-> ->]]]|[N Y]].
    + destruct (s2 a q Wr) as [Z|Z]; [exact (f4 i m o p E a q A Z)|lia].
    + exact (f4 k m' o' p' Y a q A Wr).
  - destruct f5 as [w1 w2 w3], s1 as [t1 t2 t3]. split; [lia| |].
    + intros a A. rewrite t2 by lia. apply w2. exact A.
    + intros a q A N. rewrite t3; [apply w3; assumption|lia|]. intros C. exact (N (f4 i m o p E a q A C)).
Qed.
Lemma fine_play : forall l sched h ts, fine l h ts -> fine l (fst (play room h ts sched)) (snd (play room h ts sched)).
Proof.
  intros l sched. induction sched as [|i s IH]; intros h ts F; [exact F|]. cbn [play]. apply IH. apply fine_move. exact F.
Qed.

Lemma started_nth : forall (l : list (model V * opts)) i mo p,
  nth_error (started l) i = Some (mo, p) -> nth_error l i = Some mo /\ p = Begins.
Proof.
  intros l. unfold started. induction l as [|x l IH]; intros [|i] mo p E; cbn [map nth_error] in E; try discriminate E.
  - injection E as <- <-. split; reflexivity.
  - exact (IH i mo p E).
Qed.
Lemma fine_start : forall l, apart h0 l -> fine l h0 (started l).
Proof.
  intros l [A1 A2 A3]. split.
  - unfold started. rewrite map_map. apply map_id.
  - intros i m o p E. apply started_nth in E. destruct E as [E ->]. apply nth_error_In in E. destruct (A1 m o E) as [v w].
    split; [|apply rest_whole]. split; [exact v|exact w|]. intros a k G. exact (proj1 (A2 m o m o E E a k G)).
  - intros i j m o p m' o' p' N E E' a k W. apply started_nth in E. apply started_nth in E'. destruct E as [E ->], E' as [E' ->].
    cbn [writes reads] in *. destruct (A2 m o m' o' (nth_error_In _ _ E) (nth_error_In _ _ E') a k W) as [B1 B2].
    split; [exact (A3 i j m o m' o' N E E' a k W)|]. intros [C|C]; [exact (B2 C)|exact (B1 C)].
  - intros i m o p E a k _ W. apply started_nth in E. destruct E as [E ->]. exists m, o. split; [exact (nth_error_In _ _ E)|exact W].
  - apply within_refl.
Qed.

(** ** Every step brings a call nearer to its end *)
Definition left_over (p : place) : nat :=
  match p with Begins => 6 | HasColumns _ => 5 | HasKeys _ _ => 4 | HasHead _ _ _ _ => 3 | HasTarget _ _ _ _ _ => 2
  | HasOmitted _ _ _ _ _ => 1 | Ended _ => 0 end.
Lemma step_left : forall m o h p, left_over (snd (step room m o h p)) <= left_over p - 1.
Proof.
  intros m o h p. destruct p; unfold step; cbn [left_over fst snd]; try lia.
  - destruct (key_names m); cbn [snd left_over]; lia.
  - destruct (delete_opt _ _ _ _) as [[h' c']| |]; [destruct (without _ _)|..]; cbn [snd left_over]; lia.
  - destruct (target_h _ _ _ _ _) as [[[h' om'] t]| |]; cbn [snd left_over]; lia.
  - destruct (so_nothing o); cbn [snd left_over]; lia.
Qed.
Lemma play_left : forall sched h ts i mo p q, nth_error ts i = Some (mo, p) ->
  nth_error (snd (play room h ts sched)) i = Some (mo, q) -> left_over q <= left_over p - count_occ Nat.eq_dec sched i.
Proof.
  intros sched. induction sched as [|j s IH]; intros h ts i mo p q E E'; cbn [play count_occ] in *.
  - cbn [snd] in E'. rewrite E in E'. injection E' as ->. lia.
  - pose proof (move_nth ts h j i) as N. rewrite E in N. specialize (IH _ _ i mo _ q N E').
    destruct (Nat.eqb_spec i j) as [->|D]; destruct (Nat.eq_dec j _) as [D'|D']; try congruence.
    + pose proof (step_left (fst mo) (snd mo) h p). lia.
Qed.
End Places.
