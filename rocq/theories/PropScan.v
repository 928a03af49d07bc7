(** C68, C69: columns of types with their own conversion, and what scanning does to shared values. *)
From Verif Require Import Base ModelStrconv ModelEncoding ModelScan SpecText LemmasJson.

(** What a field holds: a value, or nothing. *)
Definition content {T} (tgt : target T) : option T := match tgt with TVal x => Some x | TPtr p => p end.
Definition same_kind {T} (a b : target T) : Prop :=
  match a, b with TVal _, TVal _ | TPtr _, TPtr _ => True | _, _ => False end.
(** The outcome of a scan: the field holds [c] and the call returned [r]. *)
Definition gives {T} (before : target T) (out : scan_result T) (c : option T) (r : res unit) : Prop :=
  same_kind before (fst out) /\ content (fst out) = c /\ snd out = r.

(** ** C68.  The driver's text reaches UnmarshalText unchanged, and the field then holds what the method made of its old value; numbers
    arrive in decimal, floats and times in their usual text.  Missing part: nil pointers and booleans, refuted below. *)
Theorem C68_text_partial : forall (T : Type) (zero : T) um um_nil ff tx (tgt : target T) (x : T), content tgt = Some x ->
  let scan v := text_scanner zero um um_nil ff tx tgt v in
  let receives s v := gives tgt (scan v) (Some (fst (um s x))) (snd (um s x)) in
  (forall s, receives s (VString s) /\ receives s (VBytes s)) /\
  (forall z, exists s, denotes_int s z /\ receives s (VInt z)) /\
  (forall f, receives (ff f) (VFloat f)) /\
  (forall t, match tx t with Some s => receives s (VTime t) | None => scan (VTime t) = (tgt, Err) end) /\
  gives tgt (scan VNull) (match tgt with TVal _ => Some zero | TPtr _ => None end) (Ok tt).
Proof.
  intros T zero um um_nil ff tx tgt x Hx scan receives.
  assert (K : forall s, gives tgt (call um um_nil tgt s) (Some (fst (um s x))) (snd (um s x))).
  { intros s. unfold gives, call. destruct tgt as [ y | [ y | ] ]; cbn in Hx; [ | | discriminate ]; injection Hx as ->;
      destruct (um s x); repeat split. }
  split; [ intros s; split; apply K | ]. split; [ | split; [ | split ] ].
  - intros z. exists (format_int z). split; [ apply format_int_denotes | apply K ].
  - intros f. apply K.
  - intros t. unfold receives, scan, text_scanner. destruct (tx t); [ apply K | reflexivity ].
  - unfold scan. destruct tgt; repeat split.
Qed.
Print Assumptions C68_text_partial.

(** A value written by TextValue reads back, whichever way the driver returns it, through a field that holds something or through a pointer
    that the generated code has just made. *)
Theorem C68_round_trip_partial : forall (T : Type) (zero : T) (marshal : T -> option bytes) um um_nil ff tx,
  (forall x y s, marshal x = Some s -> um s y = (x, Ok tt)) ->
  forall x d, text_value marshal x = Ok d -> exists s, d = VBytes s /\
    forall tgt, gives tgt (text_scanner zero um um_nil ff tx (addressed zero tgt) (VBytes s)) (Some x) (Ok tt) /\
                gives tgt (text_scanner zero um um_nil ff tx (addressed zero tgt) (VString s)) (Some x) (Ok tt).
Proof.
  intros T zero marshal um um_nil ff tx Hm x d. unfold text_value. destruct (marshal x) as [ s | ] eqn:E; [ | discriminate ].
  intros H; injection H as <-. exists s. split; [ reflexivity | ]. intros tgt.
  unfold gives. destruct tgt as [ y | [ y | ] ]; cbn; rewrite (Hm _ _ _ E); repeat split.
Qed.
Print Assumptions C68_round_trip_partial.

(** A type with its own Scan behind a pointer gets the driver's value as it is; NULL empties the pointer. *)
Theorem C68_pointer_partial : forall (T : Type) (zero : T) sc sc_nil p (v : dval), v <> VNull ->
  let x := match p with Some x => x | None => zero end in
  gives (TPtr p) (ptr_scanner sc sc_nil (content (addressed zero (TPtr p))) v) (Some (fst (sc v x))) (snd (sc v x)) /\
  gives (TPtr p) (ptr_scanner sc sc_nil (content (addressed zero (TPtr p))) VNull) None (Ok tt).
Proof.
  intros T zero sc sc_nil p v Hv x. split; [ | repeat split ].
  unfold gives, ptr_scanner, call, x. destruct v; try contradiction; destruct p as [ y | ]; cbn;
    match goal with |- context [sc ?a ?b] => destruct (sc a b) end; repeat split.
Qed.
Print Assumptions C68_pointer_partial.

(** Binary columns: bytes reach UnmarshalBinary unchanged and read back. *)
Theorem C68_binary_partial : forall (T : Type) (marshal : T -> option bytes) um,
  (forall x y s, marshal x = Some s -> um s y = (x, Ok tt)) ->
  forall x y d, binary_value marshal x = Ok d -> binary_scanner um y d = (x, Ok tt).
Proof.
  intros T marshal um Hm x y d. unfold binary_value. destruct (marshal x) as [ s | ] eqn:E; [ | discriminate ].
  intros H; injection H as <-. exact (Hm _ _ _ E).
Qed.
Print Assumptions C68_binary_partial.

(** A nil pointer stays nil whatever the driver delivers and whatever the method does with a nil receiver: the scanners never make room for a
    value.  (The generated Addrs makes room first; a caller of the package who passes the address of a nil pointer, or who scans a second row
    after a NULL with the same addresses, loses the value or panics.) *)
Theorem C68_nil_refuted : forall (T : Type) (zero : T) um um_nil ff tx sc sc_nil (v : dval),
  fst (text_scanner zero um um_nil ff tx (TPtr None) v) = TPtr None /\
  fst (ptr_scanner sc sc_nil None v) = @TPtr T None /\
  ((forall s, um_nil s = Panic) -> (forall w, sc_nil w = Panic) -> forall s, v = VString s \/ v = VBytes s ->
     snd (text_scanner zero um um_nil ff tx (TPtr None) v) = Panic /\ snd (ptr_scanner sc sc_nil None v) = Panic).
Proof.
  intros T zero um um_nil ff tx sc sc_nil v. split; [ destruct v; try reflexivity; cbn; destruct (tx t); reflexivity | ].
  split; [ destruct v; reflexivity | ]. intros H1 H2 s [-> | ->]; cbn; rewrite H1, H2; split; reflexivity.
Qed.
Print Assumptions C68_nil_refuted.
Theorem C68_second_row_refuted : forall (T : Type) (zero : T) um um_nil ff tx (p : option T) s,
  fst (text_scanner zero um um_nil ff tx (fst (text_scanner zero um um_nil ff tx (TPtr p) VNull)) (VString s)) = TPtr None.
Proof. reflexivity. Qed.
Print Assumptions C68_second_row_refuted.

(** A boolean reaches UnmarshalText as the control character 0 or 1, which is neither a word nor a digit. *)
Theorem C68_bool_refuted : forall (T : Type) (zero : T) um um_nil ff tx (x : T) b,
  exists c, (N_of_ascii c < 2)%N /\ text_scanner zero um um_nil ff tx (TVal x) (VBool b) = text_scanner zero um um_nil ff tx (TVal x) (VBytes [c]) /\
    forall ds, [c] = ds -> ~ decimal_digits ds.
Proof.
  intros T zero um um_nil ff tx x b. exists (chr (if b then 1 else 0)). split; [ destruct b; reflexivity | ]. split; [ destruct b; reflexivity | ].
  intros ds <- [_ H]. inversion H as [ | c l Hc ]; subst. destruct b; cbn in Hc; lia.
Qed.
Print Assumptions C68_bool_refuted.

(** NULL and strings are errors for binary columns, although the same type reads NULL as zero everywhere else. *)
Theorem C68_binary_refuted : forall (T : Type) (um : bytes -> T -> T * res unit) x s, binary_scanner um x VNull = (x, Err) /\ binary_scanner um x (VString s) = (x, Err).
Proof. split; reflexivity. Qed.
Print Assumptions C68_binary_refuted.

Definition keep (s : bytes) (_ : bytes) : bytes * res unit := match s with [] => ([], Err) | _ => (s, Ok tt) end.
Example C68_case : text_scanner [] keep (fun _ => Panic) (fun _ => B "1.5") (fun _ => None) (TPtr (Some (B "old"))) (VInt (-70)%Z) = (TPtr (Some (B "-70")), Ok tt) /\
  text_scanner [] keep (fun _ => Panic) (fun _ => B "1.5") (fun _ => None) (addressed [] (TPtr None)) (VBytes (B "new")) = (TPtr (Some (B "new")), Ok tt) /\
  text_scanner [] keep (fun _ => Panic) (fun _ => B "1.5") (fun _ => None) (TPtr None) (VBytes (B "new")) = (TPtr None, Panic) /\
  (forall x y s, (match x with [] => None | _ => Some x end) = Some s -> keep s y = (x, Ok tt)).
Proof. split; [ reflexivity | split; [ reflexivity | split; [ reflexivity | ] ] ]. intros [ | c x ] y s H; [ discriminate | injection H as <-; reflexivity ]. Qed.

(** ** C69.  Scanning a row whose pointer columns are filled by making new variables changes no value that existed before, and every field
    afterwards holds what its scanner delivered. *)
Definition makes_new (k : scan_kind) : Prop := In k [KInt; KUint; KFloat; KBool; KString; KTime].
Lemma makes_new_flag k : makes_new k -> writes_through k = false.
Proof. unfold makes_new. cbn. intuition subst; reflexivity. Qed.
Lemma scan_fresh {T} k (sc : target T -> dval -> scan_result T) h p v h' p' r : makes_new k -> scan_cell k sc h p v = (h', p', r) -> exists more, h' = h ++ more.
Proof.
  intros K. unfold scan_cell. rewrite (makes_new_flag k K).
  destruct (sc (deref h p) v) as [ [ y | [ y | ] ] q ]; [ | destruct q | ]; intros H; injection H as <- <- <-;
    try (exists []; now rewrite app_nil_r); eexists; reflexivity.
Qed.
Theorem C69_new_variables_partial : forall (T : Type) (scs : list (scan_kind * (target T -> dval -> scan_result T))) h ps vs h' ps' r,
  Forall (fun s => makes_new (fst s)) scs -> scan_row scs h ps vs = (h', ps', r) ->
  forall i x, nth_error h i = Some x -> nth_error h' i = Some x.
Proof.
  intros T scs. induction scs as [ | [k sc] scs IH ]; intros h ps vs h' ps' r F E i x Hx.
  - cbn in E. injection E as <- <- <-. exact Hx.
  - inversion F as [ | a l Ha Hl ]; subst. cbn [fst] in Ha. cbn in E. destruct ps as [ | p ps ]; [ injection E as <- <- <-; exact Hx | ].
    destruct vs as [ | v vs ]; [ injection E as <- <- <-; exact Hx | ].
    destruct (scan_cell k sc h p v) as [[h1 p1] r1] eqn:C. pose proof (scan_fresh _ _ _ _ _ _ _ _ Ha C) as [more ->].
    assert (Hx1 : nth_error (h ++ more) i = Some x) by (rewrite nth_error_app1; [ exact Hx | apply nth_error_Some; congruence ]).
    destruct r1; [ | injection E as <- <- <-; exact Hx1 | injection E as <- <- <-; exact Hx1 ].
    destruct (scan_row scs (h ++ more) ps vs) as [[h2 ps2] r2] eqn:R. injection E as <- <- <-. eauto.
Qed.
Print Assumptions C69_new_variables_partial.

(** The scanners of the package that make new variables: the field holds the value read from the column and all others keep theirs. *)
Theorem C69_field_partial : forall (T : Type) k (sc : target T -> dval -> scan_result T) h p v y, makes_new k ->
  sc (deref h p) v = (TPtr (Some y), Ok tt) ->
  exists h' p', scan_cell k sc h p v = (h', p', Ok tt) /\ deref h' p' = TPtr (Some y) /\ forall i x, nth_error h i = Some x -> nth_error h' i = Some x.
Proof.
  intros T k sc h p v y K E. unfold scan_cell. rewrite E, (makes_new_flag k K). do 2 eexists. split; [ reflexivity | ]. split.
  - unfold deref. rewrite nth_error_app2, Nat.sub_diag by lia. reflexivity.
  - intros i x H. rewrite nth_error_app1; [ exact H | apply nth_error_Some; congruence ].
Qed.
Print Assumptions C69_field_partial.

(** Refuted for types with their own conversion: the value is written through the pointer, so a copy of the record made before the scan (which
    holds the same pointer) changes with it. *)
Theorem C69_copy_refuted : forall (T : Type) (zero : T) um um_nil ff tx k h i x s, In k [KText; KPointer; KJSON] -> nth_error h i = Some x -> fst (um s x) <> x ->
  let copy := Some i in
  match scan_cell k (text_scanner zero um um_nil ff tx) h (Some i) (VString s) with
  | (h', p', _) => p' = Some i /\ deref h' copy = TPtr (Some (fst (um s x))) /\ deref h' copy <> deref h copy
  end.
Proof.
  intros T zero um um_nil ff tx k h i x s Hk Hx Hne. cbn zeta. unfold scan_cell, deref.
  replace (writes_through k) with true by (cbn in Hk; intuition subst; reflexivity). rewrite Hx. cbn [text_scanner call].
  destruct (um s x) as [y r] eqn:E. cbn in Hne.
  assert (K : nth_error (set_cell h i y) i = Some y).
  { clear -Hx. revert i Hx. induction h as [ | c h IH ]; intros [ | i ] Hx; try discriminate; [ reflexivity | cbn; now apply IH ]. }
  split; [ reflexivity | ]. cbn [fst]. rewrite K. split; [ reflexivity | congruence ].
Qed.
Print Assumptions C69_copy_refuted.
Example C69_case :
  scan_row [(KString, string_scanner (fun _ => []) (fun _ => []) false)] [B "old"] [Some 0] [VString (B "new")] = ([B "old"; B "new"], [Some 1], Ok tt) /\
  scan_row [(KText, text_scanner [] keep (fun _ => Panic) (fun _ => []) (fun _ => None))] [B "old"] [Some 0] [VString (B "new")] = ([B "new"], [Some 0], Ok tt).
Proof. split; reflexivity. Qed.
