(** Property C102: a string field holds the text that the database sent.  Property C56, continued: which texts are float arrays. *)
From Coq Require Import List.
From Verif Require Import Base ModelStrconv ModelArray ModelEncoding SpecText LemmasArray LemmasArray2 LemmasArray3 LemmasJson.
Import ListNotations.

(** The field, or what the pointer field points to, is the text; the field is empty, the pointer field nil. *)
Definition field_is (t : target bytes) (s : bytes) : Prop := t = TVal s \/ t = TPtr (Some s).
Definition field_none (t : target bytes) : Prop := t = TVal [] \/ t = TPtr None.
(** A pointer field stays a pointer field. *)
Definition is_pointer (t : target bytes) : Prop := exists o, t = TPtr o.

(** Texts come back byte by byte, NULL as nothing, strict or not; a number or a boolean is refused by a strict scanner, the field left
    alone, and is its text otherwise.  Missing: the texts of floats and times are those of the library. *)
Theorem C102_string_partial : forall ff ts strict old,
  (forall s v, v = VString s \/ v = VBytes s -> exists new, string_scanner ff ts strict old v = (new, Ok tt) /\ field_is new s /\ (is_pointer new <-> is_pointer old)) /\
  (exists new, string_scanner ff ts strict old VNull = (new, Ok tt) /\ field_none new /\ (is_pointer new <-> is_pointer old)) /\
  (strict = true -> forall v, v <> VNull -> (forall s, v <> VString s /\ v <> VBytes s) -> string_scanner ff ts strict old v = (old, Err)) /\
  (strict = false ->
   (forall z, exists new t, string_scanner ff ts strict old (VInt z) = (new, Ok tt) /\ field_is new t /\ denotes_int t z) /\
   (forall b : bool, exists new, string_scanner ff ts strict old (VBool b) = (new, Ok tt) /\ field_is new (if b then B "true" else B "false")) /\
   (forall f, exists new, string_scanner ff ts strict old (VFloat f) = (new, Ok tt) /\ field_is new (ff f)) /\
   (forall t, exists new, string_scanner ff ts strict old (VTime t) = (new, Ok tt) /\ field_is new (ts t))).
Proof.
  intros ff ts strict old.
  assert (ST : forall s, field_is (store old s) s /\ (is_pointer (store old s) <-> is_pointer old)).
  { intros s. unfold field_is, is_pointer. destruct old; cbn [store]; (split; [ auto | ]); split; intros [o E]; try discriminate E; eexists; reflexivity. }
  split; [ | split; [ | split ] ].
  - intros s v [-> | ->]; exists (store old s); (split; [ reflexivity | ]); apply ST.
  - exists (store_null [] old). split; [ reflexivity | ]. unfold field_none, is_pointer. destruct old; cbn [store_null]; (split; [ auto | ]); split; intros [o E]; try discriminate E; eexists; reflexivity.
  - intros -> v N T. destruct v as [|b|z|f|b|s|t]; try reflexivity; [ now contradiction N | destruct (T b) as [_ X]; now contradiction X | destruct (T s) as [X _]; now contradiction X ].
  - intros ->. split; [ | split; [ | split ] ].
    + intros z. exists (store old (format_int z)), (format_int z). split; [ reflexivity | ]. split; [ apply ST | apply format_int_denotes ].
    + intros b. exists (store old (format_bool b)). split; [ reflexivity | ]. apply (ST (format_bool b)).
    + intros f. exists (store old (ff f)). split; [ reflexivity | apply ST ].
    + intros t. exists (store old (ts t)). split; [ reflexivity | apply ST ].
Qed.
Print Assumptions C102_string_partial.

(** Strings that differ are read as fields that differ. *)
Theorem C102_apart : forall ff ts strict old s u,
  fst (string_scanner ff ts strict old (VString s)) = fst (string_scanner ff ts strict old (VBytes u)) <-> s = u.
Proof. intros ff ts strict old s u. split; [ | now intros -> ]. destruct old; cbn; congruence. Qed.
Print Assumptions C102_apart.

Example C102_case : string_scanner (fun _ => []) (fun _ => []) false (TPtr None) (VInt (-12)) = (TPtr (Some (B "-12")), Ok tt) /\
  string_scanner (fun _ => []) (fun _ => []) true (TVal (B "old")) (VInt (-12)) = (TVal (B "old"), Err).
Proof. split; vm_compute; reflexivity. Qed.

(** ** C56: Scan accepts exactly the texts of one-dimensional arrays without NULL elements whose elements ParseFloat reads, and stores these.
    The contract of strconv is that the empty text is no float. *)
Theorem C56_float_array_source : forall (F : Type) (parse : bytes -> option F), parse [] = None -> forall dst src b l, given src b ->
  (float_scan F parse pg dst src = (Some l, Ok tt) <->
   exists ss, array_text "{"%char "}"%char b (map Some ss) /\ Forall2 (fun s f => parse s = Some f) ss l) /\
  (float_scan F parse js dst src = (Some l, Ok tt) <->
   exists ss, array_text "["%char "]"%char b (map Some ss) /\ Forall2 (fun s f => parse s = Some f) ss l).
Proof.
  intros F parse PN dst src b l G.
  assert (Q : forall br, br = pg \/ br = js -> scan br (dec_float F parse) dst src = (Some l, Ok tt) <->
    exists ss, array_text (opn br) (cls br) b (map Some ss) /\ Forall2 (fun s f => parse s = Some f) ss l).
  { intros br W. split.
    - intros H. destruct (scan_source br _ dst src b l W G H) as (vs & T & FF).
      assert (X : exists ss, vs = map Some ss /\ Forall2 (fun s f => parse s = Some f) ss l).
      { clear - FF PN. induction FF as [|v z vs l E FF (ss & -> & D)]; [ exists []; split; [ reflexivity | constructor ] | ].
        unfold dec_float in E. destruct v as [s|]; [ | congruence ]. exists (s :: ss). split; [ reflexivity | now constructor ]. }
      destruct X as (ss & -> & D). now exists ss.
    - intros (ss & T & D). apply (scan_accepts br _ dst src b l _ W G T). clear - D. induction D; constructor; assumption. }
  split; [ exact (Q pg (or_introl eq_refl)) | exact (Q js (or_intror eq_refl)) ].
Qed.
Print Assumptions C56_float_array_source.

(** A NULL among the floats is refused and the slice is left alone. *)
Example C56_null_case : let parse s := if bseq s (B "1.5") then Some true else None in
  parse [] = None /\ float_scan bool parse pg (Some [true]) (SString (B "{1.5,NULL}")) = (Some [true], Err) /\
  float_scan bool parse pg None (SString (B "{1.5,1.5}")) = (Some [true; true], Ok tt).
Proof. repeat split; vm_compute; reflexivity. Qed.
