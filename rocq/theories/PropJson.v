(** C70: columns stored as JSON. *)
From Verif Require Import Base ModelArray ModelUtf8 ModelStrconv ModelEncoding SpecText SpecJson ModelJson SpecJsonValue LemmasJsonValue.

(** A decoder ([first_value]: the first value of a text and what follows) reads every JSON text (RFC 8259) whose strings are UTF-8 and that is not
    nested deeper than a limit (10000 in Go).  What it does with other texts is left open. *)
Definition reads_json (first_value : bytes -> option (json * bytes)) (limit : nat) : Prop :=
  forall s j, read_json s = Some j -> clean j -> (depth j <= limit)%nat -> exists rest, first_value s = Some (j, rest).

Section C70.
Variable first_value : bytes -> option (json * bytes).

(** Into a field that holds the zero value: a JSON text that denotes a value of the field's type is read as exactly that value, and any other
    JSON text is an error.  Missing part: fields that hold something already, and text after the first value; both refuted below.
    Integers of any size, strings, booleans, any, pointers, slices, maps and structs nested in any way; floats are not modelled. *)
Theorem C70_read_partial : forall limit t old s j x, reads_json first_value limit -> proper t -> is_zero t old ->
  read_json s = Some j -> clean j -> (depth j <= limit)%nat -> unique_keys j ->
  (json_scanner first_value t None old (VString s) = (x, Ok tt) <-> denotes t j x) /\
  (json_scanner first_value t None old (VBytes s) = (x, Ok tt) <-> denotes t j x).
Proof.
  intros limit t old s j x R Pt Z E C L U. destruct (R s j E C L) as [rest F].
  assert (K : json_scanner first_value t None old (VString s) = (x, Ok tt) <-> denotes t j x); [ | split; exact K ].
  apply is_zero_unique in Z. subst old. cbn. rewrite F. pose proof (decode_zero t j x Pt U) as D. destruct (decode t (zero_of t) j) as [y ok].
  rewrite <- D. split; intros H; [ destruct ok; congruence | injection H as -> ->; reflexivity ].
Qed.

(** Over any old value, the same holds of texts that mention every part of the value. *)
Theorem C70_overwrite_partial : forall t old s j rest x, proper t -> typed t old -> first_value s = Some (j, rest) -> unique_keys j -> covers t j ->
  (json_scanner first_value t None old (VBytes s) = (x, Ok tt) <-> denotes t j x).
Proof.
  intros t old s j rest x Pt To E U C. cbn. rewrite E. pose proof (decode_covers t old j x Pt U C To) as D. destruct (decode t old j) as [y ok].
  rewrite <- D. split; intros H; [ destruct ok; congruence | injection H as -> ->; reflexivity ].
Qed.

(** NULL gives the zero value; a text that is no JSON and a driver value that is no text are errors that leave the field as it was. *)
Theorem C70_null_partial : forall t old,
  (exists z, json_scanner first_value t None old VNull = (z, Ok tt) /\ is_zero t z) /\
  (forall s, first_value s = None -> json_scanner first_value t None old (VBytes s) = (old, Err) /\ json_scanner first_value t None old (VString s) = (old, Err)) /\
  (forall z, json_scanner first_value t None old (VInt z) = (old, Err)) /\
  (forall f, json_scanner first_value t None old (VFloat f) = (old, Err)) /\
  (forall b, json_scanner first_value t None old (VBool b) = (old, Err)) /\
  (forall u, json_scanner first_value t None old (VTime u) = (old, Err)).
Proof.
  intros t old. split; [ exists (zero_of t); split; [ reflexivity | apply zero_is_zero ] | ].
  split; [ intros s E; cbn; rewrite E; split; reflexivity | repeat split ].
Qed.

(** What is written is a JSON text of the value, and is read back as the value into a new record. *)
Theorem C70_round_trip_partial : forall limit t x old d, reads_json first_value limit -> proper t -> typed t x -> storable x -> (nesting x <= limit)%nat -> is_zero t old ->
  json_value x = Ok d ->
  (d = VNull /\ is_zero t x \/ exists s j, d = VBytes s /\ read_json s = Some j /\ denotes t j x) /\
  json_scanner first_value t None old d = (x, Ok tt).
Proof.
  intros limit t x old d R Pt Tx Sx L Z E. apply is_zero_unique in Z. subst old.
  assert (Hd : d = VNull /\ x = XAny JNull \/ d = VBytes (print_json (encode x) ++ [LF])).
  { unfold json_value in E. destruct x; try (injection E as <-; auto). destruct j; injection E as <-; auto. }
  destruct Hd as [[-> ->] | ->]; [ inversion Tx; subst; split; [ left; split; [ reflexivity | constructor ] | reflexivity ] | ].
  destruct (encode_ok t Pt x Tx Sx) as (D & U & C). pose proof (print_read_json _ C) as P.
  split; [ right; eexists _, _; split; [ reflexivity | split; [ exact P | exact D ] ] | ].
  rewrite <- depth_encode in L. destruct (R _ _ P C L) as [rest F]. unfold json_scanner. rewrite F. apply (decode_zero t _ _ Pt U) in D. now rewrite D.
Qed.

(** Refuted: scanning into a field that holds something.  A map keeps the entries the text does not name, a struct keeps the fields, and null
    leaves a field that cannot be nil as it was: the new row's value is mixed with the old one's. *)
Theorem C70_stale_refuted : forall t s rest,
  (forall m js k x, first_value s = Some (JObj js, rest) -> In (k, x) m -> ~ In k (map fst js) ->
    exists m', fst (json_scanner first_value (GMap t) None (XMap m) (VBytes s)) = XMap m' /\ In (k, x) m' /\
      forall y, denotes (GMap t) (JObj js) y -> XMap m' <> y) /\
  (forall fs m js k x, first_value s = Some (JObj js, rest) -> In (k, x) m -> ~ In k (map fst js) ->
    exists m', fst (json_scanner first_value (GStruct fs) None (XStruct m) (VBytes s)) = XStruct m' /\ In (k, x) m') /\
  (forall old fs, first_value s = Some (JNull, rest) -> In t [GBool; GString; GStruct fs] \/ (exists bits, t = GInt bits) ->
    json_scanner first_value t None old (VBytes s) = (old, Ok tt)).
Proof.
  intros t s rest. split; [ | split ].
  - intros m js k x E Hk Hn. cbn. rewrite E. pose proof (entries_other (decode t) (zero_of t) js k x Hn m Hk) as G. cbn [decode].
    destruct (decode_entries (decode t) (zero_of t) m js) as [m' ok]. exists m'. split; [ reflexivity | split; [ exact G | ] ].
    intros y D. inversion D as [ | | | | | | | ? ? xs F | ]; subst. intros C; injection C as ->. apply Hn. clear - G F. cbn [fst] in G.
    induction F as [ | a b js xs [Ef _] F IH ]; [ destruct G | ]. destruct G as [-> | G]; [ left; exact Ef | right; now apply IH ].
  - intros fs m js k x E Hk Hn. cbn. rewrite E. cbn [decode].
    pose proof (members_other (map (fun f : bytes * gtype => (fst f, decode (snd f))) fs) js k x Hn m Hk) as G.
    destruct (decode_members _ m js) as [m' ok]. exists m'. split; [ reflexivity | exact G ].
  - intros old fs E H. cbn. rewrite E. destruct H as [H | [bits ->]]; [ | reflexivity ].
    destruct H as [<- | [<- | [<- | []]]]; reflexivity.
Qed.

(** Refuted: anything may follow the first value; two such texts are read alike, whatever the column holds after the value. *)
Theorem C70_trailing_refuted : forall t old s1 s2 j r1 r2, first_value s1 = Some (j, r1) -> first_value s2 = Some (j, r2) ->
  json_scanner first_value t None old (VBytes s1) = json_scanner first_value t None old (VBytes s2).
Proof. intros t old s1 s2 j r1 r2 E1 E2. cbn. now rewrite E1, E2. Qed.

(** Refuted: a type with its own UnmarshalJSON is given the empty text for NULL, which is not JSON, and so usually answers with an error. *)
Theorem C70_own_null_refuted : forall t f old,
  json_scanner first_value t (Some f) old VNull = f [] old /\ read_json [] = None /\
  (snd (f [] old) = Err -> snd (json_scanner first_value t (Some f) old VNull) = Err).
Proof. intros t f old. split; [ reflexivity | split; [ reflexivity | intros H; exact H ] ]. Qed.
End C70.
Print Assumptions C70_read_partial.
Print Assumptions C70_overwrite_partial.
Print Assumptions C70_null_partial.
Print Assumptions C70_round_trip_partial.
Print Assumptions C70_stale_refuted.
Print Assumptions C70_trailing_refuted.
Print Assumptions C70_own_null_refuted.

Definition read_first (s : bytes) : option (json * bytes) := value (S (S (length s))) s.
Definition user_t : gtype := GStruct [(B "name", GString); (B "tags", GSlice GString); (B "opts", GMap (GInt 8)); (B "boss", GPtr GBool)].
Definition text_a : bytes := B "{" ++ [ascii_of_nat 34] ++ B "opts" ++ [ascii_of_nat 34] ++ B ":{" ++ [ascii_of_nat 34] ++ B "x" ++ [ascii_of_nat 34] ++ B ":-7}," ++ [ascii_of_nat 34] ++ B "boss" ++ [ascii_of_nat 34] ++ B ":true} garbage".
Definition some_user : gval := XStruct [(B "name", XString (B "a<b")); (B "tags", XSlice [XString (B "x")]); (B "opts", XMap [(B "y", XInt 1%Z)]); (B "boss", XPtr (XBool true))].
Definition swap_quotes (s : bytes) : bytes := map (fun c => if beq c squote then dquote else c) s.
Lemma ascii_text s : Forall (fun c => N_of_ascii c < 128)%N s -> utf8_text s.
Proof.
  intros F. exists (map N_of_ascii s). induction F as [ | c s Hc Hs [IH1 IH2] ]; [ split; [ constructor | reflexivity ] | ]. split.
  - cbn. constructor; [ lia | exact IH1 ].
  - cbn. rewrite <- IH2. unfold utf8_of. rewrite (proj2 (N.ltb_lt _ _) Hc), ascii_N_embedding. reflexivity.
Qed.
Example C70_case : proper user_t /\ is_zero user_t (zero_of user_t) /\
  json_scanner read_first user_t None (zero_of user_t) (VBytes text_a) =
    (XStruct [(B "name", XString []); (B "tags", XNil); (B "opts", XMap [(B "x", XInt (-7)%Z)]); (B "boss", XPtr (XBool true))], Ok tt) /\
  json_scanner read_first user_t None (XStruct [(B "name", XString (B "ann")); (B "tags", XNil); (B "opts", XMap [(B "y", XInt 1%Z)]); (B "boss", XNil)]) (VBytes text_a) =
    (XStruct [(B "name", XString (B "ann")); (B "tags", XNil); (B "opts", XMap [(B "y", XInt 1%Z); (B "x", XInt (-7)%Z)]); (B "boss", XPtr (XBool true))], Ok tt) /\
  reads_json read_first 5 /\ storable some_user /\ nesting some_user = 2 /\ typed user_t some_user /\
  json_value some_user = Ok (VBytes (swap_quotes (B "{'name':'a\u003cb','tags':['x'],'opts':{'y':1},'boss':true}") ++ [LF])).
Proof.
  split; [ cbn; split; [ repeat constructor; cbn; intuition discriminate | lia || intuition lia ] | ]. split; [ apply zero_is_zero | ].
  split; [ reflexivity | split; [ reflexivity | ] ].
  split; [ intros s j H _ _; unfold read_json in H; unfold read_first; destruct (value _ s) as [ [v r] | ]; [ | discriminate ];
           destruct (skip_ws r); [ injection H as ->; eexists; reflexivity | discriminate ] | ].
  split; [ cbn; repeat split; try (apply ascii_text; repeat constructor); intros H; inversion H | ].
  split; [ reflexivity | split; [ | reflexivity ] ].
  unfold user_t, some_user. constructor. repeat (constructor; [ split; [ reflexivity | ] | ]); try constructor; cbn [fst snd].
  - repeat constructor.
  - repeat constructor; intros [].
  - repeat constructor; cbn; lia.
  - constructor.
Qed.
Example C70_covers : covers (GStruct [(B "a", GSlice (GInt 8)); (B "b", GPtr GString)]) (JObj [(B "b", JNull); (B "a", JArr [JNum (B "1")])]).
Proof.
  constructor. constructor; [ exists (JArr [JNum (B "1")]); split; [ right; left; reflexivity | constructor; repeat constructor ] | ].
  constructor; [ exists JNull; split; [ left; reflexivity | constructor ] | constructor ].
Qed.
