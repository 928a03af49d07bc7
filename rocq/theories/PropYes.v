(** Property C14, continued: the texts of the booleans of a catalog.  Property C54, continued: strings of the driver. *)
From Coq Require Import List.
From Verif Require Import Base ModelStrconv ModelEncoding LemmasBase.
Import ListNotations.

(** Letter by letter one of the given ones *)
Definition spelled (s : bytes) (letters : list bytes) : Prop := Forall2 (fun c l => In c l) s letters.
Definition means_true (s : bytes) : Prop := spelled s [B "Yy"; B "Ee"; B "Ss"] \/ In s [B "1"; B "t"; B "T"; B "true"; B "TRUE"; B "True"].
Definition means_false (s : bytes) : Prop := spelled s [B "Nn"; B "Oo"] \/ In s [B "0"; B "f"; B "F"; B "false"; B "FALSE"; B "False"].

Lemma upper_of d l : In (d, l) [("Y"%char, B "Yy"); ("E"%char, B "Ee"); ("S"%char, B "Ss"); ("N"%char, B "Nn"); ("O"%char, B "Oo")] ->
  forall c, to_upper_byte c = d <-> In c l.
Proof.
  intros H c. cbn in H. repeat destruct H as [[= <- <-]|H]; [..| destruct H ]; (split;
  [ destruct c as [[] [] [] [] [] [] [] []]; vm_compute; intros E; try discriminate E; auto
  | cbn; intros [<-|[<-|[]]]; reflexivity ]).
Qed.
Lemma upper_yes s : to_upper s = B "YES" <-> spelled s [B "Yy"; B "Ee"; B "Ss"].
Proof.
  unfold spelled. split.
  - change (B "YES") with ["Y"%char; "E"%char; "S"%char]. destruct s as [|a [|b [|c [|d s]]]]; unfold to_upper; cbn [map]; intros E; try discriminate E. injection E as E1 E2 E3.
    constructor; [ now apply (upper_of "Y"%char (B "Yy") ltac:(cbn; auto 10)) | ]. constructor; [ now apply (upper_of "E"%char (B "Ee") ltac:(cbn; auto 10)) | ].
    constructor; [ now apply (upper_of "S"%char (B "Ss") ltac:(cbn; auto 10)) | constructor ].
  - intros F. inversion F as [|a ? s1 ? A F1]; subst. inversion F1 as [|b ? s2 ? B' F2]; subst. inversion F2 as [|c ? s3 ? C F3]; subst. inversion F3; subst.
    unfold to_upper; cbn [map]. apply (upper_of "Y"%char) in A; [ | cbn; auto 10 ]. apply (upper_of "E"%char) in B'; [ | cbn; auto 10 ]. apply (upper_of "S"%char) in C; [ | cbn; auto 10 ].
    now rewrite A, B', C.
Qed.
Lemma upper_no s : to_upper s = B "NO" <-> spelled s [B "Nn"; B "Oo"].
Proof.
  unfold spelled. split.
  - change (B "NO") with ["N"%char; "O"%char]. destruct s as [|a [|b [|c s]]]; unfold to_upper; cbn [map]; intros E; try discriminate E. injection E as E1 E2.
    constructor; [ now apply (upper_of "N"%char (B "Nn") ltac:(cbn; auto 10)) | ]. constructor; [ now apply (upper_of "O"%char (B "Oo") ltac:(cbn; auto 10)) | constructor ].
  - intros F. inversion F as [|a ? s1 ? A F1]; subst. inversion F1 as [|b ? s2 ? B' F2]; subst. inversion F2; subst.
    unfold to_upper; cbn [map]. apply (upper_of "N"%char) in A; [ | cbn; auto 10 ]. apply (upper_of "O"%char) in B'; [ | cbn; auto 10 ]. now rewrite A, B'.
Qed.
Lemma bmem_in s l : bmem s l = true <-> In s l.
Proof.
  induction l as [|x l IH]; cbn; [ split; [ discriminate | intros [] ] | ]. rewrite Bool.orb_true_iff, IH. 
  split; (intros [H|H]; [ left | now right ]); [ apply bseq_eq in H; now subst | subst; now apply bseq_eq ].
Qed.

(** The texts of true and of false are told apart, in any case of the letters of yes and no; any other text is refused and the field is left alone.
    Missing: integers, where one is false (C14_sqltype_bool_refuted). *)
Theorem C14_catalog_text_partial : forall old s v, v = VString s \/ v = VBytes s ->
  (means_true s -> sqltype_bool_scan old v = (true, Ok tt)) /\
  (means_false s -> sqltype_bool_scan old v = (false, Ok tt)) /\
  (~ means_true s -> ~ means_false s -> sqltype_bool_scan old v = (old, Err)).
Proof.
  intros old s v V.
  assert (E : sqltype_bool_scan old v = if bseq (to_upper s) (B "YES") then (true, Ok tt) else if bseq (to_upper s) (B "NO") then (false, Ok tt)
    else match parse_bool s with Some f => (f, Ok tt) | None => (old, Err) end) by (destruct V as [-> | ->]; reflexivity).
  rewrite E. clear E V. unfold means_true, means_false. split; [ | split ].
  - intros [S|I]; [ apply upper_yes in S; now rewrite S | ]. cbn in I. repeat (destruct I as [<-|I]; [ vm_compute; reflexivity | ]). destruct I.
  - intros [S|I]; [ apply upper_no in S; now rewrite S | ]. cbn in I. repeat (destruct I as [<-|I]; [ vm_compute; reflexivity | ]). destruct I.
  - intros NT NF. destruct (bseq (to_upper s) (B "YES")) eqn:Y; [ apply bseq_eq in Y; apply upper_yes in Y; now contradiction NT; left | ].
    destruct (bseq (to_upper s) (B "NO")) eqn:N; [ apply bseq_eq in N; apply upper_no in N; now contradiction NF; left | ].
    unfold parse_bool. destruct (bmem s [B "1"; B "t"; B "T"; B "true"; B "TRUE"; B "True"]) eqn:T; [ apply bmem_in in T; now contradiction NT; right | ].
    destruct (bmem s [B "0"; B "f"; B "F"; B "false"; B "FALSE"; B "False"]) eqn:F; [ apply bmem_in in F; now contradiction NF; right | reflexivity ].
Qed.
Print Assumptions C14_catalog_text_partial.

Example C14_catalog_case : sqltype_bool_scan false (VBytes (B "yEs")) = (true, Ok tt) /\ sqltype_bool_scan true (VString (B "no")) = (false, Ok tt) /\
  sqltype_bool_scan true (VString (B "y")) = (true, Err).
Proof. repeat split; vm_compute; reflexivity. Qed.

(** A string of the driver is read as it is, into strings and byte slices, whatever happens to the buffers afterwards. *)
Theorem C54_string_source : forall k (later : memory) s, deref later (string_scan_string k s) = s.
Proof. reflexivity. Qed.
Print Assumptions C54_string_source.
