(** How the texts of generated expressions read: prefixes, primary expressions, lists. *)
From Verif Require Import Base ModelStrconv ModelExpr ModelColumn LemmasBase SpecSource LemmasSource LemmasOutput SpecExpr LemmasExpr SpecTyping LemmasTyping.

(** A text that is an expression and can be followed by anything that is no selector, index or call *)
Definition readable (s : bytes) (e : expr) : Prop := exists ts, ends s ts /\ good_head s /\ forall r, ~ goes_on r -> unary (ts ++ r) e r.
(** A text that is a primary expression *)
Definition prim (s : bytes) (e : expr) : Prop := exists ts, ends s ts /\ good_head s /\ forall mid e' r, suffixes e mid e' r -> unary (ts ++ mid) e' r.
Definition args_text (s : bytes) (es : list expr) : Prop := exists ts, ends s ts /\ (forall r, list_ (ts ++ tok ")" :: r) es (tok ")" :: r)) /\ (forall r, list_ (ts ++ tok "]" :: r) es (tok "]" :: r)).
Lemma prim_readable s e : prim s e -> readable s e.
Proof. intros (ts & E & G & U). exists ts. split; [ exact E | ]. split; [ exact G | ]. intros r N. apply U. now apply sf_none. Qed.
Lemma readable_expression s e : readable s e -> expression s e.
Proof.
  intros (ts & E & _ & U). exists ts. split; [ | rewrite <- (app_nil_r ts); apply U, end_stays ].
  unfold tokens. destruct (E []) as (st & E1 & F). rewrite E1, F, app_nil_r, rev_involutive. reflexivity.
Qed.
Lemma star_readable s e : readable s e -> readable ("*"%char :: s) (EStar e).
Proof.
  intros (ts & E & (c & r & -> & O & N) & U). exists (tok "*" :: ts). split; [ now apply ends_star | ]. split; [ exists "*"%char, (c :: r); split; [ reflexivity | ]; split; [ right; now left | discriminate ] | ].
  intros x Nx. cbn [app]. now apply un_star, U.
Qed.
(** With the address in front; this one is not followed by another prefix. *)
Lemma amp_reads s e : readable s e -> exists ts, ends ("&"%char :: s) ts /\ forall r, ~ goes_on r -> unary (ts ++ r) (EAmp e) r.
Proof. intros (ts & E & (c & r & -> & O & N) & U). exists (tok "&" :: ts). split; [ now apply ends_amp | ]. intros x Nx. cbn [app]. now apply un_amp, U. Qed.
Lemma amp_expression s e : readable s e -> expression ("&"%char :: s) (EAmp e).
Proof.
  intros H. destruct (amp_reads s e H) as (ts & E & U). exists ts. split; [ | rewrite <- (app_nil_r ts); apply U, end_stays ].
  unfold tokens. destruct (E []) as (st & E1 & F). rewrite E1, F, app_nil_r, rev_involutive. reflexivity.
Qed.
Lemma not_comma c r : c <> ","%char -> ~ starts (tok ",") (GSym [c] :: r).
Proof. intros N [x X]. injection X as X _. contradiction. Qed.
Lemma args_one s ts e : ends s ts -> (forall r, ~ goes_on r -> unary (ts ++ r) e r) -> args_text s [e].
Proof. intros E U. exists ts. split; [ exact E | ]. split; intros r; (apply li_last; [ apply U; first [ apply shut_stays | apply close_stays ] | now apply not_comma ]). Qed.
Lemma args_readable s e : readable s e -> args_text s [e].
Proof. intros (ts & E & _ & U). now apply (args_one s ts). Qed.
Lemma args_amp s e : readable s e -> args_text ("&"%char :: s) [EAmp e].
Proof. intros H. destruct (amp_reads s e H) as (ts & E & U). now apply (args_one _ ts). Qed.
Lemma args_two s e n : readable s e -> args_text (s ++ ","%char :: format_uint n) [e; ENum (format_uint n)].
Proof.
  intros (ts & E & _ & U). exists (ts ++ [tok ","; GNum (format_uint n)]). split.
  - apply ends_ends; [ exact E | reflexivity | ]. apply (ends_sym ","); [ reflexivity | ]. apply ends_digits; [ apply format_uint_nonempty | apply format_uint_digits ].
  - split; intros r; rewrite <- app_assoc; cbn [app]; (eapply li_next; [ apply U, comma_stays | ]); (apply li_last; [ | now apply not_comma ]); (eapply un_primary; [ apply op_num | apply sf_none; first [ apply shut_stays | apply close_stays ] ]).
Qed.
Lemma prim_word n : identifier n -> ~ In n keywords -> prim n (EName n).
Proof. intros I K. exists [GWord n]. split; [ apply ends_word, identifier_word, I | ]. split; [ now apply identifier_head | ]. intros mid e' r S_. eapply un_primary; [ now apply op_name | exact S_ ]. Qed.
Lemma prim_qualified x n : identifier x -> ~ In x keywords -> identifier n -> ~ In n keywords -> prim (x ++ "."%char :: n) (ESel (EName x) n).
Proof.
  intros Ix Kx In_ Kn. exists [GWord x; tok "."; GWord n]. split; [ apply ends_qualified; now apply identifier_word | ]. split; [ now apply head_app, identifier_head | ].
  intros mid e' r S_. eapply un_primary; [ now apply op_name | ]. now apply sf_sel.
Qed.
Lemma prim_paren_args s e : args_text s [e] -> prim ("("%char :: s ++ [")"%char]) e.
Proof.
  intros (ts & E & L & _). exists (tok "(" :: ts ++ [tok ")"]). split.
  - apply (ends_sym "("); [ reflexivity | ]. apply ends_ends; [ exact E | reflexivity | ]. apply (ends_sym ")"); [ reflexivity | apply ends_nil ].
  - split; [ eexists "("%char, _; split; [ reflexivity | ]; split; [ right; right; right; now left | discriminate ] | ].
    intros mid e' r S_. cbn [app]. rewrite <- app_assoc. cbn [app]. eapply un_primary; [ apply op_paren | exact S_ ]. specialize (L mid). inversion L as [ ? ? ? U | ? ? ? ? ? ? L' ]; subst; [ exact U | inversion L' ].
Qed.
Lemma prim_paren s e : readable s e -> prim ("("%char :: s ++ [")"%char]) e.
Proof. intros H. apply prim_paren_args, args_readable, H. Qed.
Lemma prim_index s e a es : prim s e -> args_text a es -> prim (s ++ "["%char :: a ++ ["]"%char]) (EIndex e es).
Proof.
  intros (ts & E & G & U) (ys & Ea & _ & L). exists (ts ++ tok "[" :: ys ++ [tok "]"]). split.
  - apply ends_ends; [ exact E | reflexivity | ]. apply (ends_sym "["); [ reflexivity | ]. apply ends_ends; [ exact Ea | reflexivity | ]. apply (ends_sym "]"); [ reflexivity | apply ends_nil ].
  - split; [ now apply head_app | ]. intros mid e' r S_. rewrite <- app_assoc. cbn [app]. rewrite <- app_assoc. cbn [app]. apply U. eapply sf_index; [ apply L | exact S_ ].
Qed.
Lemma prim_call s e a es : prim s e -> args_text a es -> prim (s ++ "("%char :: a ++ [")"%char]) (ECall e es).
Proof.
  intros (ts & E & G & U) (ys & Ea & L & _). exists (ts ++ tok "(" :: ys ++ [tok ")"]). split.
  - apply ends_ends; [ exact E | reflexivity | ]. apply (ends_sym "("); [ reflexivity | ]. apply ends_ends; [ exact Ea | reflexivity | ]. apply (ends_sym ")"); [ reflexivity | apply ends_nil ].
  - split; [ now apply head_app | ]. intros mid e' r S_. rewrite <- app_assoc. cbn [app]. rewrite <- app_assoc. cbn [app]. apply U. eapply sf_call; [ apply L | exact S_ ].
Qed.
Lemma prim_slice s e : prim s e -> prim (s ++ B "[:]") (ESliceAll e).
Proof.
  intros (ts & E & G & U). exists (ts ++ [tok "["; tok ":"; tok "]"]). split.
  - change (B "[:]") with ("["%char :: B ":]"). apply ends_ends; [ exact E | reflexivity | ]. intros acc. eexists. split; reflexivity.
  - split; [ now apply head_app | ]. intros mid e' r S_. rewrite <- app_assoc. cbn [app]. apply U. now apply sf_slice.
Qed.
Section Readings.
Variable P : program.
Variable imports : list (bytes * bytes).
Hypothesis Pr : proper P.
Lemma type_readable t s : written (by_name (own_path P) imports) t s -> valid P t -> (forall q, mentions q t -> fine P imports q) -> exists e, readable s e /\ denotes P imports e t.
Proof. intros W V F. destruct (proj1 (written_reads P imports Pr) t s W V F) as (ts & e & E & G & U & _ & D). exists e. split; [ | exact D ]. now exists ts. Qed.
Lemma path_prim s t : reaches P s t -> exists e, prim s e /\ typed P imports e t true.
Proof. intros H. destruct (path_reads P imports s t H) as (ts & e & E & G & U & T). exists e. split; [ | exact T ]. exists ts. split; [ now apply in_word_ends | now split ]. Qed.
End Readings.
