(** C48: patterns with the beginning of a file name, written from the working directory: ./user_*.go and ./user_* *)
From Coq Require Import List Bool NArith Lia.
From Verif Require Import Base ModelCompiler ModelPaths SpecParser LemmasBase LemmasTag PropPaths PropPatterns PropPrefix.
Import ListNotations.

(** A text between a dot and an o or a star has no white space at its ends. *)
Lemma trim_dotted s z : z = "o"%char \/ z = "*"%char -> trim_space ("."%char :: s ++ [z]) = "."%char :: s ++ [z].
Proof.
  intros Z. rewrite <- (trimmed_unique ("."%char :: s ++ [z]) ("."%char :: s ++ [z])); [ reflexivity | ].
  exists [], []. rewrite app_nil_r. split; [ reflexivity | ]. split; [ constructor | ]. split; [ constructor | ]. split.
  - intros c r E. injection E as <- _. intros [[_ W]|W]; vm_compute in W; [ apply W; reflexivity | discriminate ].
  - intros c r E. rewrite app_comm_cons in E. apply app_inj_tail in E as [_ <-].
    destruct Z as [-> | ->]; intros [[_ W]|W]; vm_compute in W; solve [ apply W; reflexivity | discriminate ].
Qed.
Lemma last_snoc s z c : last_is (s ++ [z]) c = beq z c.
Proof. unfold last_is. rewrite rev_app_distr. reflexivity. Qed.
Lemma resolve_go pwd pre : resolve pwd (B "./" ++ pre ++ B "*.go") = Ok (pwd ++ "/"%char :: pre ++ B "*.go").
Proof.
  unfold resolve. assert (E : B "./" ++ pre ++ B "*.go" = "."%char :: ("/"%char :: pre ++ B "*.g") ++ ["o"%char]) by (cbn [app]; rewrite <- app_assoc; reflexivity).
  rewrite E, (trim_dotted _ _ (or_introl eq_refl)). cbn match. change (bseq ("."%char :: ("/"%char :: pre ++ B "*.g") ++ ["o"%char]) (B ".")) with false.
  change (beq "." ".") with true. cbv iota. rewrite app_assoc, last_snoc. change (beq "o" "*") with false. cbv iota. f_equal.
  rewrite <- app_assoc. f_equal. cbn [app]. f_equal. rewrite <- app_assoc. reflexivity.
Qed.
Lemma resolve_star pwd pre : resolve pwd (B "./" ++ pre ++ B "*") = Ok (pwd ++ "/"%char :: pre ++ B "*.go").
Proof.
  unfold resolve. assert (E : B "./" ++ pre ++ B "*" = "."%char :: ("/"%char :: pre) ++ ["*"%char]) by reflexivity.
  rewrite E, (trim_dotted _ _ (or_intror eq_refl)). cbn match. change (bseq ("."%char :: ("/"%char :: pre) ++ ["*"%char]) (B ".")) with false.
  change (beq "." ".") with true. cbv iota. rewrite app_assoc, last_snoc. change (beq "*" "*") with true. cbv iota. f_equal.
  rewrite <- !app_assoc. reflexivity.
Qed.

(** From the working directory: exactly its Go files whose names begin with the text in front of the star, with the ending written or not.  Missing: as in
    C48_prefix_partial. *)
Theorem C48_relative_partial d skip segs pre src : src = B "./" ++ pre ++ B "*.go" \/ src = B "./" ++ pre ++ B "*" ->
  sound d -> segs <> [] -> In segs (dirs d) -> Forall tame (slashed segs) -> Forall known segs -> Forall wordly pre ->
  (forall name, In (segs, name) (files d) -> exists base, name = base ++ B ".go" /\ ~ In LF base /\ ~ In backslash base) ->
  exists l, select d skip (slashed segs) src = Ok l /\
    forall f, In f l <-> In f (files d) /\ fst f = segs /\ ~ In segs skip /\ exists base, snd f = pre ++ base ++ B ".go".
Proof.
  intros SRC S NE I T K W GO. unfold select.
  assert (R : resolve (slashed segs) src = Ok (pattern segs pre)) by (destruct SRC as [-> | ->]; [ apply resolve_go | apply resolve_star ]).
  rewrite R. cbn [bind]. now apply C48_prefix_partial.
Qed.
Print Assumptions C48_relative_partial.

Example C48_relative_case :
  let d := {| dirs := [[B "models"]]; files := [([B "models"], B "user_a.go"); ([B "models"], B "user.go")] |} in
  select d [] (B "/models") (B "./user_*") = Ok [([B "models"], B "user_a.go")].
Proof. vm_compute. reflexivity. Qed.
