(** C45, C63: names of columns and tables. *)
From Verif Require Import Base ModelCompiler ModelNaming SpecParser LemmasBase LemmasTag.

(** ** Specification *)
Definition lower_letter (c : byte) : Prop := (97 <= code c <= 122)%N.
Definition snake_char (c : byte) : Prop := lower_letter c \/ digit c \/ c = "_"%char.
(** ASCII identifiers of Go *)
Definition identifier (s : bytes) : Prop := s <> [] /\ Forall (fun c => letter c \/ digit c \/ c = "_"%char) s.
(** single underscores between words: none at the ends, no two together *)
Definition words (s : bytes) : Prop := (forall r, s <> "_"%char :: r) /\ (forall r, s <> r ++ B "_") /\ (forall a b, s <> a ++ B "__" ++ b).

(** ** Snake case *)
Definition upper (c : byte) : Prop := (65 <= code c <= 90)%N.
Lemma upper_iff c : is_upper c = true <-> upper c. Proof. apply range_iff. Qed.
Lemma lower_iff c : is_lower c = true <-> lower_letter c. Proof. apply range_iff. Qed.
Lemma digit_iff c : is_digit c = true <-> digit c. Proof. apply range_iff. Qed.
Lemma to_lower_upper c : upper c -> lower_letter (to_lower c).
Proof. unfold upper, lower_letter, to_lower. intros H. rewrite code_chr; lia. Qed.

(** What the whole of it looks like: no boundary between a letter and a digit, or into a capital, is left. *)
Definition stable (s : bytes) : Prop :=
  (forall c, In c s -> ~ upper c /\ c <> " "%char /\ c <> "-"%char /\ c <> "."%char) /\
  (forall a b l r, s = l ++ a :: b :: r -> ~ (lower_letter a /\ digit b) /\ ~ (digit a /\ lower_letter b)).
Lemma stable_tail c s : stable (c :: s) -> stable s.
Proof. intros [H1 H2]. split; [intros; apply H1; now right|]. intros a b l r E. apply (H2 a b (c :: l) r). cbn. congruence. Qed.
Lemma stable_fixed s : stable s -> forall prev, snake_from prev s = s.
Proof.
  induction s as [|v r IH]; intros ST prev; [reflexivity|]. pose proof (IH (stable_tail _ _ ST) (Some v)) as IHr. cbn [snake_from]. rewrite IHr.
  destruct ST as [H1 H2]. destruct (H1 v (or_introl eq_refl)) as (NU & NS & ND & NP).
  assert (U : is_upper v = false) by (apply not_true_iff_false; rewrite upper_iff; exact NU). rewrite U.
  assert (P : (if beq v " " || beq v "_" || beq v "-" || beq v "." then B "_" else [v]) = [v]).
  { destruct (beq v " ") eqn:E1; [apply beq_eq in E1; contradiction|]. destruct (beq v "-") eqn:E2; [apply beq_eq in E2; contradiction|].
    destruct (beq v ".") eqn:E3; [apply beq_eq in E3; contradiction|]. destruct (beq v "_") eqn:E4; [apply beq_eq in E4; subst v; reflexivity|reflexivity]. }
  rewrite P. destruct r as [|n r]; [reflexivity|]. destruct (H1 n (or_intror (or_introl eq_refl))) as (NU2 & _).
  assert (U2 : is_upper n = false) by (apply not_true_iff_false; rewrite upper_iff; exact NU2). rewrite U2.
  destruct (H2 v n [] r eq_refl) as [G1 G2]. cbn [andb orb].
  destruct (is_lower v) eqn:L; cbn [andb orb].
  - destruct (is_digit n) eqn:D; [exfalso; apply G1; split; [apply lower_iff, L|apply digit_iff, D]|]. destruct (is_digit v) eqn:DV; [|reflexivity]. cbn [andb].
    exfalso. apply lower_iff in L. apply digit_iff in DV. unfold lower_letter, digit in *. lia.
  - destruct (is_digit v) eqn:DV; [|reflexivity]. cbn [andb orb]. destruct (is_lower n) eqn:LN; [|reflexivity]. exfalso. apply G2. split; [apply digit_iff, DV|apply lower_iff, LN].
Qed.
Definition first_of (s : bytes) : option byte := match s with c :: _ => Some c | [] => None end.
(** The first byte of the output, given what came before *)
Definition lowered (c : byte) : byte := if is_upper c then to_lower c else if beq c " " || beq c "-" || beq c "." then "_"%char else c.
Lemma lowered_plain v0 : let v := if is_upper v0 then to_lower v0 else v0 in (if beq v " " || beq v "_" || beq v "-" || beq v "." then B "_" else [v]) = [lowered v0].
Proof.
  cbv zeta. unfold lowered. destruct (is_upper v0) eqn:U.
  - apply upper_iff in U. pose proof (to_lower_upper v0 U) as L. unfold lower_letter in L.
    assert (N : forall d, (code d < 97)%N -> beq (to_lower v0) d = false) by (intros d LD; apply not_true_iff_false; rewrite beq_eq; intros E; rewrite E in L; lia).
    rewrite !N by (cbn; lia). reflexivity.
  - destruct (beq v0 " "); [reflexivity|]. destruct (beq v0 "_") eqn:E; [apply beq_eq in E; subst; reflexivity|]. destruct (beq v0 "-"); [reflexivity|]. destruct (beq v0 "."); reflexivity.
Qed.
(** The output: for every byte itself, lowered, with an underscore at each boundary *)
Definition gap (prev : option byte) (a b : byte) (after : option byte) : bool :=
  (is_lower a && (is_upper b || is_digit b)) || (is_upper a && is_digit b) || (is_digit a && (is_upper b || is_lower b)) ||
  (is_upper a && is_upper b && match after with Some c => is_lower c | None => false end).
Fixpoint spelled (s : bytes) : bytes :=
  match s with
  | [] => []
  | a :: r => lowered a :: match r with b :: r' => if gap None a b (first_of r') then "_"%char :: spelled r else spelled r | [] => [] end
  end.
Lemma digit_lowered c : is_digit (if is_upper c then to_lower c else c) = is_digit c.
Proof.
  destruct (is_upper c) eqn:U; [|reflexivity]. apply upper_iff in U. pose proof (to_lower_upper c U). unfold lower_letter, upper in *. apply eq_true_iff_eq. rewrite !digit_iff. unfold digit. lia.
Qed.
Lemma snake_spelled s : forall prev, snake_from prev s = (match prev, s with Some p, v :: r => if is_upper p && is_upper v && match r with n :: _ => is_lower n | [] => false end then B "_" else [] | _, _ => [] end) ++ spelled s.
Proof.
  induction s as [|a r IH]; intros prev; [destruct prev; reflexivity|].
  cbn [snake_from]. rewrite (IH (Some a)). rewrite digit_lowered. pose proof (lowered_plain a) as LP. cbv zeta in LP. rewrite LP. clear LP.
  destruct r as [|b r]; [destruct prev as [p|]; [rewrite andb_false_r|]; reflexivity|].
  assert (EX : forall x, (is_upper x && is_lower x = false) /\ (is_upper x && is_digit x = false) /\ (is_lower x && is_digit x = false)).
  { intros x. unfold is_upper, is_lower, is_digit, in_range. repeat split; apply not_true_iff_false; rewrite !andb_true_iff, !N.leb_le; lia. }
  assert (LW : is_upper a || is_lower a || is_digit a = true -> (if is_upper a then to_lower a else a) = lowered a).
  { intros H. unfold lowered. destruct (is_upper a); [reflexivity|]. destruct (beq a " ") eqn:E1; [apply beq_eq in E1; subst; discriminate|]. destruct (beq a "-") eqn:E2; [apply beq_eq in E2; subst; discriminate|].
    destruct (beq a ".") eqn:E3; [apply beq_eq in E3; subst; discriminate|reflexivity]. }
  cbn [spelled]. unfold gap. destruct (EX a) as (A1 & A2 & A3). destruct (EX b) as (B1 & B2 & B3).
  set (LA := lowered a) in *. set (SP := spelled (b :: r)). 
  destruct (is_upper a) eqn:UA, (is_lower a) eqn:LA', (is_digit a) eqn:DA; cbn in A1, A2, A3; try discriminate;
  destruct (is_upper b) eqn:UB, (is_lower b) eqn:LB, (is_digit b) eqn:DB; cbn in B1, B2, B3; try discriminate; cbn [andb orb]; try rewrite (LW eq_refl);
  destruct prev as [p|]; try destruct (is_upper p); cbn [andb app]; try reflexivity; destruct r as [|c r]; cbn [first_of app]; try reflexivity; destruct (is_lower c); cbn [app]; reflexivity.
Qed.
Lemma to_snake_spelled s : to_snake_case s = spelled (trim_space s).
Proof. unfold to_snake_case. rewrite snake_spelled. destruct (trim_space s); reflexivity. Qed.
Lemma spelled_cons a b r : spelled (a :: b :: r) = lowered a :: (if gap None a b (first_of r) then ["_"%char] else []) ++ spelled (b :: r).
Proof. cbn [spelled]. destruct (gap None a b (first_of r)); reflexivity. Qed.
Lemma spelled_head a r : exists t, spelled (a :: r) = lowered a :: t.
Proof. destruct r as [|b r]; [exists []; reflexivity|]. rewrite spelled_cons. eauto. Qed.
Lemma spelled_in c s : In c (spelled s) -> c = "_"%char \/ exists a, In a s /\ c = lowered a.
Proof.
  induction s as [|a [|b r] IH]; intros I; [contradiction|destruct I as [<-|[]]; right; exists a; split; [now left|reflexivity]|].
  rewrite spelled_cons in I. destruct I as [<-|I]; [right; exists a; split; [now left|reflexivity]|]. apply in_app_iff in I. destruct I as [I|I].
  - left. destruct (gap None a b (first_of r)); [destruct I as [<-|[]]; reflexivity|contradiction].
  - destruct (IH I) as [->|(x & J & ->)]; [now left|right]. exists x. split; [now right|reflexivity].
Qed.
Lemma lowered_cases a : (upper a /\ lower_letter (lowered a)) \/ (~ upper a /\ (a = " "%char \/ a = "-"%char \/ a = "."%char) /\ lowered a = "_"%char) \/ (~ upper a /\ a <> " "%char /\ a <> "-"%char /\ a <> "."%char /\ lowered a = a).
Proof.
  unfold lowered. destruct (is_upper a) eqn:U; [left; apply upper_iff in U; split; [exact U|apply to_lower_upper, U]|]. assert (NU : ~ upper a) by (rewrite <- upper_iff; congruence). right.
  destruct (beq a " ") eqn:E1; [apply beq_eq in E1; left; tauto|]. destruct (beq a "-") eqn:E2; [apply beq_eq in E2; left; tauto|]. destruct (beq a ".") eqn:E3; [apply beq_eq in E3; left; tauto|].
  right. assert (N : forall x y, beq x y = false -> x <> y) by (intros x y H ->; rewrite beq_refl in H; discriminate). apply N in E1, E2, E3. tauto.
Qed.
Lemma lowered_lower a : lower_letter (lowered a) -> upper a \/ lower_letter a.
Proof. destruct (lowered_cases a) as [[U _]|[(_ & _ & ->)|(_ & _ & _ & _ & ->)]]; auto. intros H. vm_compute in H. destruct H. contradiction. Qed.
Lemma lowered_digit a : digit (lowered a) -> digit a.
Proof. destruct (lowered_cases a) as [[U L]|[(_ & _ & ->)|(_ & _ & _ & _ & ->)]]; auto; [unfold digit, lower_letter in *; lia|]. intros H. vm_compute in H. destruct H. contradiction. Qed.
Lemma gap_letters a b c : (upper a \/ lower_letter a) /\ digit b \/ digit a /\ (upper b \/ lower_letter b) -> gap None a b c = true.
Proof.
  unfold gap. rewrite <- !upper_iff, <- !lower_iff, <- !digit_iff. intros [[[A|A] D]|[D [A|A]]]; rewrite A, D, ?orb_true_r; cbn [andb orb]; rewrite ?orb_true_r; reflexivity.
Qed.
Lemma spelled_stable s : stable (spelled s).
Proof.
  split.
  - intros c I. apply spelled_in in I. destruct I as [->|(a & _ & ->)]; [split; [unfold upper; cbn; lia|repeat split; discriminate]|].
    destruct (lowered_cases a) as [[U L]|[(_ & _ & ->)|(NU & N1 & N2 & N3 & ->)]].
    + unfold upper, lower_letter in *. split; [lia|]. repeat split; intros E; rewrite E in L; cbn in L; lia.
    + split; [unfold upper; cbn; lia|repeat split; discriminate].
    + tauto.
  - induction s as [|a [|b r] IH]; intros x y l t E.
    + destruct l; discriminate.
    + destruct l as [|? [|? ?]]; discriminate.
    + rewrite spelled_cons in E. remember (spelled (b :: r)) as sp eqn:ESP. destruct l as [|z l].
      * cbn [app] in E. injection E as <- E. destruct (gap None a b (first_of r)) eqn:G.
        -- cbn [app] in E. injection E as <- _. unfold digit, lower_letter. cbn. lia.
        -- cbn [app] in E. destruct (spelled_head b r) as [t' EH]. rewrite EH in ESP. rewrite ESP in E. injection E as <- _.
           split; intros [H1 H2].
           ++ rewrite gap_letters in G; [discriminate|]. left. split; [apply lowered_lower, H1|apply lowered_digit, H2].
           ++ rewrite gap_letters in G; [discriminate|]. right. split; [apply lowered_digit, H1|apply lowered_lower, H2].
      * cbn [app] in E. injection E as _ E. destruct (gap None a b (first_of r)); [|exact (IH x y l t E)]. cbn [app] in E. destruct l as [|z' l]; [|cbn [app] in E; injection E as _ E; exact (IH x y l t E)].
        cbn [app] in E. injection E as <- _. unfold digit, lower_letter. cbn. lia.
Qed.
Lemma lowered_white a : white (lowered a) -> white a.
Proof.
  destruct (lowered_cases a) as [[U L]|[(_ & _ & ->)|(_ & _ & _ & _ & ->)]]; [|intros [H|H]; [exfalso; vm_compute in H; destruct H; congruence|discriminate]|auto].
  unfold white, lower_letter in *. lia.
Qed.
Lemma spelled_last a r : exists t, spelled (r ++ [a]) = t ++ [lowered a].
Proof.
  induction r as [|x r [t IH]]; [exists []; reflexivity|]. cbn [app]. destruct (r ++ [a]) as [|b l] eqn:E; [destruct r; discriminate|]. rewrite spelled_cons, IH.
  exists (lowered x :: (if gap None x b (first_of l) then ["_"%char] else []) ++ t). cbn. rewrite app_assoc. reflexivity.
Qed.

(** ** C45 *)
Lemma identifier_trim s : identifier s -> trim_space s = s.
Proof.
  intros [_ F]. symmetry. apply trimmed_unique. exists [], []. rewrite app_nil_r. split; [reflexivity|]. split; [constructor|]. split; [constructor|]. rewrite Forall_forall in F.
  assert (NW : forall c, In c s -> ~ white c). { intros c I W. specialize (F c I). destruct F as [F|[F|F]]; [unfold letter, white in *; lia|unfold digit, white in *; lia|]. subst c. destruct W as [W|W]; vm_compute in W; [destruct W; congruence|discriminate]. }
  split; intros c r ->; apply NW; [now left|apply in_or_app; right; now left].
Qed.
Theorem C45_snake_characters_partial s : identifier s -> to_snake_case s <> [] /\ Forall snake_char (to_snake_case s).
Proof.
  intros ID. rewrite to_snake_spelled, (identifier_trim s ID). destruct ID as [NE F]. split.
  - destruct s as [|a r]; [contradiction|]. destruct (spelled_head a r) as [t ->]. discriminate.
  - apply Forall_forall. intros c I. apply spelled_in in I. destruct I as [->|(a & I & ->)]; [right; right; reflexivity|]. rewrite Forall_forall in F. specialize (F a I).
    destruct (lowered_cases a) as [[U L]|[(_ & _ & E)|(NU & _ & _ & _ & E)]]; [left; exact L|rewrite E; right; right; reflexivity|rewrite E]. unfold letter in F. unfold snake_char, lower_letter, upper in *. tauto.
Qed.
Theorem C45_words_partial s : identifier s -> words s -> words (to_snake_case s).
Proof.
  intros ID (W1 & W2 & W3). rewrite to_snake_spelled, (identifier_trim s ID). destruct ID as [NE F].
  assert (UND : forall a, In a s -> lowered a = "_"%char -> a = "_"%char).
  { intros a I E. rewrite Forall_forall in F. specialize (F a I). destruct (lowered_cases a) as [[U L]|[(_ & H & _)|(_ & _ & _ & _ & E2)]]; [rewrite E in L; vm_compute in L; destruct L; contradiction| |congruence].
    exfalso. destruct H as [-> | [-> | ->]]; unfold letter, digit in F; cbn in F; destruct F as [[F|F]|[F|F]]; try lia; discriminate. }
  split; [|split].
  - intros r E. destruct s as [|a s']; [contradiction|]. destruct (spelled_head a s') as [t ET]. rewrite ET in E. injection E as E _. apply UND in E; [|now left]. subst a. exact (W1 s' eq_refl).
  - intros r E. destruct (exists_last NE) as (s' & a & ->). destruct (spelled_last a s') as [t ET]. rewrite ET in E. apply app_inj_tail in E. destruct E as [_ E].
    apply UND in E; [|apply in_or_app; right; now left]. subst a. exact (W2 s' eq_refl).
  - clear NE W1 W2.
    assert (GAPS : forall a b c, gap None a b c = true -> lowered a <> "_"%char /\ lowered b <> "_"%char).
    { assert (AL : forall x, is_upper x || is_lower x || is_digit x = true -> lowered x <> "_"%char).
      { intros x H E. rewrite !orb_true_iff, upper_iff, lower_iff, digit_iff in H. destruct (lowered_cases x) as [[U L]|[(NU & Q & _)|(_ & _ & _ & _ & E2)]].
        - rewrite E in L. vm_compute in L. destruct L; contradiction.
        - destruct Q as [-> | [-> | ->]]; unfold upper, lower_letter, digit in H; cbn in H; lia.
        - rewrite E2 in E. subst x. unfold upper, lower_letter, digit in H. cbn in H. lia. }
      intros a b c G. unfold gap in G. rewrite !orb_true_iff, !andb_true_iff, !orb_true_iff in G. split; apply AL; rewrite !orb_true_iff; tauto. }
    induction s as [|a [|b r] IH]; intros l t E.
    + destruct l; discriminate.
    + destruct l as [|? [|? ?]]; discriminate.
    + assert (FB : Forall (fun c => letter c \/ digit c \/ c = "_"%char) (b :: r)) by (inversion F; assumption).
      assert (W3B : forall x y, b :: r <> x ++ B "__" ++ y) by (intros x y EQ; apply (W3 (a :: x) y); cbn in *; congruence).
      assert (UB : forall x, In x (b :: r) -> lowered x = "_"%char -> x = "_"%char) by (intros x I; apply UND; now right).
      rewrite spelled_cons in E. remember (spelled (b :: r)) as sp eqn:ESP. destruct l as [|z l].
      * cbn [app] in E. injection E as EA E. destruct (gap None a b (first_of r)) eqn:G; [apply (proj1 (GAPS _ _ _ G)); exact EA|].
        cbn [app] in E. destruct (spelled_head b r) as [t' EH]. rewrite EH in ESP. rewrite ESP in E. injection E as EB _. apply UND in EA; [|now left]. apply UND in EB; [|right; now left]. subst. exact (W3 [] r eq_refl).
      * cbn [app] in E. injection E as _ E. destruct (gap None a b (first_of r)) eqn:G; [|exact (IH FB W3B UB l t E)]. cbn [app] in E. destruct l as [|z' l].
        -- cbn [app] in E. destruct (spelled_head b r) as [t' EH]. rewrite EH in ESP. rewrite ESP in E. injection E as EB _. apply (proj2 (GAPS _ _ _ G)). exact EB.
        -- cbn [app] in E. injection E as _ E. exact (IH FB W3B UB l t E).
Qed.
(** For every text, identifiers or not *)
Theorem C45_idempotent_partial s : to_snake_case (to_snake_case s) = to_snake_case s.
Proof.
  rewrite (to_snake_spelled s). unfold to_snake_case. replace (trim_space (spelled (trim_space s))) with (spelled (trim_space s)); [apply stable_fixed, spelled_stable|].
  apply trimmed_unique. exists [], []. rewrite app_nil_r. split; [reflexivity|]. split; [constructor|]. split; [constructor|].
  pose proof (trim_trimmed s) as (a & b & _ & _ & _ & H1 & H2). destruct (trim_space s) as [|c r] eqn:E; [split; intros ? [|? ?] X; discriminate|]. split.
  - intros c' r' X. destruct (spelled_head c r) as [t EH]. rewrite EH in X. injection X as <- _. intros W. apply lowered_white in W. exact (H1 c r eq_refl W).
  - intros c' r' X. assert (NE : c :: r <> []) by discriminate. destruct (exists_last NE) as (s' & z & EL). rewrite EL in X. destruct (spelled_last z s') as [t ET]. rewrite ET in X. apply app_inj_tail in X. destruct X as [_ <-].
    intros W. apply lowered_white in W. exact (H2 z s' EL W).
Qed.
(** Not words: underscores of the identifier stay where they are; and letters beyond ASCII are kept as they are, capital or not. *)
Theorem C45_underscores_refuted : identifier (B "Name__A_") /\ to_snake_case (B "Name__A_") = B "name__a_" /\ ~ words (B "name__a_").
Proof.
  split; [|split; [reflexivity|intros (_ & H & _); exact (H (B "name__a") eq_refl)]]. split; [discriminate|].
  repeat first [apply Forall_cons; [unfold letter, digit; cbn; first [left; lia|right; right; reflexivity]|] | apply Forall_nil].
Qed.
Definition E_acute : bytes := [ascii_of_N 195; ascii_of_N 137].
Theorem C45_unicode_refuted s : Forall (fun c => (128 <= code c)%N) s -> to_snake_case s = s.
Proof.
  intros F. rewrite to_snake_spelled.
  assert (NW : forall c, In c s -> ~ white c) by (intros c I; rewrite Forall_forall in F; specialize (F c I); unfold white; lia).
  assert (TS : trim_space s = s).
  { symmetry. apply trimmed_unique. exists [], []. rewrite app_nil_r. split; [reflexivity|]. split; [constructor|]. split; [constructor|]. split; intros c r ->; apply NW; [now left|apply in_or_app; right; now left]. }
  rewrite TS. clear TS NW. induction F as [|a s H F IH]; [reflexivity|].
  assert (LA : lowered a = a) by (destruct (lowered_cases a) as [[U _]|[(_ & Q & _)|(_ & _ & _ & _ & E)]]; [unfold upper in U; lia|destruct Q as [-> | [-> | ->]]; cbn in H; lia|exact E]).
  destruct s as [|b r]; [cbn; rewrite LA; reflexivity|]. rewrite spelled_cons, LA, IH.
  assert (U : is_upper a = false /\ is_lower a = false /\ is_digit a = false) by (rewrite <- !not_true_iff_false, upper_iff, lower_iff, digit_iff; unfold upper, lower_letter, digit; lia).
  destruct U as (U1 & U2 & U3). unfold gap. rewrite U1, U2, U3. reflexivity.
Qed.

(** ** C63: camel and Pascal case *)
Definition alnum (c : byte) : Prop := letter c \/ digit c.
Lemma camel_from_alnum ac s : forall first cn pc, Forall alnum (camel_from ac first cn pc s).
Proof.
  induction s as [|v r IH]; intros first cn pc; cbn [camel_from]; [constructor|].
  assert (UP : lower_letter v -> upper (to_upper v)) by (unfold lower_letter, upper, to_upper; intros H; rewrite code_chr; lia).
  assert (LO : upper v -> lower_letter (to_lower v)) by (apply to_lower_upper).
  destruct (is_upper v) eqn:U.
  - apply upper_iff in U. assert (L : is_lower v = false) by (apply not_true_iff_false; rewrite lower_iff; unfold upper, lower_letter in *; lia). rewrite L. cbn [orb]. constructor; [|apply IH].
    left. unfold letter. unfold upper, lower_letter in *. destruct cn; [lia|]. destruct first; [lia|]. destruct (pc && true && negb ac); lia.
  - destruct (is_lower v) eqn:L; cbn [orb].
    + constructor; [|apply IH]. apply lower_iff in L. left. unfold letter. unfold upper, lower_letter in *. rewrite andb_false_r. cbn [andb]. destruct cn, first; lia.
    + rewrite andb_false_r. cbn [andb]. replace (if cn then v else if first then v else v) with v by (destruct cn, first; reflexivity).
      destruct (is_digit v) eqn:D; [constructor; [right; apply digit_iff, D|apply IH]|apply IH].
Qed.
Theorem C63_camel_characters_partial s init : Forall alnum (camel_init s init).
Proof. unfold camel_init. destruct (bseq (trim_space s) (B "ID")); apply camel_from_alnum. Qed.
Theorem C63_camel_nonempty_partial s init : identifier s -> Exists alnum s -> camel_init s init <> [].
Proof.
  intros ID EX. unfold camel_init. rewrite (identifier_trim s ID). destruct (bseq s (B "ID")); [destruct init; discriminate|]. clear ID. generalize true at 1 as first, init as cn, false at 2 as pc.
  induction EX as [v r A|v r _ IH]; intros first cn pc; cbn [camel_from].
  - unfold alnum, letter in A. fold (upper v) in A. fold (lower_letter v) in A. rewrite <- upper_iff, <- lower_iff, <- digit_iff in A. destruct (is_upper v) eqn:U; [discriminate|]. destruct (is_lower v) eqn:L; [discriminate|]. cbn [orb].
    rewrite andb_false_r. cbn [andb]. destruct A as [[A|A]|A]; try discriminate. replace (if cn then v else if first then v else v) with v by (destruct cn, first; reflexivity). rewrite A. discriminate.
  - destruct (is_upper v || is_lower v); [discriminate|]. destruct (is_digit _); [discriminate|apply IH].
Qed.
(** Names of letters beyond ASCII become empty. *)
Theorem C63_empty_refuted s init : Forall (fun c => (128 <= code c)%N) s -> camel_init s init = [].
Proof.
  intros F. unfold camel_init. assert (F2 : Forall (fun c => (128 <= code c)%N) (trim_space s)).
  { pose proof (trim_trimmed s) as (a & b & E & _). rewrite E in F. apply Forall_app in F. destruct F as [_ F]. apply Forall_app in F. apply F. }
  destruct (bseq (trim_space s) (B "ID")) eqn:ID; [apply bseq_eq in ID; rewrite ID in F2; inversion F2 as [|? ? X]; subst; cbn in X; lia|].
  clear ID. generalize true at 1 as first, init as cn, false at 2 as pc. induction F2 as [|v r H F2 IH]; intros first cn pc; [reflexivity|]. cbn [camel_from].
  assert (U : is_upper v = false /\ is_lower v = false /\ is_digit v = false) by (rewrite <- !not_true_iff_false, upper_iff, lower_iff, digit_iff; unfold upper, lower_letter, digit; lia).
  destruct U as (U1 & U2 & U3). rewrite U1, U2. cbn [orb andb]. rewrite andb_false_r. cbn [andb]. replace (if cn then v else if first then v else v) with v by (destruct cn, first; reflexivity). rewrite U3. apply IH.
Qed.
(** and renaming twice is not renaming once. *)
Theorem C63_twice_refuted : identifier (B "A_bC") /\ to_camel_case (B "A_bC") = B "aBC" /\ to_camel_case (B "aBC") = B "aBc".
Proof.
  split; [|split; reflexivity]. split; [discriminate|].
  repeat first [apply Forall_cons; [unfold letter, digit; cbn; first [left; lia|right; right; reflexivity]|] | apply Forall_nil].
Qed.

(** ** The conventions, on names made of words *)
(** A word: two or more small letters *)
Definition plain_word (w : bytes) : Prop := 2 <= length w /\ Forall lower_letter w.
Definition capital (w : bytes) : bytes := match w with c :: r => ascii_of_N (code c - 32) :: r | [] => [] end.
Fixpoint joined (ws : list bytes) : bytes := match ws with [] => [] | w :: r => match r with [] => w | _ => w ++ B "_" ++ joined r end end.
Definition go_name (ws : list bytes) : bytes := concat (map capital ws).
Definition camel_name (ws : list bytes) : bytes := match ws with w :: r => w ++ go_name r | [] => [] end.
Lemma capital_upper c : lower_letter c -> upper (ascii_of_N (code c - 32)).
Proof. unfold lower_letter, upper. intros H. change (ascii_of_N (code c - 32)) with (chr (code c - 32)). rewrite code_chr; lia. Qed.
Lemma capital_back c : lower_letter c -> to_lower (ascii_of_N (code c - 32)) = c.
Proof. unfold lower_letter, to_lower. intros H. change (ascii_of_N (code c - 32)) with (chr (code c - 32)). rewrite code_chr by lia. replace (code c - 32 + 32)%N with (code c) by lia. unfold chr, code. apply ascii_N_embedding. Qed.
Lemma lower_facts c : lower_letter c -> is_lower c = true /\ is_upper c = false /\ is_digit c = false /\ lowered c = c.
Proof.
  intros H. assert (U : is_upper c = false) by (apply not_true_iff_false; rewrite upper_iff; unfold upper, lower_letter in *; lia). split; [apply lower_iff, H|]. split; [exact U|]. split; [apply not_true_iff_false; rewrite digit_iff; unfold digit, lower_letter in *; lia|].
  destruct (lowered_cases c) as [[X _]|[(_ & Q & _)|(_ & _ & _ & _ & E)]]; [apply upper_iff in X; congruence|destruct Q as [-> | [-> | ->]]; vm_compute in H; destruct H; contradiction|exact E].
Qed.
Lemma upper_facts c : upper c -> is_upper c = true /\ is_lower c = false /\ is_digit c = false /\ lowered c = to_lower c.
Proof.
  intros H. pose proof (proj2 (upper_iff c) H) as U. split; [exact U|]. split; [apply not_true_iff_false; rewrite lower_iff; unfold upper, lower_letter in *; lia|]. split; [apply not_true_iff_false; rewrite digit_iff; unfold digit, upper in *; lia|]. unfold lowered. rewrite U. reflexivity.
Qed.
Lemma spelled_lowers w : w <> [] -> Forall lower_letter w -> spelled w = w /\ forall u r, upper u -> spelled (w ++ u :: r) = w ++ "_"%char :: spelled (u :: r).
Proof.
  intros N F. induction F as [|c w H F IH]; [contradiction|]. destruct (lower_facts c H) as (L & U & D & LC). destruct w as [|d w].
  - split; [cbn; rewrite LC; reflexivity|]. intros u r Hu. cbn [app]. rewrite spelled_cons, LC. destruct (upper_facts u Hu) as (U1 & _). unfold gap. rewrite L, U1. reflexivity.
  - inversion F as [|? ? Hd _]; subst. destruct (lower_facts d Hd) as (Ld & Ud & Dd & _). destruct (IH ltac:(discriminate)) as [I1 I2]. assert (G : forall x, gap None c d x = false) by (intros x; unfold gap; rewrite L, U, D, Ud, Dd; reflexivity).
    split; [rewrite spelled_cons, G, LC, I1; reflexivity|]. intros u r Hu. cbn [app]. rewrite spelled_cons, G, LC. change (d :: w ++ u :: r) with ((d :: w) ++ u :: r). rewrite (I2 u r Hu). reflexivity.
Qed.
Lemma capital_split w : plain_word w -> exists c r, w = c :: r /\ r <> [] /\ lower_letter c /\ Forall lower_letter r /\ capital w = ascii_of_N (code c - 32) :: r.
Proof. intros [L F]. destruct w as [|c [|d r]]; [cbn in L; lia|cbn in L; lia|]. inversion F as [|? ? A B']; subst. exists c, (d :: r). split; [reflexivity|]. split; [discriminate|]. split; [assumption|]. split; [assumption|reflexivity]. Qed.
Lemma spelled_capital c w r : lower_letter c -> w <> [] -> Forall lower_letter w -> spelled (ascii_of_N (code c - 32) :: w ++ r) = c :: spelled (w ++ r).
Proof.
  intros H N F. destruct w as [|d w]; [contradiction|]. inversion F as [|? ? Hd _]; subst. cbn [app]. rewrite spelled_cons. destruct (upper_facts _ (capital_upper c H)) as (U & L & D & E). destruct (lower_facts d Hd) as (Ld & Ud & Dd & _). unfold gap. rewrite E, (capital_back c H), U, L, D, Ud, Dd. reflexivity.
Qed.
Lemma spelled_words ws : Forall plain_word ws -> spelled (go_name ws) = joined ws.
Proof.
  induction 1 as [|w ws W F IH]; [reflexivity|]. destruct (capital_split w W) as (c & r & -> & N & Hc & Fr & Ec). unfold go_name. cbn [map concat]. rewrite Ec. cbn [app]. rewrite (spelled_capital c r _ Hc N Fr). destruct (spelled_lowers r N Fr) as [I1 I2]. destruct F as [|w2 ws W2 F].
  - cbn [map concat]. rewrite app_nil_r, I1. reflexivity.
  - destruct (capital_split w2 W2) as (c2 & r2 & -> & N2 & Hc2 & Fr2 & Ec2). unfold go_name in IH. cbn [map concat] in IH |- *. rewrite Ec2 in IH |- *. cbn [app] in IH |- *. rewrite (I2 _ _ (capital_upper c2 Hc2)), IH. reflexivity.
Qed.
Lemma word_trim s : Forall (fun c => letter c \/ digit c \/ c = "_"%char) s -> trim_space s = s.
Proof. intros F. destruct s as [|c r]; [reflexivity|]. apply identifier_trim. split; [discriminate|exact F]. Qed.
Lemma go_name_letters ws : Forall plain_word ws -> Forall (fun c => letter c \/ digit c \/ c = "_"%char) (go_name ws).
Proof.
  induction 1 as [|w ws W F IH]; [constructor|]. destruct (capital_split w W) as (c & r & -> & N & Hc & Fr & Ec). unfold go_name. cbn [map concat]. rewrite Ec. cbn [app]. constructor; [left; left; apply capital_upper, Hc|]. apply Forall_app. split; [|exact IH]. eapply Forall_impl; [|exact Fr]. intros a A. left. right. exact A.
Qed.
Lemma joined_letters ws : Forall plain_word ws -> Forall (fun c => letter c \/ digit c \/ c = "_"%char) (joined ws).
Proof.
  induction 1 as [|w ws [_ W] F IH]; [constructor|]. cbn [joined]. assert (A : Forall (fun c => letter c \/ digit c \/ c = "_"%char) w) by (eapply Forall_impl; [|exact W]; intros a H; left; right; exact H).
  destruct ws as [|w2 ws]; [exact A|]. apply Forall_app. split; [exact A|]. change (B "_") with ["_"%char]. cbn [app]. constructor; [right; right; reflexivity|exact IH].
Qed.
(** Words of two or more letters: the words with underscores between them; any text that names no convention leaves names alone *)
Theorem C45_conventions_partial ws convention : Forall plain_word ws ->
  rename_func (B "snake_case") (go_name ws) = joined ws /\ rename_func (B "snake_case") (joined ws) = joined ws /\
  (~ In convention [B "snake_case"; B "camelCase"; B "PascalCase"] -> forall s, rename_func convention s = s).
Proof.
  intros F. assert (E : to_snake_case (go_name ws) = joined ws) by (rewrite to_snake_spelled, (word_trim _ (go_name_letters ws F)); apply spelled_words, F).
  split; [exact E|]. split; [change (to_snake_case (joined ws) = joined ws); rewrite <- E; apply C45_idempotent_partial|].
  intros N s. unfold rename_func. cbn [In] in N. destruct (bseq convention (B "snake_case")) eqn:E1; [apply bseq_eq in E1; intuition congruence|]. destruct (bseq convention (B "camelCase")) eqn:E2; [apply bseq_eq in E2; intuition congruence|]. destruct (bseq convention (B "PascalCase")) eqn:E3; [apply bseq_eq in E3; intuition congruence|]. reflexivity.
Qed.
Lemma camel_lowers w r first pc : w <> [] -> Forall lower_letter w -> camel_from false first false pc (w ++ r) = w ++ camel_from false false false false r.
Proof.
  intros N F. revert first pc. induction F as [|c w H F IH]; intros first pc; [contradiction|]. destruct (lower_facts c H) as (L & U & D & _). cbn [app camel_from]. rewrite L, U. rewrite andb_false_r. cbn [orb andb]. replace (if first then c else c) with c by (destruct first; reflexivity). f_equal. destruct w as [|d w]; [reflexivity|]. apply IH. discriminate.
Qed.
Lemma camel_capital c w r cn : lower_letter c -> w <> [] -> Forall lower_letter w -> camel_from false false cn false (ascii_of_N (code c - 32) :: w ++ r) = ascii_of_N (code c - 32) :: w ++ camel_from false false false false r.
Proof.
  intros H N F. destruct (upper_facts _ (capital_upper c H)) as (U & L & D & E). cbn [camel_from]. rewrite U, L. cbn [orb andb]. replace (if cn then ascii_of_N (code c - 32) else ascii_of_N (code c - 32)) with (ascii_of_N (code c - 32)) by (destruct cn; reflexivity). f_equal. apply camel_lowers; assumption.
Qed.
Lemma camel_words ws : Forall plain_word ws -> camel_from false false false false (go_name ws) = go_name ws.
Proof.
  induction 1 as [|w ws W F IH]; [reflexivity|]. destruct (capital_split w W) as (c & r & -> & N & Hc & Fr & Ec). unfold go_name in *. cbn [map concat]. rewrite Ec. cbn [app]. rewrite (camel_capital c r _ false Hc N Fr), IH. reflexivity.
Qed.
Lemma camel_up c w r first : lower_letter c -> w <> [] -> Forall lower_letter w -> camel_from false first true false (c :: w ++ r) = ascii_of_N (code c - 32) :: w ++ camel_from false false false false r.
Proof.
  intros H N F. destruct (lower_facts c H) as (L & U & D & _). cbn [camel_from]. rewrite L, U. cbn [orb]. f_equal. apply camel_lowers; assumption.
Qed.
Lemma camel_under r : camel_from false false false false ("_"%char :: r) = camel_from false false true false r.
Proof. reflexivity. Qed.
Lemma camel_joined ws : Forall plain_word ws -> ws <> [] -> forall first, camel_from false first true false (joined ws) = go_name ws.
Proof.
  induction 1 as [|w ws W F IH]; intros NE first; [contradiction|]. destruct (capital_split w W) as (c & r & -> & N & Hc & Fr & Ec). cbn [joined]. unfold go_name. cbn [map concat]. rewrite Ec. destruct ws as [|w2 ws].
  - cbn [map concat app]. rewrite app_nil_r. rewrite <- (app_nil_r r) at 1. rewrite (camel_up c r [] first Hc N Fr). cbn [camel_from]. rewrite app_nil_r. reflexivity.
  - cbn [app]. change (B "_") with ["_"%char]. rewrite (camel_up c r _ first Hc N Fr). cbn [app]. rewrite camel_under, (IH ltac:(discriminate) false). reflexivity.
Qed.
Lemma not_id ws : Forall plain_word ws -> bseq (go_name ws) (B "ID") = false /\ bseq (joined ws) (B "ID") = false.
Proof.
  intros F. split; apply bseq_neq; intros E.
  - destruct F as [|w ws W F]; [discriminate|]. destruct (capital_split w W) as (c & r & -> & N & Hc & Fr & Ec). unfold go_name in E. cbn [map concat] in E. rewrite Ec in E. cbn [app] in E. injection E as _ E. destruct r as [|d r]; [contradiction|]. inversion Fr as [|? ? Hd _]; subst. cbn [app] in E. injection E as -> _. vm_compute in Hd. destruct Hd. contradiction.
  - destruct F as [|w ws [L W] F]; [discriminate|]. destruct W as [|c r Hc _]; [cbn in L; lia|]. cbn [joined] in E. destruct ws; injection E as -> _; vm_compute in Hc; destruct Hc; contradiction.
Qed.
Lemma cases_words ws : Forall plain_word ws -> to_pascal_case (go_name ws) = go_name ws /\ to_pascal_case (joined ws) = go_name ws /\ to_camel_case (go_name ws) = camel_name ws /\ to_camel_case (joined ws) = camel_name ws.
Proof.
  intros F. unfold to_pascal_case, to_camel_case, camel_init. destruct (not_id ws F) as [I1 I2]. rewrite (word_trim _ (go_name_letters ws F)), (word_trim _ (joined_letters ws F)), I1, I2.
  destruct F as [|w ws W F]; [repeat split|]. destruct (capital_split w W) as (c & r & -> & N & Hc & Fr & Ec). destruct (upper_facts _ (capital_upper c Hc)) as (U & L & D & E). destruct (lower_facts c Hc) as (Lc & Uc & Dc & _). split; [|split; [|split]].
  - unfold go_name. cbn [map concat]. rewrite Ec. cbn [app]. cbn [camel_from]. rewrite U, L. cbn [orb]. f_equal. rewrite (camel_lowers r _ false true N Fr). f_equal. apply camel_words, F.
  - apply camel_joined; [constructor; assumption|discriminate].
  - unfold go_name, camel_name. cbn [map concat]. rewrite Ec. cbn [app]. cbn [camel_from]. rewrite U, L, (capital_back c Hc). cbn [orb]. f_equal. rewrite (camel_lowers r _ false true N Fr). f_equal. apply camel_words, F.
  - assert (FW : Forall lower_letter (c :: r)) by (constructor; assumption). cbn [joined camel_name]. destruct ws as [|w2 ws].
    + unfold go_name. cbn [map concat]. rewrite <- (app_nil_r (c :: r)) at 1. rewrite (camel_lowers (c :: r) [] true false ltac:(discriminate) FW). reflexivity.
    + change (B "_") with ["_"%char]. rewrite (camel_lowers (c :: r) _ true false ltac:(discriminate) FW). cbn [app]. rewrite camel_under, (camel_joined _ F ltac:(discriminate) false). reflexivity.
Qed.
(** The same words in PascalCase and camelCase, from the Go name and from the name with underscores; the name ID is a word of its own *)
Theorem C63_conventions_partial ws : Forall plain_word ws ->
  rename_func (B "PascalCase") (go_name ws) = go_name ws /\ rename_func (B "PascalCase") (joined ws) = go_name ws /\
  rename_func (B "camelCase") (go_name ws) = camel_name ws /\ rename_func (B "camelCase") (joined ws) = camel_name ws /\
  rename_func (B "camelCase") (B "ID") = B "id" /\ rename_func (B "PascalCase") (B "ID") = B "Id".
Proof.
  intros F. destruct (cases_words ws F) as (H1 & H2 & H3 & H4). repeat split; assumption.
Qed.

(** *** Cases *)
Example C63_conventions_case : Forall plain_word [B "user"; B "home"; B "id"] /\ go_name [B "user"; B "home"; B "id"] = B "UserHomeId" /\ joined [B "user"; B "home"; B "id"] = B "user_home_id" /\ camel_name [B "user"; B "home"; B "id"] = B "userHomeId".
Proof. split; [|repeat split]. repeat constructor; discriminate. Qed.
Example C45_case : identifier (B "UserID2Name") /\ words (B "UserID2Name") /\ to_snake_case (B "UserID2Name") = B "user_id_2_name".
Proof.
  split; [split; [discriminate|]; repeat first [apply Forall_cons; [unfold letter, digit; cbn; first [left; lia|right; left; lia]|] | apply Forall_nil]|]. split; [|reflexivity].
  split; [discriminate|]. split; [intros r E; apply (f_equal (@rev _)) in E; rewrite rev_app_distr in E; discriminate|].
  intros a b E. do 12 (destruct a as [|? a]; [discriminate|cbn in E; try discriminate; injection E as _ E]).
Qed.
Example C45_idempotent_case : to_snake_case (B " Some-name.With  HTTPSPort ") = B "some_name_with__https_port".
Proof. reflexivity. Qed.
Example C45_unicode_case : to_snake_case E_acute = E_acute /\ Forall (fun c => (128 <= code c)%N) E_acute.
Proof. split; [reflexivity|]. repeat constructor; discriminate. Qed.
Example C63_case : to_pascal_case (B "user_http_port") = B "UserHttpPort" /\ to_camel_case (B "ID") = B "id" /\ Exists alnum (B "_a").
Proof. split; [reflexivity|]. split; [reflexivity|]. right. left. left. right. cbn. lia. Qed.
Example C63_empty_case : to_pascal_case E_acute = [].
Proof. reflexivity. Qed.
Print Assumptions C45_snake_characters_partial.
Print Assumptions C45_words_partial.
Print Assumptions C45_idempotent_partial.
Print Assumptions C45_underscores_refuted.
Print Assumptions C45_unicode_refuted.
Print Assumptions C63_camel_characters_partial.
Print Assumptions C63_camel_nonempty_partial.
Print Assumptions C63_empty_refuted.
Print Assumptions C45_conventions_partial.
Print Assumptions C63_conventions_partial.
Print Assumptions C63_twice_refuted.
