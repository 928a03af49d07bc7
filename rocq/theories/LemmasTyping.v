(** The grammar of expressions gives at most one reading; tokens and readings of types and of field paths. *)
From Verif Require Import Base ModelStrconv ModelExpr ModelColumn LemmasBase SpecSource LemmasSource LemmasOutput SpecTyping SpecExpr LemmasExpr.
From Coq Require Import Lia.
Notation tok s := (GSym (B s)).

(** ** One reading *)
Scheme unary_ind2 := Minimality for unary Sort Prop with operand_ind2 := Minimality for operand Sort Prop with literal_ind2 := Minimality for literal_type Sort Prop
  with type_ind2 := Minimality for type_ Sort Prop with targs_ind2 := Minimality for type_args Sort Prop with suffixes_ind2 := Minimality for suffixes Sort Prop
  with list_ind2 := Minimality for list_ Sort Prop.
Combined Scheme reading_ind from unary_ind2, operand_ind2, literal_ind2, type_ind2, targs_ind2, suffixes_ind2, list_ind2.
Lemma starts_here t r : starts t (t :: r). Proof. now exists r. Qed.
Lemma goes_dot r : goes_on (tok "." :: r). Proof. left. apply starts_here. Qed.
Lemma goes_paren r : goes_on (tok "(" :: r). Proof. right. left. apply starts_here. Qed.
Lemma goes_bracket r : goes_on (tok "[" :: r). Proof. right. right. apply starts_here. Qed.
Lemma map_keyword : In (B "map") keywords. Proof. apply bmem_In. reflexivity. Qed.
Lemma no_colon_list ts es r : list_ (tok ":" :: ts) es r -> False.
Proof.
  intros H. assert (U : forall e x, unary (tok ":" :: ts) e x -> False).
  { intros e x U. inversion U as [ | | ? ? ? ? ? O _ ]; subst; try discriminate. inversion O as [ | | | ? ? ? L ]; subst; try discriminate. inversion L. }
  inversion H; subst; eapply U; eassumption.
Qed.
Lemma no_close_list ts es r : list_ (tok ")" :: ts) es r -> False.
Proof.
  intros H. assert (U : forall e x, unary (tok ")" :: ts) e x -> False).
  { intros e x U. inversion U as [ | | ? ? ? ? ? O _ ]; subst; try discriminate. inversion O as [ | | | ? ? ? L ]; subst; try discriminate. inversion L. }
  inversion H; subst; eapply U; eassumption.
Qed.
Ltac two := match goal with H : forall _ _, _ -> _ /\ _ |- _ => edestruct H as [? ?]; [ eassumption | ] end.
Lemma no_star_operand ts e r : operand (tok "*" :: ts) e r -> False.
Proof. intros O. inversion O as [ | | | ? ? ? L ]; subst; try discriminate. inversion L. Qed.
Lemma no_amp_operand ts e r : operand (tok "&" :: ts) e r -> False.
Proof. intros O. inversion O as [ | | | ? ? ? L ]; subst; try discriminate. inversion L. Qed.
Lemma no_word_literal n ts e r : ~ In n keywords -> literal_type (GWord n :: ts) e r -> False.
Proof. intros N L. inversion L; subst. apply N, map_keyword. Qed.
Lemma no_paren_literal ts e r : literal_type (tok "(" :: ts) e r -> False. Proof. intros L. inversion L. Qed.
Lemma no_star_literal ts e r : literal_type (tok "*" :: ts) e r -> False. Proof. intros L. inversion L. Qed.
Lemma no_num_literal n ts e r : literal_type (GNum n :: ts) e r -> False. Proof. intros L. inversion L. Qed.
Theorem one_reading :
  (forall ts e r, unary ts e r -> forall e' r', unary ts e' r' -> e = e' /\ r = r') /\
  (forall ts e r, operand ts e r -> forall e' r', operand ts e' r' -> e = e' /\ r = r') /\
  (forall ts e r, literal_type ts e r -> forall e' r', literal_type ts e' r' -> e = e' /\ r = r') /\
  (forall ts e r, type_ ts e r -> forall e' r', type_ ts e' r' -> e = e' /\ r = r') /\
  (forall e0 ts e r, type_args e0 ts e r -> forall e' r', type_args e0 ts e' r' -> e = e' /\ r = r') /\
  (forall e0 ts e r, suffixes e0 ts e r -> forall e' r', suffixes e0 ts e' r' -> e = e' /\ r = r') /\
  (forall ts e r, list_ ts e r -> forall e' r', list_ ts e' r' -> e = e' /\ r = r').
Proof.
  apply reading_ind.
  - intros ts e r _ IH e' r' H. inversion H; subst; [ two; subst; auto | exfalso; eapply no_star_operand; eassumption ].
  - intros ts e r _ IH e' r' H. inversion H; subst; [ two; subst; auto | exfalso; eapply no_amp_operand; eassumption ].
  - intros ts e0 mid e r HO IH1 _ IH2 e' r' H. inversion H as [ | | ? e1 mid1 ? ? O S_ ]; subst.
    + exfalso. eapply no_star_operand; eassumption.
    + exfalso. eapply no_amp_operand; eassumption.
    + destruct (IH1 _ _ O) as [-> ->]. exact (IH2 _ _ S_).
  - intros n r N e' r' H. inversion H; subst; [ auto | exfalso; eapply no_word_literal; [ | eassumption ]; assumption ].
  - intros n r e' r' H. inversion H; subst; [ auto | exfalso; eapply no_num_literal; eassumption ].
  - intros ts e r _ IH e' r' H. inversion H as [ | | ? ? ? U | ? ? ? L ]; subst; [ destruct (IH _ _ U) as [-> [= ->]]; auto | exfalso; eapply no_paren_literal; eassumption ].
  - intros ts e r L IH e' r' H. inversion H as [ ? ? N | | ? ? ? U | ? ? ? L' ]; subst.
    + exfalso; eapply no_word_literal; [ | eassumption ]; assumption.
    + exfalso; eapply no_num_literal; eassumption.
    + exfalso; eapply no_paren_literal; eassumption.
    + exact (IH _ _ L').
  - intros ts e r _ IH e' r' H. inversion H as [ ? ? ? T | | ]; subst. destruct (IH _ _ T) as [-> ->]. auto.
  - intros n ts e r _ IH e' r' H. inversion H as [ | ? ? ? ? T | ]; subst. destruct (IH _ _ T) as [-> ->]. auto.
  - intros ts k mid v r _ IH1 _ IH2 e' r' H. inversion H as [ | | ? k1 mid1 v1 ? T1 T2 ]; subst. destruct (IH1 _ _ T1) as [-> [= ->]]. destruct (IH2 _ _ T2) as [-> ->]. auto.
  - intros ts e r _ IH e' r' H. inversion H as [ ? ? ? T | ? ? ? T | ? ? ? L | | ]; subst; [ destruct (IH _ _ T) as [-> ->]; auto | exfalso; eapply no_star_literal; eassumption ].
  - intros ts e r _ IH e' r' H. inversion H as [ ? ? ? T | ? ? ? T | ? ? ? L | | ]; subst; [ destruct (IH _ _ T) as [-> [= ->]]; auto | exfalso; eapply no_paren_literal; eassumption ].
  - intros ts e r L IH e' r' H. inversion H as [ ? ? ? T | ? ? ? T | ? ? ? L' | ? ? ? ? N | ? ? ? ? ? N ]; subst.
    + exfalso; eapply no_star_literal; eassumption.
    + exfalso; eapply no_paren_literal; eassumption.
    + exact (IH _ _ L').
    + exfalso; eapply no_word_literal; [ | eassumption ]; assumption.
    + exfalso; eapply no_word_literal; [ | exact L ]; assumption.
  - intros n ts e r N D _ IH e' r' H. inversion H as [ ? ? ? T | ? ? ? T | ? ? ? L' | ? ? ? ? N' D' T | ? ? ? ? ? N' N2 T ]; subst.
    + exfalso; eapply no_word_literal; [ | eassumption ]; assumption.
    + exact (IH _ _ T).
    + exfalso. apply D, starts_here.
  - intros p n ts e r N N2 _ IH e' r' H. inversion H as [ ? ? ? T | ? ? ? T | ? ? ? L' | ? ? ? ? N' D' T | ? ? ? ? ? N' N2' T ]; subst.
    + exfalso; eapply no_word_literal; [ | eassumption ]; assumption.
    + exfalso. apply D', starts_here.
    + exact (IH _ _ T).
  - intros e ts N e' r' H. inversion H; subst; [ auto | ]. exfalso. apply N, starts_here.
  - intros e ts es r _ IH e' r' H. inversion H as [ ? ? N | ? ? ? ? L ]; subst; [ exfalso; apply N, starts_here | ]. destruct (IH _ _ L) as [-> [= ->]]. auto.
  - intros e ts N e' r' H. inversion H; subst; first [ now auto | exfalso; apply N; first [ apply goes_dot | apply goes_bracket | apply goes_paren ] ].
  - intros e n ts e1 r N _ IH e' r' H. inversion H as [ ? ? N' | ? ? ? ? ? N' T | | | | ]; subst; try discriminate; [ exfalso; apply N', goes_dot | exact (IH _ _ T) ].
  - intros e ts e1 r _ IH e' r' H. inversion H as [ ? ? N' | | ? ? ? ? T | ? ? ? ? ? ? L | | ]; subst; try discriminate; [ exfalso; apply N', goes_bracket | exact (IH _ _ T) | exfalso; eapply no_colon_list; eassumption ].
  - intros e ts es mid e1 r L1 IH1 _ IH2 e' r' H. inversion H as [ ? ? N' | | ? ? ? ? T | ? ? es' ? ? ? L T | | ]; subst; try discriminate; [ exfalso; apply N', goes_bracket | exfalso; eapply no_colon_list; eassumption | ].
    destruct (IH1 _ _ L) as [-> [= ->]]. exact (IH2 _ _ T).
  - intros e ts es mid e1 r L1 IH1 _ IH2 e' r' H. inversion H as [ ? ? N' | | | | ? ? es' ? ? ? L T | ? ? ? ? T ]; subst; try discriminate; [ exfalso; apply N', goes_paren | | exfalso; eapply no_close_list; eassumption ].
    destruct (IH1 _ _ L) as [-> [= ->]]. exact (IH2 _ _ T).
  - intros e mid e1 r _ IH e' r' H. inversion H as [ ? ? N' | | | | ? ? es' ? ? ? L T | ? ? ? ? T ]; subst; try discriminate; [ exfalso; apply N', goes_paren | exfalso; eapply no_close_list; eassumption | exact (IH _ _ T) ].
  - intros ts e r _ IH N e' r' H. inversion H as [ ? e1 ? U N' | ? e1 mid ? ? U L ]; subst; [ destruct (IH _ _ U) as [-> ->]; auto | ]. destruct (IH _ _ U) as [-> ->]. exfalso. apply N, starts_here.
  - intros ts e mid es r _ IH1 _ IH2 e' r' H. inversion H as [ ? e1 ? U N' | ? e1 mid1 ? ? U L ]; subst; [ destruct (IH1 _ _ U) as [-> <-]; exfalso; apply N', starts_here | ].
    destruct (IH1 _ _ U) as [-> [= ->]]. destruct (IH2 _ _ L) as [-> ->]. auto.
Qed.
Corollary one_expression s e e' : expression s e -> expression s e' -> e = e'.
Proof. intros (ts & T & U) (ts' & T' & U'). rewrite T in T'. injection T' as <-. exact (proj1 (proj1 one_reading _ _ _ U _ _ U')). Qed.

(** ** Tokens *)
Lemma letter_word c : letter c -> word_start c = true.
Proof.
  unfold letter, word_start, is_alpha, is_upper, is_lower, in_range. intros [ [H1 H2] | [H1 H2] ]; apply N.leb_le in H1, H2; rewrite H1, H2; cbn; [ reflexivity | ]. now rewrite !orb_true_r.
Qed.
Lemma word_byte_char c : word_byte c -> word_char c = true.
Proof.
  unfold word_char. intros [ H | [ H | -> ] ]; [ now rewrite (letter_word c H) | | reflexivity ].
  unfold is_digit, in_range. destruct H as [H1 H2]. apply N.leb_le in H1, H2. rewrite H1, H2. apply orb_true_r.
Qed.
Lemma identifier_word s : identifier s -> go_word s.
Proof. intros (c & r & -> & L & F). split; [ now apply letter_word | ]. eapply Forall_impl; [ | exact F ]. exact word_byte_char. Qed.
Lemma ends_more t c s y : step (Between, []) t = Some (InSym [t], []) -> (forall acc, step (InSym [t], acc) c = start (GSym [t] :: acc) c) -> ends (c :: s) y -> ends (t :: c :: s) (GSym [t] :: y).
Proof.
  intros T H Y acc. destruct (Y (GSym [t] :: acc)) as (st & E & F). exists st. cbn [scan] in E |- *.
  assert (T1 : step (Between, acc) t = Some (InSym [t], acc)).
  { cbn [step fst snd] in T |- *. unfold start in T |- *. destruct (beq t LF); [ discriminate | ]. destruct (_ || _ || _); [ discriminate | ]. destruct (word_start t); [ discriminate | ]. destruct (is_digit t); [ discriminate | ].
    destruct (beq t dquote); [ discriminate | ]. destruct (beq t backtick); [ discriminate | ]. destruct (in_bytes t single); [ discriminate | ]. destruct (in_bytes t operator_start); [ reflexivity | discriminate ]. }
  rewrite T1, H. split; [ exact E | ]. rewrite F. cbn [rev]. now rewrite <- app_assoc.
Qed.
(** The first character of something that is read as an expression *)
Definition opens (c : byte) : Prop := word_start c = true \/ c = "*"%char \/ c = "&"%char \/ c = "("%char \/ c = "["%char.
Lemma opens_star c acc : opens c -> step (InSym (B "*"), acc) c = start (GSym (B "*") :: acc) c.
Proof.
  intros H. cbn [step fst snd]. assert (M : bmem (B "*" ++ [c]) operators = false).
  { destruct (bmem (B "*" ++ [c]) operators) eqn:Q; [ | reflexivity ]. apply bmem_In in Q. exfalso. cbn in Q. repeat (destruct Q as [Q|Q]; [ try discriminate Q; injection Q as <-; destruct H as [H|[H|[H|[H|H]]]]; discriminate | ]). destruct Q. }
  rewrite M. reflexivity.
Qed.
Lemma opens_amp c acc : opens c -> c <> "&"%char -> step (InSym (B "&"), acc) c = start (GSym (B "&") :: acc) c.
Proof.
  intros H N. cbn [step fst snd]. assert (M : bmem (B "&" ++ [c]) operators = false).
  { destruct (bmem (B "&" ++ [c]) operators) eqn:Q; [ | reflexivity ]. apply bmem_In in Q. exfalso. cbn in Q. repeat (destruct Q as [Q|Q]; [ try discriminate Q; injection Q as <-; destruct H as [H|[H|[H|[H|H]]]]; try discriminate; now apply N | ]). destruct Q. }
  rewrite M. reflexivity.
Qed.
Lemma ends_star c s y : opens c -> ends (c :: s) y -> ends ("*"%char :: c :: s) (tok "*" :: y).
Proof. intros O. apply ends_more; [ reflexivity | ]. intros acc. now apply opens_star. Qed.
Lemma ends_amp c s y : opens c -> c <> "&"%char -> ends (c :: s) y -> ends ("&"%char :: c :: s) (tok "&" :: y).
Proof. intros O N. apply ends_more; [ reflexivity | ]. intros acc. now apply opens_amp. Qed.
Lemma ends_dot n : go_word n -> ends ("."%char :: n) [tok "."; GWord n].
Proof.
  intros W. assert (D : dangles ["."%char] [] (B ".")) by (intros acc; reflexivity). exact (dangles_word _ _ _ _ D (or_introl eq_refl) W).
Qed.
Lemma word_then n c s y : go_word n -> word_char c = false -> ends (c :: s) y -> ends (n ++ c :: s) (GWord n :: y).
Proof.
  intros W N Y acc. destruct n as [|a r]; [ destruct W | ]. destruct W as [W1 W2]. destruct (Y (GWord (a :: r) :: acc)) as (st & E & F). exists st. rewrite scan_app. cbn [scan step fst snd] in E |- *.
  rewrite start_word by exact W1. rewrite scan_word by exact W2. cbn [scan step fst snd]. rewrite N. rewrite rev_app_distr, rev_involutive. cbn [rev app]. split; [ exact E | ]. rewrite F. cbn [rev]. now rewrite <- app_assoc.
Qed.
Lemma ends_qualified p n : go_word p -> go_word n -> ends (p ++ "."%char :: n) [GWord p; tok "."; GWord n].
Proof. intros P N. apply (word_then p "." n); [ exact P | reflexivity | now apply ends_dot ]. Qed.
Lemma ends_sym c s y : in_bytes c single = true -> ends s y -> ends (c :: s) (GSym [c] :: y).
Proof.
  intros H Y. change (c :: s) with ([c] ++ s). change (GSym [c] :: y) with ([GSym [c]] ++ y). apply scans_ends_app; [ | exact Y ]. intros acc. cbn [scan step fst snd].
  unfold in_bytes in H. apply existsb_exists in H. destruct H as (x & I & E). apply beq_eq in E. subst x. cbn in I. repeat (destruct I as [<-|I]; [ reflexivity | ]). destruct I.
Qed.
Lemma ends_nil : ends [] []. Proof. apply scans_ends, scans_nil. Qed.

(** ** Types and fields *)
Section Reading.
Variable P : program.
Variable imports : list (bytes * bytes).
Hypothesis Pr : proper P.
Notation fine := (fine P imports).
Notation Q := (by_name (own_path P) imports).
Lemma library_words p n ks : In (p, n, ks) library -> ~ In n keywords.
Proof.
  intros I. assert (H : forallb (fun x => negb (bmem (snd (fst x)) keywords)) library = true) by reflexivity. rewrite forallb_forall in H. specialize (H _ I). cbn [fst snd] in H. intros J. apply bmem_In in J. rewrite J in H. discriminate.
Qed.
Lemma valid_word p n args : valid P (TNamed p n args) -> ~ In n keywords.
Proof. intros V. inversion V as [ | ? ? ? D | ? ? ? ? I | | | | ]; subst; [ exact (proj1 (proj2 (pr_word P Pr _ _ _ D))) | exact (library_words _ _ _ I) ]. Qed.
Lemma valid_own n args : valid P (TNamed (own_path P) n args) -> variables P n = None.
Proof. intros V. inversion V as [ | ? ? ? D | ? ? ? ? I | | | | ]; subst; [ exact (proj1 (pr_own P Pr _ _ D)) | destruct (pr_library P Pr _ _ I) ]. Qed.
Lemma valid_args p n args : valid P (TNamed p n args) -> Forall (valid P) args.
Proof. intros V. inversion V; subst; auto. Qed.
Definition good_head (s : bytes) : Prop := exists c r, s = c :: r /\ opens c /\ c <> "&"%char.
Lemma identifier_head n : identifier n -> good_head n.
Proof. intros (c & r & -> & L & _). exists c, r. split; [ reflexivity | ]. split; [ left; now apply letter_word | ]. intros ->. unfold letter in L. vm_compute in L. destruct L as [ [L _] | [L _] ]; now apply L. Qed.
Lemma head_app a b : good_head a -> good_head (a ++ b).
Proof. intros (c & r & -> & O & N). exists c, (r ++ b). auto. Qed.
Definition type_read (t : gtype) (s : bytes) : Prop := valid P t -> (forall q, mentions q t -> fine q) ->
  exists ts e, ends s ts /\ good_head s /\ (forall r, ~ goes_on r -> unary (ts ++ r) e r) /\ (forall r, ~ goes_on r -> type_ (ts ++ r) e r) /\ denotes P imports e t.
Definition types_read (us : list gtype) (s : bytes) : Prop := Forall (valid P) us -> (forall t q, In t us -> mentions q t -> fine q) ->
  exists ts es, ends s ts /\ good_head s /\ (forall r, list_ (ts ++ tok "]" :: r) es (tok "]" :: r)) /\ Forall2 (denotes P imports) es us.
Lemma not_dot r : ~ goes_on r -> ~ starts (tok ".") r. Proof. intros N H. apply N. now left. Qed.
Lemma not_bracket r : ~ goes_on r -> ~ starts (tok "[") r. Proof. intros N H. apply N. right. now right. Qed.
Lemma close_stays r : ~ goes_on (tok "]" :: r). Proof. intros [ [x H] | [ [x H] | [x H] ] ]; discriminate. Qed.
Lemma shut_stays r : ~ goes_on (tok ")" :: r). Proof. intros [ [x H] | [ [x H] | [x H] ] ]; discriminate. Qed.
Lemma comma_stays r : ~ goes_on (tok "," :: r). Proof. intros [ [x H] | [ [x H] | [x H] ] ]; discriminate. Qed.
Lemma end_stays : ~ goes_on []. Proof. intros [ [x H] | [ [x H] | [x H] ] ]; discriminate. Qed.
(** The name of a type, before its arguments *)
Lemma name_read p n q args : identifier n -> Q p q -> valid P (TNamed p n args) -> fine p ->
  exists ts e, ends (q ++ n) ts /\ good_head (q ++ n) /\ (forall c s y, word_char c = false -> ends (c :: s) y -> ends ((q ++ n) ++ c :: s) (ts ++ y)) /\
  (forall mid e' r, suffixes e mid e' r -> unary (ts ++ mid) e' r) /\ (forall mid e' r, ~ starts (tok ".") mid -> type_args e mid e' r -> type_ (ts ++ mid) e' r) /\ refers_to P imports e p n.
Proof.
  intros I Hq V F. pose proof (valid_word _ _ _ V) as NK. destruct Hq as [ [-> ->] | (x & Ix & ->) ].
  - exists [GWord n], (EName n). split; [ apply ends_word, identifier_word, I | ]. split; [ now apply identifier_head | ]. split; [ intros c s y Nc Y; now apply word_then; [ apply identifier_word | | ] | ].
    split; [ | split ].
    + intros mid e' r S_. eapply un_primary; [ now apply op_name | exact S_ ].
    + intros mid e' r D T. now apply tp_name.
    + constructor. eapply valid_own, V.
  - destruct (F x Ix) as (Ix' & Kx & Vx). replace ((x ++ ["."%char]) ++ n) with (x ++ "."%char :: n) by (now rewrite <- app_assoc).
    exists [GWord x; tok "."; GWord n], (ESel (EName x) n). split; [ apply ends_qualified; now apply identifier_word | ]. split; [ now apply head_app, identifier_head | ]. split.
    { intros c s y Nc Y. replace ((x ++ "."%char :: n) ++ c :: s) with (x ++ "."%char :: (n ++ c :: s)) by (now rewrite <- app_assoc). cbn [app]. apply word_then; [ now apply identifier_word | reflexivity | ].
      destruct n as [|a n']; [ destruct I as (? & ? & ? & _); discriminate | ]. cbn [app]. apply (ends_more "."%char a (n' ++ c :: s)); [ reflexivity | | ].
      - intros acc. destruct I as (a' & n'' & [= <- <-] & La & _). cbn [step fst snd]. 
        assert (G : (65 <= code a)%N) by (unfold letter in La; lia).
        assert (M : bmem (["."%char] ++ [a]) operators = false).
        { destruct (bmem (["."%char] ++ [a]) operators) eqn:X; [ | reflexivity ]. apply bmem_In in X. exfalso. cbn in X. repeat (destruct X as [X|X]; [ try discriminate X; injection X as <-; vm_compute in G; now apply G | ]). destruct X. }
        rewrite M. change (bseq ["."%char] (B "/")) with false. change (bseq ["."%char] (B ".")) with true. change (bseq ["."%char] (B "..")) with false.
        assert (D1 : is_digit a = false) by (unfold is_digit, in_range; replace (N.leb (code a) 57) with false by (symmetry; apply N.leb_gt; lia); apply andb_false_r). now rewrite D1.
      - change (a :: n' ++ c :: s) with ((a :: n') ++ c :: s). apply word_then; [ now apply identifier_word | exact Nc | exact Y ]. }
    split; [ | split ].
    + intros mid e' r S_. eapply un_primary; [ now apply op_name | ]. now apply sf_sel.
    + intros mid e' r D T. now apply tp_qualified.
    + now constructor.
Qed.
Lemma written_reads : (forall t s, written Q t s -> type_read t s) /\ (forall us s, written_list Q us s -> types_read us s).
Proof.
  apply written_both.
  - intros n I V _. inversion V as [ ? In_ | | | | | | ]; subst.
    assert (NK : ~ In n keywords). { assert (H : forallb (fun x => negb (bmem x keywords)) predeclared = true) by reflexivity. rewrite forallb_forall in H. specialize (H _ In_). intros J. apply bmem_In in J. rewrite J in H. discriminate. }
    exists [GWord n], (EName n). split; [ apply ends_word, identifier_word, I | ]. split; [ now apply identifier_head | ]. split; [ | split ].
    + intros r N. eapply un_primary; [ now apply op_name | now apply sf_none ].
    + intros r N. apply tp_name; [ exact NK | now apply not_dot | now apply ta_none, not_bracket ].
    + apply d_basic; [ exact In_ | apply (pr_basic P Pr), In_ | ]. intros args D. exact (proj2 (pr_own P Pr _ _ D) In_).
  - intros p n q I Hq V F. destruct (name_read p n q [] I Hq V (F p (in_name p n []))) as (ts & e & E & G & _ & U & T & R). exists ts, e. split; [ exact E | ]. split; [ exact G | ]. split; [ | split ].
    + intros r N. apply U. now apply sf_none.
    + intros r N. apply T; [ now apply not_dot | now apply ta_none, not_bracket ].
    + now apply d_name.
  - intros p n q args s I Hq Wl IH V F. pose proof (valid_args _ _ _ V) as Va.
    destruct (name_read p n q args I Hq V (F p (in_name p n args))) as (ts & e & E & G & Con & U & T & R).
    destruct (IH Va (fun t q0 It M => F q0 (in_args q0 p n args t It M))) as (ys & es & Ey & Gy & Ly & Dy).
    exists (ts ++ tok "[" :: ys ++ [tok "]"]), (EIndex e es). split; [ | split; [ | split; [ | split ] ] ].
    + rewrite app_assoc. apply Con; [ reflexivity | ]. apply (ends_sym "["); [ reflexivity | ]. apply ends_ends; [ exact Ey | reflexivity | ]. apply (ends_sym "]"); [ reflexivity | apply ends_nil ].
    + rewrite app_assoc. now apply head_app.
    + intros r N. rewrite <- app_assoc. cbn [app]. rewrite <- app_assoc. cbn [app]. apply U. eapply sf_index; [ apply Ly | now apply sf_none ].
    + intros r N. rewrite <- app_assoc. cbn [app]. rewrite <- app_assoc. cbn [app]. apply T; [ intros [x X]; discriminate | ]. apply ta_some. apply Ly.
    + now apply d_generic.
  - intros t s _ IH V F. inversion V as [ | | | ? Vt | | | ]; subst. destruct (IH Vt (fun q M => F q (in_pointer q t M))) as (ts & e & E & (c & r & -> & O & N) & U & T & D).
    exists (tok "*" :: ts), (EStar e). split; [ now apply ends_star | ]. split; [ exists "*"%char, (c :: r); split; [ reflexivity | ]; split; [ right; now left | discriminate ] | ]. split; [ | split ].
    + intros x Nx. cbn [app]. now apply un_star, U.
    + intros x Nx. cbn [app]. now apply tp_pointer, T.
    + now constructor.
  - intros t s _ IH V F. inversion V as [ | | | | ? Vt | | ]; subst. destruct (IH Vt (fun q M => F q (in_slice q t M))) as (ts & e & E & G & U & T & D).
    exists (tok "[" :: tok "]" :: ts), (ETSlice e). split; [ apply (ends_sym "["); [ reflexivity | ]; now apply (ends_sym "]") | ]. split; [ exists "["%char, ("]"%char :: s); split; [ reflexivity | ]; split; [ right; right; right; now right | discriminate ] | ].
    assert (L : forall x, ~ goes_on x -> literal_type ((tok "[" :: tok "]" :: ts) ++ x) (ETSlice e) x) by (intros x Nx; cbn [app]; now apply lt_slice, T).
    split; [ | split ].
    + intros x Nx. eapply un_primary; [ apply op_type, L, Nx | now apply sf_none ].
    + intros x Nx. now apply tp_literal, L.
    + now constructor.
  - intros n t s _ IH V F. inversion V as [ | | | | | ? ? Vt | ]; subst. destruct (IH Vt (fun q M => F q (in_array q n t M))) as (ts & e & E & G & U & T & D).
    exists (tok "[" :: GNum (format_uint n) :: tok "]" :: ts), (ETArray (format_uint n) e).
    split; [ apply (ends_sym "["); [ reflexivity | ]; apply (ends_ends (format_uint n) [GNum (format_uint n)] "]" s (tok "]" :: ts)); [ apply ends_digits; [ apply format_uint_nonempty | apply format_uint_digits ] | reflexivity | now apply (ends_sym "]") ] | ].
    split; [ eexists "["%char, _; split; [ reflexivity | ]; split; [ right; right; right; now right | discriminate ] | ].
    assert (L : forall x, ~ goes_on x -> literal_type ((tok "[" :: GNum (format_uint n) :: tok "]" :: ts) ++ x) (ETArray (format_uint n) e) x) by (intros x Nx; cbn [app]; now apply lt_array, T).
    split; [ | split ].
    + intros x Nx. eapply un_primary; [ apply op_type, L, Nx | now apply sf_none ].
    + intros x Nx. now apply tp_literal, L.
    + now constructor.
  - intros k v a b _ IHk _ IHv V F. inversion V as [ | | | | | | ? ? Vk Vv ]; subst. destruct (IHk Vk (fun q M => F q (in_key q k v M))) as (tk & ek & Ek & Gk & _ & Tk & Dk). destruct (IHv Vv (fun q M => F q (in_value q k v M))) as (tv & ev & Ev & Gv & _ & Tv & Dv).
    exists (GWord (B "map") :: tok "[" :: tk ++ tok "]" :: tv), (ETMap ek ev). split; [ | split ].
    + change (B "map[" ++ a ++ "]"%char :: b) with (B "map" ++ "["%char :: a ++ "]"%char :: b). apply word_then; [ split; [ reflexivity | repeat constructor ] | reflexivity | ]. apply (ends_sym "["); [ reflexivity | ]. apply ends_ends; [ exact Ek | reflexivity | ]. now apply (ends_sym "]").
    + eexists "m"%char, _. split; [ reflexivity | ]. split; [ now left | discriminate ].
    + assert (L : forall x, ~ goes_on x -> literal_type ((GWord (B "map") :: tok "[" :: tk ++ tok "]" :: tv) ++ x) (ETMap ek ev) x).
      { intros x Nx. cbn [app]. rewrite <- app_assoc. cbn [app]. eapply lt_map; [ apply Tk, close_stays | now apply Tv ]. }
      split; [ | split ].
      * intros x Nx. eapply un_primary; [ apply op_type, L, Nx | now apply sf_none ].
      * intros x Nx. now apply tp_literal, L.
      * now constructor.
  - intros t s _ IH V F. inversion V as [ | ? ? Vt _ ]; subst. destruct (IH Vt (fun q M => F t q (or_introl eq_refl) M)) as (ts & e & E & G & U & T & D). exists ts, [e]. split; [ exact E | ]. split; [ exact G | ]. split; [ | repeat constructor; exact D ].
    intros r. apply li_last; [ apply U, close_stays | ]. intros [x X]. discriminate.
  - intros t u us s r _ IH _ IHl V F. inversion V as [ | ? ? Vt Vl ]; subst. destruct (IH Vt (fun q M => F t q (or_introl eq_refl) M)) as (ts & e & E & G & U & T & D). destruct (IHl Vl (fun t0 q I M => F t0 q (or_intror I) M)) as (ys & es & Ey & Gy & Ly & Dy).
    exists (ts ++ tok "," :: ys), (e :: es). split; [ apply ends_ends; [ exact E | reflexivity | now apply (ends_sym ",") ] | ]. split; [ now apply head_app | ]. split; [ | now constructor ].
    intros x. rewrite <- app_assoc. cbn [app]. eapply li_next; [ apply U, comma_stays | apply Ly ].
Qed.
(** A field that is reached from a variable *)
Definition in_word (s : bytes) (ts : list gtok) : Prop := forall acc, exists w a, scan (Between, acc) s = Some (InWord w, a) /\ GWord (rev w) :: a = rev ts ++ acc.
Lemma in_word_ends s ts : in_word s ts -> ends s ts.
Proof. intros H acc. destruct (H acc) as (w & a & E & G). exists (InWord w, a). split; [ exact E | ]. cbn. now rewrite G. Qed.
Lemma word_in s : go_word s -> in_word s [GWord s].
Proof.
  destruct s as [|c r]; [ intros [] | ]. intros [H F] acc. cbn [scan step fst snd]. rewrite start_word by exact H. rewrite scan_word by exact F. eexists _, _. split; [ reflexivity | ]. cbn. now rewrite rev_app_distr, rev_involutive.
Qed.
Lemma dot_in s ts n : in_word s ts -> identifier n -> in_word (s ++ "."%char :: n) (ts ++ [tok "."; GWord n]).
Proof.
  intros H I acc. destruct (H acc) as (w & a & E & G). rewrite scan_app, E. cbn [scan]. assert (T : step (InWord w, a) "." = Some (InSym (B "."), rev ts ++ acc)) by (rewrite <- G; reflexivity). rewrite T.
  destruct I as (c & r & -> & L & F). cbn [scan].
  assert (G1 : (65 <= code c)%N) by (unfold letter in L; lia).
  assert (T2 : step (InSym (B "."), rev ts ++ acc) c = Some (InWord [c], GSym (B ".") :: rev ts ++ acc)).
  { cbn [step fst snd]. assert (M : bmem (B "." ++ [c]) operators = false).
    { destruct (bmem (B "." ++ [c]) operators) eqn:X; [ | reflexivity ]. apply bmem_In in X. exfalso. cbn in X. repeat (destruct X as [X|X]; [ try discriminate X; injection X as <-; vm_compute in G1; now apply G1 | ]). destruct X. }
    rewrite M. change (bseq (B ".") (B "/")) with false. change (bseq (B ".") (B ".")) with true. change (bseq (B ".") (B "..")) with false.
    assert (D1 : is_digit c = false) by (unfold is_digit, in_range; replace (N.leb (code c) 57) with false by (symmetry; apply N.leb_gt; lia); apply andb_false_r). rewrite D1. apply start_word. now apply letter_word. }
  rewrite T2, scan_word by (eapply Forall_impl; [ exact word_byte_char | exact F ]). eexists _, _. split; [ reflexivity | ]. rewrite rev_app_distr, rev_involutive. cbn [rev app]. rewrite rev_app_distr. reflexivity.
Qed.
Lemma path_reads s t : reaches P s t -> exists ts e, in_word s ts /\ good_head s /\ (forall mid e' r, suffixes e mid e' r -> unary (ts ++ mid) e' r) /\ typed P imports e t true.
Proof.
  induction 1 as [ x t V I K | s t f u _ (ts & e & E & G & U & T) Fl I K ].
  - exists [GWord x], (EName x). split; [ now apply word_in, identifier_word | ]. split; [ now apply identifier_head | ]. split; [ | now constructor ]. intros mid e' r S_. eapply un_primary; [ now apply op_name | exact S_ ].
  - exists (ts ++ [tok "."; GWord f]), (ESel e f). split; [ now apply dot_in | ]. split; [ now apply head_app | ]. split.
    + intros mid e' r S_. rewrite <- app_assoc. cbn [app]. apply U. now apply sf_sel.
    + change true with (true || is_pointer t)%bool. eapply ty_field; eassumption.
Qed.
End Reading.
