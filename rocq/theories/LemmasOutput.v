(** Reading generated methods: pieces of text, statements, lists, declarations. *)
From Verif Require Import Base ModelStrconv ModelEncoding SpecGo SpecSource LemmasBase LemmasSource.

(** ** Pieces of text *)
Lemma scans_as s a b : scans s a -> a = b -> scans s b.
Proof. now intros H <-. Qed.
Lemma ends_as s a b : ends s a -> a = b -> ends s b.
Proof. now intros H <-. Qed.
Lemma read_literal s a r y : literal_tokens s = Some a -> scans r y -> scans (s ++ r) (a ++ y).
Proof. intros H. apply scans_app. now apply scans_literal. Qed.
Lemma read_line s a r y : literal_tokens (s ++ [LF]) = Some a -> scans r y -> scans (s ++ LF :: r) (a ++ y).
Proof. intros H Y. change (LF :: r) with ([LF] ++ r). rewrite app_assoc. now apply read_literal. Qed.
Lemma read_ends e x s c s' a r y : ends e x -> s = c :: s' -> stops c = true -> literal_tokens s = Some a -> scans r y -> scans (e ++ s ++ r) (x ++ a ++ y).
Proof. intros E -> H L Y. change ((c :: s') ++ r) with (c :: (s' ++ r)). apply ends_scans; [ exact E | exact H | ]. change (c :: s' ++ r) with ((c :: s') ++ r). now apply read_literal. Qed.
Lemma read_ends_line e x s c s' a r y : ends e x -> s = c :: s' -> stops c = true -> literal_tokens (s ++ [LF]) = Some a -> scans r y -> scans (e ++ s ++ LF :: r) (x ++ a ++ y).
Proof. intros E H1 H2 L Y. change (LF :: r) with ([LF] ++ r). rewrite (app_assoc s). eapply (read_ends e x (s ++ [LF]) c (s' ++ [LF])); eauto. now rewrite H1. Qed.
Lemma read_newline e x r y : ends e x -> complete x -> scans r y -> scans (e ++ LF :: r) (x ++ [semicolon] ++ y).
Proof. intros E C Y. change (x ++ [semicolon] ++ y) with (x ++ semicolon :: y). now apply ends_newline. Qed.
Lemma read_nil : scans [] [].
Proof. exact scans_nil. Qed.
Lemma read_tab r y : scans r y -> scans (chr 9 :: r) y.
Proof. intros H acc. exact (H acc). Qed.

(** An operator before a word or a string *)
Definition literal_dangling (s : bytes) : option (list gtok * bytes) :=
  match s with
  | c :: r => match step (Between, []) c with
              | Some st => if heavy st then match scan st r with Some (InSym o, a) => Some (rev a, o) | _ => None end else None
              | None => None
              end
  | [] => None
  end.
Definition dangles (s : bytes) (a : list gtok) (o : bytes) : Prop := forall acc, scan (Between, acc) s = Some (InSym o, rev a ++ acc).
Lemma dangles_literal s a o : literal_dangling s = Some (a, o) -> dangles s a o.
Proof.
  intros H acc. destruct s as [|c r]; [ discriminate | ]. unfold literal_dangling in H. destruct (step (Between, []) c) as [ [m b] | ] eqn:E; [ | discriminate ].
  destruct (heavy (m, b)) eqn:HV; [ | discriminate ]. destruct (scan (m, b) r) as [ [ m' b' ] | ] eqn:F; [ | discriminate ]. destruct m'; try discriminate. injection H as <- <-.
  cbn [scan]. assert (N : beq c LF = true -> heavy (Between, [] : list gtok) = true).
  { intros L. apply beq_eq in L. subst c. change (step (Between, []) LF) with (Some (Between, [] : list gtok)) in E. injection E as <- <-. discriminate. }
  pose proof (step_under Between [] acc c N) as U. cbn [app] in U. rewrite U, E. cbn [under]. rewrite scan_under, F; [ | exact HV ]. cbn [under]. now rewrite rev_involutive.
Qed.
Lemma dangles_word s a o w : dangles s a o -> o = B "." \/ o = B "*" -> go_word w -> ends (s ++ w) (a ++ [GSym o; GWord w]).
Proof.
  intros D O W acc. rewrite scan_app, D. destruct w as [|c r]; [ destruct W | ]. destruct W as [W1 W2]. cbn [scan].
  assert (G : (65 <= code c)%N).
  { unfold word_start, is_alpha, is_upper, is_lower, in_range in W1.
    repeat (apply orb_prop in W1; destruct W1 as [W1|W1]); try (apply andb_prop in W1; destruct W1 as [W1 W']); try (apply N.leb_le in W1; lia). apply beq_eq in W1. subst c. vm_compute. discriminate. }
  assert (X : forall k, (code k < 65)%N -> beq c k = false) by (intros k K; destruct (beq c k) eqn:Q; [ apply beq_eq in Q; subst; lia | reflexivity ]).
  assert (D1 : is_digit c = false) by (unfold is_digit, in_range; replace (N.leb (code c) 57) with false by (symmetry; apply N.leb_gt; lia); apply andb_false_r).
  assert (T : step (InSym o, rev a ++ acc) c = start (GSym o :: rev a ++ acc) c).
  { cbn [step fst snd].
    assert (M : bmem (o ++ [c]) operators = false).
    { destruct (bmem (o ++ [c]) operators) eqn:Q; [ | reflexivity ]. apply bmem_In in Q. exfalso.
      destruct O as [-> | ->]; cbn in Q; repeat (destruct Q as [Q|Q]; [ try discriminate Q; injection Q as <-; vm_compute in G; now apply G | ]); destruct Q. }
    rewrite M. destruct O as [-> | ->].
    - change (bseq (B ".") (B "/")) with false. change (bseq (B ".") (B ".")) with true. change (bseq (B ".") (B "..")) with false. rewrite D1. reflexivity.
    - reflexivity. }
  rewrite T, (start_word _ _ W1), (scan_word r W2). eexists. split; [ reflexivity | ]. cbn [finished fst snd]. rewrite rev_app_distr. cbn [rev app]. rewrite rev_app_distr, rev_involutive. reflexivity.
Qed.
(** An operator before a string *)
Lemma dangles_string s a lit t r y : dangles s a (B "+") -> go_literal lit = Some t -> scans (lit ++ r) (GStr lit :: y) -> scans (s ++ lit ++ r) (a ++ [GSym (B "+"); GStr lit] ++ y).
Proof.
  intros D L Y acc. rewrite scan_app, D. specialize (Y (GSym (B "+") :: rev a ++ acc)). 
  assert (Q : scan (InSym (B "+"), rev a ++ acc) (lit ++ r) = scan (Between, GSym (B "+") :: rev a ++ acc) (lit ++ r)).
  { destruct lit as [|c l]; [ discriminate | ]. cbn [app scan]. unfold go_literal in L. destruct (_ || _) in L; [ discriminate | ]. destruct (beq c backtick) eqn:B1; [ apply beq_eq in B1; subst c; reflexivity | destruct (beq c dquote) eqn:B2; [ apply beq_eq in B2; subst c; reflexivity | discriminate ] ]. }
  rewrite Q, Y. do 2 f_equal. rewrite !rev_app_distr. cbn [rev app]. rewrite <- !app_assoc. reflexivity.
Qed.

(** Paths *)
Lemma ends_selector x ns : go_word x -> Forall go_word ns -> ends (x ++ concat (map (fun n => B "." ++ n) ns)) (flatten (selector x ns)).
Proof.
  intros X F. assert (G : forall e ts, ends e ts -> (exists w, rev ts <> [] /\ hd_error (rev ts) = Some (GWord w) /\ forall acc, exists r, scan (Between, acc) e = Some (InWord r, rev (removelast ts) ++ acc) /\ rev r = w) ->
     ends (e ++ concat (map (fun n => B "." ++ n) ns)) (ts ++ flatten (flat_map (fun n => [sym (B "."); SpecSource.word n]) ns))).
  { induction F as [|n ns W F IH]; intros e ts E (w & H1 & H2 & H3).
    - cbn [map concat flat_map flatten]. rewrite !app_nil_r. exact E.
    - cbn [map concat flat_map]. rewrite flatten_app. change (flatten [sym (B "."); SpecSource.word n]) with [GSym (B "."); GWord n].
      assert (D : dangles (e ++ B ".") ts (B ".")).
      { intros acc. rewrite scan_app. destruct (H3 acc) as (r & S1 & S2). rewrite S1. change (B ".") with ["."%char]. cbn [scan]. cbn [step fst snd]. change (word_char ".") with false. cbn iota.
        change (start (GWord (rev r) :: rev (removelast ts) ++ acc) ".") with (Some (InSym (B "."), GWord (rev r) :: rev (removelast ts) ++ acc)). do 2 f_equal. rewrite S2.
        destruct (rev ts) as [|t0 l0] eqn:R; [ now destruct H1 | ]. cbn in H2. injection H2 as ->. apply (f_equal (@rev _)) in R. rewrite rev_involutive in R. cbn [rev] in R. rewrite R, removelast_last, rev_involutive. reflexivity. }
      replace (e ++ (B "." ++ n) ++ concat (map (fun n0 => B "." ++ n0) ns)) with (((e ++ B ".") ++ n) ++ concat (map (fun n0 => B "." ++ n0) ns)) by (rewrite <- !app_assoc; reflexivity).
      rewrite app_assoc. apply IH; [ apply dangles_word; auto | ]. exists n. split; [ rewrite rev_app_distr; discriminate | ]. split; [ rewrite rev_app_distr; reflexivity | ].
      intros acc. rewrite scan_app, D. destruct n as [|c n']; [ destruct W | ]. pose proof (dangles_word _ _ _ _ D (or_introl eq_refl) W acc) as (st & S1 & S2). rewrite scan_app, D in S1.
      destruct W as [W1 W2]. cbn [scan] in S1 |- *.
      assert (T : step (InSym (B "."), rev ts ++ acc) c = Some (InWord [c], GSym (B ".") :: rev ts ++ acc)).
      { destruct (step (InSym (B "."), rev ts ++ acc) c) as [ st1 | ] eqn:T; [ | discriminate ]. cbn [step fst snd] in T.
        destruct (bmem (B "." ++ [c]) operators) eqn:M.
        - exfalso. apply bmem_In in M. cbn in M. repeat (destruct M as [M|M]; [ try discriminate M; injection M as <-; discriminate W1 | ]). destruct M.
        - change (bseq (B ".") (B "/")) with false in T. change (bseq (B ".") (B ".")) with true in T. change (bseq (B ".") (B "..")) with false in T. cbn [andb orb] in T.
          destruct (is_digit c) eqn:DG; cbn [orb] in T; [ discriminate | ]. rewrite (start_word _ _ W1) in T. now rewrite <- T. }
      rewrite T, (scan_word n' W2). exists (rev n' ++ [c]). split; [ | rewrite rev_app_distr, rev_involutive; reflexivity ]. do 2 f_equal.
      replace (ts ++ [GSym (B "."); GWord (c :: n')]) with ((ts ++ [GSym (B ".")]) ++ [GWord (c :: n')]) by (rewrite <- app_assoc; reflexivity). rewrite removelast_last, rev_app_distr. reflexivity. }
  change (flatten (selector x ns)) with ([GWord x] ++ flatten (flat_map (fun n => [sym (B "."); SpecSource.word n]) ns)). apply G; [ now apply ends_word | ].
  exists x. split; [ discriminate | ]. split; [ reflexivity | ]. intros acc. destruct x as [|c r]; [ destruct X | ]. destruct X as [X1 X2]. cbn [scan step fst snd]. rewrite (start_word _ _ X1), (scan_word r X2).
  exists (rev r ++ [c]). split; [ reflexivity | rewrite rev_app_distr, rev_involutive; reflexivity ].
Qed.

(** ** Statements *)
Fixpoint statements (cur l : list gtree) {struct l} : list gstmt :=
  match l with
  | [] => match cur with [] => [] | _ => [Simple (rev cur)] end
  | t :: r =>
      if is_sym (B ";") t then match cur with [] => statements [] r | _ => Simple (rev cur) :: statements [] r end
      else match t, rev cur with
           | GGroup c _, w :: condition => if beq c "{" && is_word (B "if") w then If condition (body_of t) :: statements [] r else statements (t :: cur) r
           | _, _ => statements (t :: cur) r
           end
  end.
Lemma body_of_statements c l : body_of (GGroup c l) = statements [] l.
Proof. reflexivity. Qed.
Definition no_semicolon (l : list gtree) : Prop := Forall (fun t => is_sym (B ";") t = false) l.
Definition simple (l : list gtree) : Prop := no_semicolon l /\ exists t r, l = t :: r /\ is_word (B "if") t = false.
Definition condition (l : list gtree) : Prop := Forall (fun t => is_sym (B ";") t = false /\ match t with GGroup c _ => beq c "{" = false | _ => True end) l.
Inductive prints : list gtree -> list gstmt -> Prop :=
| pr_nil : prints [] []
| pr_last l : simple l -> prints l [Simple l]
| pr_simple l r ss : simple l -> prints r ss -> prints (l ++ sym (B ";") :: r) (Simple l :: ss)
| pr_if c b bs r ss : condition c -> prints b bs -> prints r ss -> prints (SpecSource.word (B "if") :: c ++ brace b :: sym (B ";") :: r) (If c bs :: ss).
Lemma statements_simple l : no_semicolon l -> forall cur r, (match rev cur with w :: _ => is_word (B "if") w = false | [] => match l with t :: _ => is_word (B "if") t = false | [] => True end end) ->
  statements cur (l ++ r) = statements (rev l ++ cur) r.
Proof.
  induction 1 as [|t l H F IH]; intros cur r G; [ reflexivity | ]. cbn [app statements]. rewrite H. cbn [rev]. rewrite <- app_assoc. cbn [app].
  assert (K : match rev (t :: cur) with w :: _ => is_word (B "if") w = false | [] => match l with t :: _ => is_word (B "if") t = false | [] => True end end).
  { cbn [rev]. destruct (rev cur) as [|w q]; cbn [app]; exact G. }
  rewrite <- (IH (t :: cur) r K). destruct t as [x|c y]; [ reflexivity | ]. destruct (rev cur) as [|w q]; [ reflexivity | ]. rewrite G. now rewrite andb_false_r.
Qed.
Lemma statements_condition l : condition l -> forall cur r, statements cur (l ++ r) = statements (rev l ++ cur) r.
Proof.
  induction 1 as [|t l [H G] F IH]; intros cur r; [ reflexivity | ]. cbn [app statements]. rewrite H. cbn [rev]. rewrite <- app_assoc. cbn [app]. rewrite <- (IH (t :: cur) r).
  destruct t as [x|c y]; [ reflexivity | ]. destruct (rev cur) as [|w q]; [ reflexivity | ]. now rewrite G.
Qed.
Lemma prints_statements l ss : prints l ss -> statements [] l = ss.
Proof.
  induction 1 as [ | l (N & t & q & -> & W) | l r ss (N & t & q & -> & W) P IH | c b bs r ss C PB IB P IH ].
  - reflexivity.
  - rewrite <- (app_nil_r (t :: q)) at 1. rewrite statements_simple; [ | exact N | exact W ]. rewrite app_nil_r. cbn [statements]. destruct (rev (t :: q)) as [|x y] eqn:R; [ | rewrite <- R, rev_involutive; reflexivity ].
    apply (f_equal (@length _)) in R. rewrite rev_length in R. discriminate.
  - rewrite statements_simple; [ | exact N | exact W ]. rewrite app_nil_r. cbn [statements]. change (is_sym (B ";") (sym (B ";"))) with true. cbn iota. rewrite IH.
    destruct (rev (t :: q)) as [|x y] eqn:R; [ | rewrite <- R, rev_involutive; reflexivity ]. apply (f_equal (@length _)) in R. rewrite rev_length in R. discriminate.
  - change (statements [SpecSource.word (B "if")] (c ++ brace b :: sym (B ";") :: r) = If c bs :: ss). rewrite (statements_condition c C). cbn [statements].
    change (is_sym (B ";") (brace b)) with false. cbn iota. unfold brace at 1. rewrite rev_app_distr, rev_involutive. cbn [rev app].
    change (beq "{" "{" && is_word (B "if") (SpecSource.word (B "if"))) with true. cbn iota. unfold brace. rewrite body_of_statements, IB. change (is_sym (B ";") (sym (B ";"))) with true. cbn iota. now rewrite IH.
Qed.

(** ** Lists *)
Definition comma : gtree := sym (B ",").
Fixpoint commas (es : list (list gtree)) : list gtree := match es with [] => [] | [e] => e | e :: r => e ++ comma :: commas r end.
Definition no_comma (l : list gtree) : Prop := Forall (fun t => is_sym (B ",") t = false) l.
Lemma split_no s l : Forall (fun t => is_sym s t = false) l -> forall cur r, split_trees s cur (l ++ r) = split_trees s (rev l ++ cur) r.
Proof. induction 1 as [|t l H F IH]; intros cur r; [ reflexivity | ]. cbn [app split_trees rev]. rewrite H, IH, <- app_assoc. reflexivity. Qed.
Lemma split_commas es : Forall no_comma es -> es <> [] -> split_trees (B ",") [] (commas es) = es.
Proof.
  induction 1 as [|e es H F IH]; intros N; [ now destruct N | ]. destruct es as [|e2 es].
  - cbn [commas]. rewrite <- (app_nil_r e) at 1. rewrite split_no; [ | exact H ]. cbn [split_trees]. now rewrite app_nil_r, rev_involutive.
  - change (commas (e :: e2 :: es)) with (e ++ comma :: commas (e2 :: es)). rewrite split_no; [ | exact H ]. cbn [split_trees]. change (is_sym (B ",") comma) with true. cbn iota. rewrite IH by discriminate. now rewrite app_nil_r, rev_involutive.
Qed.
Lemma elements_last (es : list (list gtree)) : (forall e, In e es -> e <> []) -> match rev es with [] :: r => rev r | es => rev es end = es.
Proof.
  intros H. destruct (rev es) as [|e r] eqn:R; [ apply (f_equal (@rev _)) in R; rewrite rev_involutive in R; now subst | ].
  destruct e as [|t e]; [ exfalso; apply (H []); [ | reflexivity ]; apply in_rev; rewrite R; now left | ]. rewrite <- R. apply rev_involutive.
Qed.
Lemma elements_commas es : Forall no_comma es -> (forall e, In e es -> e <> []) -> elements (commas es) = es.
Proof. intros F N. destruct es as [|e es]; [ reflexivity | ]. unfold elements. rewrite split_commas; [ | exact F | discriminate ]. now apply elements_last. Qed.
Lemma elements_trailing es : Forall no_comma es -> elements (flat_map (fun e => e ++ [comma]) es) = es.
Proof.
  intros F. unfold elements. assert (G : split_trees (B ",") [] (flat_map (fun e => e ++ [comma]) es) = es ++ [[]]).
  { induction F as [|e es H F IH]; [ reflexivity | ]. cbn [flat_map]. rewrite <- app_assoc, split_no; [ | exact H ]. cbn [app split_trees]. change (is_sym (B ",") comma) with true. cbn iota. rewrite IH, app_nil_r, rev_involutive. reflexivity. }
  rewrite G, rev_app_distr. cbn [rev app]. apply rev_involutive.
Qed.
Lemma ends_join es xs : Forall2 (fun e x => ends e (flatten x)) es xs -> es <> [] -> ends (join (B ",") es) (flatten (commas xs)).
Proof.
  induction 1 as [|e x es xs H F IH]; intros N; [ now destruct N | ]. destruct F as [|e2 x2 es xs H2 F].
  - exact H.
  - change (join (B ",") (e :: e2 :: es)) with (e ++ ","%char :: join (B ",") (e2 :: es)). change (commas (x :: x2 :: xs)) with (x ++ comma :: commas (x2 :: xs)). rewrite flatten_app.
    apply ends_ends; [ exact H | reflexivity | ]. change (","%char :: join (B ",") (e2 :: es)) with (B "," ++ join (B ",") (e2 :: es)). change (flatten (comma :: commas (x2 :: xs))) with ([GSym (B ",")] ++ flatten (commas (x2 :: xs))).
    apply scans_ends_app; [ now apply scans_literal | now apply IH ].
Qed.
(** A list in braces *)
Lemma read_join es xs s c s' a r y : Forall2 (fun e x => ends e (flatten x)) es xs -> s = c :: s' -> stops c = true -> literal_tokens s = Some a -> scans r y ->
  scans (join (B ",") es ++ s ++ r) (flatten (commas xs) ++ a ++ y).
Proof.
  intros F E H L Y. destruct es as [|e es]; [ inversion F; exact (read_literal s a r y L Y) | ].
  eapply read_ends; eauto. apply ends_join; [ exact F | discriminate ].
Qed.

(** ** Declarations *)
Definition method_trees (recv : list gtree) (n : bytes) (params results body : list gtree) : list gtree :=
  [SpecSource.word (B "func"); paren recv; SpecSource.word n; paren params] ++ results ++ [brace body].
Lemma read_method recv n params results body ss : prints body ss ->
  read_decl (method_trees recv n params results body) = Method {| g_receiver := recv; g_name := n; g_params := params; g_results := results; g_body := ss |}.
Proof.
  intros P. unfold method_trees. cbn [app read_decl SpecSource.word paren]. change (bseq (B "func") (B "func") && beq "(" "(" && beq "(" "(") with true. cbn iota.
  rewrite rev_app_distr. cbn [rev app]. unfold brace. change (beq "{" "{") with true. cbn iota. rewrite rev_involutive, body_of_statements, (prints_statements _ _ P). reflexivity.
Qed.
(** The text declares this and nothing else. *)
Definition declares (s : bytes) (m : gfunc) : Prop :=
  exists recv n params results body, scans s (flatten (method_trees recv n params results body) ++ [semicolon]) /\
  Forall wf (method_trees recv n params results body) /\ no_semicolon results /\ prints body (g_body m) /\
  m = {| g_receiver := recv; g_name := n; g_params := params; g_results := results; g_body := g_body m |}.
Lemma no_semicolon_method recv n params results body : no_semicolon results -> no_semicolon (method_trees recv n params results body).
Proof. intros H. unfold method_trees. apply Forall_app. split; [ repeat constructor | ]. apply Forall_app. split; [ exact H | repeat constructor ]. Qed.
Lemma declared_source ss ms : Forall2 declares ss ms -> read_source (LF :: concat ss) = Some (map Method ms).
Proof.
  intros F. assert (G : exists ls, scans (concat ss) (flatten (flat_map (fun l => l ++ [sym (B ";")]) ls)) /\ Forall (Forall wf) ls /\ Forall no_semicolon ls /\ Forall2 (fun l m => l <> [] /\ read_decl l = Method m) ls ms).
  { induction F as [|s m ss ms (recv & n & params & results & body & S1 & S2 & S3 & S4 & S5) F (ls & I1 & I2 & I3 & I4)]; [ exists []; repeat split; try constructor | ].
    exists (method_trees recv n params results body :: ls). cbn [concat flat_map]. split; [ | split; [ now constructor | split; [ constructor; [ now apply no_semicolon_method | exact I3 ] | constructor; [ | exact I4 ] ] ] ].
    - rewrite !flatten_app. apply scans_app; [ exact S1 | exact I1 ].
    - split; [ discriminate | ]. rewrite (read_method _ _ _ _ _ _ S4). now rewrite <- S5. }
  destruct G as (ls & S1 & W & N & R). unfold read_source, trees, tokens. cbn [scan]. change (step (Between, []) LF) with (Some (Between, [] : list gtok)). cbn iota. rewrite S1. cbn [finished fst snd]. rewrite app_nil_r, rev_involutive.
  rewrite plant_of.
  - f_equal. assert (SP : forall tail, split_trees (B ";") [] (flat_map (fun l => l ++ [sym (B ";")]) ls ++ tail) = ls ++ split_trees (B ";") [] tail).
    { clear - N. intros tail. induction N as [|l ls H N IH]; [ reflexivity | ]. cbn [flat_map]. rewrite <- !app_assoc, split_no; [ | exact H ]. cbn [app split_trees]. change (is_sym (B ";") (sym (B ";"))) with true. cbn iota. rewrite IH, app_nil_r, rev_involutive. reflexivity. }
    specialize (SP []). rewrite app_nil_r in SP. rewrite SP. cbn [split_trees rev]. rewrite filter_app. cbn [filter nonempty]. rewrite app_nil_r.
    clear - R. induction R as [|l m ls ms [H1 H2] R IH]; [ reflexivity | ]. destruct l as [|x l]; [ now destruct H1 | ]. cbn [filter nonempty map]. rewrite H2, IH. reflexivity.
  - clear - W. induction W as [|l ls H W IH]; [ constructor | ]. cbn [flat_map]. apply Forall_app. split; [ apply Forall_app; split; [ exact H | repeat constructor ] | exact IH ].
Qed.
