(** C77: the generated file: its package, its imports, its methods. *)
From Verif Require Import Base ModelStrconv ModelEncoding ModelPaths ModelCompiler ModelNaming ModelParser ModelGen ModelMethods ModelConfig ModelExpr ModelText ModelFile SpecSql SpecGo SpecGen SpecParser SpecEnd SpecSource SpecOutput SpecFile
  LemmasBase LemmasGen LemmasGen2 PropPaths PropConfig PropParser PropEnd PropOutput LemmasSource LemmasOutput LemmasOutput2.
Notation word := SpecSource.word.

(** ** Sequences of declarations *)
Definition ended (ls : list (list gtree)) : list gtree := flat_map (fun l => l ++ [sym (B ";")]) ls.
Definition chunk (s : bytes) (ls : list (list gtree)) : Prop := scans s (flatten (ended ls)) /\ Forall (fun l => Forall wf l /\ no_semicolon l /\ l <> []) ls.
Lemma chunk_nil : chunk [] [].
Proof. split; [ apply scans_nil | constructor ]. Qed.
Lemma chunk_app s1 l1 s2 l2 : chunk s1 l1 -> chunk s2 l2 -> chunk (s1 ++ s2) (l1 ++ l2).
Proof. intros [S1 F1] [S2 F2]. split; [ unfold ended; rewrite flat_map_app, flatten_app; now apply scans_app | now apply Forall_app ]. Qed.
(** A blank line after it *)
Lemma chunk_blank s ls : ls <> [] -> chunk s ls -> chunk (s ++ [LF]) ls.
Proof.
  intros N [S0 F]. split; [ | exact F ]. intros acc. rewrite scan_app, S0. destruct (exists_last N) as (ls' & l & ->). unfold ended. rewrite flat_map_app. cbn [flat_map]. rewrite app_nil_r, !flatten_app, !rev_app_distr. reflexivity.
Qed.
Lemma split_ended ls : Forall (fun l => Forall wf l /\ no_semicolon l /\ l <> []) ls -> filter nonempty (split_trees (B ";") [] (ended ls)) = ls.
Proof.
  assert (SP : forall tail, Forall (fun l => Forall wf l /\ no_semicolon l /\ l <> []) ls -> split_trees (B ";") [] (ended ls ++ tail) = ls ++ split_trees (B ";") [] tail).
  { intros tail N. induction N as [|l ls (_ & H & _) N IH]; [ reflexivity | ]. unfold ended. cbn [flat_map]. rewrite <- !app_assoc, split_no; [ | exact H ]. cbn [app split_trees]. change (is_sym (B ";") (sym (B ";"))) with true. cbn iota. fold (ended ls). rewrite IH, app_nil_r, rev_involutive. reflexivity. }
  intros F. specialize (SP [] F). rewrite app_nil_r in SP. rewrite SP. cbn [split_trees rev]. rewrite filter_app. cbn [filter nonempty]. rewrite app_nil_r.
  clear SP. induction F as [|l ls (_ & _ & H) F IH]; [ reflexivity | ]. destruct l; [ now destruct H | ]. cbn [filter nonempty]. now rewrite IH.
Qed.
Lemma ended_wf ls : Forall (fun l => Forall wf l /\ no_semicolon l /\ l <> []) ls -> Forall wf (ended ls).
Proof. induction 1 as [|l ls (H & _) F IH]; [ constructor | ]. unfold ended. cbn [flat_map]. apply Forall_app. split; [ apply Forall_app; split; [ exact H | repeat constructor ] | exact IH ]. Qed.
Lemma chunk_source h s ls : scan (Between, []) h = Some (Between, []) -> chunk s ls -> read_source (h ++ s) = Some (map read_decl ls).
Proof.
  intros H [S0 F]. unfold read_source, trees, tokens. rewrite scan_app, H, S0. cbn [finished fst snd]. rewrite app_nil_r, rev_involutive, plant_of by now apply ended_wf. now rewrite split_ended.
Qed.
Lemma declares_chunk ss ms : Forall2 declares ss ms -> exists ls, chunk (concat ss) ls /\ map read_decl ls = map Method ms.
Proof.
  induction 1 as [|s m ss ms (recv & n & params & results & body & S1 & S2 & S3 & S4 & S5) F (ls & I1 & I2)]; [ exists []; split; [ apply chunk_nil | reflexivity ] | ].
  exists (method_trees recv n params results body :: ls). split.
  - change (chunk (s ++ concat ss) ([method_trees recv n params results body] ++ ls)). apply chunk_app; [ | exact I1 ]. split.
    + unfold ended. cbn [flat_map]. rewrite app_nil_r, flatten_app. exact S1.
    + constructor; [ | constructor ]. split; [ exact S2 | split; [ now apply no_semicolon_method | discriminate ] ].
  - cbn [map]. rewrite I2, (read_method _ _ _ _ _ _ S4). now rewrite <- S5.
Qed.

(** ** The header *)
Lemma header_skipped version : ~ In LF version -> scan (Between, []) (line [B "// Code generated by sqlgen, version "; version; B "; DO NOT EDIT."] ++ line []) = Some (Between, []).
Proof.
  intros N. unfold line. cbn [concat app]. rewrite app_nil_r, <- !app_assoc.
  assert (E : scan (Between, []) (B "// Code generated by sqlgen, version ") = Some (Comment, [])) by (vm_compute; reflexivity). rewrite scan_app, E.
  assert (N2 : ~ In LF (version ++ B "; DO NOT EDIT.")) by (intros I; apply in_app_or in I as [ I | I ]; [ now apply N | cbn in I; repeat (destruct I as [ I | I ]; [ discriminate | ]); destruct I ]).
  rewrite app_assoc, scan_app, scan_comment by exact N2. reflexivity.
Qed.
Lemma package_chunk p : go_word p -> ~ In p keywords -> chunk (line [B "package "; p]) [[word (B "package"); word p]].
Proof.
  intros W K. pose proof (ends_word p W) as E. assert (C : complete [GWord p]) by (exists (GWord p), []; split; [ reflexivity | ]; cbn [ends_line]; now rewrite (proj2 (bmem_not_In _ _) K)). split; [ lines; eapply scans_as; [ repeat rd | unfold ended; cbn [flat_map]; toks ] | ]. constructor; [ | constructor ]. split; [ wfs | ]. split; [ nos | discriminate ].
Qed.

(** ** Imports *)
Definition import_ok (i : bytes * bytes) : Prop := Forall plain_char (fst i) /\ go_word (snd i).
Definition spec_of (i : bytes * bytes) : option bytes * bytes := (if bseq (base (fst i)) (snd i) then None else Some (snd i), fst i).
Definition spec_trees (printable : N -> bool) (i : bytes * bytes) : list gtree := (match fst (spec_of i) with Some n => [word n] | None => [] end) ++ [GLeaf (GStr (go_quote printable (fst i)))].
Lemma path_literal printable p : Forall plain_char p -> go_literal (go_quote printable p) = Some p.
Proof.
  intros F. rewrite plain_quote_rune by exact F. rewrite <- (gen_quote_literal DMySQL p) by (eapply Forall_impl; [ | exact F ]; intros; now apply plain_literal).
  rewrite gen_quote_ascii; [ reflexivity | ]. eapply Forall_impl; [ | exact F ]. intros c (H & _). lia.
Qed.
Lemma import_chunk printable i : import_ok i -> chunk (import_line printable i) [spec_trees printable i].
Proof.
  destruct i as [p n]. intros [P W]. cbn [fst snd] in *. pose proof (path_literal printable p P) as L. pose proof (scans_ends _ _ (scans_string _ _ L)) as EL. pose proof (ends_word n W) as EN.
  unfold import_line, spec_trees, spec_of. cbn [fst snd]. destruct (bseq (base p) n); cbn [app fst].
  - split; [ lines; eapply scans_as; [ repeat rd | unfold ended; cbn [flat_map]; toks ] | ]. constructor; [ | constructor ]. split; [ wfs | ]. split; [ nos | discriminate ].
  - split; [ lines; eapply scans_as; [ | unfold ended; cbn [flat_map]; toks ] | constructor; [ | constructor ]; split; [ wfs | split; [ nos | discriminate ] ] ].
    change (B " " ++ go_quote printable p ++ [LF]) with (" "%char :: (go_quote printable p ++ [LF])). apply ends_blank; [ exact EN | ]. repeat rd.
Qed.
Lemma imports_chunk printable l : Forall import_ok l -> chunk (concat (map (import_line printable) l)) (map (spec_trees printable) l).
Proof. induction 1 as [|i l H F IH]; [ apply chunk_nil | ]. cbn [map concat]. change (spec_trees printable i :: map (spec_trees printable) l) with ([spec_trees printable i] ++ map (spec_trees printable) l). apply chunk_app; [ now apply import_chunk | exact IH ]. Qed.
Lemma block_chunk printable l : Forall import_ok l -> chunk (line [B "import ("] ++ concat (map (import_line printable) l) ++ line [B ")"]) [[word (B "import"); paren (ended (map (spec_trees printable) l))]].
Proof.
  intros F. destruct (imports_chunk printable l F) as [S0 W]. split.
  - unfold ended at 1. cbn [flat_map]. unfold line. cbn [concat]. rewrite !app_nil_r, <- !app_assoc. eapply scans_as; [ eapply read_line; [ lit | ]; apply scans_app; [ exact S0 | ]; apply (scans_literal (B ")" ++ [LF])); lit | toks ].
  - constructor; [ | constructor ]. split; [ | split; [ nos | discriminate ] ]. unfold paren. pose proof (ended_wf _ W). wfs.
Qed.
Lemma block_read printable l : Forall import_ok l -> read_imports (read_decl [word (B "import"); paren (ended (map (spec_trees printable) l))]) = Some (map spec_of l).
Proof.
  intros F. destruct (imports_chunk printable l F) as [_ W]. cbn [read_decl paren word]. unfold read_imports, paren. change (is_word (B "import") (word (B "import")) && beq "(" "(") with true. cbn iota. rewrite split_ended by exact W. clear W.
  induction F as [|[p n] l [P G] F IH]; [ reflexivity | ]. cbn [map all_some]. cbn [fst snd] in *.
  assert (E : read_import (spec_trees printable (p, n)) = Some (spec_of (p, n))).
  { unfold spec_trees, spec_of. cbn [fst snd]. destruct (bseq (base p) n); cbn [app fst read_import word]; now rewrite path_literal. }
  rewrite E, IH. reflexivity.
Qed.

(** ** Elements of paths *)
Lemma base_after dir e : base (dir ++ "/"%char :: e) = base e.
Proof.
  unfold base. induction dir as [|c dir IH].
  - cbn [app split_on]. change (beq "/" "/") with true. cbn iota. pose proof (split_on_nil "/" e) as N. destruct (split_on "/" e); [ now destruct N | reflexivity ].
  - cbn [app split_on]. destruct (beq c "/").
    + rewrite <- IH. pose proof (split_on_nil "/" (dir ++ "/"%char :: e)) as N. destruct (split_on "/" (dir ++ "/"%char :: e)); [ now destruct N | reflexivity ].
    + assert (L : exists a b r, split_on "/" (dir ++ "/"%char :: e) = a :: b :: r).
      { clear IH. induction dir as [|x dir (a & b & r & IH)]; cbn [app split_on].
        - change (beq "/" "/") with true. cbn iota. pose proof (split_on_nil "/" e) as N. destruct (split_on "/" e) as [|b r]; [ now destruct N | ]. now exists [], b, r.
        - rewrite IH. destruct (beq x "/"); eauto. }
      destruct L as (a & b & r & L). rewrite L in *. exact IH.
Qed.
Lemma base_ends p n : base p = n <-> ends_in p n.
Proof.
  assert (E : forall p n, ends_in p n -> base p = n).
  { intros q m [N [ -> | [dir ->] ]]; [ | rewrite base_after ]; unfold base; rewrite split_on_whole by exact N; reflexivity. }
  split; [ | apply E ]. intros <-.
  assert (G : ends_in p (base p)); [ | exact G ].
  destruct (in_dec ascii_dec "/"%char p) as [I | I].
  - assert (L : exists dir e, p = dir ++ "/"%char :: e /\ ~ In "/"%char e).
    { clear E. induction p as [|c p IH]; [ destruct I | ]. destruct (in_dec ascii_dec "/"%char p) as [J | J].
      - destruct (IH J) as (dir & e & -> & N). exists (c :: dir), e. split; [ reflexivity | exact N ].
      - destruct I as [ -> | I ]; [ | contradiction ]. exists [], p. split; [ reflexivity | exact J ]. }
    destruct L as (dir & e & -> & N). rewrite (E _ e); [ | split; [ exact N | right; now exists dir ] ]. split; [ exact N | right; now exists dir ].
  - rewrite (E p p); split; auto.
Qed.
Lemma spec_refers clause p n : refers clause (spec_of (p, n)) = n <-> n = clause p \/ ~ ends_in p n.
Proof.
  unfold refers, spec_of. cbn [fst snd]. destruct (bseq (base p) n) eqn:E.
  - apply bseq_eq in E. apply base_ends in E. split; [ auto | intros [ -> | H ]; [ reflexivity | contradiction ] ].
  - apply bseq_neq in E. split; [ right; intros X; apply base_ends in X; contradiction | reflexivity ].
Qed.

(** ** C77 *)
Section File.
Context {V : Type}.
Variables (printable : N -> bool) (d : driver) (on : bool) (prefix : bytes) (strict : bool).
Variables (conv : bytes) (wrap unwrap : gotype -> bytes * bytes) (sort : list (list nat * sfield) -> list (list nat * sfield)).
Variables (before after : gotype -> list (tok V)) (item : gotype -> bytes -> list (tok V)).
Variables (version package : bytes) (l : imports).
Hypothesis SORT : sorts sort.
Hypothesis FUNCTIONS : sql_functions d wrap unwrap before after item.
Hypothesis PREFIX : prefix = [] \/ go_identifier prefix.
Hypothesis VERSION : ~ In LF version.
Hypothesis PACKAGE : go_identifier package /\ ~ In package keywords.
Hypothesis IMPORTS : forall p n, In (p, n) l -> Forall plain_char p /\ go_identifier n.

Theorem C77_file ms : Forall (generates printable d on prefix strict (rename_func conv) wrap unwrap sort) ms ->
  exists specs mss, file_says (gen_file printable version package l (map m_text ms)) package specs (concat mss) /\
  Forall2 (methods_of (V:=V) d on prefix (rename_func conv) unwrap before after item) ms mss /\
  Forall2 (fun i s => snd s = fst i /\ (fst s = Some (snd i) /\ ~ ends_in (fst i) (snd i) \/ fst s = None /\ ends_in (fst i) (snd i))) (rev l) specs.
Proof.
  intros GEN. assert (OK : Forall import_ok (rev l)).
  { apply Forall_forall. intros [p n] I. apply in_rev in I. destruct (IMPORTS p n I) as [P N]. split; [ exact P | now apply identifier_word ]. }
  assert (BODY : forall s ls, ls <> [] -> chunk s ls -> exists ls' mss, chunk (s ++ concat (map m_text ms)) (ls ++ ls') /\ map read_decl ls' = map Method (concat mss) /\ Forall2 (methods_of (V:=V) d on prefix (rename_func conv) unwrap before after item) ms mss).
  { clear - GEN SORT FUNCTIONS PREFIX. induction GEN as [|m ms (A & DP & RD & AU & PS & GT) GEN IH]; intros s ls N C.
    - exists [], []. cbn [map concat]. rewrite !app_nil_r. split; [ exact C | ]. split; [ reflexivity | constructor ].
    - destruct (source_declares (V:=V) printable d on prefix strict (m_user m) conv wrap unwrap sort (m_name m) (m_doc m) (m_fields m) (m_table m) (m_valuer m) (m_scanner m) (m_basic m) (m_type_text m) (m_new_text m) (m_type_name m) before after item
                  SORT A PS FUNCTIONS RD AU PREFIX DP (m_text m) GT) as (F & ns & ss & gs & FO & ET & DS & KS).
      destruct (declares_chunk ss gs DS) as (l1 & C1 & R1). destruct (IH (s ++ m_text m) (ls ++ l1)) as (l2 & mss & C2 & R2 & M2).
      + destruct ls; [ now destruct N | discriminate ].
      + rewrite ET. change (LF :: concat ss) with ([LF] ++ concat ss). rewrite app_assoc. apply chunk_app; [ now apply chunk_blank | exact C1 ].
      + exists (l1 ++ l2), (gs :: mss). cbn [map concat]. split; [ now rewrite !app_assoc in * | ]. split; [ now rewrite !map_app, R1, R2 | ]. constructor; [ | exact M2 ]. exists F, ns. split; [ exact FO | exact KS ]. }
  destruct PACKAGE as [PI PK]. pose proof (package_chunk package (identifier_word _ PI) PK) as CP.
  exists (map spec_of (rev l)).
  assert (REL : Forall2 (fun i s => snd s = fst i /\ (fst s = Some (snd i) /\ ~ ends_in (fst i) (snd i) \/ fst s = None /\ ends_in (fst i) (snd i))) (rev l) (map spec_of (rev l))).
  { clear. induction (rev l) as [|[p n] r IH]; [ constructor | ]. cbn [map]. constructor; [ | exact IH ]. split; [ reflexivity | ]. unfold spec_of. cbn [fst snd]. destruct (bseq (base p) n) eqn:E; [ right; split; [ reflexivity | ]; apply base_ends; now apply bseq_eq | left; split; [ reflexivity | ]; intros X; apply base_ends in X; apply bseq_neq in E; contradiction ]. }
  unfold gen_file. destruct (rev l) as [|i r] eqn:ER.
  - assert (EL : l = []) by (rewrite <- (rev_involutive l), ER; reflexivity). rewrite EL. cbn [app map].
    assert (N1 : [[word (B "package"); word package]] <> []) by discriminate. destruct (BODY _ _ N1 CP) as (ls' & mss & C & R & M). exists mss. split; [ | split; [ exact M | exact REL ] ]. exists []. split; [ | left; split; reflexivity ].
    rewrite app_assoc. rewrite (chunk_source _ _ _ (header_skipped version VERSION) C). rewrite map_app, R. reflexivity.
  - destruct l as [|i0 l0]; [ discriminate | ]. pose proof (chunk_app _ _ _ _ CP (block_chunk printable (i :: r) OK)) as CI.
    assert (N1 : [[word (B "package"); word package]] ++ [[word (B "import"); paren (ended (map (spec_trees printable) (i :: r)))]] <> []) by discriminate. destruct (BODY _ _ N1 CI) as (ls' & mss & C & R & M). exists mss. split; [ | split; [ exact M | exact REL ] ]. exists [read_decl [word (B "import"); paren (ended (map (spec_trees printable) (i :: r)))]]. split; [ | right; eexists; split; [ reflexivity | now apply block_read ] ].
    rewrite app_assoc. rewrite <- app_assoc in C. rewrite (chunk_source _ _ _ (header_skipped version VERSION) C). rewrite map_app, R. reflexivity.
Qed.
(** Each package that was imported is in the file once.  The file refers to it by the name that the expressions use, unless that name is
    the last element of its path and the package calls itself otherwise. *)
Theorem C77_names_partial self load ps (clause : bytes -> bytes) ms : import_all self load [] ps = Some l -> Forall (generates printable d on prefix strict (rename_func conv) wrap unwrap sort) ms ->
  exists specs gs, file_says (gen_file printable version package l (map m_text ms)) package specs gs /\ NoDup (map snd specs) /\
  (forall p, In p (map snd specs) <-> exists n, In (p, n) l) /\
  (forall p n, In (p, n) l -> exists s, In s specs /\ snd s = p /\ (refers clause s = n <-> n = clause p \/ ~ ends_in p n)) /\
  ((forall p n, In (p, n) l -> n = clause p \/ ~ ends_in p n) -> NoDup (map (refers clause) specs)).
Proof.
  intros IA GEN. destruct (C77_file ms GEN) as (specs & mss & FS & _ & SP). exists specs, (concat mss). split; [ exact FS | ].
  assert (D : distinct l).
  { assert (G : forall ps l0 l1, distinct l0 -> import_all self load l0 ps = Some l1 -> distinct l1).
    { clear. induction ps as [|[p n] ps IH]; intros l0 l1 D E; cbn [import_all] in E; [ now injection E as <- | ]. destruct (import_spec self load l0 p n D) as (l' & r & E1 & D1 & _). rewrite E1 in E. eapply IH; eauto. }
    eapply G; [ | exact IA ]. split; constructor. }
  destruct D as [D1 D2].
  assert (EQ : map snd specs = map fst (rev l)) by (clear - SP; induction SP as [|i s r specs (E & _) SP IH]; [ reflexivity | ]; cbn [map]; now rewrite E, IH).
  assert (RF : forall i s, snd s = fst i /\ (fst s = Some (snd i) /\ ~ ends_in (fst i) (snd i) \/ fst s = None /\ ends_in (fst i) (snd i)) -> refers clause s = snd i <-> snd i = clause (fst i) \/ ~ ends_in (fst i) (snd i)).
  { intros [p n] [o q]. cbn [fst snd]. intros [-> [ [-> E] | [-> E] ]]; unfold refers; cbn [fst snd]; split; auto. intros [ -> | X ]; [ reflexivity | contradiction ]. }
  split; [ rewrite EQ, map_rev; now apply NoDup_rev | ]. split; [ | split ].
  - intros p. rewrite EQ, in_map_iff. split; [ intros ([q n] & <- & I); exists n; now apply in_rev | intros [n I]; exists (p, n); split; [ reflexivity | now apply in_rev in I ] ].
  - intros p n I. apply in_rev in I. clear - SP I RF. induction SP as [|i s r specs H SP IH]; [ destruct I | ]. destruct I as [ -> | I ].
    + exists s. split; [ now left | ]. split; [ apply H | exact (RF (p, n) s H) ].
    + destruct (IH I) as (s' & J & E). exists s'. split; [ now right | exact E ].
  - intros OK. assert (E2 : map (refers clause) specs = map snd (rev l)).
    { assert (OK' : forall i, In i (rev l) -> snd i = clause (fst i) \/ ~ ends_in (fst i) (snd i)) by (intros [p n] I; apply OK; now apply in_rev). clear - SP OK' RF. induction SP as [|i s r specs H SP IH]; [ reflexivity | ]. cbn [map]. f_equal; [ apply (RF i s H), OK'; now left | apply IH; intros; apply OK'; now right ]. }
    rewrite E2, map_rev. now apply NoDup_rev.
Qed.
End File.
Print Assumptions C77_file.
Print Assumptions C77_names_partial.

Lemma forall2_two {A C} (P : A -> C -> Prop) a b l : Forall2 P [a; b] l -> exists x y, l = [x; y] /\ P a x /\ P b y.
Proof. intros H. inversion H as [|? x ? ? H1 H2]; subst. inversion H2 as [|? y ? ? H3 H4]; subst. inversion H4; subst. now exists x, y. Qed.
Lemma forall2_none {A C} (P : A -> C -> Prop) l : Forall2 P [] l -> l = [].
Proof. intros H. now inversion H. Qed.
(** Two packages that call themselves n, at a/n and b/n1: the second is called n1 in the expressions, which is the last element of its
    path, so it is imported without that name: both imports are n, and n1 is nothing. *)
Theorem C77_alias_refuted : forall printable version package self load (clause : bytes -> bytes) a b n,
  ~ In LF version -> go_identifier package -> ~ In package keywords -> go_identifier n ->
  Forall plain_char a -> Forall plain_char b -> Forall plain_char n -> a ++ "/"%char :: n <> self -> b ++ "/"%char :: n ++ B "1" <> self ->
  clause (a ++ "/"%char :: n) = n -> clause (b ++ "/"%char :: n ++ B "1") = n -> (forall p, load p = Some (clause p)) ->
  exists l specs, import_all self load [] [(a ++ "/"%char :: n, n); (b ++ "/"%char :: n ++ B "1", n)] = Some l /\
  In (b ++ "/"%char :: n ++ B "1", n ++ B "1") l /\
  file_says (gen_file printable version package l []) package specs [] /\ map (refers clause) specs = [n; n].
Proof.
  intros printable version package self load clause a b n VE PI PK NI PA PB PN SA SB CA CB LD.
  set (p1 := a ++ "/"%char :: n) in *. set (p2 := b ++ "/"%char :: n ++ B "1") in *. exists [(p2, n ++ B "1"); (p1, n)].
  assert (PW : forall c, word_char c = true -> c <> "/"%char) by (intros c H ->; discriminate).
  assert (NW : Forall (fun c => word_char c = true) n) by (destruct NI as (c & r & -> & H1 & H2); constructor; [ unfold word_char; now rewrite H1 | exact H2 ]).
  assert (N1W : Forall (fun c => word_char c = true) (n ++ B "1")) by (apply Forall_app; split; [ exact NW | repeat constructor ]).
  assert (PL : forall s, Forall (fun c => word_char c = true) s -> ~ In "/"%char s) by (intros s F I; rewrite Forall_forall in F; exact (PW _ (F _ I) eq_refl)).
  assert (PN1 : Forall plain_char (n ++ B "1")) by (apply Forall_app; split; [ exact PN | constructor; [ repeat split; try discriminate; cbn; lia | constructor ] ]).
  assert (NE : n <> n ++ B "1") by (intros E; apply (f_equal (@length _)) in E; rewrite app_length in E; cbn in E; lia).
  assert (E1 : ends_in p1 n) by (split; [ now apply PL | right; now exists a ]). assert (E2 : ends_in p2 (n ++ B "1")) by (split; [ now apply PL | right; now exists b ]).
  assert (NP : p1 <> p2) by (intros E; apply NE; apply base_ends in E1, E2; rewrite <- E2, <- E; now symmetry).
  assert (PP1 : Forall plain_char p1) by (apply Forall_app; split; [ exact PA | constructor; [ repeat split; try discriminate; cbn; lia | exact PN ] ]).
  assert (PP2 : Forall plain_char p2) by (apply Forall_app; split; [ exact PB | constructor; [ repeat split; try discriminate; cbn; lia | exact PN1 ] ]).
  clearbody p1 p2.
  assert (IA : import_all self load [] [(p1, n); (p2, n)] = Some [(p2, n ++ B "1"); (p1, n)]).
  { assert (NN : match n with [] => n | _ => n end = n) by now destruct n.
    assert (I1 : import self load [] p1 n = Some ([(p1, n)], Named_as n)).
    { unfold import. cbn [name_of_path]. rewrite LD, CA. rewrite (proj2 (bseq_neq _ _) SA). rewrite NN. reflexivity. }
    assert (I2 : import self load [(p1, n)] p2 n = Some ([(p2, n ++ B "1"); (p1, n)], Named_as (n ++ B "1"))).
    { unfold import. cbn [name_of_path]. rewrite (proj2 (bseq_neq _ _) NP). rewrite LD, CB. rewrite (proj2 (bseq_neq _ _) SB). rewrite NN.
      change (map snd [(p1, n)]) with [n]. cbn [length]. set (taken := [n]). assert (B1 : bmem n taken = true) by (apply bmem_In; now left). assert (B2 : bmem (n ++ B "1") taken = false) by (apply bmem_not_In; intros [E|[]]; now apply NE).
      cbn [new_alias]. rewrite B1. change (format_uint 1) with (B "1"). now rewrite B2. }
    cbn [import_all]. now rewrite I1, I2. }
  destruct (C77_file (V:=nat) printable DMySQL true [] true [] stored taken isort _ _ _ version package [(p2, n ++ B "1"); (p1, n)] isort_sorts (proj1 (proj2 (proj2 C17_case))) (or_introl eq_refl) VE (conj PI PK)) with (ms := @nil model) as (specs & mss & FS & M & SP).
  - intros p m [ E | [ E | [] ] ]; injection E as X1 X2; rewrite <- X1, <- X2; [ | split; [ exact PP1 | exact NI ] ].
    split; [ exact PP2 | ]. destruct NI as (c & r & -> & H1 & H2). exists c, (r ++ B "1"). split; [ reflexivity | split; [ exact H1 | apply Forall_app; split; [ exact H2 | repeat constructor ] ] ].
  - constructor.
  - exists specs. split; [ exact IA | ]. split; [ now left | ]. apply forall2_none in M. rewrite M in FS. split; [ exact FS | ].
    cbn [rev app] in SP. apply forall2_two in SP as (s1 & s2 & -> & (A1 & A2) & A3 & A4). cbn [fst snd] in *.
    destruct A2 as [ [_ A2] | [A2 _] ]; [ contradiction | ]. destruct A4 as [ [_ A4] | [A4 _] ]; [ contradiction | ]. cbn [map]. unfold refers. now rewrite A2, A4, A1, A3, CA, CB.
Qed.
Print Assumptions C77_alias_refuted.

(** ** Cases *)
Definition shop_packages : imports := [(B "example.com/b/money1", B "money1"); (B "example.com/a/money", B "money"); (B "gopkg.in/yaml.v3", B "yaml")].
Definition account_model (t : table) (text : bytes) : model :=
  {| m_user := fun _ => Missing; m_name := B "Account"; m_doc := None; m_fields := account; m_table := t; m_valuer := plain_valuer; m_scanner := plain_scanner; m_basic := plain_basic; m_type_text := plain_type; m_new_text := plain_new;
     m_type_name := plain_type; m_text := text |}.
Definition account_table : option table := match parse_struct isort (rename_func (B "snake_case")) stored taken (B "Account") None account with Ok o => o | _ => None end.
Definition account_file (t : table) : res bytes := gen_text (fun _ => true) DMySQL true (B "Column") true (fun _ => Missing) (B "Account") plain_valuer plain_scanner plain_basic plain_type plain_new plain_type t.
Definition the_methods (text : bytes) : list gfunc := match read_source text with Some l => flat_map (fun m => match m with Method g => [g] | _ => [] end) l | None => [] end.
Example C77_case : exists t text, generates (fun _ => true) DMySQL true (B "Column") true (rename_func (B "snake_case")) stored taken isort (account_model t text) /\
  (forall p n, In (p, n) shop_packages -> Forall plain_char p /\ go_identifier n) /\
  exists specs ms, file_says (gen_file (fun _ => true) (B "v1.0.0") (B "shop") shop_packages [text; text]) (B "shop") specs ms /\ length ms = 42 /\
  specs = [(Some (B "yaml"), B "gopkg.in/yaml.v3"); (None, B "example.com/a/money"); (None, B "example.com/b/money1")].
Proof.
  destruct C76_case as (A & SO & DP & FU & RD & AU & _).
  assert (PS : exists t, parse_struct isort (rename_func (B "snake_case")) stored taken (B "Account") None account = Ok (Some t) /\ account_table = Some t) by (eexists; split; vm_compute; reflexivity). destruct PS as (t & PS & ET).
  assert (GT : exists text, account_file t = Ok text /\ exists ms, the_methods (gen_file (fun _ => true) (B "v1.0.0") (B "shop") shop_packages [text; text]) = ms /\ length ms = 42 /\
     file_says (gen_file (fun _ => true) (B "v1.0.0") (B "shop") shop_packages [text; text]) (B "shop") [(Some (B "yaml"), B "gopkg.in/yaml.v3"); (None, B "example.com/a/money"); (None, B "example.com/b/money1")] ms).
  { vm_compute in ET. injection ET as <-. eexists. split; [ vm_compute; reflexivity | ]. eexists. split; [ vm_compute; reflexivity | ]. split; [ reflexivity | ]. eexists [_]. split; [ vm_compute; reflexivity | ]. right. eexists. split; [ reflexivity | vm_compute; reflexivity ]. }
  destruct GT as (text & GT & ms & _ & LM & FS). exists t, text. split; [ exact (conj A (conj DP (conj RD (conj AU (conj PS GT))))) | ]. split.
  - intros p n I. cbn in I. repeat (destruct I as [ E | I ]; [ injection E as <- <-; split; [ repeat (apply Forall_cons; [ repeat split; try discriminate; cbn; lia | ]); constructor | eexists _, _; split; [ reflexivity | split; [ reflexivity | repeat constructor ] ] ] | ]). destruct I.
  - exists [(Some (B "yaml"), B "gopkg.in/yaml.v3"); (None, B "example.com/a/money"); (None, B "example.com/b/money1")], ms. split; [ exact FS | split; [ exact LM | reflexivity ] ].
Qed.
