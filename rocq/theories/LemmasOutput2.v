(** The text of each generated method declares that method. *)
From Verif Require Import Base ModelStrconv ModelEncoding ModelCompiler ModelGen ModelMethods ModelText SpecGo SpecSource LemmasBase LemmasSource LemmasOutput.

(** ** Reading line by line *)
Lemma read_ends_blank e x s s' a r y : ends e x -> s = " "%char :: s' -> literal_tokens s' = Some a -> scans r y -> scans (e ++ s ++ r) (x ++ a ++ y).
Proof. intros E -> L Y. change ((" "%char :: s') ++ r) with (" "%char :: (s' ++ r)). apply ends_blank; [ exact E | now apply read_literal ]. Qed.
Lemma read_ends_blank_line e x s s' a r y : ends e x -> s = " "%char :: s' -> literal_tokens (s' ++ [LF]) = Some a -> scans r y -> scans (e ++ s ++ LF :: r) (x ++ a ++ y).
Proof. intros E -> L Y. change ((" "%char :: s') ++ LF :: r) with (" "%char :: (s' ++ LF :: r)). apply ends_blank; [ exact E | now apply read_line ]. Qed.
(** A word after an operator *)
Lemma read_dangling s a o w t z : literal_dangling s = Some (a, o) -> o = B "." \/ o = B "*" -> go_word w -> (forall e, ends e (a ++ [GSym o; GWord w]) -> scans (e ++ t) z) -> scans (s ++ w ++ t) z.
Proof. intros L O W H. rewrite app_assoc. apply H, dangles_word; [ now apply dangles_literal | exact O | exact W ]. Qed.
Ltac lit := vm_compute; reflexivity.
(** Without variables, so that it can be computed *)
Ltac closed s := assert_fails (idtac; match s with context [?x] => is_var x end).
Ltac rd :=
  first
  [ apply read_nil
  | (lazymatch goal with |- scans (chr 9 :: _) _ => apply read_tab end)
  | (lazymatch goal with |- scans (?s ++ LF :: _) _ => closed s end; eapply read_line; [ lit | ])
  | (lazymatch goal with |- scans (?s ++ _) _ => closed s end; eapply read_literal; [ lit | ])
  | (lazymatch goal with |- scans (_ ++ ?s ++ LF :: _) _ => closed s end; eapply read_ends_line; [ eassumption | reflexivity | reflexivity | lit | ])
  | (lazymatch goal with |- scans (_ ++ ?s ++ _) _ => closed s end; eapply read_ends; [ eassumption | reflexivity | reflexivity | lit | ])
  | (lazymatch goal with |- scans (_ ++ ?s ++ LF :: _) _ => closed s end; eapply read_ends_blank_line; [ eassumption | reflexivity | lit | ])
  | (lazymatch goal with |- scans (_ ++ ?s ++ _) _ => closed s end; eapply read_ends_blank; [ eassumption | reflexivity | lit | ])
  | (lazymatch goal with |- scans (_ ++ LF :: _) _ => eapply read_newline; [ eassumption | solve [ eassumption | (eexists; eexists; split; [ reflexivity | reflexivity ]) ] | ] end)
  | (lazymatch goal with |- scans (?s ++ _) _ => closed s end; eapply read_dangling; [ lit | first [ left; reflexivity | right; reflexivity ] | eassumption | intros ? ? ]) ].
Lemma flatten_cons t l : flatten (t :: l) = flat t ++ flatten l.
Proof. reflexivity. Qed.
Lemma flat_group c l : flat (GGroup c l) = GSym [c] :: flatten l ++ [GSym [if beq c "(" then ")"%char else if beq c "[" then "]"%char else "}"%char]].
Proof. reflexivity. Qed.
Ltac toks := unfold method_trees, paren, bracket, brace; repeat (rewrite ?flatten_app, ?flatten_cons, ?flat_group); repeat (rewrite <- ?app_assoc; cbn [app]); reflexivity.
Ltac lines := unfold line; cbn [concat]; rewrite ?app_nil_r; repeat (rewrite <- ?app_assoc; cbn [app]); rewrite ?app_nil_r.
Notation word := SpecSource.word.

(** ** Expressions *)
Definition parsed (e : bytes) : list gtree := match trees e with Some x => x | None => [] end.
Definition is_expression (e : bytes) : Prop := expression e (parsed e).
Definition plain_trees (x : list gtree) : Prop := Forall wf x /\ no_comma x /\ no_semicolon x /\ x <> [].
Lemma expression_parts e : is_expression e -> ends e (flatten (parsed e)) /\ complete (flatten (parsed e)) /\ plain_trees (parsed e).
Proof.
  intros H. destruct (expression_ends _ _ H) as (E & C & W). destruct H as (_ & _ & N & _). split; [ exact E | ]. split; [ exact C | ]. split; [ exact W | ].
  split; [ apply Forall_forall; intros t I; apply (N t I) | ]. split; [ apply Forall_forall; intros t I; apply (N t I) | ]. intros Z. rewrite Z in C. destruct C as (t & r & C & _). discriminate.
Qed.
Lemma is_expression_trees e : is_expression e -> trees e = Some (parsed e).
Proof. intros H. apply H. Qed.
Lemma go_word_app a b : go_word a -> Forall (fun c => word_char c = true) b -> go_word (a ++ b).
Proof. intros A F. destruct a as [|c r]; [ destruct A | ]. destruct A as [A1 A2]. split; [ exact A1 | ]. apply Forall_app. auto. Qed.
Lemma word_plain_trees w : plain_trees [word w].
Proof. repeat split; try (repeat constructor); discriminate. Qed.
Ltac wfs := repeat (first [ apply Forall_nil | assumption | (lazymatch goal with |- Forall _ (_ ++ _) => apply Forall_app; split end) | apply Forall_cons | (split; reflexivity) | (apply wf_group; split; [ reflexivity | ]) ]).
Ltac nos := unfold no_semicolon, no_comma; repeat (first [ apply Forall_nil | assumption | (lazymatch goal with |- Forall _ (_ ++ _) => apply Forall_app; split end) | apply Forall_cons | reflexivity ]).

Section Methods.
Variable printable : N -> bool.
Variables (d : driver) (on : bool) (prefix : bytes) (user : bytes -> own) (go : bytes).
Variables (valuer scanner : bytes -> gotype -> bytes) (basic : gotype -> bool) (type_text : gotype -> bytes) (new_text : bytes -> bytes) (type_name : gotype -> bytes).
Hypothesis GO : go_word go.
Lemma EG : ends go [GWord go].
Proof. exact (ends_word go GO). Qed.
Definition value_receiver : list gtree := [word go].
Definition named_receiver : list gtree := [word (B "v"); word go].
Definition pointer_receiver : list gtree := [word (B "v"); sym (B "*"); word go].
Definition return_of (e : list gtree) : list gtree := word (B "return") :: e.
Definition stop : gtree := sym (B ";").
Definition str (lit : bytes) : gtree := GLeaf (GStr lit).

Lemma simple_return e : no_semicolon e -> simple (return_of e).
Proof. intros N. split; [ constructor; [ reflexivity | exact N ] | ]. exists (word (B "return")), e. split; reflexivity. Qed.
Lemma prints_return e : no_semicolon e -> prints (return_of e ++ [stop]) [Simple (return_of e)].
Proof. intros N. apply (pr_simple (return_of e) [] []); [ now apply simple_return | constructor ]. Qed.
(** A method with a body of one return *)
Lemma declares_return s recv n params results e :
  scans s (flatten (method_trees recv n params results (return_of e ++ [stop])) ++ [semicolon]) -> Forall wf recv -> Forall wf params -> Forall wf results -> no_semicolon results -> Forall wf e -> no_semicolon e ->
  declares s {| g_receiver := recv; g_name := n; g_params := params; g_results := results; g_body := [Simple (return_of e)] |}.
Proof.
  intros S W1 W2 W3 N3 W4 N4. exists recv, n, params, results, (return_of e ++ [stop]). split; [ exact S | ]. split; [ unfold method_trees, return_of, paren, brace; wfs | ]. split; [ exact N3 | ]. split; [ now apply prints_return | reflexivity ].
Qed.

(** ** TableName, HasPK *)
Lemma table_name_declares t x : go_literal (gen_table_name printable d on t) = Some x ->
  declares (table_name_text printable d on go t)
    {| g_receiver := value_receiver; g_name := B "TableName"; g_params := []; g_results := [word (B "string")]; g_body := [Simple (return_of [str (gen_table_name printable d on t)])] |}.
Proof.
  intros L. pose proof (scans_ends _ _ (scans_string _ _ L)) as EL. apply declares_return; try (solve [ wfs | nos ]).
  unfold table_name_text. pose proof EG. lines. eapply scans_as; [ repeat rd | toks ].
Qed.
Lemma marker_declares n : go_word n ->
  declares (line [B "func ("; go; B ") "; n; B "() {}"]) {| g_receiver := value_receiver; g_name := n; g_params := []; g_results := []; g_body := [] |}.
Proof.
  intros N. pose proof (ends_word n N) as EN. exists value_receiver, n, [], [], []. split; [ pose proof EG; lines; eapply scans_as; [ repeat rd | toks ] | ]. split; [ unfold method_trees, paren, brace, value_receiver; wfs | ]. repeat split; constructor.
Qed.

(** ** Values of columns *)
Definition value_trees (c : column) : list gtree :=
  if existsb snd (c_paths c) then call (B "v") (c_goname c ++ B "Value") else parsed (valuer (B "v" ++ c_gopath c) (c_type c)).
Definition value_ok (c : column) : Prop := go_word (c_goname c) /\ (existsb snd (c_paths c) = false -> is_expression (valuer (B "v" ++ c_gopath c) (c_type c))).
Lemma value_word n : go_word n -> go_word (n ++ B "Value").
Proof. intros H. apply go_word_app; [ exact H | repeat constructor ]. Qed.
Lemma value_parts c : value_ok c -> ends (value_text valuer c) (flatten (value_trees c)) /\ complete (flatten (value_trees c)) /\ plain_trees (value_trees c).
Proof.
  intros [W E]. unfold value_text, value_trees. destruct (existsb snd (c_paths c)); [ | now apply expression_parts, E ].
  split; [ | split; [ now exists (GSym (B ")")), [GSym (B "("); GWord (c_goname c ++ B "Value"); GSym (B "."); GWord (B "v")] | ] ].
  - apply scans_ends. replace (B "v." ++ c_goname c ++ B "Value()") with (B "v." ++ (c_goname c ++ B "Value") ++ B "()" ++ []) by (rewrite app_nil_r, <- app_assoc; reflexivity).
    pose proof (value_word _ W). eapply scans_as; [ repeat rd | reflexivity ].
  - repeat split; try (unfold call, paren; wfs; fail); try (unfold call; nos; fail); discriminate.
Qed.
Lemma values_ends cs : Forall value_ok cs -> Forall2 (fun e x => ends e (flatten x)) (map (value_text valuer) cs) (map value_trees cs).
Proof. induction 1 as [|c cs H F IH]; [ constructor | ]. cbn [map]. constructor; [ now apply value_parts | exact IH ]. Qed.
Lemma commas_wf es : Forall (Forall wf) es -> Forall wf (commas es).
Proof. induction 1 as [|e es H F IH]; [ constructor | ]. destruct es as [|e2 es]; [ exact H | ]. change (commas (e :: e2 :: es)) with (e ++ comma :: commas (e2 :: es)). apply Forall_app. split; [ exact H | constructor; [ split; reflexivity | exact IH ] ]. Qed.
Lemma values_wf cs : Forall value_ok cs -> Forall (Forall wf) (map value_trees cs).
Proof. induction 1 as [|c cs H F IH]; [ constructor | ]. cbn [map]. constructor; [ apply (value_parts c H) | exact IH ]. Qed.
Lemma strings_ends ls : Forall (fun l => exists x, go_literal l = Some x) ls -> Forall2 (fun e x => ends e (flatten x)) ls (map (fun l => [str l]) ls).
Proof. induction 1 as [|l ls [x H] F IH]; [ constructor | ]. cbn [map]. constructor; [ exact (scans_ends _ _ (scans_string _ _ H)) | exact IH ]. Qed.
Lemma strings_wf ls : Forall (Forall wf) (map (fun l => [str l]) ls).
Proof. induction ls as [|l ls IH]; [ constructor | ]. cbn [map]. constructor; [ wfs | exact IH ]. Qed.
Definition num (n : nat) : gtree := GLeaf (GNum (itoa n)).
Lemma numbers_ends ns : Forall2 (fun e x => ends e (flatten x)) (map itoa ns) (map (fun n => [num n]) ns).
Proof. induction ns as [|n ns IH]; [ constructor | ]. cbn [map]. constructor; [ apply ends_number | exact IH ]. Qed.
Lemma numbers_wf ns : Forall (Forall wf) (map (fun n => [num n]) ns).
Proof. induction ns as [|l ls IH]; [ constructor | ]. cbn [map]. constructor; [ wfs | exact IH ]. Qed.
(** []T{...} *)
Definition slice (T : bytes) (es : list (list gtree)) : list gtree := [bracket []; word T; brace (commas es)].

(** ** Keys *)
Lemma scan_auto_declares n ty : go_word n -> is_expression (type_name ty) ->
  declares (line [B "func (v *"; go; B ") ScanAutoIncr(val int64) error {"] ++ line [chr 9 :: B "v."; n; B " = "; type_name ty; B "(val)"] ++ line [chr 9 :: B "return nil"] ++ line [B "}"])
    {| g_receiver := pointer_receiver; g_name := B "ScanAutoIncr"; g_params := [word (B "val"); word (B "int64")]; g_results := [word (B "error")];
       g_body := [Simple (selector (B "v") [n] ++ [sym (B "=")] ++ parsed (type_name ty) ++ [paren [word (B "val")]]); Simple (return_of [word (B "nil")])] |}.
Proof.
  intros N T. destruct (expression_parts _ T) as (E & _ & (W & NC & NS & _)).
  exists pointer_receiver, (B "ScanAutoIncr"), [word (B "val"); word (B "int64")], [word (B "error")],
    ((selector (B "v") [n] ++ [sym (B "=")] ++ parsed (type_name ty) ++ [paren [word (B "val")]]) ++ stop :: return_of [word (B "nil")] ++ [stop]).
  split; [ pose proof EG; lines; eapply scans_as; [ repeat rd | unfold selector; cbn [flat_map app]; toks ] | ].
  split; [ unfold method_trees, paren, brace, pointer_receiver, return_of, selector; cbn [flat_map app]; wfs | ]. split; [ nos | ]. split; [ | reflexivity ].
  cbn [g_body]. apply pr_simple; [ | apply prints_return; nos ]. split; [ unfold selector; cbn [flat_map app]; nos | ]. do 2 eexists. split; reflexivity.
Qed.
Lemma pk_declares lit x pos c : go_literal lit = Some x -> value_ok c ->
  declares (line [B "func (v "; go; B ") PK() (string, int, any) {"] ++ line [chr 9 :: B "return "; lit; B ", "; itoa pos; B ", "; value_text valuer c] ++ line [B "}"])
    {| g_receiver := named_receiver; g_name := B "PK"; g_params := []; g_results := [paren [word (B "string"); comma; word (B "int"); comma; word (B "any")]];
       g_body := [Simple (return_of (commas [[str lit]; [num pos]; value_trees c]))] |}.
Proof.
  intros L V. destruct (value_parts c V) as (E & C & (W & NC & NS & _)). pose proof (scans_ends _ _ (scans_string _ _ L)) as EL. pose proof (ends_number pos) as EN.
  apply declares_return; try (solve [ unfold paren; cbn [commas app]; wfs | cbn [commas app]; nos ]).
  pose proof EG. lines. eapply scans_as; [ repeat rd | unfold return_of; cbn [commas app]; toks ].
Qed.

(** ** Lists of names *)
Lemma read_join_any es xs c s y : Forall2 (fun e x => ends e (flatten x)) es xs -> stops c = true -> scans (c :: s) y -> scans (join (B ",") es ++ c :: s) (flatten (commas xs) ++ y).
Proof.
  intros F H Y. destruct es as [|e es]; [ inversion F; exact Y | ]. apply ends_scans; [ | exact H | exact Y ]. apply ends_join; [ exact F | discriminate ].
Qed.
Lemma read_close_comment k r y : ~ In LF k -> scans r y -> scans (B "} // " ++ k ++ LF :: r) ([GSym (B "}"); semicolon] ++ y).
Proof. intros K Y. change (B "} // " ++ k ++ LF :: r) with (B "}" ++ B " // " ++ k ++ LF :: r). apply (ends_comment (B "}") [GSym (B "}")]); [ apply scans_ends; now apply scans_literal | eexists; eexists; split; reflexivity | exact K | exact Y ]. Qed.
Lemma names_declares n lits k : go_word n -> Forall (fun l => exists x, go_literal l = Some x) lits ->
  declares (line [B "func ("; go; B ") "; n; B "() []string {"] ++ line [B "return []string{"; join (B ",") lits; B "} // "; itoa k] ++ line [B "}"])
    {| g_receiver := value_receiver; g_name := n; g_params := []; g_results := [bracket []; word (B "string")]; g_body := [Simple (return_of (slice (B "string") (map (fun l => [str l]) lits)))] |}.
Proof.
  intros N F. pose proof (ends_word n N) as EN. pose proof (strings_ends lits F) as ES. pose proof (commas_wf _ (strings_wf lits)) as WS.
  apply declares_return; try (solve [ unfold slice, bracket, brace; wfs | unfold slice; nos ]).
  pose proof EG. lines. eapply scans_as; [ do 4 rd; apply read_join_any; [ exact ES | reflexivity | ]; apply read_close_comment; [ apply number_line | repeat rd ] | unfold slice, return_of; cbn [app]; toks ].
Qed.
Lemma composite_declares lits pos cs : Forall (fun l => exists x, go_literal l = Some x) lits -> Forall value_ok cs ->
  declares (line [B "func (v "; go; B ") CompositeKey() ([]string, []int, []any) {"] ++
            line [B "return []string{"; join (B ",") lits; B "}, []int{"; join (B ",") (map itoa pos); B "}, []any{"; join (B ",") (map (value_text valuer) cs); B "}"] ++ line [B "}"])
    {| g_receiver := named_receiver; g_name := B "CompositeKey"; g_params := []; g_results := [paren [bracket []; word (B "string"); comma; bracket []; word (B "int"); comma; bracket []; word (B "any")]];
       g_body := [Simple (return_of (commas [slice (B "string") (map (fun l => [str l]) lits); slice (B "int") (map (fun n => [num n]) pos); slice (B "any") (map value_trees cs)]))] |}.
Proof.
  intros F V. pose proof (strings_ends lits F) as ES. pose proof (commas_wf _ (strings_wf lits)) as WS. pose proof (numbers_ends pos) as EN. pose proof (commas_wf _ (numbers_wf pos)) as WN.
  pose proof (values_ends cs V) as EV. pose proof (commas_wf _ (values_wf cs V)) as WV.
  apply declares_return; try (solve [ unfold slice, paren, bracket, brace; cbn [commas app]; wfs | unfold slice; cbn [commas app]; nos ]).
  pose proof EG. lines. eapply scans_as.
  - do 3 rd. eapply read_join; [ exact ES | reflexivity | reflexivity | lit | ]. eapply read_join; [ exact EN | reflexivity | reflexivity | lit | ].
    change (B "}" ++ LF :: B "}" ++ [LF]) with ((B "}" ++ [LF] ++ B "}" ++ [LF]) ++ []). eapply read_join; [ exact EV | reflexivity | reflexivity | lit | ]. apply read_nil.
  - unfold slice, return_of. cbn [commas app]. toks.
Qed.

(** ** Values, Addrs *)
Lemma padded_line w n : ~ In LF (padded w n).
Proof. intros I. unfold padded in I. apply in_app_or in I as [ I | I ]; [ apply repeat_spec in I; discriminate | now apply (number_line n) ]. Qed.
Lemma items_reads (text : column -> bytes) (x : column -> list gtree) w cs r y :
  Forall (fun c => ends (text c) (flatten (x c)) /\ ~ In LF (c_name c)) cs -> scans r y ->
  scans (concat (map (fun c => item_text w (text c) c) cs) ++ r) (flatten (flat_map (fun e => e ++ [comma]) (map x cs)) ++ y).
Proof.
  intros F Y. induction F as [|c cs [E N] F IH]; [ exact Y | ]. cbn [map concat flat_map]. rewrite flatten_app, flatten_app, <- !app_assoc.
  unfold item_text at 1, line. cbn [concat]. rewrite app_nil_r.
  replace (((text c ++ B ", // " ++ padded w (c_pos c) ++ B " - " ++ c_name c) ++ [LF]) ++ concat (map (fun c0 => item_text w (text c0) c0) cs) ++ r)
    with (text c ++ B ", // " ++ (padded w (c_pos c) ++ B " - " ++ c_name c) ++ LF :: (concat (map (fun c0 => item_text w (text c0) c0) cs) ++ r)) by (rewrite <- !app_assoc; reflexivity).
  change (B ", // " ++ (padded w (c_pos c) ++ B " - " ++ c_name c) ++ LF :: (concat (map (fun c0 => item_text w (text c0) c0) cs) ++ r))
    with (","%char :: B " // " ++ (padded w (c_pos c) ++ B " - " ++ c_name c) ++ LF :: (concat (map (fun c0 => item_text w (text c0) c0) cs) ++ r)).
  apply ends_scans; [ exact E | reflexivity | ].
  change (","%char :: B " // " ++ (padded w (c_pos c) ++ B " - " ++ c_name c) ++ LF :: (concat (map (fun c0 => item_text w (text c0) c0) cs) ++ r))
    with (B ", // " ++ (padded w (c_pos c) ++ B " - " ++ c_name c) ++ LF :: (concat (map (fun c0 => item_text w (text c0) c0) cs) ++ r)).
  change (flatten [comma] ++ flatten (flat_map (fun e => e ++ [comma]) (map x cs)) ++ y) with (GSym (B ",") :: flatten (flat_map (fun e => e ++ [comma]) (map x cs)) ++ y).
  apply scans_comma_comment; [ | exact IH ]. intros I. apply in_app_or in I as [ I | I ]; [ now apply padded_line in I | ]. apply in_app_or in I as [ I | I ]; [ cbn in I; repeat (destruct I as [I|I]; [ discriminate | ]); destruct I | now apply N ].
Qed.
(** []any{ with a line for each *)
Definition block (es : list (list gtree)) : list gtree := [bracket []; word (B "any"); brace (flat_map (fun e => e ++ [comma]) es)].
Lemma block_wf es : Forall (Forall wf) es -> Forall wf (flat_map (fun e => e ++ [comma]) es).
Proof. induction 1 as [|e es H F IH]; [ constructor | ]. cbn [flat_map]. apply Forall_app. split; [ apply Forall_app; split; [ exact H | wfs ] | exact IH ]. Qed.
Lemma values_declares t : Forall value_ok (gen_values t) -> (forall c, In c (gen_values t) -> ~ In LF (c_name c)) -> gen_values t <> [] ->
  declares (values_text go valuer t)
    {| g_receiver := named_receiver; g_name := B "Values"; g_params := []; g_results := [bracket []; word (B "any")]; g_body := [Simple (return_of (block (map value_trees (gen_values t))))] |}.
Proof.
  intros V N NE. unfold values_text. destruct (gen_values t) as [|c0 l0] eqn:EC; [ now destruct NE | ]. rewrite <- EC in *. pose proof (block_wf _ (values_wf _ V)) as WV.
  apply declares_return; try (solve [ unfold block, bracket, brace; wfs | unfold block; nos ]).
  pose proof EG. lines. eapply scans_as.
  - do 3 rd. apply items_reads with (x := value_trees); [ | repeat rd ]. apply Forall_forall. intros c I. split; [ apply value_parts; rewrite Forall_forall in V; now apply V | now apply N ].
  - unfold block, return_of. cbn [app]. toks.
Qed.

(** Selectors *)
Definition path (ns : list bytes) : bytes := concat (map (fun n => B "." ++ n) ns).
Lemma ends_path ns : Forall go_word ns -> ends (B "v" ++ path ns) (flatten (selector (B "v") ns)).
Proof. intros F. apply ends_selector; [ split; [ reflexivity | constructor ] | exact F ]. Qed.
Lemma selector_fine ns : Forall wf (selector (B "v") ns) /\ no_semicolon (selector (B "v") ns) /\ no_comma (selector (B "v") ns) /\ condition (selector (B "v") ns).
Proof.
  assert (W : forall ns, Forall wf (flat_map (fun n => [sym (B "."); word n]) ns)) by (clear; intros ns; induction ns as [|n ns IH]; cbn [flat_map app]; wfs).
  assert (S1 : forall ns, no_semicolon (flat_map (fun n => [sym (B "."); word n]) ns)) by (clear; intros ns; induction ns as [|n ns IH]; cbn [flat_map app]; nos).
  assert (S2 : forall ns, no_comma (flat_map (fun n => [sym (B "."); word n]) ns)) by (clear; intros ns; induction ns as [|n ns IH]; cbn [flat_map app]; nos).
  assert (C : forall ns, condition (flat_map (fun n => [sym (B "."); word n]) ns)).
  { clear; intros ns; induction ns as [|n ns IH]; cbn [flat_map app]; [ constructor | ]. constructor; [ split; [ reflexivity | exact I ] | ]. constructor; [ split; [ reflexivity | exact I ] | exact IH ]. }
  unfold selector. split; [ constructor; [ split; reflexivity | apply W ] | ]. split; [ constructor; [ reflexivity | apply S1 ] | ]. split; [ constructor; [ reflexivity | apply S2 ] | ]. constructor; [ split; [ reflexivity | exact I ] | apply C ].
Qed.
Lemma condition_of ns op : op = B "==" \/ op = B "!=" -> condition (selector (B "v") ns ++ [sym op; word (B "nil")]).
Proof.
  intros O. apply Forall_app. split; [ apply selector_fine | ]. constructor; [ split; [ destruct O as [-> | ->]; reflexivity | exact I ] | ]. constructor; [ split; [ reflexivity | exact I ] | constructor ].
Qed.

(** ** Addrs *)
Definition alloc_trees (ns : list bytes) : list gtree :=
  word (B "if") :: (selector (B "v") ns ++ [sym (B "=="); word (B "nil")]) ++
  brace (selector (B "v") ns ++ [sym (B "="); word (B "new"); paren (parsed (new_text (path ns)))]) :: [stop].
Definition alloc_stmt (ns : list bytes) : gstmt :=
  If (selector (B "v") ns ++ [sym (B "=="); word (B "nil")]) [Simple (selector (B "v") ns ++ [sym (B "="); word (B "new"); paren (parsed (new_text (path ns)))])].
Lemma alloc_reads ns r y : Forall go_word ns -> is_expression (new_text (path ns)) -> scans r y ->
  scans ((line [B "if v"; path ns; B " == nil {"] ++ B "v" ++ path ns ++ B " = new(" ++ new_text (path ns) ++ B ")" ++ line [B "}"]) ++ r) (flatten (alloc_trees ns) ++ y).
Proof.
  intros F X Y. destruct (expression_parts _ X) as (E & _). pose proof (ends_path ns F) as P. lines.
  replace (B "if v" ++ path ns ++ B " == nil {" ++ LF :: B "v" ++ path ns ++ B " = new(" ++ new_text (path ns) ++ B ")" ++ B "}" ++ LF :: r)
    with (B "if " ++ (B "v" ++ path ns) ++ B " == nil {" ++ LF :: (B "v" ++ path ns) ++ B " = new(" ++ new_text (path ns) ++ B ")}" ++ LF :: r) by (rewrite <- !app_assoc; reflexivity).
  eapply scans_as.
  - do 2 rd. eapply read_ends_blank; [ exact P | reflexivity | lit | ]. eapply read_ends_line; [ exact E | reflexivity | reflexivity | lit | exact Y ].
  - unfold alloc_trees. toks.
Qed.
Lemma allocs_prints pps l ss : prints l ss -> (forall ns, In ns pps -> is_expression (new_text (path ns))) -> prints (concat (map alloc_trees pps) ++ l) (map alloc_stmt pps ++ ss).
Proof.
  intros P. induction pps as [|ns pps IH]; intros H; [ exact P | ]. cbn [map concat]. rewrite <- app_assoc. unfold alloc_trees at 1, alloc_stmt at 1.
  change ((word (B "if") :: (selector (B "v") ns ++ [sym (B "=="); word (B "nil")]) ++ brace (selector (B "v") ns ++ [sym (B "="); word (B "new"); paren (parsed (new_text (path ns)))]) :: [stop]) ++ concat (map alloc_trees pps) ++ l)
    with (word (B "if") :: ((selector (B "v") ns ++ [sym (B "=="); word (B "nil")]) ++ brace (selector (B "v") ns ++ [sym (B "="); word (B "new"); paren (parsed (new_text (path ns)))]) :: [stop]) ++ concat (map alloc_trees pps) ++ l).
  rewrite <- (app_assoc (selector (B "v") ns ++ [sym (B "=="); word (B "nil")])). cbn [app].
  apply pr_if; [ apply condition_of; now left | | apply IH; intros x I; apply H; now right ]. apply pr_last. split; [ | do 2 eexists; split; reflexivity ].
  apply Forall_app. split; [ apply selector_fine | nos ].
Qed.
Lemma allocs_wf pps : (forall ns, In ns pps -> is_expression (new_text (path ns))) -> Forall wf (concat (map alloc_trees pps)).
Proof.
  induction pps as [|ns pps IH]; intros H; [ constructor | ]. cbn [map concat]. apply Forall_app. split; [ | apply IH; intros x I; apply H; now right ].
  destruct (expression_parts _ (H ns (or_introl eq_refl))) as (_ & _ & (W & _)). destruct (selector_fine ns) as (WS & _). unfold alloc_trees, brace, paren. wfs.
Qed.
Definition addr_trees (c : column) : list gtree := parsed (scanner (B "&v" ++ c_gopath c) (c_type c)).
Lemma addrs_declares t pps : table_pointers t = map path pps -> Forall (Forall go_word) pps -> (forall ns, In ns pps -> is_expression (new_text (path ns))) ->
  (forall c, In c (t_columns t) -> is_expression (scanner (B "&v" ++ c_gopath c) (c_type c)) /\ ~ In LF (c_name c)) ->
  declares (addrs_text go scanner new_text t)
    {| g_receiver := pointer_receiver; g_name := B "Addrs"; g_params := []; g_results := [bracket []; word (B "any")]; g_body := map alloc_stmt pps ++ [Simple (return_of (block (map addr_trees (t_columns t))))] |}.
Proof.
  intros TP GW NT SC. unfold addrs_text, gen_addrs. rewrite TP. 
  assert (WB : Forall wf (flat_map (fun e => e ++ [comma]) (map addr_trees (t_columns t)))).
  { apply block_wf. apply Forall_forall. intros x I. apply in_map_iff in I as (c & <- & I). apply (expression_parts _ (proj1 (SC c I))). }
  exists pointer_receiver, (B "Addrs"), [], [bracket []; word (B "any")], (concat (map alloc_trees pps) ++ return_of (block (map addr_trees (t_columns t))) ++ [stop]).
  assert (AR : forall r y, scans r y -> scans (concat (map (fun p => line [B "if v"; p; B " == nil {"] ++ B "v" ++ p ++ B " = new(" ++ new_text p ++ B ")" ++ line [B "}"]) (map path pps)) ++ r) (flatten (concat (map alloc_trees pps)) ++ y)).
  { clear TP. intros r y Y. induction GW as [|ns pps H GW IH]; [ exact Y | ]. cbn [map concat]. rewrite flatten_app. match goal with |- scans ((?a ++ ?b) ++ ?c) ((?x ++ ?z) ++ ?w) => rewrite <- (app_assoc a b c), <- (app_assoc x z w) end.
    apply alloc_reads; [ exact H | apply NT; now left | apply IH; intros x I; apply NT; now right ]. }
  split; [ | split; [ | split; [ nos | split; [ | reflexivity ] ] ] ].
  - set (W := width_of (length (t_columns t))). pose proof EG.
    replace (line [B "func (v *"; go; B ") Addrs() []any {"] ++ concat (map (fun p => line [B "if v"; p; B " == nil {"] ++ B "v" ++ p ++ B " = new(" ++ new_text p ++ B ")" ++ line [B "}"]) (map path pps)) ++
       line [B "return []any{"] ++ concat (map (fun c => item_text W (scanner (B "&v" ++ c_gopath c) (c_type c)) c) (t_columns t)) ++ line [B "}"] ++ line [B "}"])
      with (B "func (v *" ++ go ++ B ") Addrs() []any {" ++ LF :: concat (map (fun p => line [B "if v"; p; B " == nil {"] ++ B "v" ++ p ++ B " = new(" ++ new_text p ++ B ")" ++ line [B "}"]) (map path pps)) ++
       B "return []any{" ++ LF :: concat (map (fun c => item_text W (scanner (B "&v" ++ c_gopath c) (c_type c)) c) (t_columns t)) ++ B "}" ++ LF :: B "}" ++ [LF]) by (unfold line; cbn [concat]; rewrite !app_nil_r, <- !app_assoc; reflexivity).
    eapply scans_as.
    + do 2 rd. apply AR. rd. apply items_reads with (x := addr_trees); [ | repeat rd ]. apply Forall_forall. intros c I. destruct (SC c I) as [X N]. split; [ apply (expression_parts _ X) | exact N ].
    + unfold block, return_of. toks.
  - pose proof (allocs_wf pps NT). unfold method_trees, paren, bracket, brace, pointer_receiver, return_of, block. wfs.
  - cbn [g_body]. apply allocs_prints; [ apply prints_return; unfold block; nos | exact NT ].
Qed.

(** ** Statements *)
Definition query_trees (ps : list piece) : list gtree :=
  match ps with
  | [Lit a] => [str a]
  | [Lit a; CallTableName; Lit b] => [str a; sym (B "+"); word (B "v"); sym (B "."); word (B "TableName"); paren []; sym (B "+"); str b]
  | _ => []
  end.
Definition query_ok (ps : list piece) : Prop :=
  (exists a x, ps = [Lit a] /\ go_literal a = Some x) \/ (exists a x b y, ps = [Lit a; CallTableName; Lit b] /\ go_literal a = Some x /\ go_literal b = Some y).
Lemma query_parts ps : query_ok ps -> ends (query_text ps) (flatten (query_trees ps)) /\ plain_trees (query_trees ps).
Proof.
  intros [ (a & x & -> & L) | (a & x & b & y & -> & L & M) ].
  - unfold query_text. cbn [map piece_text concat]. rewrite app_nil_r. split; [ exact (scans_ends _ _ (scans_string _ _ L)) | ]. repeat split; try (cbn [query_trees]; wfs; fail); try (cbn [query_trees]; nos; fail); discriminate.
  - unfold query_text. cbn [map piece_text concat]. rewrite app_nil_r. split; [ | repeat split; try (cbn [query_trees]; unfold paren; wfs; fail); try (cbn [query_trees]; nos; fail); discriminate ].
    apply scans_ends. change (flatten (query_trees [Lit a; CallTableName; Lit b])) with ([GStr a] ++ [GSym (B "+"); GWord (B "v"); GSym (B "."); GWord (B "TableName"); GSym (B "("); GSym (B ")")] ++ [GSym (B "+"); GStr b] ++ []).
    apply scans_app; [ exact (scans_string _ _ L) | ]. rewrite <- (app_nil_r b) at 1. apply (dangles_string _ _ b y [] []); [ apply dangles_literal; reflexivity | exact M | rewrite app_nil_r; exact (scans_string _ _ M) ].
Qed.
Lemma statement_declares n ps cs : go_word n -> query_ok ps -> Forall value_ok cs ->
  declares (line [B "func (v "; go; B ") "; n; B "() (string, []any) {"] ++ line [B "return "; query_text ps; B ", []any{"; join (B ",") (map (value_text valuer) cs); B "}"] ++ line [B "}"])
    {| g_receiver := named_receiver; g_name := n; g_params := []; g_results := [paren [word (B "string"); comma; bracket []; word (B "any")]];
       g_body := [Simple (return_of (commas [query_trees ps; slice (B "any") (map value_trees cs)]))] |}.
Proof.
  intros N Q V. destruct (query_parts ps Q) as (EQ & (WQ & NCQ & NSQ & _)). pose proof (ends_word n N) as EN. pose proof (values_ends cs V) as EV. pose proof (commas_wf _ (values_wf cs V)) as WV.
  apply declares_return; try (solve [ unfold slice, paren, bracket, brace; cbn [commas app]; wfs | unfold slice; cbn [commas app]; nos ]).
  pose proof EG. lines. eapply scans_as.
  - do 5 rd. change (B "}" ++ LF :: B "}" ++ [LF]) with ((B "}" ++ [LF] ++ B "}" ++ [LF]) ++ []). eapply read_join; [ exact EV | reflexivity | reflexivity | lit | ]. apply read_nil.
  - unfold slice, return_of. cbn [commas app]. toks.
Qed.
Lemma statement_values_declares ps : query_ok ps ->
  declares (line [B "func (v "; go; B ") InsertOneStmt() (string, []any) {"] ++ line [B "return "; query_text ps; B ", v.Values()"] ++ line [B "}"])
    {| g_receiver := named_receiver; g_name := B "InsertOneStmt"; g_params := []; g_results := [paren [word (B "string"); comma; bracket []; word (B "any")]];
       g_body := [Simple (return_of (commas [query_trees ps; call (B "v") (B "Values")]))] |}.
Proof.
  intros Q. destruct (query_parts ps Q) as (EQ & (WQ & NCQ & NSQ & _)).
  apply declares_return; try (solve [ unfold call, paren, bracket, brace; cbn [commas app]; wfs | unfold call; cbn [commas app]; nos ]).
  pose proof EG. lines. eapply scans_as; [ repeat rd | unfold call, return_of; cbn [commas app]; toks ].
Qed.

(** ** Getters *)
Fixpoint nest (pps : list (list bytes)) (inner : list gtree) : list gtree :=
  match pps with [] => inner | ns :: r => word (B "if") :: (selector (B "v") ns ++ [sym (B "!="); word (B "nil")]) ++ brace (nest r inner) :: [stop] end.
Fixpoint nested (pps : list (list bytes)) (inner : list gstmt) : list gstmt :=
  match pps with [] => inner | ns :: r => [If (selector (B "v") ns ++ [sym (B "!="); word (B "nil")]) (nested r inner)] end.
Definition closers {A} (l : list A) : bytes := concat (map (fun _ => line [B "}"]) l).
Lemma closers_swap {A} (l : list A) : line [B "}"] ++ closers l = closers l ++ line [B "}"].
Proof. unfold closers. induction l as [|a l IH]; [ reflexivity | ]. cbn [map concat]. rewrite <- app_assoc, <- IH. reflexivity. Qed.
Lemma nest_reads pps s x : Forall (Forall go_word) pps -> scans s (flatten x) ->
  scans (concat (map (fun p => line [B "if v"; p; B " != nil {"]) (map path pps)) ++ s ++ closers (map path pps)) (flatten (nest pps x)).
Proof.
  intros F S0. induction F as [|ns pps H F IH]; [ cbn [map concat closers app nest]; unfold closers; cbn [map concat]; rewrite app_nil_r; exact S0 | ].
  cbn [map concat nest]. replace (closers (path ns :: map path pps)) with (closers (map path pps) ++ line [B "}"]) by (rewrite <- closers_swap; reflexivity).
  pose proof (ends_path ns H) as P.
  replace ((line [B "if v"; path ns; B " != nil {"] ++ concat (map (fun p => line [B "if v"; p; B " != nil {"]) (map path pps))) ++ s ++ closers (map path pps) ++ line [B "}"])
    with (B "if " ++ (B "v" ++ path ns) ++ B " != nil {" ++ LF :: (concat (map (fun p => line [B "if v"; p; B " != nil {"]) (map path pps)) ++ s ++ closers (map path pps)) ++ B "}" ++ LF :: [])
    by (unfold line; cbn [concat]; rewrite !app_nil_r, <- !app_assoc; reflexivity).
  eapply scans_as; [ do 2 rd; apply scans_app; [ exact IH | repeat rd ] | toks ].
Qed.
Lemma nest_wf pps x : Forall wf x -> Forall wf (nest pps x).
Proof. intros W. induction pps as [|ns pps IH]; [ exact W | ]. cbn [nest]. destruct (selector_fine ns) as (WS & _). unfold brace. wfs. Qed.
Lemma nest_prints pps x ss r rs : pps <> [] -> prints x ss -> prints r rs -> prints (nest pps x ++ r) (nested pps ss ++ rs).
Proof.
  intros N P R. assert (G : forall pps, prints (nest pps x) (nested pps ss)).
  { clear N pps. intros pps. induction pps as [|ns pps IH]; [ exact P | ]. cbn [nest nested]. apply pr_if; [ apply condition_of; now right | exact IH | constructor ]. }
  destruct pps as [|ns pps]; [ now destruct N | ]. cbn [nest nested]. cbn [app]. rewrite <- (app_assoc (selector (B "v") ns ++ _)). cbn [app]. apply pr_if; [ apply condition_of; now right | apply G | exact R ].
Qed.
Definition content_text (e : bytes) (ty : gotype) : bytes := if is_ptr ty then valuer (B "*" ++ e) (elem_of ty) else valuer e ty.
Lemma getter_declares c pps : go_word (c_goname c) -> pointer_paths [] (c_paths c) = map path pps -> Forall (Forall go_word) pps -> is_expression (content_text (B "v" ++ c_gopath c) (c_type c)) ->
  declares (getter_text go valuer c)
    {| g_receiver := named_receiver; g_name := c_goname c ++ B "Value"; g_params := []; g_results := [word (B "any")];
       g_body := nested pps [Simple (return_of (parsed (content_text (B "v" ++ c_gopath c) (c_type c))))] ++ match pps with [] => [] | _ => [Simple (return_of [word (B "nil")])] end |}.
Proof.
  intros GN PP GW X. pose proof (value_word _ GN) as VW. pose proof (ends_word _ VW) as EV. destruct (expression_parts _ X) as (E & C & (W & NC & NS & _)).
  set (e := parsed (content_text (B "v" ++ c_gopath c) (c_type c))) in *.
  set (tail := match pps with [] => [] | _ => return_of [word (B "nil")] ++ [stop] end).
  exists named_receiver, (c_goname c ++ B "Value"), [], [word (B "any")], (nest pps (return_of e ++ [stop]) ++ tail).
  assert (RT : scans (line [B "return "; content_text (B "v" ++ c_gopath c) (c_type c)]) (flatten (return_of e ++ [stop]))).
  { lines. eapply scans_as; [ repeat rd | unfold return_of; toks ]. }
  split; [ | split; [ | split; [ nos | split; [ | reflexivity ] ] ] ].
  - unfold getter_text. rewrite PP.
    replace (if is_ptr (c_type c) then valuer (B "*v" ++ c_gopath c) (elem_of (c_type c)) else valuer (B "v" ++ c_gopath c) (c_type c)) with (content_text (B "v" ++ c_gopath c) (c_type c)) by reflexivity.
    set (R := line [B "return "; content_text (B "v" ++ c_gopath c) (c_type c)]) in *. set (IFS := concat (map (fun p => line [B "if v"; p; B " != nil {"]) (map path pps))).
    change (concat (map (fun _ : bytes => line [B "}"]) (map path pps))) with (closers (map path pps)).
    set (T := match map path pps with [] => [] | _ => line [B "return nil"] end).
    replace (line [B "func (v "; go; B ") "; c_goname c; B "Value() any {"] ++ IFS ++ R ++ closers (map path pps) ++ T ++ line [B "}"])
      with (B "func (v " ++ go ++ B ") " ++ (c_goname c ++ B "Value") ++ B "() any {" ++ LF :: (IFS ++ R ++ closers (map path pps)) ++ T ++ B "}" ++ [LF])
      by (unfold line; cbn [concat]; rewrite !app_nil_r, <- !app_assoc; reflexivity).
    pose proof EG.
    assert (TT : scans (T ++ B "}" ++ [LF]) (flatten tail ++ [GSym (B "}"); semicolon])) by (subst T tail; destruct pps; [ now apply scans_literal | now apply scans_literal ]).
    eapply scans_as; [ do 3 rd; apply scans_app; [ exact (nest_reads pps _ _ GW RT) | exact TT ] | toks ].
  - pose proof (nest_wf pps (return_of e ++ [stop]) ltac:(unfold return_of; wfs)). assert (Forall wf tail) by (subst tail; destruct pps; unfold return_of; cbn [app]; wfs). unfold method_trees, paren, brace, named_receiver. wfs.
  - cbn [g_body]. subst tail. destruct pps as [|ns pps]; [ cbn [nest nested]; rewrite !app_nil_r; now apply prints_return | ].
    apply nest_prints; [ discriminate | now apply prints_return | apply prints_return; nos ].
Qed.

(** ** Column methods *)
Definition column_of (kind : bytes) (T : list gtree) : list gtree := [word (B "sequel"); sym (B "."); word kind; bracket T].
Lemma basic_declares c lit x ns : go_word (prefix ++ c_goname c) -> go_literal lit = Some x -> lit = gen_quote d (quote_id printable d on (c_name c)) -> c_gopath c = path ns -> Forall go_word ns -> basic (c_type c) = true -> is_expression (type_text (c_type c)) ->
  declares (column_text printable d on prefix go valuer basic type_text c)
    {| g_receiver := named_receiver; g_name := prefix ++ c_goname c; g_params := []; g_results := column_of (B "ColumnClause") (parsed (type_text (c_type c)));
       g_body := [Simple (return_of ([word (B "sequel"); sym (B "."); word (B "BasicColumn")] ++ [paren ([str lit] ++ [comma] ++ selector (B "v") ns)]))] |}.
Proof.
  intros GN L EL GP GW BA X. pose proof (ends_word _ GN) as EN. pose proof (scans_ends _ _ (scans_string _ _ L)) as ES. destruct (expression_parts _ X) as (E & C & (W & NC & NS & _)). pose proof (ends_path ns GW) as P. destruct (selector_fine ns) as (WS & NSS & _).
  apply declares_return; try (solve [ unfold column_of, paren, bracket; cbn [app]; wfs | unfold column_of; nos ]).
  unfold column_text. rewrite BA, <- EL, GP. pose proof EG.
  replace (line [B "func (v "; go; B ") "; prefix; c_goname c; B "() sequel.ColumnClause["; type_text (c_type c); B "] {"] ++ line [B "return sequel.BasicColumn("; lit; B ", v"; path ns; B ")"] ++ line [B "}"])
    with (B "func (v " ++ go ++ B ") " ++ (prefix ++ c_goname c) ++ B "() sequel.ColumnClause[" ++ type_text (c_type c) ++ B "] {" ++ LF :: B "return sequel.BasicColumn(" ++ lit ++ B ", " ++ (B "v" ++ path ns) ++ B ")" ++ LF :: B "}" ++ LF :: [])
    by (unfold line; cbn [concat]; rewrite !app_nil_r, <- !app_assoc; reflexivity).
  eapply scans_as; [ repeat rd | unfold column_of, return_of; toks ].
Qed.
Definition closure_body (ty : gotype) : list gtree :=
  if is_ptr ty then word (B "if") :: [word (B "val"); sym (B "!="); word (B "nil")] ++ brace (return_of (parsed (content_text (B "val") ty)) ++ [stop]) :: stop :: return_of [word (B "nil")] ++ [stop]
  else return_of (parsed (content_text (B "val") ty)).
Lemma closure_prints ty : is_expression (content_text (B "val") ty) ->
  prints (closure_body ty) (if is_ptr ty then [If [word (B "val"); sym (B "!="); word (B "nil")] [Simple (return_of (parsed (content_text (B "val") ty)))]; Simple (return_of [word (B "nil")])] else [Simple (return_of (parsed (content_text (B "val") ty)))]).
Proof.
  intros X. destruct (expression_parts _ X) as (E & C & (W & NC & NS & _)). unfold closure_body. destruct (is_ptr ty); [ | apply pr_last; now apply simple_return ].
  apply pr_if; [ repeat constructor | now apply prints_return | apply prints_return; nos ].
Qed.
Lemma closure_wf ty : is_expression (content_text (B "val") ty) -> Forall wf (closure_body ty).
Proof. intros X. destruct (expression_parts _ X) as (E & C & (W & NC & NS & _)). unfold closure_body, return_of, brace. destruct (is_ptr ty); cbn [app]; wfs. Qed.
Lemma convert_declares c lit x ns : go_word (prefix ++ c_goname c) -> go_literal lit = Some x -> lit = gen_quote d (quote_id printable d on (c_name c)) -> c_gopath c = path ns -> Forall go_word ns -> basic (c_type c) = false -> is_expression (type_text (c_type c)) ->
  is_expression (content_text (B "val") (c_type c)) ->
  declares (column_text printable d on prefix go valuer basic type_text c)
    {| g_receiver := named_receiver; g_name := prefix ++ c_goname c; g_params := []; g_results := column_of (B "ColumnConvertClause") (parsed (type_text (c_type c)));
       g_body := [Simple (return_of ([word (B "sequel"); sym (B "."); word (B "Column")] ++
                    [paren ([str lit] ++ [comma] ++ selector (B "v") ns ++ [comma; word (B "func"); paren (word (B "val") :: parsed (type_text (c_type c))); word (B "any"); brace (closure_body (c_type c))])]))] |}.
Proof.
  intros GN L EL GP GW BA X Y. pose proof (ends_word _ GN) as EN. pose proof (scans_ends _ _ (scans_string _ _ L)) as ES. destruct (expression_parts _ X) as (E & C & (W & NC & NS & _)). destruct (expression_parts _ Y) as (EY & CY & _).
  pose proof (ends_path ns GW) as P. destruct (selector_fine ns) as (WS & NSS & _). pose proof (closure_wf _ Y) as WC.
  apply declares_return; try (solve [ unfold column_of, paren, bracket, brace; cbn [app]; wfs | unfold column_of; nos ]).
  unfold column_text. rewrite BA, <- EL, GP. pose proof EG.
  set (K := if is_ptr (c_type c) then line [B "if val != nil {"] ++ line [B "return "; valuer (B "*val") (elem_of (c_type c))] ++ line [B "}"] ++ line [B "return nil"] else B "return " ++ valuer (B "val") (c_type c)).
  assert (KK : scans (K ++ B "})" ++ LF :: B "}" ++ [LF]) (flatten (closure_body (c_type c)) ++ [GSym (B "}"); GSym (B ")"); semicolon; GSym (B "}"); semicolon])).
  { unfold closure_body. subst K. revert EY CY. unfold content_text. destruct (is_ptr (c_type c)); intros EY CY.
    - change (valuer (B "*val")) with (valuer (B "*" ++ B "val")). lines. eapply scans_as; [ repeat rd | unfold return_of; cbn [app]; toks ].
    - lines. eapply scans_as; [ repeat rd | unfold return_of; toks ]. }
  replace (line [B "func (v "; go; B ") "; prefix; c_goname c; B "() sequel.ColumnConvertClause["; type_text (c_type c); B "] {"] ++ line [B "return sequel.Column("; lit; B ", v"; path ns; B ", func(val "; type_text (c_type c); B ") any {"] ++ K ++ line [B "})"] ++ line [B "}"])
    with (B "func (v " ++ go ++ B ") " ++ (prefix ++ c_goname c) ++ B "() sequel.ColumnConvertClause[" ++ type_text (c_type c) ++ B "] {" ++ LF :: B "return sequel.Column(" ++ lit ++ B ", " ++ (B "v" ++ path ns) ++ B ", func(val " ++ type_text (c_type c) ++ B ") any {" ++ LF :: K ++ B "})" ++ LF :: B "}" ++ LF :: [])
    by (unfold line; cbn [concat]; rewrite !app_nil_r, <- !app_assoc; reflexivity).
  eapply scans_as; [ do 8 rd; exact KK | unfold column_of, return_of; toks ].
Qed.
End Methods.
