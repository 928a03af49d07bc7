(** The statement functions: what they send, read back. *)
From Verif Require Import Base ModelStrconv ModelCompiler ModelGen ModelRuntime ModelStmt SpecSql SpecGen SpecRuntime SpecStmt
  LemmasBase LemmasSql LemmasSql2 LemmasSql3 LemmasGen LemmasGen2 LemmasSql4 LemmasRuntime LemmasStmt LemmasStmt2.

Section Q.
Context {V : Type}.
Notation tok := (tok V).
Notation wc := (where_clause V).
Implicit Types (fl : flavour) (w : wc) (ts r : list tok).

(** ** Numbers *)
Lemma run_word fl (ds : bytes) : forall acc n (out : list tok), forallb word_char ds = true ->
  run fl (InWord acc, n, out) ds = (InWord (rev ds ++ acc), n, out).
Proof.
  induction ds as [|c ds IH]; intros acc n out F; [reflexivity|]. cbn [forallb] in F. apply andb_prop in F. destruct F as [C F].
  cbn [run step]. rewrite C. rewrite IH by assumption. cbn [rev]. rewrite <- app_assoc. reflexivity.
Qed.
Lemma lex_number fl k : lex (V:=V) fl (format_uint k) = [Num (format_uint k)].
Proof.
  pose proof (format_uint_digits k) as D. pose proof (format_uint_nonempty k) as NE. destruct (format_uint k) as [|c ds]; [contradiction|].
  assert (DG : forall x, is_digit x = true -> word_char x = true /\ word_start x = true /\ is_space x = false).
  { intros x X. assert (A : is_alnum x = true) by (unfold is_alnum; rewrite X, ?orb_true_r; reflexivity). unfold word_char, word_start. rewrite A.
    split; [reflexivity|]. split; [reflexivity|]. clear A. destruct x as [[] [] [] [] [] [] [] []]; try reflexivity; discriminate X. }
  assert (FD : forallb is_digit (c :: ds) = true) by (apply forallb_forall; intros x I; unfold all_digits in D; rewrite Forall_forall in D; apply D, I).
  assert (FW : forallb word_char ds = true).
  { apply forallb_forall. intros x I. rewrite forallb_forall in FD. apply DG, FD. now right. }
  assert (C : is_digit c = true) by (cbn in FD; apply andb_prop in FD; apply FD). destruct (DG c C) as (_ & W & SP).
  unfold lex, lex_from. cbn [run step]. unfold start. rewrite SP, W. rewrite run_word by exact FW. cbn [flush rev].
  rewrite rev_app_distr, rev_involutive. cbn [rev app]. unfold word_tok. rewrite C, FD. reflexivity.
Qed.
Lemma number_reads fl k : number (V:=V) [Num (format_uint k)] = Some k.
Proof. cbn [number]. unfold number_of. rewrite (number_of_digits _ _ k); [reflexivity|apply digits_val_format]. Qed.
Lemma spells_number fl n k : spells (V:=V) fl n (format_uint k) [] [Num (format_uint k)].
Proof. apply spells_lex; [apply lex_number|reflexivity]. Qed.

(** ** Parts *)
Lemma settled_inert (l : list tok) : forallb settled l = true -> forallb inert l = true.
Proof. intros H. exact H. Qed.
Lemma headed_app s1 s2 : headed s1 = true -> headed s2 = true -> headed (s1 ++ s2) = true.
Proof. destruct s1; [intros _ H; exact H|auto]. Qed.

(** A text piece without arguments that begins a new token and its tokens *)
Definition piece fl (s : bytes) ts : Prop := (forall n, spells fl n s [] ts) /\ headed s = true.
Lemma piece_app fl s1 t1 s2 t2 : piece fl s1 t1 -> piece fl s2 t2 -> piece fl (s1 ++ s2) (t1 ++ t2).
Proof.
  intros [P1 H1] [P2 H2]. split; [|apply headed_app; assumption]. intros n. destruct s2 as [|c s2].
  - assert (t2 = []) as ->. { specialize (P2 0). destruct P2 as (t0 & R & _ & _ & M). specialize (M [] [] eq_refl). cbn in M.
      destruct R as [_ R]. specialize (R []). cbn in R. inversion R as [E]. symmetry in E. rewrite app_nil_r in E.
      assert (t0 = []) by (destruct t0; [reflexivity|]; exfalso; apply (f_equal (@length tok)) in E; rewrite rev_length in E; discriminate). subst t0. symmetry. exact M. }
    rewrite !app_nil_r. apply P1.
  - apply spells_rr; [apply P1|apply P2|exact H2|discriminate].
Qed.
Lemma piece_nil fl : piece fl [] [].
Proof. split; [intros; apply spells_nil|reflexivity]. Qed.

Definition where_toks fl (w : option wc) : list tok := match w with Some w => ko "WHERE" :: wtoks fl w | None => [] end.
Definition group_toks fl (l : list bytes) : list tok :=
  match l with [] => [] | _ => ko "GROUP" :: ko "BY" :: commas (map (lex fl) l) end.
Definition order_tok fl (word : list tok) (o : bytes * bool) : list tok := lex fl (fst o) ++ if snd o then word else [ko "DESC"].
Definition order_toks fl (l : list (bytes * bool)) : list tok :=
  match l with [] => [] | o :: l' => ko "ORDER" :: ko "BY" :: commas (order_tok fl [] o :: map (order_tok fl [ko "ASC"]) l') end.
Definition num_toks (kw : string) (n : N) : list tok := match given_n n with Some n => [ko kw; Num (format_uint n)] | None => [] end.

Lemma concat_commas (f : bytes -> bytes) x l : x ++ concat (map (fun y => B "," ++ y) l) = join (B ",") (x :: l).
Proof.
  revert x. induction l as [|y l IH]; intros x; [cbn; apply app_nil_r|].
  change (join (B ",") (x :: y :: l)) with (x ++ B "," ++ join (B ",") (y :: l)). rewrite <- IH. cbn [map concat]. rewrite <- app_assoc. reflexivity.
Qed.
Lemma exprs_spell fl n l : Forall (an_expr (V:=V) fl) l -> spells (V:=V) fl n (join (B ",") l) [] (commas (map (lex fl) l)).
Proof.
  intros F. apply spells_list2. induction F as [|x l [E S] F IH]; [constructor|]. cbn [map]. constructor; [|exact IH].
  intros m. apply spells_lex; [reflexivity|exact S].
Qed.
Lemma group_piece fl l : Forall (an_expr (V:=V) fl) l ->
  piece fl (match l with [] => [] | x :: l => B " GROUP BY " ++ x ++ concat (map (fun y => B "," ++ y) l) end) (group_toks fl l).
Proof.
  intros F. destruct l as [|x l]; [apply piece_nil|]. split; [|reflexivity]. intros n. rewrite (concat_commas (fun x => x)).
  change (group_toks fl (x :: l)) with ([ko (V:=V) "GROUP"; ko "BY"] ++ commas (map (lex fl) (x :: l))).
  apply spells_lr; [unfold ko; sconst|apply exprs_spell, F|reflexivity].
Qed.
Lemma order_one fl n o word (wts : list tok) : a_name (V:=V) fl (fst o) -> (forall m, spells fl m word [] wts) -> headed word = true -> (word = [] -> wts = []) ->
  spells fl n (order_text o word) [] (order_tok fl wts o).
Proof.
  intros [x L] W H E. unfold order_text, order_tok. destruct (snd o).
  - destruct word as [|c word]; [rewrite (E eq_refl), !app_nil_r; apply spells_lex; [reflexivity|rewrite L; reflexivity]|].
    apply spells_rr; [apply spells_lex; [reflexivity|rewrite L; reflexivity]|apply W|exact H|discriminate].
  - apply spells_rr; [apply spells_lex; [reflexivity|rewrite L; reflexivity]|unfold ko; sconst|reflexivity|discriminate].
Qed.
Lemma order_piece fl l : Forall (fun o => a_name (V:=V) fl (fst o)) l -> piece fl (order_by l) (order_toks fl l).
Proof.
  intros F. destruct l as [|o l]; [apply piece_nil|]. split; [|reflexivity]. intros n. cbn [order_by].
  replace (concat (map (fun o => B "," ++ order_text o (B " ASC")) l)) with (concat (map (fun y => B "," ++ y) (map (fun o => order_text o (B " ASC")) l)))
    by (rewrite map_map; reflexivity).
  rewrite (concat_commas (fun x => x)). change (order_toks fl (o :: l)) with ([ko (V:=V) "ORDER"; ko "BY"] ++ commas (order_tok fl [] o :: map (order_tok fl [ko "ASC"]) l)).
  apply spells_lr; [unfold ko; sconst| |reflexivity]. apply spells_list2. inversion F as [|? ? A F']; subst. constructor.
  - intros m. apply order_one; [exact A|intros; apply spells_nil|reflexivity|reflexivity].
  - clear A F. induction F' as [|p l A F IH]; [constructor|]. cbn [map]. constructor; [|exact IH].
    intros m. apply order_one; [exact A|intros; unfold ko; sconst|reflexivity|discriminate].
Qed.
Lemma num_piece fl kw n (s : bytes) : s = B " " ++ B kw ++ B " " -> (forall m, spells (V:=V) fl m s [] [ko kw]) -> piece fl (positive s n) (num_toks kw n).
Proof.
  intros E S. unfold positive, num_toks. destruct n as [|p]; [apply piece_nil|]. change (N.ltb 0 (N.pos p)) with true. cbv iota. cbn [given_n].
  split.
  - intros m. change ([ko kw; Num (format_uint (N.pos p))]) with ([ko (V:=V) kw] ++ [Num (format_uint (N.pos p))]).
    apply spells_lr; [apply S|apply spells_number|]. rewrite E, app_assoc. change (B " ") with [" "%char] at 2. apply tailed_snoc.
  - rewrite E. reflexivity.
Qed.
Lemma semi_piece fl : piece fl (B ";") [Sym ";"].
Proof. split; [intros; sconst|reflexivity]. Qed.

(** ** Clauses *)
Lemma stops_app_cases (l r : list tok) : stops r -> (l = [] \/ exists k x, l = Kw k :: x /\ ends_clause (Kw (V:=V) k) = true) -> stops (l ++ r).
Proof. intros S [->|(k & x & -> & E)]; [exact S|]. split; [reflexivity|exact E]. Qed.
Lemma where_stops fl (w : option wc) r : stops r -> stops (where_toks fl w ++ r).
Proof. intros S. apply stops_app_cases; [exact S|]. destruct w; [right; eexists; eexists; split; reflexivity|now left]. Qed.
Lemma group_stops fl l r : stops r -> stops (group_toks fl l ++ r).
Proof. intros S. apply stops_app_cases; [exact S|]. destruct l; [now left|right; eexists; eexists; split; reflexivity]. Qed.
Lemma order_stops fl l r : stops r -> stops (order_toks fl l ++ r).
Proof. intros S. apply stops_app_cases; [exact S|]. destruct l; [now left|right; eexists; eexists; split; reflexivity]. Qed.
Lemma num_stops kw n r : ends_clause (ko (V:=V) kw) = true -> stops r -> stops (num_toks kw n ++ r).
Proof. intros E S. apply stops_app_cases; [exact S|]. unfold num_toks. destruct n; [now left|right; eexists; eexists; split; [reflexivity|exact E]]. Qed.

Lemma clause_no {A} (k : bytes) ws (p : list tok -> option A) r : match r with t :: _ => is_kw k t = false | [] => True end ->
  clause (k :: ws) p r = Some (None, r).
Proof. intros H. unfold clause. destruct r as [|t r]; [reflexivity|]. cbn [strip]. rewrite H. reflexivity. Qed.

Lemma harmless_ends : harmless (V:=V) ends_clause.
Proof. repeat split; try reflexivity. intros k I. unfold own_words in I. cbn [map In] in I. repeat destruct I as [<-|I]; try reflexivity. contradiction. Qed.
Definition where_den_opt fl (w : option wc) : option (option (cond V)) :=
  match w with Some w => match den fl w with Some c => Some (Some c) | None => None end | None => Some None end.
Lemma where_clause_reads fl (w : option wc) r : stops r -> match r with t :: _ => is_kw (B "WHERE") t = false | [] => True end ->
  clause [B "WHERE"] where_p (where_toks fl w ++ r) = match where_den_opt fl w with Some c => Some (c, r) | None => None end.
Proof.
  intros S N. destruct w as [w|]; [|cbn [where_toks where_den_opt app]; apply clause_no, N]. cbn [where_den_opt].
  unfold clause. change (where_toks fl (Some w) ++ r) with (map Kw [B "WHERE"] ++ wtoks fl w ++ r). rewrite strip_kws, until_stops by (try exact S; apply wtoks_passes, harmless_ends).
  cbn [obind]. rewrite where_den. destruct (den fl w); reflexivity.
Qed.
Lemma exprs_ok fl l : Forall (an_expr (V:=V) fl) l -> forallb is_expr (map (lex (V:=V) fl) l) = true.
Proof. intros F. apply forallb_forall. intros x I. apply in_map_iff in I. destruct I as (s & <- & I). rewrite Forall_forall in F. apply (F s I). Qed.
Lemma group_clause_reads fl l r : Forall (an_expr (V:=V) fl) l -> stops r -> match r with t :: _ => is_kw (B "GROUP") t = false | [] => True end ->
  exists x, clause (map B ["GROUP"; "BY"]%string) exprs (group_toks fl l ++ r) = Some (x, r) /\ opt_list x = map (lex fl) l.
Proof.
  intros F S N. destruct l as [|s l]; [exists None; split; [apply clause_no, N|reflexivity]|].
  exists (Some (map (lex fl) (s :: l))). split; [|reflexivity].
  change (group_toks fl (s :: l) ++ r) with (map Kw (map B ["GROUP"; "BY"]%string) ++ commas (map (lex fl) (s :: l)) ++ r).
  apply clause_some; [apply exprs_passes_ends, exprs_ok, F|exact S|apply exprs_commas; [discriminate|apply exprs_ok, F]].
Qed.
Lemma order_item_reads fl o word : a_name (V:=V) fl (fst o) -> word = [] \/ word = [ko "ASC"] -> order_item fl (order_tok fl word o) = Some (an_order fl o).
Proof.
  intros [n L] W. unfold order_tok, an_order. rewrite L. destruct o as [t []]; cbn [fst snd].
  - destruct W as [->| ->]; destruct fl; reflexivity.
  - destruct fl; reflexivity.
Qed.
Lemma order_tok_passes fl o word sep : a_name (V:=V) fl (fst o) -> word = [] \/ word = [ko "ASC"] ->
  (forall n, sep (Name n) = false) -> sep (ko (V:=V) "ASC") = false -> sep (ko (V:=V) "DESC") = false -> passes sep (order_tok fl word o).
Proof.
  intros [n L] W SN SA SD. unfold order_tok. rewrite L. destruct (snd o); [destruct W as [->| ->]|]; cbn [app];
  repeat (apply passes_cons; [reflexivity|auto|]); apply passes_nil.
Qed.
Lemma order_clause_reads fl l r : Forall (fun o => a_name (V:=V) fl (fst o)) l -> stops r -> match r with t :: _ => is_kw (B "ORDER") t = false | [] => True end ->
  exists x, clause (map B ["ORDER"; "BY"]%string) (order_p fl) (order_toks fl l ++ r) = Some (x, r) /\ opt_list x = map (an_order fl) l /\ (x = None <-> l = []).
Proof.
  intros F S N. destruct l as [|o l]; [exists None; split; [apply clause_no, N|split; [reflexivity|tauto]]|].
  exists (Some (map (an_order fl) (o :: l))). split; [|split; [reflexivity|split; discriminate]].
  change (order_toks fl (o :: l) ++ r) with (map Kw (map B ["ORDER"; "BY"]%string) ++ commas (order_tok fl [] o :: map (order_tok fl [ko "ASC"]) l) ++ r).
  inversion F as [|? ? A F']; subst. rewrite Forall_forall in F'.
  assert (P : forall sep : tok -> bool, (forall n, sep (Name n) = false) -> sep (ko (V:=V) "ASC") = false -> sep (ko (V:=V) "DESC") = false ->
    Forall (passes sep) (order_tok fl [] o :: map (order_tok fl [ko "ASC"]) l)).
  { intros sep SN SA SD. constructor; [apply order_tok_passes; auto|]. apply Forall_forall. intros x I. apply in_map_iff in I. destruct I as (p & <- & I). apply order_tok_passes; auto. }
  apply clause_some; [apply passes_commas; [apply ends_not_comma|apply P; reflexivity]|exact S|].
  unfold order_p. rewrite split_commas; [|discriminate|apply P; reflexivity]. cbn [map].
  cbn [all_some]. rewrite order_item_reads by auto. rewrite map_map.
  rewrite (all_some_map _ (an_order fl)); [reflexivity|]. intros p I. apply order_item_reads; auto.
Qed.
Lemma num_clause_reads kw n (r : list tok) : stops r -> match r with t :: _ => is_kw (B kw) t = false | [] => True end ->
  clause [B kw] number (num_toks kw n ++ r) = Some (given_n n, r).
Proof.
  intros S N. unfold num_toks. destruct (given_n n) as [k|]; [|apply clause_no, N].
  change ([ko kw; Num (format_uint k)] ++ r) with (map Kw [B kw] ++ [Num (V:=V) (format_uint k)] ++ r).
  apply clause_some; [apply passes_one; reflexivity|exact S|apply (number_reads MySQL)].
Qed.
End Q.
