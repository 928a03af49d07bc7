(** InsertPlaceholders as it is written. *)
From Verif Require Import Base ModelStrconv ModelEncoding ModelCompiler ModelGen ModelMethods ModelText SpecSql SpecGo SpecGen SpecSource SpecOutput LemmasBase LemmasGen LemmasSource LemmasOutput LemmasOutput2.
Notation word := SpecSource.word.
Notation comma := LemmasOutput.comma.

Lemma number_of_itoa n : number_of (itoa n) = n.
Proof.
  unfold itoa. pose proof (digits_val_format (N.of_nat n)) as D. unfold number_of.
  assert (G : forall s a v, digits_val a s = Some v -> fold_left (fun n c => 10 * n + N.to_nat (code c - 48)) s (N.to_nat a) = N.to_nat v).
  { clear. induction s as [|c s IH]; intros a v H; cbn [digits_val fold_left] in *; [ now injection H as <- | ]. destruct (is_digit c); [ | discriminate ]. rewrite <- (IH _ _ H). f_equal. lia. }
  rewrite (G _ _ _ D : fold_left _ _ 0 = _). apply Nat2N.id.
Qed.

Definition quoted (s : bytes) : bytes := dquote :: s ++ [dquote].
Definition itoa_trees (k : nat) : list gtree := [word (B "strconv"); sym (B "."); word (B "Itoa"); paren [paren [word (B "row"); sym (B "*"); word (B "noOfColumn")]; sym (B "+"); num k]].
Definition item_trees (k : nat) : list gtree := [str (quoted (B "$")); sym (B "+")] ++ itoa_trees k.
Definition more_trees (ks : list nat) : list gtree := flat_map (fun k => [sym (B "+"); str (quoted (B ",")); sym (B "+")] ++ item_trees k) ks.
Definition sum_trees (k : nat) (ks : list nat) : list gtree := [str (quoted (B "(")); sym (B "+")] ++ item_trees k ++ more_trees ks ++ [sym (B "+"); str (quoted (B ")"))].
Definition item_source (k : nat) : bytes := [dquote] ++ B "$" ++ [dquote] ++ B "+ strconv.Itoa((row * noOfColumn) + " ++ itoa k ++ B ")".
Definition between : bytes := B "+" ++ [dquote] ++ B "," ++ [dquote] ++ B "+".

Lemma join_sources k ks : join between (map item_source (k :: ks)) = item_source k ++ concat (map (fun j => between ++ item_source j) ks).
Proof. revert k. induction ks as [|j ks IH]; intros k; [ cbn [map join concat]; now rewrite app_nil_r | ]. cbn [map]. cbn [map] in IH. change (join between (item_source k :: item_source j :: map item_source ks)) with (item_source k ++ between ++ join between (item_source j :: map item_source ks)). rewrite IH. cbn [concat]. now rewrite <- !app_assoc. Qed.
(** What follows a number *)
Lemma rest_reads ks : forall k, scans (itoa k ++ B ")" ++ concat (map (fun j => between ++ item_source j) ks) ++ B "+" ++ quoted (B ")") ++ B "}" ++ [LF])
  ([GNum (itoa k); GSym (B ")")] ++ flatten (more_trees ks ++ [sym (B "+"); str (quoted (B ")"))]) ++ [GSym (B "}"); semicolon]).
Proof.
  induction ks as [|j ks IH]; intros k.
  - cbn [map concat app]. change (B ")" ++ B "+" ++ quoted (B ")") ++ B "}" ++ [LF]) with ((B ")" ++ B "+" ++ quoted (B ")") ++ B "}" ++ [LF]) ++ []). pose proof (ends_number k) as EK.
    eapply scans_as; [ eapply read_ends; [ exact EK | reflexivity | reflexivity | vm_compute; reflexivity | apply read_nil ] | reflexivity ].
  - cbn [map concat]. pose proof (ends_number k) as EK.
    replace (B ")" ++ ((between ++ item_source j) ++ concat (map (fun j0 => between ++ item_source j0) ks)) ++ B "+" ++ quoted (B ")") ++ B "}" ++ [LF])
      with ((B ")" ++ between ++ [dquote] ++ B "$" ++ [dquote] ++ B "+ strconv.Itoa((row * noOfColumn) + ") ++ itoa j ++ B ")" ++ concat (map (fun j0 => between ++ item_source j0) ks) ++ B "+" ++ quoted (B ")") ++ B "}" ++ [LF])
      by (unfold item_source at 2; rewrite <- !app_assoc; reflexivity).
    eapply scans_as; [ eapply read_ends; [ exact EK | reflexivity | reflexivity | vm_compute; reflexivity | apply IH ] | ].
    unfold more_trees. cbn [flat_map]. unfold item_trees, itoa_trees. toks.
Qed.

(** Reading the sum *)
Lemma split_item k r : split_trees (B "+") [] (item_trees k ++ sym (B "+") :: r) = [str (quoted (B "$"))] :: itoa_trees k :: split_trees (B "+") [] r.
Proof. reflexivity. Qed.
Lemma row_item row n k r : row_of row n ([str (quoted (B "$"))] :: itoa_trees k :: r) = match row_of row n r with Some b => Some (B "$" ++ itoa (row * n + k) ++ b) | None => None end.
Proof. cbn [row_of itoa_trees str num SpecSource.word sym paren]. change (go_literal (quoted (B "$"))) with (Some (B "$")). change (bseq (B "strconv") (B "strconv") && bseq (B ".") (B ".") && bseq (B "Itoa") (B "Itoa") && bseq (B "row") (B "row") && bseq (B "*") (B "*") && bseq (B "noOfColumn") (B "noOfColumn") && bseq (B "+") (B "+")) with true. cbn iota. rewrite number_of_itoa. destruct (row_of row n r); reflexivity. Qed.
Lemma row_more row n ks : forall k, row_of row n (split_trees (B "+") [] (item_trees k ++ more_trees ks ++ [sym (B "+"); str (quoted (B ")"))]))
  = Some (join (B ",") (map (fun k => B "$" ++ itoa (row * n + k)) (k :: ks)) ++ B ")").
Proof.
  induction ks as [|j ks IH]; intros k.
  - cbn [more_trees flat_map app]. change (more_trees [] ++ [sym (B "+"); str (quoted (B ")"))]) with [sym (B "+"); str (quoted (B ")"))]. rewrite split_item, row_item. cbn [map join]. rewrite <- app_assoc. reflexivity.
  - change (more_trees (j :: ks)) with (sym (B "+") :: (str (quoted (B ",")) :: sym (B "+") :: item_trees j ++ more_trees ks)). cbn [app]. rewrite split_item, row_item. rewrite <- app_assoc.
    change (split_trees (B "+") [] (str (quoted (B ",")) :: sym (B "+") :: item_trees j ++ more_trees ks ++ [sym (B "+"); str (quoted (B ")"))]))
      with ([str (quoted (B ","))] :: split_trees (B "+") [] (item_trees j ++ more_trees ks ++ [sym (B "+"); str (quoted (B ")"))])).
    set (l := split_trees (B "+") [] (item_trees j ++ more_trees ks ++ [sym (B "+"); str (quoted (B ")"))])) in *. specialize (IH j). fold l in IH.
    cbn [row_of str]. change (go_literal (quoted (B ","))) with (Some (B ",")). rewrite IH.
    change (join (B ",") (map (fun k0 => B "$" ++ itoa (row * n + k0)) (k :: j :: ks))) with ((B "$" ++ itoa (row * n + k)) ++ B "," ++ join (B ",") (map (fun k0 => B "$" ++ itoa (row * n + k0)) (j :: ks))). rewrite <- !app_assoc. reflexivity.
Qed.

Section Placeholders.
Variables (d : driver) (go : bytes) (t : table).
Hypothesis GO : go_word go.
Hypothesis SOME : insert_columns t <> [].
Lemma placeholders_declares : exists m, declares (placeholders_text d go t) m /\ g_name m = B "InsertPlaceholders" /\ g_receiver m = [word go] /\ g_params m = [word (B "row"); word (B "int")] /\ g_results m = [word (B "string")] /\
  forall row, placeholder_text m row = Some (gen_insert_placeholders d t row).
Proof.
  pose proof (ends_word go GO) as EG. set (n := length (insert_columns t)). assert (POS : n <> 0) by (subst n; destruct (insert_columns t); [ now destruct SOME | discriminate ]).
  assert (ST : d = DPostgres \/ (static_var d = true /\ quote_var d 0 = B "?" /\ forall row, gen_insert_placeholders d t row = B "(" ++ tl (repeat_bytes (B "," ++ quote_var d 0) n) ++ B ")")) by (destruct d; [ right | left | right ]; auto).
  destruct ST as [ -> | (ST & QV & GP) ].
  - destruct n as [|n'] eqn:EN; [ now destruct POS | ]. set (ks := map (fun i => i + 1) (seq 1 n')).
    exists {| g_receiver := [word go]; g_name := B "InsertPlaceholders"; g_params := [word (B "row"); word (B "int")]; g_results := [word (B "string")];
              g_body := [Simple [word (B "const"); word (B "noOfColumn"); sym (B "="); num (S n')]; Simple (return_of (sum_trees 1 ks))] |}.
    assert (WN : no_semicolon (more_trees ks) /\ Forall wf (more_trees ks)).
    { clear. induction ks as [|k ks [IH1 IH2]]; [ split; constructor | ]. change (more_trees (k :: ks)) with (([sym (B "+"); str (quoted (B ",")); sym (B "+")] ++ item_trees k) ++ more_trees ks). unfold item_trees, itoa_trees, paren. cbn [app]. split; [ nos | wfs ]. }
    destruct WN as [NM WM].
    split; [ | split; [ reflexivity | split; [ reflexivity | split; [ reflexivity | split; [ reflexivity | ] ] ] ] ].
    + exists [word go], (B "InsertPlaceholders"), [word (B "row"); word (B "int")], [word (B "string")], ([word (B "const"); word (B "noOfColumn"); sym (B "="); num (S n')] ++ stop :: return_of (sum_trees 1 ks)).
      split; [ | split; [ | split; [ nos | split; [ | reflexivity ] ] ] ].
      * unfold placeholders_text. change (static_var DPostgres) with false. cbn iota. fold n. rewrite EN. cbn [seq].
        change (map (fun i => [dquote] ++ B "$" ++ [dquote] ++ B "+ strconv.Itoa((row * noOfColumn) + " ++ itoa (i + 1) ++ B ")") (0 :: seq 1 n')) with (map (fun i => item_source (i + 1)) (0 :: seq 1 n')).
        rewrite <- (map_map (fun i => i + 1) item_source). cbn [map]. fold ks. change (0 + 1) with 1. change (B "+" ++ [dquote] ++ B "," ++ [dquote] ++ B "+") with between. 
        change (item_source 1 :: map item_source ks) with (map item_source (1 :: ks)). rewrite join_sources.
        pose proof (ends_number (S n')) as E1.
        replace (line [B "func ("; go; B ") InsertPlaceholders(row int) string {"] ++ line [B "const noOfColumn = "; itoa (S n')] ++ B "return " ++ [dquote] ++ B "(" ++ [dquote] ++ B "+" ++
                 (item_source 1 ++ concat (map (fun j => between ++ item_source j) ks)) ++ B "+" ++ [dquote] ++ B ")" ++ [dquote] ++ line [B "}"])
          with (B "func (" ++ go ++ B ") InsertPlaceholders(row int) string {" ++ LF :: B "const noOfColumn = " ++ itoa (S n') ++ LF ::
                (B "return " ++ [dquote] ++ B "(" ++ [dquote] ++ B "+" ++ [dquote] ++ B "$" ++ [dquote] ++ B "+ strconv.Itoa((row * noOfColumn) + ") ++
                itoa 1 ++ B ")" ++ concat (map (fun j => between ++ item_source j) ks) ++ B "+" ++ quoted (B ")") ++ B "}" ++ [LF])
          by (unfold line, item_source at 1; cbn [concat]; rewrite !app_nil_r, <- !app_assoc; reflexivity).
        eapply scans_as; [ do 4 rd; eapply read_literal; [ vm_compute; reflexivity | apply rest_reads ] | ]. unfold sum_trees, item_trees, itoa_trees, return_of. toks.
      * unfold method_trees, return_of, sum_trees, item_trees, itoa_trees, paren, brace. cbn [app]. wfs.
      * cbn [g_body]. apply pr_simple; [ split; [ nos | do 2 eexists; split; reflexivity ] | ]. apply pr_last, simple_return. unfold sum_trees, item_trees, itoa_trees. nos.
    + intros row. cbn [placeholder_text g_body return_of num]. change (is_word (B "const") (word (B "const")) && is_word (B "noOfColumn") (word (B "noOfColumn")) && is_sym (B "=") (sym (B "=")) && is_word (B "return") (word (B "return"))) with true. cbn iota.
      rewrite number_of_itoa. change (split_trees (B "+") [] (sum_trees 1 ks)) with ([str (quoted (B "("))] :: split_trees (B "+") [] (item_trees 1 ++ more_trees ks ++ [sym (B "+"); str (quoted (B ")"))])).
      pose proof (row_more row (S n') ks 1) as R. set (l := split_trees (B "+") [] (item_trees 1 ++ more_trees ks ++ [sym (B "+"); str (quoted (B ")"))])) in *. cbn [row_of str]. change (go_literal (quoted (B "("))) with (Some (B "(")). rewrite R.
      unfold gen_insert_placeholders. fold n. rewrite EN. f_equal. f_equal. f_equal. f_equal. subst ks. cbn [seq map]. f_equal. now rewrite map_map.
  - set (body := B "(" ++ tl (repeat_bytes (B "," ++ quote_var d 0) n) ++ B ")").
    assert (FL : Forall (literal_char DMySQL) body).
    { assert (Q : forall c, In c (B "(),?") -> literal_char DMySQL c) by (intros c I; cbn in I; repeat (destruct I as [<-|I]; [ split; [ vm_compute; split; reflexivity | repeat split; discriminate ] | ]); destruct I).
      assert (RB : Forall (fun c => In c (B "(),?")) (repeat_bytes (B "," ++ quote_var d 0) n)).
      { rewrite QV. clear. induction n as [|n IH]; [ constructor | ]. cbn [repeat_bytes]. apply Forall_app. split; [ repeat (apply Forall_cons; [ cbn; auto 10 | ]); apply Forall_nil | exact IH ]. }
      subst body. apply Forall_app. split; [ repeat (apply Forall_cons; [ apply Q; cbn; auto | ]); apply Forall_nil | ]. apply Forall_app. split; [ | repeat (apply Forall_cons; [ apply Q; cbn; auto | ]); apply Forall_nil ].
      eapply Forall_impl; [ exact Q | ]. destruct (repeat_bytes (B "," ++ quote_var d 0) n); [ constructor | now inversion RB ]. }
    assert (GL : go_literal (quoted body) = Some body).
    { rewrite <- (gen_quote_literal DMySQL body FL). f_equal. rewrite gen_quote_ascii; [ reflexivity | ]. eapply Forall_impl; [ | exact FL ]. intros c H. destruct H as [H _]. apply H. }
    exists {| g_receiver := [word go]; g_name := B "InsertPlaceholders"; g_params := [word (B "row"); word (B "int")]; g_results := [word (B "string")]; g_body := [Simple (return_of [str (quoted body)])] |}.
    split; [ | split; [ reflexivity | split; [ reflexivity | split; [ reflexivity | split; [ reflexivity | ] ] ] ] ].
    + pose proof (scans_ends _ _ (scans_string _ _ GL)) as EL. apply declares_return; try (solve [ wfs | nos ]). unfold placeholders_text. rewrite ST. fold n.
      replace (line [chr 9 :: B "return "; [dquote]; B "("; tl (repeat_bytes (B "," ++ quote_var d 0) n); B ")"; [dquote]; B " // "; itoa n]) with (chr 9 :: B "return " ++ quoted body ++ B " // " ++ itoa n ++ [LF])
        by (subst body; unfold line, quoted; cbn [concat]; rewrite !app_nil_r, <- !app_assoc; cbn [app]; rewrite <- !app_assoc; reflexivity).
      lines. eapply scans_as.
      * do 3 rd. rd. apply ends_comment; [ exact EL | eexists; eexists; split; reflexivity | apply number_line | repeat rd ].
      * unfold return_of. toks.
    + intros row. cbn [placeholder_text g_body return_of]. change (is_word (B "return") (word (B "return"))) with true. cbn iota. change (split_trees (B "+") [] [str (quoted body)]) with [[str (quoted body)]]. cbn [row_of str]. rewrite GL, app_nil_r, GP. reflexivity.
Qed.
End Placeholders.
