(** Exact conditions for literals and identifiers, and placeholder rows. *)
From Verif Require Import Base ModelStrconv ModelUtf8 ModelEncoding ModelCompiler ModelGen SpecSql SpecGo SpecGen
  LemmasBase LemmasUtf8 LemmasEncoding LemmasSql LemmasSql2 LemmasSql3 LemmasCompiler LemmasGen LemmasGen2.

Lemma raw_body_len x : forall y, raw_body x = Some y ->
  length y < length x /\ (length x = S (length y) -> x = y ++ [backtick] /\ Forall (fun c => c <> backtick /\ code c <> 13%N) y).
Proof.
  induction x as [|c x IH]; intros y H; cbn [raw_body] in H; [discriminate|].
  destruct (beq c backtick) eqn:E.
  - destruct x; [|discriminate]. inversion H; subst. apply beq_eq in E. subst. split; [cbn; lia|]. intros _. split; [reflexivity|constructor].
  - destruct (raw_body x) as [z|]; [|discriminate]. destruct (IH z eq_refl) as [L F]. inversion H; subst y.
    destruct (N.eqb_spec (code c) 13).
    + cbn [length]. split; [lia|]. intros X. lia.
    + cbn [length]. split; [lia|]. intros X. destruct F as [-> F]; [lia|]. split; [reflexivity|]. constructor; [|exact F].
      split; [apply beq_neq; exact E|assumption].
Qed.

Lemma interpreted_len n : forall x, length x <= n -> forall y, interpreted_body x = Some y ->
  length y < length x /\ (length x = S (length y) -> x = y ++ [dquote] /\ Forall (fun c => c <> dquote /\ c <> backslash /\ c <> LF) y).
Proof.
  induction n as [|n IH]; intros x LE y H; [destruct x; [discriminate|cbn in LE; lia]|].
  destruct x as [|c x]; [discriminate|]. cbn [interpreted_body] in H. cbn [length] in LE.
  destruct (beq c dquote) eqn:E1.
  { destruct x; [|discriminate]. inversion H; subst. apply beq_eq in E1. subst. split; [cbn; lia|]. intros _. split; [reflexivity|constructor]. }
  destruct (beq c LF) eqn:E2; [discriminate|]. destruct (beq c backslash) eqn:E3.
  - destruct x as [|e x]; [discriminate|]. destruct (escape e); [|discriminate].
    destruct (interpreted_body x) as [z|] eqn:Z; [|discriminate]. cbn [length] in LE.
    destruct (IH x ltac:(lia) z Z) as [L _]. inversion H; subst. cbn [length]. split; [lia|]. intros X. lia.
  - destruct (interpreted_body x) as [z|] eqn:Z; [|discriminate].
    destruct (IH x ltac:(lia) z Z) as [L F]. inversion H; subst. cbn [length]. split; [lia|]. intros X.
    destruct F as [-> F]; [lia|]. split; [reflexivity|]. constructor; [|exact F]. repeat split; apply beq_neq; assumption.
Qed.

Lemma utf8_length us : length us <= length (utf8 us).
Proof.
  induction us as [|u us IH]; [cbn; lia|]. unfold utf8 in *. cbn [map concat]. rewrite app_length. cbn [length].
  pose proof (encode_rune_nonempty u). destruct (encode_rune u); [contradiction|cbn [length]; lia].
Qed.
Lemma encode_long u : (128 <= u)%N -> 2 <= length (encode_rune u).
Proof.
  intros H. unfold encode_rune. rewrite ltb_false by exact H.
  destruct (N.ltb u 2048); [cbn; lia|]. destruct (N.ltb u 65536); cbn; lia.
Qed.
Lemma utf8_length_ascii us : length (utf8 us) <= length us -> Forall (fun u => u < 128)%N us.
Proof.
  induction us as [|u us IH]; intros H; [constructor|]. unfold utf8 in H. cbn [map concat] in H. rewrite app_length in H.
  change (concat (map encode_rune us)) with (utf8 us) in H. pose proof (utf8_length us). cbn [length] in H.
  destruct (N.lt_ge_cases u 128) as [L|G].
  - constructor; [exact L|]. apply IH. rewrite encode_low in H by exact L. cbn [length] in H. lia.
  - pose proof (encode_long u G). lia.
Qed.

Lemma literal_exact d us : Forall (fun u => scalar u = true) us ->
  go_literal (gen_quote d (utf8 us)) = Some (utf8 us) <-> Forall (literal_char d) (utf8 us).
Proof.
  intros SC. split; [|apply gen_quote_literal]. intros H.
  assert (A : Forall (fun u => u < 128)%N us).
  { apply utf8_length_ascii. unfold gen_quote in H. rewrite runes_utf8 in H by exact SC. rewrite map_map in H. cbn [fst snd] in H.
    set (body := map (fun u => hd zero (encode_rune u)) us) in H.
    assert (BL : length (body ++ [quote_char d]) = S (length us)) by (rewrite app_length; unfold body; rewrite map_length; cbn; lia).
    unfold go_literal in H. destruct (negb _ || _); [discriminate|].
    destruct (beq (quote_char d) backtick).
    - apply raw_body_len in H. destruct H as [H _]. lia.
    - destruct (beq (quote_char d) dquote); [|discriminate]. apply (interpreted_len _ _ (le_n _)) in H. destruct H as [H _]. lia. }
  assert (B128 : Forall (fun c => code c < 128)%N (utf8 us)).
  { rewrite utf8_ascii by exact A. apply Forall_map. eapply Forall_impl; [|exact A]. intros u L. cbn beta in *. rewrite code_chr by lia. exact L. }
  rewrite gen_quote_ascii in H by exact B128. set (s := utf8 us) in *. unfold go_literal in H.
  destruct (negb _ || existsb _ _) eqn:G; [discriminate|]. apply orb_false_iff in G. destruct G as [_ G].
  assert (NZ : Forall (fun c => 0 < code c < 128)%N s).
  { apply Forall_forall. intros c I. rewrite Forall_forall in B128. specialize (B128 c I).
    destruct (N.eq_dec (code c) 0) as [Z|Z]; [|lia]. exfalso. apply not_true_iff_false in G. apply G. apply existsb_exists.
    exists c. split; [right; apply in_or_app; now left|]. apply N.eqb_eq. exact Z. }
  assert (LEN : length (s ++ [quote_char d]) = Datatypes.S (length s)) by (rewrite app_length; cbn; lia).
  destruct d; cbn [quote_char] in *; cbn [beq Ascii.eqb Bool.eqb backtick dquote] in H.
  - apply (interpreted_len _ _ (le_n _)) in H. destruct H as [_ H]. destruct (H LEN) as [_ F]. rewrite Forall_forall in *.
    intros c I. destruct (F c I) as (? & ? & ?). split; [apply NZ, I|]. auto.
  - apply raw_body_len in H. destruct H as [_ H]. destruct (H LEN) as [_ F]. rewrite Forall_forall in *.
    intros c I. destruct (F c I) as (? & ?). split; [apply NZ, I|]. auto.
  - apply raw_body_len in H. destruct H as [_ H]. destruct (H LEN) as [_ F]. rewrite Forall_forall in *.
    intros c I. destruct (F c I) as (? & ?). split; [apply NZ, I|]. auto.
Qed.

(** Identifiers over all of Unicode. *)
Definition sayable (printable : N -> bool) (u : N) : Prop :=
  scalar u = true /\ u <> 34%N /\ u <> 92%N /\ ((u < 128)%N -> (32 <= u <= 126)%N) /\ ((128 <= u)%N -> printable u = true).
Lemma go_quote_sayable printable us : Forall (sayable printable) us -> go_quote printable (utf8 us) = dquote :: utf8 us ++ [dquote].
Proof.
  intros F. unfold go_quote. rewrite runes_utf8 by (eapply Forall_impl; [|exact F]; intros u H; apply H).
  f_equal. f_equal. unfold utf8. rewrite map_map. induction F as [|u us (S & D & K & L & H) F IH]; [reflexivity|].
  cbn [map concat]. rewrite IH. f_equal. unfold quote_rune. cbn [negb].
  destruct (N.eqb_spec u 34); [contradiction|]. destruct (N.eqb_spec u 92); [contradiction|]. cbn [orb].
  destruct (N.ltb_spec u 128) as [X|X].
  - specialize (L X). rewrite (proj2 (N.leb_le 32 u)) by lia. rewrite (proj2 (N.leb_le u 126)) by lia. reflexivity.
  - rewrite H by exact X. reflexivity.
Qed.
Lemma utf8_no_char us (c : byte) : (code c < 128)%N -> Forall (fun u => scalar u = true) us -> ~ In (code c) us -> Forall (fun x => x <> c) (utf8 us).
Proof.
  intros L S NI. induction S as [|u us H S IH]; [constructor|]. unfold utf8. cbn [map concat]. apply Forall_app. split.
  - destruct (N.lt_ge_cases u 128) as [U|U].
    + rewrite encode_low by exact U. constructor; [|constructor]. intros <-. apply NI. left. rewrite code_chr by lia. reflexivity.
    + eapply Forall_impl; [|apply encode_high; assumption]. cbn beta. intros x X ->. lia.
  - apply IH. intros I. apply NI. now right.
Qed.
Lemma utf8_nonempty us : us <> [] -> utf8 us <> [].
Proof.
  intros NE E. destruct us as [|u us]; [contradiction|]. unfold utf8 in E. cbn [map concat] in E. apply app_eq_nil in E.
  destruct E as [E _]. exact (encode_rune_nonempty u E).
Qed.

(** ** Rows of placeholders *)
Section Rows.
Context {V : Type}.
Definition row_params (n row : nat) : list (list (tok V)) := map (fun j => [Param (row * n + j + 1)]) (seq 0 n).

Lemma reads_question n m (fl : flavour) : fl <> Postgres -> reads_all (V:=V) fl n (repeat (B "?") m) (map (fun j => [Param (n + j + 1)]) (seq 0 m)) (n + m).
Proof.
  intros F. revert n. induction m as [|m IH]; intros n; cbn [repeat seq map]; [rewrite Nat.add_0_r; constructor|].
  replace (n + S m) with (S n + m) by lia. econstructor.
  - replace (n + 0 + 1) with (S n) by lia. split; [destruct fl; exact I|intros; destruct fl; try reflexivity; contradiction].
  - rewrite <- seq_shift, map_map. replace (map (fun x => [Param (n + S x + 1)]) (seq 0 m)) with (map (fun j => [Param (V:=V) (S n + j + 1)]) (seq 0 m)); [apply IH|].
    apply map_ext. intros j. do 2 f_equal. lia.
Qed.
Lemma tl_repeat_join (v : bytes) m : tl (repeat_bytes (B "," ++ v) m) = join (B ",") (repeat v m).
Proof.
  destruct m as [|m]; [reflexivity|]. cbn [repeat_bytes tl app B]. cbn [list_ascii_of_string app].
  cbn [repeat]. induction m as [|m IH]; [cbn; apply app_nil_r|].
  change (repeat v (S m)) with (v :: repeat v m) in *. rewrite join_cons by discriminate. rewrite <- IH. reflexivity.
Qed.

Lemma reads_row d (t : table) row : (0 < length (insert_columns t)) ->
  let n := length (insert_columns t) in
  reads (flavour_of d) (row * n) (gen_insert_placeholders d t row) (row_toks (row_params n row)) (S row * n).
Proof.
  intros POS n. unfold gen_insert_placeholders, row_toks. fold n.
  replace (S row * n) with (row * n + n) by lia.
  change (Sym "(" :: commas (row_params n row) ++ [Sym ")"]) with ([Sym "("] ++ commas (row_params n row) ++ [Sym (V:=V) ")"]).
  assert (Q : forall d', d' <> DPostgres -> reads (flavour_of d') (row * n) (B "(" ++ tl (repeat_bytes (B "," ++ quote_var d' 0) n) ++ B ")")
    ([Sym "("] ++ commas (row_params n row) ++ [Sym ")"]) (row * n + n)).
  { intros d' ND. eapply reads_app_l; [split; [destruct d'; exact I|intros; destruct d'; reflexivity]| |reflexivity].
    eapply reads_app_r; [|split; [destruct d'; exact I|intros; destruct d'; reflexivity]|reflexivity|discriminate].
    replace (quote_var d' 0) with (B "?") by (destruct d'; try reflexivity; contradiction). rewrite tl_repeat_join. apply reads_join, reads_question.
    destruct d'; discriminate || contradiction. }
  destruct d; [apply (Q DMySQL); discriminate| |apply (Q DSQLite); discriminate]. clear Q.
  eapply reads_app_l; [split; [exact I|intros; reflexivity]| |reflexivity].
  eapply reads_app_r; [|split; [exact I|intros; reflexivity]|reflexivity|discriminate].
  apply reads_join. unfold row_params.
  assert (G : forall m a k, reads_all (V:=V) Postgres k (map (fun i => B "$" ++ itoa (row * n + (i + 1))) (seq a m))
    (map (fun j => [Param (row * n + j + 1)]) (seq a m)) (k + m)).
  { induction m as [|m IH]; intros a k; cbn [seq map]; [rewrite Nat.add_0_r; constructor|].
    replace (k + S m) with (S k + m) by lia. econstructor; [|apply IH]. rewrite Nat.add_assoc. apply reads_dollar. }
  apply G.
Qed.

Lemma reads_rows d (t : table) m : (0 < length (insert_columns t)) -> forall row,
  let n := length (insert_columns t) in
  reads_all (V:=V) (flavour_of d) (row * n) (map (gen_insert_placeholders d t) (seq row m)) (map (fun r => row_toks (row_params n r)) (seq row m)) ((row + m) * n).
Proof.
  intros POS. induction m as [|m IH]; intros row n; cbn [seq map].
  - rewrite Nat.add_0_r. constructor.
  - replace ((row + S m) * n) with ((S row + m) * n) by (f_equal; lia). econstructor; [|apply IH].
    apply reads_row. exact POS.
Qed.
End Rows.
