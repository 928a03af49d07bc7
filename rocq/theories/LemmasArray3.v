(** The array reader accepts exactly the texts of one-dimensional arrays. *)
From Verif Require Import Base ModelStrconv ModelArray SpecText LemmasBase LemmasArray LemmasArray2.

Definition rest_text (br : brackets) (src : bytes) (es vs : list (option bytes)) : Prop :=
  exists ts vs', src = concat (map (cons comma) ts) ++ [cls br] /\ vs = es ++ vs'
    /\ Forall2 (element_text (opn br) (cls br)) ts vs'.

Definition unesc (esc : bool) (body w : bytes) : Prop :=
  if esc then exists c body' w', body = c :: body' /\ w = c :: w' /\ unescape body' w' else unescape body w.

Definition reads_on (br : brackets) (m : mode) (src : bytes) (st : pstate) (vs : list (option bytes)) : Prop :=
  match m with
  | MDelim => match depth st with O => src = [] /\ vs = elems st | S _ => rest_text br src (elems st) vs end
  | MElem => exists t v rest, src = t ++ rest /\ element_text (opn br) (cls br) t v /\ rest_text br rest (elems st ++ [v]) vs
  | MQuote e esc => exists body w rest, src = body ++ dquote :: rest /\ unesc esc body w
                    /\ rest_text br rest (elems st ++ [Some (e ++ w)]) vs
  | MRaw e => exists more rest, src = more ++ rest /\ Forall (raw_ok br) more
              /\ rest_text br rest (elems st ++ [raw_elem (e ++ more)]) vs
  | _ => True
  end.

Definition depth_ok (m : mode) (st : pstate) : Prop :=
  match m with MOpen | MClose => False | MDelim => depth st <= 1 | _ => depth st = 1 end.

Lemma raw_element br x more : x <> opn br -> x <> dquote -> raw_ok br x -> Forall (raw_ok br) more ->
  element_text (opn br) (cls br) (x :: more) (raw_elem (x :: more)).
Proof.
  intros O Q X F. unfold raw_elem. destruct (bseq (x :: more) (B "NULL")) eqn:E.
  - apply bseq_eq in E. rewrite E. constructor.
  - constructor; auto. intros N. apply bseq_eq in N. congruence.
Qed.

(** One turn of the delimiter loop. *)
Lemma delim_reads br c r st d vs :
  (forall m st d vs, go br r m st = Ok (d, vs) -> length (dims st) = 1 -> depth_ok m st -> reads_on br m r st vs) ->
  length (dims st) = 1 -> depth st <= 1 ->
  (if beq c comma && Nat.ltb 0 (depth st) then
        match upd_nth (depth st - 1) S (dims st) with
        | None => Panic
        | Some d => go br r MElem {| depth := depth st; dims := d; elems := elems st |}
        end
      else if beq c (cls br) && Nat.ltb 0 (depth st) then
        match upd_nth (depth st - 1) S (dims st) with
        | None => Panic
        | Some d => go br r MDelim {| depth := depth st - 1; dims := d; elems := elems st |}
        end
      else Err) = Ok (d, vs) ->
  depth st = 1 /\ rest_text br (c :: r) (elems st) vs.
Proof.
  intros IH L D H. destruct (depth st) as [|[|n]] eqn:E; [rewrite !andb_false_r in H; discriminate| |lia].
  split; [reflexivity|]. rewrite !andb_true_r in H.
  destruct (beq c comma) eqn:C1.
  - apply beq_eq in C1. subst c. destruct (upd_nth _ _ _) as [ds|] eqn:U; [|discriminate].
    apply upd_nth_length in U. apply IH in H; cbn [dims depth depth_ok]; [|congruence|congruence].
    destruct H as (t & v & rest & -> & ET & ts & vs' & -> & -> & F). exists (t :: ts), (v :: vs').
    cbn [map concat app elems]. rewrite <- !app_assoc. split; [reflexivity|]. split; [reflexivity|]. constructor; assumption.
  - destruct (beq c (cls br)) eqn:C2; [|discriminate]. apply beq_eq in C2. subst c.
    destruct (upd_nth _ _ _) as [ds|] eqn:U; [|discriminate]. apply upd_nth_length in U.
    apply IH in H; cbn [dims depth depth_ok]; [|congruence|lia]. cbn in H. destruct H as [-> ->].
    exists [], []. cbn. rewrite app_nil_r. split; [reflexivity|]. split; [reflexivity|constructor].
Qed.

Lemma go_reads br src : wf_br br -> forall m st d vs, go br src m st = Ok (d, vs) -> length (dims st) = 1 -> depth_ok m st ->
  reads_on br m src st vs.
Proof.
  intros (W1 & W2 & W3 & W4 & W5).
  induction src as [|c r IH]; intros m st d vs H L D.
  - cbn [go] in H. unfold finish in H. destruct m; cbn [depth_ok] in D; try contradiction;
      try (rewrite D in H; discriminate).
    cbn [reads_on]. destruct (depth st); [|discriminate]. change (Nat.ltb 0 0) with false in H. cbv iota in H.
    destruct (existsb _ _); [discriminate|]. destruct (forallb _ _); [|discriminate]. inversion H; subst. auto.
  - destruct m as [| |e esc|e| |]; cbn [depth_ok] in D; try contradiction; cbn [go] in H; cbn [reads_on].
    + destruct (beq c (opn br)) eqn:C1.
      { apply beq_eq in C1. subst c. rewrite D, L in H. cbn [Nat.eqb] in H.
        rewrite (proj2 (beq_neq _ _) W1), (proj2 (beq_neq _ _) W5) in H. discriminate. }
      apply beq_neq in C1. destruct (beq c dquote) eqn:C2.
      { apply beq_eq in C2. subst c. apply IH in H; [|exact L|exact D]. destruct H as (body & w & rest & -> & U & R).
        cbn [unesc app] in U, R. exists (dquote :: body ++ [dquote]), (Some w), rest. split; [cbn; rewrite <- app_assoc; reflexivity|].
        split; [constructor; exact U|exact R]. }
      apply beq_neq in C2. destruct (beq c comma) eqn:C3; [discriminate|]. destruct (beq c (cls br)) eqn:C4; [discriminate|].
      apply beq_neq in C3. apply beq_neq in C4. cbn [orb] in H. apply IH in H; [|exact L|exact D].
      destruct H as (more & rest & -> & F & R). cbn [app] in R. exists (c :: more), (raw_elem (c :: more)), rest.
      split; [reflexivity|]. split; [|exact R]. apply raw_element; auto. split; assumption.
    + destruct esc.
      { apply IH in H; [|exact L|exact D]. destruct H as (body & w & rest & -> & U & R). cbn [unesc] in U.
        exists (c :: body), (c :: w), rest. split; [reflexivity|]. split; [cbn; eauto 6|]. rewrite <- app_assoc in R. exact R. }
      destruct (beq c backslash) eqn:C1.
      { apply beq_eq in C1. subst c. apply IH in H; [|exact L|exact D]. destruct H as (body & w & rest & -> & U & R).
        destruct U as (c & body' & w' & -> & -> & U). exists (backslash :: c :: body'), (c :: w'), rest.
        split; [reflexivity|]. split; [constructor; exact U|exact R]. }
      destruct (beq c dquote) eqn:C2.
      { apply beq_eq in C2. subst c. apply IH in H; [|exact L|cbn; lia]. cbn [reads_on push_elem depth elems] in H. rewrite D in H.
        exists [], [], r. split; [reflexivity|]. split; [constructor|]. rewrite app_nil_r. exact H. }
      apply beq_neq in C1. apply beq_neq in C2. apply IH in H; [|exact L|exact D]. destruct H as (body & w & rest & -> & U & R).
      cbn [unesc] in U. exists (c :: body), (c :: w), rest. split; [reflexivity|]. split; [constructor; assumption|].
      rewrite <- app_assoc in R. exact R.
    + destruct (beq c comma || beq c (cls br)) eqn:C.
      { apply delim_reads in H; [|exact IH|exact L|cbn; lia]. destruct H as [_ H].
        exists [], (c :: r). split; [reflexivity|]. split; [constructor|]. rewrite app_nil_r. exact H. }
      apply orb_false_iff in C. destruct C as [C1 C2]. apply beq_neq in C1. apply beq_neq in C2.
      apply IH in H; [|exact L|exact D]. destruct H as (more & rest & -> & F & R). exists (c :: more), rest.
      split; [reflexivity|]. split; [constructor; [split|]; assumption|]. rewrite <- app_assoc in R. exact R.
    + apply delim_reads in H; [|exact IH|exact L|exact D]. destruct H as [E H]. rewrite E. exact H.
Qed.

(** The number of dimensions never changes once it is known. *)
Lemma go_dims br src : forall m st d vs, m <> MOpen -> m <> MClose -> go br src m st = Ok (d, vs) -> length d = length (dims st).
Proof.
  induction src as [|c r IH]; intros m st d vs M1 M2 H.
  - cbn [go] in H. unfold finish in H. destruct m; try contradiction; destruct (Nat.ltb _ _); try discriminate;
      destruct (existsb _ _); try discriminate; destruct (forallb _ _); inversion H; reflexivity.
  - assert (DL : forall st, (if beq c comma && Nat.ltb 0 (depth st) then
        match upd_nth (depth st - 1) S (dims st) with
        | None => Panic
        | Some d => go br r MElem {| depth := depth st; dims := d; elems := elems st |}
        end
      else if beq c (cls br) && Nat.ltb 0 (depth st) then
        match upd_nth (depth st - 1) S (dims st) with
        | None => Panic
        | Some d => go br r MDelim {| depth := depth st - 1; dims := d; elems := elems st |}
        end
      else Err) = Ok (d, vs) -> length d = length (dims st)).
    { intros s G. destruct (beq c comma && _); [|destruct (beq c (cls br) && _); [|discriminate]];
        (destruct (upd_nth _ _ _) as [ds|] eqn:U; [|discriminate]); apply upd_nth_length in U;
        apply IH in G; try discriminate; cbn [dims] in G; congruence. }
    cbn [go] in H. destruct m as [| |e esc|e| |]; try contradiction.
    + destruct (beq c (opn br)).
      * destruct (Nat.eqb _ _); [apply DL, H|]. destruct (upd_nth _ _ _) as [ds|] eqn:U; [|discriminate].
        apply upd_nth_length in U. apply IH in H; try discriminate. cbn [dims] in H. congruence.
      * destruct (beq c dquote); [apply IH in H; try discriminate; exact H|]. destruct (_ || _); [discriminate|].
        apply IH in H; try discriminate; exact H.
    + destruct esc; [apply IH in H; try discriminate; exact H|]. destruct (beq c backslash); [apply IH in H; try discriminate; exact H|].
      destruct (beq c dquote); apply IH in H; try discriminate; exact H.
    + destruct (_ || _); [apply DL in H; exact H|]. apply IH in H; try discriminate; exact H.
    + apply DL, H.
Qed.

Lemma close_reads br src : forall st d vs, go br src MClose st = Ok (d, vs) ->
  src = repeat (cls br) (depth st) /\ vs = elems st.
Proof.
  induction src as [|c r IH]; intros st d vs H; cbn [go] in H.
  - unfold finish in H. destruct (Nat.ltb_spec 0 (depth st)) as [|Z]; [discriminate|]. inversion H; subst.
    destruct (depth st); [auto|lia].
  - destruct (beq c (cls br)) eqn:C; [|discriminate]. apply beq_eq in C. subst c.
    destruct (Nat.ltb_spec 0 (depth st)) as [P|]; [|discriminate]. apply IH in H. cbn [depth elems] in H. destruct H as [-> ->].
    destruct (depth st); [lia|]. cbn. rewrite Nat.sub_0_r. auto.
Qed.

Lemma open_reads br src : wf_br br -> forall n d vs, go br src MOpen {| depth := S n; dims := []; elems := [] |} = Ok (d, vs) -> length d <= 1 ->
  (vs = [] /\ exists k, src = repeat (opn br) k ++ repeat (cls br) (S n + k))
  \/ (n = 0 /\ reads_on br MElem src {| depth := 1; dims := [0]; elems := [] |} vs).
Proof.
  intros W. pose proof W as (W1 & W2 & W3 & W4 & W5). induction src as [|c r IH]; intros n d vs H L; [discriminate|].
  cbn [go depth dims elems] in H. destruct (beq c (opn br)) eqn:C1.
  - apply beq_eq in C1. subst c. apply IH in H; [|exact L]. destruct H as [(-> & k & ->)|[E _]]; [|discriminate].
    left. split; [reflexivity|]. exists (S k). cbn [repeat app]. do 3 f_equal. lia.
  - destruct (beq c (cls br)) eqn:C2.
    + apply beq_eq in C2. subst c. cbn [Nat.ltb Nat.leb] in H. apply close_reads in H. cbn [depth elems] in H.
      destruct H as [-> ->]. left. split; [reflexivity|]. exists 0. cbn. rewrite Nat.sub_0_r, Nat.add_0_r. reflexivity.
    + assert (G : go br (c :: r) MElem {| depth := S n; dims := repeat 0 (S n); elems := [] |} = Ok (d, vs)).
      { cbn [go depth dims elems]. rewrite C1, C2. destruct (beq c dquote); exact H. }
      assert (n = 0). { apply go_dims in G; try discriminate. cbn [dims] in G. rewrite repeat_length in G. lia. }
      subst n. right. split; [reflexivity|]. eapply go_reads; [exact W|exact G|reflexivity|reflexivity].
Qed.

Lemma join_tail t ts : join (B ",") (t :: ts) = t ++ concat (map (cons comma) ts).
Proof.
  revert t. induction ts as [|t2 ts IH]; intros t; [cbn; rewrite app_nil_r; reflexivity|].
  change (join (B ",") (t :: t2 :: ts)) with (t ++ B "," ++ join (B ",") (t2 :: ts)). rewrite IH. reflexivity.
Qed.

Lemma scan_linear_only br src vs : wf_br br -> scan_linear br src = Ok vs -> array_text (opn br) (cls br) src vs.
Proof.
  intros W H. unfold scan_linear in H. destruct (parse_array br src) as [[d es]| |] eqn:P; [|discriminate|discriminate].
  cbn [bind fst snd] in H. destruct (Nat.ltb_spec 1 (length d)) as [|L]; [discriminate|]. inversion H; subst es.
  unfold parse_array in P. destruct src as [|c r]; [discriminate|]. destruct (beq c (opn br)) eqn:C; [|discriminate].
  apply beq_eq in C. subst c. cbn [go] in P. rewrite beq_refl in P. cbn [depth dims elems] in P.
  apply open_reads in P; [|exact W|exact L]. destruct P as [(-> & k & ->)|[_ R]].
  - left. split; [reflexivity|]. exists k. reflexivity.
  - right. destruct R as (t & v & rest & -> & E & ts & vs' & -> & -> & F). exists (t :: ts). split; [discriminate|].
    split; [|constructor; assumption]. unfold list_text. rewrite join_tail, <- app_assoc. reflexivity.
Qed.

Lemma unescape_reads br body v : unescape body v -> forall acc r st,
  go br (body ++ dquote :: r) (MQuote acc false) st = go br r MDelim (push_elem (Some (acc ++ v)) st).
Proof.
  induction 1 as [|c body v U IH|c body v C1 C2 U IH]; intros acc r st.
  - cbn [app go]. change (beq dquote backslash) with false. rewrite beq_refl, app_nil_r. reflexivity.
  - cbn [app go]. rewrite beq_refl. cbn [app go]. rewrite IH, <- app_assoc. reflexivity.
  - cbn [app go]. rewrite (proj2 (beq_neq _ _) C1), (proj2 (beq_neq _ _) C2), IH, <- app_assoc. reflexivity.
Qed.

Lemma element_reads br t v : br = pg \/ br = js -> element_text (opn br) (cls br) t v -> elem_reads br t v /\ good_head br t.
Proof.
  intros K E. destruct E as [body v U| |x s O Q F N].
  - split; [|destruct K; subst; cbn; split; discriminate]. intros c r st C. rewrite <- app_comm_cons, <- app_assoc. cbn [go].
    replace (beq dquote (opn br)) with false by (destruct K; subst; reflexivity).
    rewrite beq_refl. exact (unescape_reads br body v U [] (c :: r) st).
  - split; [|destruct K; subst; cbn; split; discriminate]. change (@None bytes) with (raw_elem (B "NULL")).
    apply raw_elem_reads; [|destruct K; subst; discriminate|discriminate].
    destruct K; subst; repeat constructor; discriminate.
  - split; [|cbn; split; [exact O|inversion F as [|? ? [? ?]]; subst; assumption]].
    replace (Some (x :: s)) with (raw_elem (x :: s)); [apply raw_elem_reads; assumption|].
    unfold raw_elem. destruct (bseq _ _) eqn:E; [|reflexivity]. apply bseq_eq in E. contradiction.
Qed.

Lemma open_all br k : forall n r, go br (repeat (opn br) k ++ r) MOpen {| depth := n; dims := []; elems := [] |}
  = go br r MOpen {| depth := n + k; dims := []; elems := [] |}.
Proof.
  induction k as [|k IH]; intros n r; cbn [repeat app]; [rewrite Nat.add_0_r; reflexivity|].
  cbn [go]. rewrite beq_refl. cbn [depth dims elems]. rewrite IH. replace (S n + k) with (n + S k) by lia. reflexivity.
Qed.
Lemma close_all br n : go br (repeat (cls br) n) MClose {| depth := n; dims := []; elems := [] |} = Ok ([], []).
Proof.
  induction n as [|n IH]; [reflexivity|]. cbn [repeat go]. rewrite beq_refl. cbn [depth dims elems Nat.ltb Nat.leb andb].
  replace (S n - 1) with n by lia. exact IH.
Qed.

Lemma scan_linear_all br src vs : br = pg \/ br = js -> array_text (opn br) (cls br) src vs -> scan_linear br src = Ok vs.
Proof.
  intros K [(-> & n & ->)|(ts & NE & -> & F)].
  - unfold scan_linear, parse_array. cbn [repeat app]. rewrite beq_refl. rewrite app_comm_cons.
    change (opn br :: repeat (opn br) n) with (repeat (opn br) (S n)). rewrite open_all. cbn [repeat go plus].
    replace (beq (cls br) (opn br)) with false by (destruct K; subst; reflexivity). rewrite beq_refl. cbn [depth dims elems].
    change (Nat.ltb 0 (S n)) with true. cbv iota. replace (S n - 1) with n by lia. rewrite close_all. reflexivity.
  - assert (W : wf_br br) by (destruct K; subst; [exact wf_pg|exact wf_js]).
    assert (L : exists l, map fst l = ts /\ map snd l = vs /\ Forall (fun a => element_text (opn br) (cls br) (fst a) (snd a)) l).
    { clear NE. induction F as [|t v ts vs E F (l & L1 & L2 & L3)]; [exists []; auto|]. exists ((t, v) :: l).
      cbn [map fst snd]. rewrite L1, L2. repeat split. constructor; assumption. }
    destruct L as (l & <- & <- & FL). apply (scan_linear_render br fst snd l W).
    eapply Forall_impl; [|exact FL]. intros a E. apply element_reads; assumption.
Qed.

Lemma scan_source {A} br (dec : option bytes -> option A) dst src b l : br = pg \/ br = js -> given src b ->
  scan br dec dst src = (Some l, Ok tt) ->
  exists vs, array_text (opn br) (cls br) b vs /\ Forall2 (fun v a => dec v = Some a) vs l.
Proof.
  intros W S H. destruct (scan_ok_elems br dec dst src b l S H) as (es & E & F). exists es. split; [|exact F].
  apply scan_linear_only; [destruct W; subst; [exact wf_pg|exact wf_js]|exact E].
Qed.

Lemma all_elems_of {A} (dec : option bytes -> option A) es l : Forall2 (fun e a => dec e = Some a) es l -> all_elems dec es = Some l.
Proof. induction 1 as [|e a es l E F IH]; [reflexivity|]. cbn. rewrite E, IH. reflexivity. Qed.

Lemma scan_accepts {A} br (dec : option bytes -> option A) dst src b l vs : br = pg \/ br = js -> given src b ->
  array_text (opn br) (cls br) b vs -> Forall2 (fun v a => dec v = Some a) vs l ->
  scan br dec dst src = (Some l, Ok tt).
Proof.
  intros W S T F. assert (E : scan br dec dst src = scan_bytes br dec dst b) by (destruct S; subst; reflexivity).
  rewrite E. unfold scan_bytes. rewrite (scan_linear_all br b vs W T). rewrite (all_elems_of dec vs l F).
  destruct dst; [destruct vs|]; try reflexivity. inversion F. reflexivity.
Qed.

(** ** Numbers *)
Lemma digits_val_total ds : forall acc, Forall (fun c => 48 <= N_of_ascii c <= 57)%N ds -> exists n, digits_val acc ds = Some n.
Proof.
  induction ds as [|c ds IH]; intros acc F; [eexists; reflexivity|]. inversion F; subst. cbn [digits_val].
  rewrite (proj2 (is_digit_range c)) by assumption. apply IH. assumption.
Qed.
Lemma parse_digits_total ds : decimal_digits ds -> exists n, parse_digits ds = Some n /\ Z.of_N n = digits_to_Z ds.
Proof.
  intros [NE F]. destruct (digits_val_total ds 0 F) as (n & E). exists n.
  assert (P : parse_digits ds = Some n) by (destruct ds; [contradiction|exact E]). split; [exact P|]. apply parse_digits_spec, P.
Qed.

Lemma parse_int_accepts s z : denotes_int s z -> fits_signed 64 z -> parse_int 64 s = Some z.
Proof.
  intros D F. unfold fits_signed in F. change (Z.of_N 64 - 1)%Z with 63%Z in F.
  assert (P : Z.of_N (2 ^ (64 - 1)) = (2 ^ 63)%Z) by reflexivity.
  destruct D as [ds D|ds D|ds D]; destruct (parse_digits_total ds D) as (n & E & V); unfold parse_int.
  - destruct ds as [|c d]; [destruct D; contradiction|]. destruct (decimal_digits_head c d D) as [H1 H2].
    rewrite (proj2 (beq_neq _ _) H1), (proj2 (beq_neq _ _) H2), E.
    destruct (N.ltb_spec n (2 ^ (64 - 1))); [congruence|]. exfalso. lia.
  - change (beq "+" "-") with false. change (beq "+" "+") with true. cbv iota. rewrite E.
    destruct (N.ltb_spec n (2 ^ (64 - 1))); [congruence|]. exfalso. lia.
  - change (beq "-" "-") with true. cbv iota. rewrite E.
    destruct (N.leb_spec n (2 ^ (64 - 1))); [congruence|]. exfalso. lia.
Qed.

Lemma int64_scan_source br : br = pg \/ br = js -> forall dst src b l, given src b ->
  scan br (dec_int_conv (Signed 64)) dst src = (Some l, Ok tt) <->
  exists ss, array_text (opn br) (cls br) b (map Some ss) /\ Forall2 denotes_int ss l /\ Forall (fits_signed 64) l.
Proof.
  intros W dst src b l G. split.
  - intros H. destruct (scan_source br _ dst src b l W G H) as (vs & T & F).
    assert (X : exists ss, vs = map Some ss /\ Forall2 denotes_int ss l /\ Forall (fits_signed 64) l).
    { clear - F. induction F as [|v z vs l E F (ss & -> & D & R)]; [exists []; repeat split; constructor|].
      unfold dec_int_conv in E. destruct v as [s|]; [|discriminate].
      destruct (parse_int 64 s) as [n|] eqn:P; [|discriminate]. destruct (parse_int_denotes 64 s n ltac:(lia) P) as [D1 F1].
      inversion E; subst. cbn [convert]. rewrite wrap_signed_id' by (try lia; exact F1).
      exists (s :: ss). split; [reflexivity|]. split; constructor; assumption. }
    destruct X as (ss & -> & D & R). exists ss. auto.
  - intros (ss & T & D & R). apply (scan_accepts br _ dst src b l _ W G T). clear - D R.
    induction D as [|s z ss l E D IH]; [constructor|]. inversion R; subst. constructor; [|apply IH; assumption].
    unfold dec_int_conv. rewrite (parse_int_accepts s z) by assumption. cbn [convert]. rewrite wrap_signed_id' by (try lia; assumption). reflexivity.
Qed.

Lemma uint_scan_source bits dst src b l : given src b ->
  js_uint_scan bits dst src = (Some l, Ok tt) <->
  exists ss, array_text "["%char "]"%char b (map Some ss) /\ Forall2 (fun s z => decimal_digits s /\ z = digits_to_Z s) ss l
             /\ Forall (fits_unsigned bits) l.
Proof.
  intros G. unfold js_uint_scan. split.
  - intros H. destruct (scan_source js _ dst src b l (or_intror eq_refl) G H) as (vs & T & F).
    assert (X : exists ss, vs = map Some ss /\ Forall2 (fun s z => decimal_digits s /\ z = digits_to_Z s) ss l /\ Forall (fits_unsigned bits) l).
    { clear - F. induction F as [|v z vs l E F (ss & -> & D & R)]; [exists []; repeat split; constructor|].
      unfold dec_uint_checked in E. destruct v as [s|]; [|discriminate].
      destruct (parse_uint bits s) as [n|] eqn:P; [|discriminate]. inversion E; subst.
      destruct (parse_uint_denotes bits s n P) as [_ F1]. unfold parse_uint in P. destruct (parse_digits s) as [m|] eqn:Q; [|discriminate].
      destruct (N.ltb m (2 ^ bits)); [|discriminate]. inversion P; subst. destruct (parse_digits_spec s n Q) as [D1 V].
      exists (s :: ss). split; [reflexivity|]. split; constructor; auto. }
    destruct X as (ss & -> & D & R). exists ss. auto.
  - intros (ss & T & D & R). apply (scan_accepts js _ dst src b l _ (or_intror eq_refl) G T). clear - D R.
    induction D as [|s z ss l [E Z] D IH]; [constructor|]. inversion R; subst. constructor; [|apply IH; assumption].
    unfold dec_uint_checked, parse_uint. destruct (parse_digits_total s E) as (n & Q & V). rewrite Q.
    unfold fits_unsigned in *. destruct (N.ltb_spec n (2 ^ bits)) as [|L]; [congruence|]. exfalso. apply N2Z.inj_le in L. rewrite pow_N_Z in L. lia.
Qed.
