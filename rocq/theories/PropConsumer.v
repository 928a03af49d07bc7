(** C98: what the loop body does with a page and the pages that follow. *)
From Coq Require Import Sorted Permutation.
From Verif Require Import Base ModelStrconv ModelCompiler ModelGen ModelRuntime ModelStmt ModelPager ModelMoving ModelConsumer SpecSql SpecGen SpecRuntime SpecStmt SpecPager SpecDb SpecPaging SpecMoving SpecConsumer
  LemmasBase LemmasStmt2 LemmasStmt4 LemmasPager LemmasPager2 LemmasPager3 LemmasRuntime7 LemmasCompiler PropGen PropRuntime PropPager LemmasPaging LemmasDb PropPaging LemmasMoving PropMoving.

Section Bodies.
Context {T : Type}.
Variables (zero : T) (room : nat -> nat).
Notation does := (does zero room).
Notation run_body := (run_body zero room).
Lemma over_length (l xs : list T) i : i + length xs <= length l -> length (over l i xs) = length l.
Proof. intros L. unfold over. rewrite !app_length, firstn_length, skipn_length. lia. Qed.
Lemma over_keeps (l xs : list T) i n : i + length xs <= n -> n < length l -> nth n (over l i xs) zero = nth n l zero.
Proof.
  intros A L. unfold over. rewrite app_nth2; rewrite firstn_length, Nat.min_l by lia; [|lia]. rewrite app_nth2 by lia.
  rewrite <- (firstn_skipn (i + length xs) l) at 2. rewrite (app_nth2 (firstn (i + length xs) l)); rewrite firstn_length, Nat.min_l by lia; [|lia]. f_equal. lia.
Qed.
Lemma over_at (l : list T) i x : i < length l -> nth i (over l i [x]) zero = x.
Proof. intros L. unfold over. rewrite app_nth2; rewrite firstn_length, Nat.min_l by lia; [|lia]. rewrite Nat.sub_diag. reflexivity. Qed.
(** A variable that cannot reach cell [n] of the array *)
Definition away (n : nat) (w : window T) : Prop := w_own w <> None \/ w_off w + w_cap w <= n /\ w_len w <= w_cap w.
Definition same (n : nat) (a b : list T) : Prop := length b = length a /\ nth n b zero = nth n a zero.
Lemma away_step n st s st' : n < length (fst st) -> away n (snd st) -> does st s = Ok st' -> away n (snd st') /\ same n (fst st) (fst st').
Proof.
  destruct st as [arr [own off len cap]]. unfold away, same. cbn [fst snd w_own w_off w_len w_cap]. intros L A. destruct s as [i x|[|y xs]|i j|]; cbn [does ModelConsumer.does w_own w_off w_len w_cap].
  - destruct (Nat.ltb_spec i len) as [Q|Q]; [|discriminate]. intros E. injection E as <-. destruct own as [l|]; cbn [fst snd w_own w_off w_len w_cap]; [split; [left; discriminate|split; reflexivity]|].
    destruct A as [A|[A1 A2]]; [congruence|]. split; [right; lia|]. split; [apply over_length; cbn; lia|apply over_keeps; [cbn; lia|exact L]].
  - intros E. injection E as <-. auto.
  - destruct (Nat.leb_spec (len + length (y :: xs)) cap) as [Q|Q]; intros E; injection E as <-.
    + destruct own as [l|]; cbn [fst snd w_own w_off w_len w_cap]; [split; [left; discriminate|split; reflexivity]|]. destruct A as [A|[A1 A2]]; [congruence|]. cbn [length] in *. split; [right; lia|].
      split; [apply over_length; cbn [length]; lia|apply over_keeps; [cbn [length]; lia|exact L]].
    + cbn [fst snd w_own]. split; [left; discriminate|split; reflexivity].
  - destruct (Nat.leb_spec i j) as [Q1|Q1]; [|discriminate]. destruct (Nat.leb_spec j cap) as [Q2|Q2]; [|discriminate]. cbn [andb]. intros E. injection E as <-. cbn [fst snd w_own w_off w_len w_cap].
    split; [destruct A as [A|A]; [left; exact A|right; lia]|split; reflexivity].
  - intros E. injection E as <-. cbn [fst snd w_own w_off w_len w_cap]. split; [destruct A as [A|A]; [left; exact A|right; lia]|split; reflexivity].
Qed.
Lemma away_body n b : forall st st', n < length (fst st) -> away n (snd st) -> run_body b st = Ok st' -> nth n (fst st') zero = nth n (fst st) zero.
Proof.
  induction b as [|s b IH]; intros st st' L A R; cbn [ModelConsumer.run_body] in R; [injection R as <-; reflexivity|].
  destruct (does st s) as [st1| |] eqn:E; try discriminate R. cbn [bind] in R. destruct (away_step n st s st1 L A E) as [A1 [L1 N1]].
  rewrite <- N1. apply IH; [lia|exact A1|exact R].
Qed.
Lemma modest_body n b : forall len left arr off cap st', off + len + left = n -> n < length arr -> len + left <= cap -> modest len left b ->
  run_body b (arr, {| w_own := None; w_off := off; w_len := len; w_cap := cap |}) = Ok st' -> nth n (fst st') zero = nth n arr zero.
Proof.
  induction b as [|s b IH]; intros len left arr off cap st' E L C M R; cbn [ModelConsumer.run_body] in R; [injection R as <-; reflexivity|].
  destruct s as [i x|xs|i j|]; cbn [modest] in M.
  - cbn [ModelConsumer.does w_own w_off w_len w_cap] in R. destruct (Nat.ltb_spec i len) as [Q|Q]; [|discriminate R]. cbn [bind] in R.
    apply (IH len left _ off cap) in R; [|exact E|rewrite over_length; [exact L|cbn; lia]|exact C|exact M]. rewrite R. apply over_keeps; [cbn; lia|exact L].
  - destruct M as [M1 M2]. destruct xs as [|y xs].
    + cbn [ModelConsumer.does bind] in R. cbn [length] in M2. rewrite Nat.add_0_r, Nat.sub_0_r in M2. eapply IH; eassumption.
    + cbn [ModelConsumer.does w_own w_off w_len w_cap] in R. destruct (Nat.leb_spec (len + length (y :: xs)) cap) as [Q|Q]; [|cbn [length] in *; lia]. cbn [bind] in R. cbn [length] in *.
      apply (IH (len + S (length xs)) (left - S (length xs)) _ off cap) in R; [|lia|rewrite over_length; cbn [length]; lia|lia|exact M2]. rewrite R. apply over_keeps; cbn [length]; lia.
  - destruct M as [M1 M2]. cbn [ModelConsumer.does w_own w_off w_len w_cap] in R. destruct (Nat.leb_spec i j) as [Q1|Q1]; [|discriminate R]. destruct (Nat.leb_spec j cap) as [Q2|Q2]; [|discriminate R].
    cbn [andb bind] in R. apply (IH (j - i) (len + left - j) arr (off + i) (cap - i)) in R; [exact R|lia|exact L|lia|exact M2].
  - cbn [ModelConsumer.does w_own w_off w_len w_cap bind] in R. eapply (away_body n b) in R; [exact R|exact L|]. right. cbn. lia.
Qed.
End Bodies.

Section Turns.
Context {V T : Type}.
Variables (view : T -> model V) (zero : T) (ask : nat -> bytes -> list V -> option (list T)) (room : nat -> nat) (d : driver) (fwd : bool) (p : pager V).
(** A turn with a body, from the turn without: the array holds the page, the record that follows, and room *)
Lemma turn_related body v c n :
  match turn_at view zero ask d fwd p v c n with
  | (e, None) => turn_with view zero ask room d fwd p body v c n = (e, Ok None)
  | (e, Some x) => exists l spare, e = Page l /\ (length l = N.to_nat (p_limit p) -> (p_limit p < 65535)%N -> spare = 0) /\
      turn_with view zero ask room d fwd p body v c n =
        (Page l, let* st := run_body zero room (body l) (l ++ x :: repeat zero spare, {| w_own := None; w_off := 0; w_len := length l; w_cap := S (length l) + spare |}) in
                 Ok (Some (nth (length l) (fst st) zero)))
  end.
Proof.
  unfold turn_at, turn_with. destruct (if c then refetch T view (ask n) d v else Ok v) as [v0| |]; [|reflexivity..].
  destruct (page_stmt d fwd p (view v0) c) as [[text args]| |]; [|reflexivity..]. destruct (ask (S n) text args) as [data|]; [|reflexivity].
  destruct (N.leb_spec (uint16 (N.of_nat (length data))) (p_limit p)) as [Q|Q]; [reflexivity|].
  assert (ND : data <> []). { intros ->. cbn in Q. lia. }
  destruct (exists_last ND) as (l & x & ->). rewrite removelast_last, last_last. rewrite app_length. cbn [length]. replace (length l + 1 - 1) with (length l) by lia.
  exists l, (if Nat.leb (length (l ++ [x])) (N.to_nat (uint16 (p_limit p + 1))) then N.to_nat (uint16 (p_limit p + 1)) - length (l ++ [x]) else room (length (l ++ [x]))).
  split; [reflexivity|]. split.
  - intros E LT. assert (U : uint16 (p_limit p + 1) = (p_limit p + 1)%N) by (unfold uint16; apply N.mod_small; lia). rewrite U, app_length. cbn [length].
    destruct (Nat.leb_spec (length l + 1) (N.to_nat (p_limit p + 1))); lia.
  - rewrite firstn_app, Nat.sub_diag, firstn_all. cbn [firstn]. rewrite app_nil_r. unfold array_of. rewrite !app_length, repeat_length. cbn [length].
    rewrite <- app_assoc. cbn [app]. replace (length l + 1) with (S (length l)) by lia. reflexivity.
Qed.
Lemma modest_pages body k : modest_bodies body -> forall v c i n,
  pages_with view zero ask room d fwd p body v c n i k = pages_at view zero ask d fwd p v c n k \/
  exists j, 0 < j <= k /\ pages_with view zero ask room d fwd p body v c n i k = (firstn j (fst (pages_at view zero ask d fwd p v c n k)) ++ [Crash], true).
Proof.
  intros M. induction k as [|k IH]; intros v c i n; [left; reflexivity|].
  cbn [pages_with pages_at]. pose proof (turn_related (body i) v c n) as TR. destruct (turn_at view zero ask d fwd p v c n) as [e [x|]]; [|left; rewrite TR; reflexivity].
  destruct TR as (l & spare & -> & _ & ->).
  destruct (run_body zero room (body i l) _) as [st| |] eqn:R; cbn [bind].
  - assert (NX : nth (length l) (fst st) zero = x).
    { apply (modest_body zero room (length l) (body i l) (length l) 0) in R; [|lia|rewrite app_length; cbn; lia|lia|apply M]. rewrite R, app_nth2, Nat.sub_diag by lia. reflexivity. }
    rewrite NX. specialize (IH x true (S i) (S (S n))). destruct (pages_at view zero ask d fwd p x true (S (S n)) k) as [evs fin]. destruct IH as [IH|(j & J & IH)].
    + left. rewrite IH. reflexivity.
    + right. exists (S j). split; [lia|]. rewrite IH. reflexivity.
  - right. exists 1. split; [lia|]. destruct (pages_at _ _ _ _ _ _ _ _ _ _). reflexivity.
  - right. exists 1. split; [lia|]. destruct (pages_at _ _ _ _ _ _ _ _ _ _). reflexivity.
Qed.
(** Bodies that stay within their page: the consumer sees what it would see anyway, up to a panic of its own. *)
Theorem C98_modest_partial body v k : modest_bodies body ->
  iterate_with view zero ask room d fwd p body v k = iterate_at view zero ask d fwd p v k \/
  exists j, 0 < j <= k /\ iterate_with view zero ask room d fwd p body v k = (firstn j (fst (iterate_at view zero ask d fwd p v k)) ++ [Crash], true).
Proof.
  intros M. apply modest_pages, M.
Qed.
End Turns.

(** The iteration goes on from its next cursor *)
Lemma shifted {V T : Type} (view : T -> model V) zero ask room d fwd p body k : forall v c n j,
  pages_with view zero ask room d fwd p body v c (S (S n)) (S j) k = pages_with view zero (fun i => ask (S (S i))) room d fwd p (fun i => body (S i)) v c n j k.
Proof.
  induction k as [|k IH]; intros v c n j; [reflexivity|]. cbn [pages_with].
  change (turn_with view zero (fun i => ask (S (S i))) room d fwd p (body (S j)) v c n) with (turn_with view zero ask room d fwd p (body (S j)) v c (S (S n))).
  destruct (turn_with view zero ask room d fwd p (body (S j)) v c (S (S n))) as [e [[x|]| |]]; try reflexivity. rewrite IH. reflexivity.
Qed.

Section Tables.
Context {V T : Type}.
Variables (D : semantics V) (cells : T -> row V) (key : list bytes) (d : driver) (view : T -> model V) (q cols : list bytes) (items : list (expr V)).
Variables (ask : nat -> bytes -> list V -> option (list T)) (tables : nat -> list T) (zero : T) (room : nat -> nat) (p : pager V) (fwd : bool).
Hypothesis LAW : lawful D.
Hypothesis MT : models_table cells key d view q cols items.
Hypothesis KT : keyed_tables D cells key tables.
Hypothesis SV : forall n, serves D cells d q items (ask n) (tables n).
Hypothesis SHAPE : d = DPostgres \/ forall y, ~ composite (view y).
Hypothesis PW : unconditional p.
Hypothesis PO : p_order p = [].
Hypothesis SIZE : (page_size p < 65535)%N.
Notation size := (N.to_nat (page_size p)).
Notation has := (has D cells key).
Let L0 : (0 < p_limit (paginate p) < 65535)%N.
Proof. rewrite paginate_limit. split; [|exact SIZE]. unfold page_size. destruct (N.eqb_spec (p_limit p) 0); lia. Qed.
Let PW' : match p_where (paginate p) with Some w => writes_nothing w | None => True end.
Proof. rewrite paginate_where. exact PW. Qed.
Let PO' : p_order (paginate p) = [].
Proof. rewrite paginate_order. exact PO. Qed.
(** Loop bodies that stay within their page and do not panic: all that C94 says holds, whatever they write into the page.
    Missing: a record appended to the page (refuted below); and what is missing at C94. *)
Theorem C98_fair_partial body v k : modest_bodies body -> ~ In Crash (fst (iterate_with view zero ask room d fwd (paginate p) body v k)) ->
  fair_paging D cells key fwd tables v (fst (iterate_with view zero ask room d fwd (paginate p) body v k)) (snd (iterate_with view zero ask room d fwd (paginate p) body v k)).
Proof.
  intros M NC. destruct (C98_modest_partial view zero ask room d fwd (paginate p) body v k M) as [E|(j & _ & E)].
  - rewrite E. exact (C94_moving_partial D cells key d view q cols items ask tables zero p fwd LAW MT KT SV SHAPE PW PO SIZE v k).
  - exfalso. apply NC. rewrite E. cbn [fst]. apply in_or_app. right. left. reflexivity.
Qed.
Lemma first_turn v : has (tables 0) v -> size < length (filter (reached D cells key fwd v) (tables 1)) ->
  exists l c, length l = size /\ In c (tables 1) /\ reached D cells key fwd v c = true /\ (forall z, In z l -> passed D cells key fwd z c) /\ turn_at view zero ask d fwd (paginate p) v true 0 = (Page l, Some c).
Proof.
  intros HV MORE. destruct (turned_page D cells key d view q cols items ask tables zero fwd (paginate p) LAW MT KT SV SHAPE PW' PO' L0 0 v HV) as (l & P & SS & E). rewrite paginate_limit in E. rewrite <- (Permutation_length P) in MORE.
  destruct (Nat.leb_spec (length l) size) as [LE|GT]; [lia|]. exists (firstn size l), (nth size l zero).
  assert (IN : In (nth size l zero) l) by (apply nth_In; exact GT). split; [rewrite firstn_length; lia|]. pose proof (Permutation_in _ P IN) as IF. apply filter_In in IF as [I1 I2]. split; [exact I1|]. split; [exact I2|]. split; [|exact E].
  intros z I. clear -SS I GT. revert GT I. generalize size. induction SS as [|a l S' IH F]; intros m GT I; [inversion GT|]. destruct m as [|m]; [destruct I|]. cbn [firstn nth] in *. cbn [length] in GT. destruct I as [<-|I]; [rewrite Forall_forall in F; apply F, nth_In; lia|apply IH; [lia|exact I]].
Qed.
Definition goes_on (body : nat -> list T -> list (ModelConsumer.step T)) (x : T) (k : nat) : list (event T) * bool :=
  iterate_with view zero (fun n => ask (S (S n))) room d fwd (paginate p) (fun j => body (S j)) x k.
(** The body appends a record to its page, as in page = append(page, x): the next page is the one that starts at that record, for any record, instead of the one that starts at the row after the page. *)
Theorem C98_append_refuted v : has (tables 0) v -> size < length (filter (reached D cells key fwd v) (tables 1)) ->
  exists l, length l = size /\ forall body x k, body 0 l = [Appends [x]] ->
  iterate_with view zero ask room d fwd (paginate p) body v (S k) = (Page l :: fst (goes_on body x k), snd (goes_on body x k)).
Proof.
  intros HV MORE. destruct (first_turn v HV MORE) as (l & c & LL & _ & _ & _ & E). exists l. split; [exact LL|]. intros body x k BO.
  unfold iterate_with. cbn [pages_with]. pose proof (turn_related view zero ask room d fwd (paginate p) (body 0) v true 0) as TR. rewrite E in TR. destruct TR as (l' & spare & EL & _ & ->). injection EL as <-.
  rewrite BO. cbn [run_body does w_own w_off w_len w_cap length bind fst]. destruct (Nat.leb_spec (length l + 1) (S (length l) + spare)) as [Q|Q]; [|lia]. cbn [bind fst].
  assert (NX : nth (length l) (ModelConsumer.over (l ++ c :: repeat zero spare) (0 + length l) [x]) zero = x) by (apply (over_at zero room (l ++ c :: repeat zero spare)); rewrite app_length; cbn [length]; lia). rewrite NX. rewrite shifted. unfold goes_on, iterate_with. destruct (pages_with _ _ _ _ _ _ _ _ x _ _ _ _). reflexivity.
Qed.
(** It appends none, or two and more: the iteration goes on at the row after the page. *)
Theorem C98_append_partial v : has (tables 0) v -> size < length (filter (reached D cells key fwd v) (tables 1)) ->
  exists l c, length l = size /\ In c (tables 1) /\ reached D cells key fwd v c = true /\ (forall z, In z l -> passed D cells key fwd z c) /\ forall body xs k, body 0 l = [Appends xs] -> length xs <> 1 ->
  iterate_with view zero ask room d fwd (paginate p) body v (S k) = (Page l :: fst (goes_on body c k), snd (goes_on body c k)).
Proof.
  intros HV MORE. destruct (first_turn v HV MORE) as (l & c & LL & C1 & C2 & C3 & E). exists l, c. do 4 (split; [assumption|]). intros body xs k BO NX.
  unfold iterate_with. cbn [pages_with]. pose proof (turn_related view zero ask room d fwd (paginate p) (body 0) v true 0) as TR. rewrite E in TR. destruct TR as (l' & spare & EL & SP & ->). injection EL as <-.
  rewrite SP by (rewrite paginate_limit; assumption).
  assert (NC : nth (length l) (l ++ c :: repeat zero 0) zero = c) by (rewrite app_nth2, Nat.sub_diag by lia; reflexivity).
  rewrite BO. destruct xs as [|x1 [|x2 xs]]; [|contradiction NX; reflexivity|]; cbn [run_body does w_own w_off w_len w_cap bind fst].
  - rewrite NC, shifted. unfold goes_on, iterate_with. destruct (pages_with _ _ _ _ _ _ _ _ c _ _ _ _). reflexivity.
  - destruct (Nat.leb_spec (length l + length (x1 :: x2 :: xs)) (S (length l) + 0)) as [Q|Q]; [cbn [length] in Q; lia|]. cbn [bind fst].
    rewrite NC, shifted. unfold goes_on, iterate_with. destruct (pages_with _ _ _ _ _ _ _ _ c _ _ _ _). reflexivity.
Qed.
End Tables.

Section Static.
Context {V T : Type}.
Variables (D : semantics V) (cells : T -> row V) (key : list bytes) (d : driver) (view : T -> model V) (q cols : list bytes) (items : list (expr V)).
Variables (ask : bytes -> list V -> option (list T)) (table : list T) (zero : T) (room : nat -> nat) (p : pager V) (fwd : bool).
Hypothesis LAW : lawful D.
Hypothesis MT : models_table cells key d view q cols items.
Hypothesis KT : keyed_tables D cells key (fun _ => table).
Hypothesis SV : serves D cells d q items ask table.
Hypothesis SHAPE : d = DPostgres \/ forall y, ~ composite (view y).
Hypothesis PW : unconditional p.
Hypothesis PO : p_order p = [].
Hypothesis SIZE : (page_size p < 65535)%N.
Notation size := (N.to_nat (page_size p)).
Notation has := (has D cells key).
(** A loop whose body appends the first record of its page to the page never ends: it sees the same page for ever. *)
Theorem C98_endless_refuted v : has table v -> size < length (filter (reached D cells key fwd v) table) ->
  exists l, length l = size /\ forall body k, (forall j page, body j page = [Appends (firstn 1 page)]) ->
  iterate_with view zero (fun _ => ask) room d fwd (paginate p) body v k = (repeat (Page l) k, false).
Proof.
  intros HV MORE.
  assert (L0 : (0 < p_limit (paginate p) < 65535)%N). { rewrite paginate_limit. split; [|exact SIZE]. unfold page_size. destruct (N.eqb_spec (p_limit p) 0); lia. }
  assert (PW' : match p_where (paginate p) with Some w => writes_nothing w | None => True end) by (rewrite paginate_where; exact PW).
  assert (PO' : p_order (paginate p) = []) by (rewrite paginate_order; exact PO).
  destruct (turned_page D cells key d view q cols items (fun _ => ask) (fun _ => table) zero fwd (paginate p) LAW MT KT (fun _ => SV) SHAPE PW' PO' L0 0 v HV) as (l & P & SS & E).
  rewrite paginate_limit in E. cbv beta in P. rewrite <- (Permutation_length P) in MORE. destruct (Nat.leb_spec (length l) size) as [LE|GT]; [lia|].
  exists (firstn size l). split; [rewrite firstn_length; lia|]. intros body k BO.
  destruct size as [|s] eqn:ES. { rewrite paginate_limit in L0. lia. }
  destruct l as [|h l]; [inversion GT|]. destruct HV as (y & IY & EY). unfold same_key in EY.
  assert (IYL : In y (h :: l)). { apply (Permutation_in _ (Permutation_sym P)), filter_In. split; [exact IY|]. unfold reached. rewrite EY. reflexivity. }
  assert (IH : In h table /\ reached D cells key fwd v h = true). { apply filter_In. apply (Permutation_in _ P). left. reflexivity. }
  destruct IH as [IH RH].
  assert (Y : y = h). { destruct IYL as [->|I]; [reflexivity|]. exfalso. inversion SS as [|a b S' F]. subst. rewrite Forall_forall in F. specialize (F y I).
    rewrite (reached_eq D cells key fwd LAW v y h EY) in RH. pose proof (passed_reached D cells key fwd LAW h y h F RH) as HH. unfold passed in HH. pose proof (swap D cells key LAW _ _ _ HH) as HH'. rewrite HH in HH'. destruct fwd; discriminate HH'. }
  subst y.
  assert (RV : refetch T view ask d v = Ok h) by exact (refetched D cells key d view q cols items ask table LAW MT (proj1 KT 0) SV v h IH EY).
  assert (EH : key_cmp D cells key h h = Some Eq) by (rewrite <- (equal_left D cells key LAW v h h EY); exact EY).
  assert (RW : refetch T view ask d h = Ok h) by exact (refetched D cells key d view q cols items ask table LAW MT (proj1 KT 0) SV h h IH EH).
  assert (TURN : forall w n, w = v \/ w = h -> turn_at view zero (fun _ => ask) d fwd (paginate p) w true n = (Page (firstn (S s) (h :: l)), Some (nth (S s) (h :: l) zero))).
  { intros w n W. rewrite <- E. unfold turn_at. rewrite RV. destruct W as [->| ->]; [rewrite RV|rewrite RW]; reflexivity. }
  unfold iterate_with. assert (G : forall w n j, w = v \/ w = h -> pages_with view zero (fun _ => ask) room d fwd (paginate p) body w true n j k = (repeat (Page (firstn (S s) (h :: l))) k, false)); [|apply G; auto].
  induction k as [|k IHk]; intros w n j W; [reflexivity|]. cbn [pages_with repeat].
  pose proof (turn_related view zero (fun _ => ask) room d fwd (paginate p) (body j) w true n) as TR. rewrite (TURN w n W) in TR. destruct TR as (l' & spare & EL & _ & ->). injection EL as <-.
  rewrite BO. cbn [firstn]. set (pg := h :: firstn s l). set (c := nth (S s) (h :: l) zero).
  cbn [run_body does w_own w_off w_len w_cap length bind fst]. change (S (length (firstn s l))) with (length pg). destruct (Nat.leb_spec (length pg + 1) (S (length pg) + spare)) as [Q|Q]; [|lia]. cbn [bind fst].
  assert (NX : nth (length pg) (ModelConsumer.over (pg ++ c :: repeat zero spare) (0 + length pg) [h]) zero = h) by (apply (over_at zero room (pg ++ c :: repeat zero spare)); rewrite app_length; cbn [length]; lia).
  rewrite NX. rewrite (IHk h _ _ (or_intror eq_refl)). reflexivity.
Qed.
End Static.

(** *** Generated models *)
Section GeneratedConsumer.
Context {V T : Type}.
Variables (printable : N -> bool) (rename : bytes -> bytes) (wrap unwrap : gotype -> bytes * bytes).
Variables (sname : bytes) (ro : bool) (fs : list sfield) (t : table).
Hypothesis BUILT : build_table rename wrap unwrap sname ro fs = Ok t.
Variables (d : driver) (on : bool) (db : option bytes) (tn : bytes) (sqlc dup omit : option (list bytes)).
Variables (ins find upd : (column -> V) -> option (request V)) (q : list bytes) (items : list (expr V)).
Hypothesis U : usable d on t db tn sqlc q items.
Hypothesis HASKEY : key_of t <> [].
Hypothesis BARE : bare_keys V d t.
Hypothesis FIND : (forall val, find val = None) \/ generated_find printable t d find q items.
Variables (rec : T -> bytes -> V) (cells : T -> row V).
Hypothesis CELLS : forall x k, In k (t_columns t) -> cells x (c_name k) = rec x (c_gopath k).
Notation viewed := (viewed printable t d on db tn sqlc dup omit ins find upd rec).
Notation key_names := (key_names t).
Variables (D : semantics V) (ask : nat -> bytes -> list V -> option (list T)) (tables : nat -> list T) (zero : T) (p : pager V).
Hypothesis LAW : lawful D.
Hypothesis KT : keyed_tables D cells key_names tables.
Hypothesis SV : forall n, serves D cells d q items (ask n) (tables n).
(** The same for the models that the generator writes. *)
Theorem C98_generated_partial room body fwd v k : d = DPostgres \/ length (key_of t) < 2 -> unconditional p -> p_order p = [] -> (page_size p < 65535)%N ->
  modest_bodies body -> ~ In Crash (fst (iterate_with viewed zero ask room d fwd (paginate p) body v k)) ->
  fair_paging D cells key_names fwd tables v (fst (iterate_with viewed zero ask room d fwd (paginate p) body v k)) (snd (iterate_with viewed zero ask room d fwd (paginate p) body v k)).
Proof.
  intros H PW PO SZ M NC. destruct (C98_modest_partial viewed zero ask room d fwd (paginate p) body v k M) as [E|(j & _ & E)].
  - rewrite E. exact (C94_generated_partial printable rename wrap unwrap sname ro fs t BUILT d on db tn sqlc dup omit ins find upd q items U HASKEY BARE FIND rec cells CELLS D ask tables zero p LAW KT SV fwd v k H PW PO SZ).
  - exfalso. apply NC. rewrite E. cbn [fst]. apply in_or_app. right. left. reflexivity.
Qed.
End GeneratedConsumer.

(** The table of C35_case: 3 1 7 2 5 4 6 in pages of two, from 2 on *)
Definition co_ask (d : driver) := query nat_db num_cells d [3; 1; 7; 2; 5; 4; 6].
Definition room1 (n : nat) : nat := n.
(** The body overwrites the records of its page, empties it and appends: the pages are those of C35; it appends one record: the pages start there, rows are left out or come again *)
Example C98_case : forall d,
  iterate_with (num_view d) 0 (fun _ => co_ask d) room1 d true (paginate (num_pager 2)) (fun _ _ => [Assigns 0 9; Cuts 0 0; Appends [8; 8]; Clips; Appends [7]]) 2 9 =
    ([Page [2; 3]; Page [4; 5]; Page [6; 7]], true) /\
  iterate_with (num_view d) 0 (fun _ => co_ask d) room1 d true (paginate (num_pager 2)) (fun _ page => [Appends (match page with [2; _] => [6] | _ => [] end)]) 2 9 = ([Page [2; 3]; Page [6; 7]], true) /\
  iterate_with (num_view d) 0 (fun _ => co_ask d) room1 d true (paginate (num_pager 2)) (fun _ page => [Appends (firstn 1 page)]) 2 5 = (repeat (Page [2; 3]) 5, false) /\
  iterate_with (num_view d) 0 (fun _ => co_ask d) room1 d true (paginate (num_pager 2)) (fun _ _ => [Appends [1; 1]]) 2 9 = ([Page [2; 3]; Page [4; 5]; Page [6; 7]], true) /\
  iterate_with (num_view d) 0 (fun _ => co_ask d) room1 d true (paginate (num_pager 2)) (fun j _ => [Assigns j 1]) 2 9 = ([Page [2; 3]; Page [4; 5]; Page [6; 7]], true).
Proof. intros []; vm_compute; repeat split; reflexivity. Qed.
Example C98_modest_case : modest_bodies (fun _ page => [Assigns 0 9; Cuts 0 (length page); Cuts 0 0; Appends (firstn (length page) [8; 8]); Clips; Appends [7]]).
Proof. intros j page. cbn. repeat split; auto; rewrite ?firstn_length; lia. Qed.
Example C98_hypotheses : forall d, keyed_tables nat_db num_cells (key_names t_one) (fun _ => [3; 1; 7; 2; 5; 4; 6]) /\ serves nat_db num_cells d [B "users"] num_items (co_ask d) [3; 1; 7; 2; 5; 4; 6] /\
  has nat_db num_cells (key_names t_one) [3; 1; 7; 2; 5; 4; 6] 2 /\ 2 < length (filter (reached nat_db num_cells (key_names t_one) true 2) [3; 1; 7; 2; 5; 4; 6]).
Proof.
  intros d. split; [|split; [apply query_serves, nat_good|split; [exists 2; split; [cbn; auto|reflexivity]|vm_compute; auto 20]]]. split.
  - intros n. split; [repeat constructor; cbn; intuition discriminate|]. split; intros x y _ _; unfold key_cmp; cbn; [destruct (Nat.compare x y); discriminate|destruct (Nat.compare_spec x y); congruence].
  - intros i j x y _ _. unfold key_cmp. cbn. destruct (Nat.compare x y); discriminate.
Qed.
Print Assumptions C98_modest_partial.
Print Assumptions C98_fair_partial.
Print Assumptions C98_append_refuted.
Print Assumptions C98_append_partial.
Print Assumptions C98_endless_refuted.
Print Assumptions C98_generated_partial.
