(** C48: patterns with a star for the files of a folder, and patterns with characters that mean something in regular expressions. *)
From Coq Require Import List Bool NArith Lia.
From Verif Require Import Base ModelCompiler ModelPaths SpecParser LemmasBase LemmasTag PropPaths.
Import ListNotations.

(** ** The files of a folder: /a/b/*.go *)
(** Names that the expression for a star knows: a letter, then at least one of letters, digits, - _ and the dot *)
Definition known (s : bytes) : Prop := exists c r, s = c :: r /\ r <> [] /\ is_alpha c = true /\ Forall (fun x => is_alnum x = true \/ In x (B "-_.")) r.
Lemma known_iff s : glob_segment s = true <-> known s.
Proof.
  unfold glob_segment, known. destruct s as [|c [|x r]].
  - split; [discriminate|intros (? & ? & ? & _); discriminate].
  - split; [discriminate|intros (a & b & E & N & _); injection E as <- <-; contradiction].
  - rewrite andb_true_iff, forallb_forall. split.
    + intros [A F]. exists c, (x :: r). split; [reflexivity|]. split; [discriminate|]. split; [exact A|]. apply Forall_forall. intros y I. specialize (F y I). unfold seg_char in F. rewrite !orb_true_iff in F. cbn. unfold beq in F. rewrite !Ascii.eqb_eq in F. destruct F as [[[F|F]|F]|F]; auto.
    + intros (a & b & E & _ & A & F). injection E as <- <-. split; [exact A|]. intros y I. rewrite Forall_forall in F. specialize (F y I). unfold seg_char. rewrite !orb_true_iff. cbn in F. unfold beq. rewrite !Ascii.eqb_eq. destruct F as [F|[F|[F|[F|[]]]]]; auto.
Qed.
Lemma split_star segs : Forall (fun p => ~ In "/"%char p) segs -> forall p, ~ In "/"%char p -> split_on "/" (p ++ slashed segs ++ B "/*.go") = p :: segs ++ [B "*.go"].
Proof.
  intros F. induction F as [|q segs N F IH]; intros p NP.
  - cbn [slashed map concat app]. change (p ++ B "/*.go") with (p ++ "/"%char :: B "*.go"). rewrite split_on_part by exact NP. reflexivity.
  - change (slashed (q :: segs)) with ("/"%char :: q ++ slashed segs). cbn [app]. rewrite <- app_assoc. rewrite split_on_part by exact NP. rewrite (IH q N). reflexivity.
Qed.
Lemma segments_known segs : Forall known segs -> glob_segments (segs ++ [B "*.go"]) = (concat (map (fun s => s ++ B "/") segs), [B "*.go"]).
Proof.
  induction 1 as [|s segs K F IH]; [reflexivity|]. cbn [app map concat]. destruct (segs ++ [B "*.go"]) as [|q r] eqn:E; [destruct segs; discriminate|].
  change (glob_segments (s :: q :: r)) with (if glob_segment s then let '(a, rest) := glob_segments (q :: r) in (s ++ "/"%char :: a, rest) else ([], s :: q :: r)).
  rewrite (proj2 (known_iff s) K), IH. rewrite <- app_assoc. reflexivity.
Qed.
Lemma segments_stop segs : ~ Forall known segs -> exists s, In s segs /\ exists a rest, glob_segments (segs ++ [B "*.go"]) = (a, s :: rest).
Proof.
  induction segs as [|s segs IH]; intros N; [exfalso; apply N; constructor|]. cbn [app]. destruct (segs ++ [B "*.go"]) as [|q r] eqn:E; [destruct segs; discriminate|].
  change (glob_segments (s :: q :: r)) with (if glob_segment s then let '(a, rest) := glob_segments (q :: r) in (s ++ "/"%char :: a, rest) else ([], s :: q :: r)).
  destruct (glob_segment s) eqn:G.
  - apply known_iff in G. assert (N' : ~ Forall known segs) by (intros F; apply N; constructor; assumption). destruct (IH N') as (x & I & a & rest & H). rewrite H. exists x. split; [right; exact I|]. eauto.
  - exists s. split; [left; reflexivity|]. eauto.
Qed.
Lemma tail_starless p : starless p -> glob_tail p = false.
Proof.
  intros N. unfold glob_tail. destruct (skip_words p) as [|x r] eqn:E; [reflexivity|]. destruct (beq x "*") eqn:EX; [|reflexivity]. exfalso. apply Ascii.eqb_eq in EX as ->. apply N. apply skip_words_sub. rewrite E. left. reflexivity.
Qed.
Lemma root_skip p r : ~ In "/"%char p -> glob_root (p ++ r) = glob_root r.
Proof. induction p as [|c p IH]; intros N; [reflexivity|]. cbn [app glob_root]. destruct (beq c "/") eqn:E; [apply Ascii.eqb_eq in E as ->; exfalso; apply N; left; reflexivity|]. apply IH. intros I. apply N. right. exact I. Qed.
(** The folder is found only behind the last name that is not known. *)
Lemma root_of pre bad segs : Forall (fun p => ~ In "/"%char p /\ starless p) (pre ++ bad :: segs) -> ~ known bad -> Forall known segs -> glob_root (slashed (pre ++ bad :: segs) ++ B "/*.go") = Some ("/"%char :: concat (map (fun s => s ++ B "/") segs)).
Proof.
  intros F NB K.
  assert (ALL : forall l, Forall (fun p => ~ In "/"%char p /\ starless p) l -> Forall known l -> glob_root (slashed l ++ B "/*.go") = Some ("/"%char :: concat (map (fun s => s ++ B "/") l))).
  { intros l Fl Kl. destruct Fl as [|p l [N1 N2] Fl]; [reflexivity|]. change (slashed (p :: l)) with ("/"%char :: p ++ slashed l). cbn [app glob_root]. change (beq "/" "/") with true. cbv iota. rewrite <- app_assoc.
    rewrite (split_star l ltac:(eapply Forall_impl; [|exact Fl]; intros q [Q _]; exact Q) p N1). change (p :: l ++ [B "*.go"]) with ((p :: l) ++ [B "*.go"]). rewrite (segments_known (p :: l) Kl). reflexivity. }
  assert (STEP : forall p l, Forall (fun p => ~ In "/"%char p /\ starless p) (p :: l) -> ~ Forall known (p :: l) -> glob_root (slashed (p :: l) ++ B "/*.go") = glob_root (slashed l ++ B "/*.go")).
  { intros p l Fl NK. pose proof (segments_stop (p :: l) NK) as (s & I & a & rest & H). assert (NS : starless s) by (rewrite Forall_forall in Fl; apply (Fl s I)). inversion Fl as [|? ? [N1 _] Fl']; subst. change (slashed (p :: l)) with ("/"%char :: p ++ slashed l). cbn [app glob_root]. change (beq "/" "/") with true. cbv iota. rewrite <- app_assoc.
    rewrite (split_star l ltac:(eapply Forall_impl; [|exact Fl']; intros q [Q _]; exact Q) p N1). change (p :: l ++ [B "*.go"]) with ((p :: l) ++ [B "*.go"]). rewrite H, (tail_starless s NS). apply root_skip, N1. }
  induction pre as [|p pre IH]; cbn [app] in *.
  - rewrite STEP; [|exact F|intros X; inversion X; contradiction]. apply ALL; [inversion F; assumption|exact K].
  - rewrite STEP; [|exact F|intros X; inversion X as [|? ? _ Y]; apply Forall_app in Y as [_ Y]; inversion Y; contradiction]. apply IH. inversion F; assumption.
Qed.
Lemma root_known segs : Forall (fun p => ~ In "/"%char p /\ starless p) segs -> Forall known segs -> glob_root (slashed segs ++ B "/*.go") = Some ("/"%char :: concat (map (fun s => s ++ B "/") segs)).
Proof.
  intros Fl Kl. destruct Fl as [|p l [N1 N2] Fl]; [reflexivity|]. change (slashed (p :: l)) with ("/"%char :: p ++ slashed l). cbn [app glob_root]. change (beq "/" "/") with true. cbv iota. rewrite <- app_assoc.
  rewrite (split_star l ltac:(eapply Forall_impl; [|exact Fl]; intros q [Q _]; exact Q) p N1). change (p :: l ++ [B "*.go"]) with ((p :: l) ++ [B "*.go"]). rewrite (segments_known (p :: l) Kl). reflexivity.
Qed.
Lemma star_once s : starless s -> cut_stars (s ++ B "/*.go") = None.
Proof.
  induction s as [|c s IH]; intros N; [reflexivity|]. cbn [app cut_stars]. replace (has_prefix (c :: s ++ B "/*.go") (B "**")) with false; [rewrite IH by (intros I; apply N; right; exact I); reflexivity|].
  symmetry. apply not_true_iff_false. intros E. apply has_prefix_spec in E as [r E]. injection E as -> _. apply N. left. reflexivity.
Qed.
Lemma tame_starless s : Forall tame s -> starless s.
Proof. intros F I. rewrite Forall_forall in F. destruct (F _ I) as [N _]. apply N. cbn. tauto. Qed.
Lemma path2regex_app a b : path2regex (a ++ b) = path2regex a ++ path2regex b.
Proof. unfold path2regex. rewrite map_app, concat_app. reflexivity. Qed.
Definition in_folder : rx := Cat (One (fun x => false || beq x backslash || beq x "/")) (Cat (Star (One (fun x => negb (beq x LF)))) (Cat (One (beq ".")) (Cat (One (beq "g")) (Cat (One (beq "o")) Eps)))).
Lemma compile_star s : Forall tame s -> compile (path2regex (s ++ B "/*.go")) = Ok (literal s in_folder).
Proof.
  intros F. rewrite path2regex_app. unfold compile. set (rest := path2regex (B "/*.go")).
  assert (L : exists k, S (length (path2regex s ++ rest)) = (length s + (10 + k))%nat).
  { pose proof (path2regex_length s) as P. rewrite app_length. assert (X : (9 <= length rest)%nat) by (vm_compute; repeat constructor). exists (S (length (path2regex s) + length rest) - length s - 10)%nat. lia. }
  destruct L as [k ->]. rewrite compile_literal; [|exact F|reflexivity]. reflexivity.
Qed.
Lemma slashed_tail segs : "/"%char :: concat (map (fun s => s ++ B "/") segs) = slashed segs ++ B "/".
Proof. induction segs as [|s segs IH]; [reflexivity|]. change (slashed (s :: segs)) with ("/"%char :: s ++ slashed segs). cbn [map concat app]. rewrite <- !app_assoc. f_equal. f_equal. exact IH. Qed.
Lemma trim_tail s : trim_slash (s ++ B "/") = s.
Proof. unfold trim_slash, last_is. rewrite rev_app_distr. change (rev (B "/")) with ["/"%char]. cbn [app]. change (beq "/" "/") with true. cbv iota. apply removelast_last. Qed.
(** A star for the files of a folder whose names are all known: exactly the Go files of the folder *)
Theorem C48_star_partial d skip segs : sound d -> segs <> [] -> In segs (dirs d) -> Forall tame (slashed segs) -> Forall known segs ->
  (forall name, In (segs, name) (files d) -> exists base, name = base ++ B ".go" /\ ~ In LF base) ->
  exists l, selected d skip (slashed segs ++ B "/*.go") = Ok l /\ forall f, In f l <-> In f (files d) /\ fst f = segs /\ ~ In segs skip.
Proof.
  intros [S1 S2] NE I T K GO. pose proof (S1 segs I) as SG. unfold selected, plan. rewrite (star_once _ (tame_starless _ T)).
  assert (FS : Forall (fun p => ~ In "/"%char p /\ starless p) segs). { apply Forall_forall. intros p Ip. rewrite Forall_forall in SG. split; [apply (SG p Ip)|]. intros X. apply (tame_starless _ T). unfold slashed. apply in_concat. exists ("/"%char :: p). split; [apply (in_map (fun s => "/"%char :: s)), Ip|right; exact X]. }
  rewrite (root_known segs FS K), (compile_star _ T). cbn [bind]. rewrite slashed_tail, trim_tail. destruct (slashed segs) as [|c0 s0] eqn:ES; [destruct segs; [contradiction|discriminate]|]. rewrite <- ES in *. rewrite (clean_spells (slashed segs) segs (spells_slashed segs NE SG)).
  eexists. split; [reflexivity|]. intros [dir name]. rewrite filter_In. cbn [fst snd]. rewrite !andb_true_iff, negb_true_iff, existsb_segs. split.
  - intros (If & [[[<-|[]] NS] _]). split; [exact If|]. split; [reflexivity|]. intros X. apply existsb_segs in X. congruence.
  - intros (If & -> & NS). split; [exact If|]. split; [split; [left; reflexivity|apply not_true_iff_false; intros X; apply existsb_segs in X; contradiction]|]. cbn [matches]. apply match_whole. destruct (GO name If) as (base & -> & NL).
    rewrite text_of_snoc, slashed_app. apply lang_literal. change (slashed [base ++ B ".go"]) with ("/"%char :: (base ++ B ".go") ++ []). rewrite app_nil_r.
    apply (l_cat _ _ ["/"%char] (base ++ B ".go")); [constructor; reflexivity|]. apply l_cat; [apply lang_star, Forall_forall; intros c Ic; apply negb_true_iff, not_true_iff_false; intros X; apply Ascii.eqb_eq in X as ->; contradiction|].
    apply (l_cat _ _ ["."%char] (B "go")); [constructor; reflexivity|]. apply (l_cat _ _ ["g"%char] (B "o")); [constructor; reflexivity|]. apply (l_cat _ _ ["o"%char] []); [constructor; reflexivity|constructor].
Qed.
(** A folder whose name is not known (one letter, or beginning with a digit): nothing is selected. *)
Theorem C48_star_refuted d skip pre bad : Forall tame (slashed (pre ++ [bad])) -> Forall segment (pre ++ [bad]) -> ~ known bad -> selected d skip (slashed (pre ++ [bad]) ++ B "/*.go") = Ok [].
Proof.
  intros T SG NB. unfold selected, plan. rewrite (star_once _ (tame_starless _ T)).
  assert (FS : Forall (fun p => ~ In "/"%char p /\ starless p) (pre ++ [bad])). { apply Forall_forall. intros p Ip. rewrite Forall_forall in SG. split; [apply (SG p Ip)|]. intros X. apply (tame_starless _ T). unfold slashed. apply in_concat. exists ("/"%char :: p). split; [apply (in_map (fun s => "/"%char :: s)), Ip|right; exact X]. }
  rewrite (root_of pre bad [] FS NB (Forall_nil _)), (compile_star _ T). cbn [bind map concat]. change (trim_slash ["/"%char]) with (@nil byte). cbv iota. cbn [existsb]. f_equal. induction (files d) as [|f fs IH]; [reflexivity|exact IH].
Qed.
(** A name that is not known in the middle: the files of another folder are looked at, the one with the names behind it. *)
Theorem C48_star_elsewhere_refuted d skip pre bad segs l f : Forall tame (slashed (pre ++ bad :: segs)) -> Forall segment (pre ++ bad :: segs) -> ~ known bad -> Forall known segs ->
  selected d skip (slashed (pre ++ bad :: segs) ++ B "/*.go") = Ok l -> In f l -> fst f = segs /\ fst f <> pre ++ bad :: segs.
Proof.
  intros T SG NB K. unfold selected, plan. rewrite (star_once _ (tame_starless _ T)).
  assert (FS : Forall (fun p => ~ In "/"%char p /\ starless p) (pre ++ bad :: segs)). { apply Forall_forall. intros p Ip. rewrite Forall_forall in SG. split; [apply (SG p Ip)|]. intros X. apply (tame_starless _ T). unfold slashed. apply in_concat. exists ("/"%char :: p). split; [apply (in_map (fun s => "/"%char :: s)), Ip|right; exact X]. }
  rewrite (root_of pre bad segs FS NB K), (compile_star _ T). cbn [bind]. rewrite slashed_tail, trim_tail. intros E If. injection E as <-. apply filter_In in If as [_ If]. rewrite !andb_true_iff in If. destruct If as [[If _] _]. apply existsb_segs in If.
  assert (EQ : fst f = segs). { destruct (slashed segs) as [|c0 s0] eqn:ES; [destruct If|]. rewrite <- ES in If. destruct If as [<-|[]]. apply clean_spells, spells_slashed; [destruct segs; discriminate|]. apply Forall_app in SG as [_ SG]. inversion SG; assumption. }
  split; [exact EQ|]. rewrite EQ. intros X. apply (f_equal (@length _)) in X. rewrite app_length in X. cbn [length] in X. lia.
Qed.

(** ** Characters that mean something in regular expressions *)
(** Two plus signs behind a name: the generator panics, whatever follows. *)
Lemma repeat_twice c rest k : tame c -> compile_seq (S k) (path2regex [c] ++ B "++" ++ rest) = Panic.
Proof.
  intros T. destruct (tame_cases c T) as (SP & R1 & L1 & P1 & P2 & B1 & S1). unfold path2regex. cbn [map concat]. rewrite S1, B1, app_nil_r. destruct (beq c ".") eqn:D; [reflexivity|]. destruct (beq c "/") eqn:SL; [reflexivity|].
  cbn [app compile_seq]. rewrite P2, SP, R1, D, L1, P1, B1. reflexivity.
Qed.
Lemma compile_panics s c rest : Forall tame s -> tame c -> compile (path2regex (s ++ [c]) ++ B "++" ++ rest) = Panic.
Proof.
  intros F T. rewrite path2regex_app, <- app_assoc. set (r := path2regex [c] ++ B "++" ++ rest). unfold compile.
  assert (L : exists k, S (length (path2regex s ++ r)) = (length s + S k)%nat).
  { pose proof (path2regex_length s) as P. rewrite app_length. exists (length (path2regex s) + length r - length s)%nat. lia. }
  destruct L as [k ->]. rewrite compile_literal; [|exact F|].
  - unfold r. rewrite (repeat_twice c rest k T). reflexivity.
  - unfold r. destruct (tame_cases c T) as (_ & R1 & _ & _ & _ & BS & S1). unfold path2regex. cbn [map concat]. rewrite S1, BS, app_nil_r. destruct (beq c "."); [reflexivity|]. destruct (beq c "/"); [reflexivity|]. exact R1.
Qed.
Lemma last_char (s : bytes) : s <> [] -> exists a c, s = a ++ [c].
Proof. intros N. destruct (exists_last N) as (a & c & E). eauto. Qed.
(** A folder whose path ends in two plus signs (such as c++) *)
Theorem C48_panic_refuted d skip segs : segs <> [] -> Forall tame (slashed segs) -> selected d skip (slashed segs ++ B "++/*.go") = Panic /\ selected d skip (slashed segs ++ B "++/**/*.go") = Panic.
Proof.
  intros NE T. assert (NS : slashed segs <> []) by (destruct segs; [contradiction|discriminate]). destruct (last_char _ NS) as (a & c & E). rewrite E in T. apply Forall_app in T as [Ta Tc]. inversion Tc as [|? ? Tc' _]; subst.
  assert (ST : starless (slashed segs ++ B "++")). { intros I. apply in_app_or in I as [I|I]; [|cbn in I; intuition discriminate]. revert I. apply tame_starless. rewrite E. apply Forall_app. split; [exact Ta|constructor; [exact Tc'|constructor]]. }
  split; unfold selected, plan.
  - change (B "++/*.go") with (B "++" ++ B "/*.go"). rewrite app_assoc. rewrite (star_once _ ST).
    assert (G : forall s, starless s -> exists m, glob_root (s ++ B "/*.go") = Some m).
    { clear. induction s as [|x s IH]; intros N; [exists (B "/"); reflexivity|]. cbn [app glob_root]. assert (N' : starless s) by (intros I; apply N; right; exact I). specialize (IH N'). destruct (beq x "/"); [|exact IH]. destruct (glob_segments (split_on "/" (s ++ B "/*.go"))) as [q [|p r]]; [exact IH|]. destruct (glob_tail p); [eauto|exact IH]. }
    destruct (G _ ST) as [m ->]. rewrite path2regex_app, E. rewrite (path2regex_app (a ++ [c])), <- app_assoc. change (path2regex (B "++")) with (B "++"). rewrite (compile_panics a c _ Ta Tc'). reflexivity.
  - replace (slashed segs ++ B "++/**/*.go") with ((slashed segs ++ B "++/") ++ B "**" ++ B "/*.go") by (rewrite <- app_assoc; reflexivity).
    assert (CUT : forall s after, starless s -> cut_stars (s ++ B "**" ++ after) = Some (s, after)).
    { clear. induction s as [|x s IH]; intros after N; [reflexivity|]. cbn [app cut_stars]. replace (has_prefix (x :: s ++ B "**" ++ after) (B "**")) with false; [rewrite IH by (intros I; apply N; right; exact I); reflexivity|].
      symmetry. apply not_true_iff_false. intros X. apply has_prefix_spec in X as [r X]. injection X as -> _. apply N. left. reflexivity. }
    rewrite CUT.
    2: { intros I. apply in_app_or in I as [I|I]; [apply ST, in_or_app; left; exact I|cbn in I; intuition discriminate]. }
    assert (TR : trim_slash (trim_space (slashed segs ++ B "++/")) = slashed segs ++ B "++").
    { rewrite <- (trimmed_unique (slashed segs ++ B "++/") (slashed segs ++ B "++/")).
      - change (B "++/") with (B "++" ++ B "/"). rewrite app_assoc. apply trim_tail.
      - exists [], []. rewrite app_nil_r. split; [reflexivity|]. split; [constructor|]. split; [constructor|]. split.
        + destruct segs as [|s0 segs]; [contradiction|]. intros x r X. injection X as <- _. intros [[_ W]|W]; vm_compute in W; [apply W; reflexivity|discriminate].
        + intros x r X. change (B "++/") with (B "++" ++ B "/") in X. rewrite app_assoc in X. apply app_inj_tail in X as [_ <-]. intros [[_ W]|W]; vm_compute in W; [apply W; reflexivity|discriminate]. }
    rewrite TR, E, path2regex_app, <- app_assoc. change (path2regex (B "++")) with (B "++"). rewrite (compile_panics a c _ Ta Tc'). reflexivity.
Qed.

(** A range of characters: the files whose name begins with a character of the range; a reversed range makes the generator panic. *)
Lemma alnum_plain x : is_alnum x = true -> beq x "]" = false /\ beq x "^" = false /\ beq x "[" = false /\ beq x backslash = false /\ beq x "." = false /\ beq x "*" = false /\ beq x "/" = false.
Proof. intros A. repeat split; apply not_true_iff_false; intros E; apply Ascii.eqb_eq in E as ->; discriminate. Qed.
Lemma class_range x y rest : is_alnum x = true -> is_alnum y = true -> class_from (x :: "-"%char :: y :: "]"%char :: rest) true (fun _ => false) = if N.ltb (code y) (code x) then Panic else Ok (fun c => false || in_range (code x) (code y) c, rest).
Proof.
  intros X Y. destruct (alnum_plain x X) as (X1 & X2 & X3 & X4 & _). destruct (alnum_plain y Y) as (Y1 & _ & Y3 & Y4 & _). cbn [class_from]. rewrite X1, X2, X3, X4, Y1, Y3, Y4. change (beq "-" "-") with true. cbn [negb andb orb].
  destruct (N.ltb (code y) (code x)); reflexivity.
Qed.
Definition go_end : rx := Cat (Star (One (fun x => negb (beq x LF)))) (Cat (One (beq ".")) (Cat (One (beq "g")) (Cat (One (beq "o")) Eps))).
Definition ranged (x y : byte) : rx := Cat (One (fun x => false || beq x backslash || beq x "/")) (Cat (One (fun c => false || in_range (code x) (code y) c)) go_end).
Definition segment_rx : rx := Cat (One (fun x => false || beq x backslash || beq x "/")) (Cat (Cat (One (fun x => false || in_range (code "a") (code "z") x || in_range (code "0") (code "9") x || beq x "_" || beq x "-"))
  (Star (One (fun x => false || in_range (code "a") (code "z") x || in_range (code "0") (code "9") x || beq x "_" || beq x "-")))) Eps).
Lemma inner_step k tail : compile_seq (19 + k) (B "[\\/][a-z0-9_-]+)*" ++ tail) = Ok (segment_rx, B ")*" ++ tail).
Proof. vm_compute. reflexivity. Qed.
Lemma paren_step k r r' g : compile_seq k ("["%char :: r) = Ok (g, B ")*" ++ "["%char :: r') -> compile_seq (S k) ("("%char :: "["%char :: r) = (let* rest := compile_seq k ("["%char :: r') in Ok (Cat (Star g) (fst rest), snd rest)).
Proof.
  intros H. cbn [compile_seq]. change (beq "(" ")") with false. change (special "(") with false. change (is_repeat "(") with false. change (beq "(" ".") with false. change (beq "(" "[") with false. change (beq "(" "(") with true. change (beq "[" "?") with false. cbn match.
  rewrite H. cbn [bind fst snd]. change (B ")*" ++ "["%char :: r') with (")"%char :: "*"%char :: "["%char :: r'). cbn match. cbn [bind fst snd]. change (quantified g ("*"%char :: "["%char :: r')) with (@Ok (rx * bytes) (Star g, "["%char :: r')). reflexivity.
Qed.
Lemma group_step k r : compile_seq (20 + k) (B "([\\/][a-z0-9_-]+)*" ++ "["%char :: r) = (let* r0 := compile_seq (19 + k) ("["%char :: r) in Ok (Cat starred (fst r0), snd r0)).
Proof. exact (paren_step (19 + k) (B "\\/][a-z0-9_-]+)*" ++ "["%char :: r) r segment_rx (inner_step k ("["%char :: r))). Qed.
Lemma class_step k r : compile_seq (S k) ("["%char :: r) = (let* ar := (let* fr := class_from r true (fun _ => false) in Ok (One (fst fr), snd fr)) in let* qr := quantified (fst ar) (snd ar) in let* rest := compile_seq k (snd qr) in Ok (Cat (fst qr) (fst rest), snd rest)).
Proof. reflexivity. Qed.
Lemma compile_ranged s x y : Forall tame s -> is_alnum x = true -> is_alnum y = true ->
  compile (path2regex s ++ B "([\\/][a-z0-9_-]+)*" ++ path2regex (B "/[" ++ x :: "-"%char :: y :: B "]*.go")) = if N.ltb (code y) (code x) then Panic else Ok (literal s (Cat starred (ranged x y))).
Proof.
  intros F X Y. destruct (alnum_plain x X) as (_ & _ & _ & X4 & X5 & X6 & X7). destruct (alnum_plain y Y) as (_ & _ & _ & Y4 & Y5 & Y6 & Y7).
  assert (P : path2regex (B "/[" ++ x :: "-"%char :: y :: B "]*.go") = B "[\\/][" ++ x :: "-"%char :: y :: B "].*\.go").
  { unfold path2regex. rewrite map_app, concat_app. cbn [map concat]. rewrite X4, X5, X6, X7, Y4, Y5, Y6, Y7. reflexivity. }
  rewrite P. set (rest := B "([\\/][a-z0-9_-]+)*" ++ B "[\\/][" ++ x :: "-"%char :: y :: B "].*\.go"). unfold compile.
  assert (L : exists k, S (length (path2regex s ++ rest)) = (length s + (25 + k))%nat).
  { pose proof (path2regex_length s) as Q. rewrite app_length. assert (LR : length rest = 35%nat) by reflexivity. exists (S (length (path2regex s) + length rest) - length s - 25)%nat. lia. }
  destruct L as [k ->]. rewrite compile_literal; [|exact F|reflexivity]. unfold rest.
  change (25 + k)%nat with (20 + (5 + k))%nat. change (B "[\\/][" ++ x :: "-"%char :: y :: B "].*\.go") with ("["%char :: B "\\/][" ++ x :: "-"%char :: y :: B "].*\.go"). rewrite group_step. change (19 + (5 + k))%nat with (S (S (22 + k))). rewrite class_step.
  replace (class_from (B "\\/][" ++ x :: "-"%char :: y :: B "].*\.go") true (fun _ => false)) with (@Ok ((byte -> bool) * bytes) (fun x => false || beq x backslash || beq x "/", "["%char :: x :: "-"%char :: y :: "]"%char :: B ".*\.go")) by reflexivity.
  cbn [bind fst snd]. change (quantified ?a ("["%char :: ?r)) with (@Ok (rx * bytes) (a, "["%char :: r)). cbn [bind fst snd]. rewrite class_step.
  rewrite (class_range x y _ X Y). destruct (N.ltb (code y) (code x)); [reflexivity|]. cbn [bind fst snd]. change (quantified ?a (B ".*\.go")) with (@Ok (rx * bytes) (a, B ".*\.go")). cbn [bind fst snd].
  replace (compile_seq (22 + k) (B ".*\.go")) with (@Ok (rx * bytes) (go_end, [])) by reflexivity. reflexivity.
Qed.
Lemma trim_root segs : segs <> [] -> trim_slash (trim_space (slashed segs ++ B "/")) = slashed segs.
Proof.
  intros NE. rewrite <- (trimmed_unique (slashed segs ++ B "/") (slashed segs ++ B "/")); [apply trim_tail|].
  exists [], []. rewrite app_nil_r. split; [reflexivity|]. split; [constructor|]. split; [constructor|]. split.
  - destruct segs as [|s0 segs]; [contradiction|]. intros c r E. injection E as <- _. intros [[_ W]|W]; vm_compute in W; [apply W; reflexivity|discriminate].
  - intros c r E. apply app_inj_tail in E as [_ <-]. intros [[_ W]|W]; vm_compute in W; [apply W; reflexivity|discriminate].
Qed.
Theorem C48_range_partial d skip segs x y : sound d -> segs <> [] -> In segs (dirs d) -> Forall tame (slashed segs) -> is_alnum x = true -> is_alnum y = true -> (code x <= code y)%N ->
  exists l, selected d skip (slashed segs ++ B "/**/[" ++ x :: "-"%char :: y :: B "]*.go") = Ok l /\
    (forall f, In f l -> In f (files d) /\ (exists sub, fst f = segs ++ sub) /\ ~ In (fst f) skip) /\
    (forall c base, In (segs, c :: base ++ B ".go") (files d) -> ~ In segs skip -> (code x <= code c <= code y)%N -> ~ In LF base -> In (segs, c :: base ++ B ".go") l).
Proof.
  intros [S1 S2] NE I T X Y LE. pose proof (S1 segs I) as SG. unfold selected, plan.
  replace (slashed segs ++ B "/**/[" ++ x :: "-"%char :: y :: B "]*.go") with ((slashed segs ++ B "/") ++ B "**" ++ (B "/[" ++ x :: "-"%char :: y :: B "]*.go")) by (rewrite <- !app_assoc; reflexivity).
  assert (TS : tame "/") by (split; [cbn; intuition discriminate|discriminate]).
  rewrite cut_stars_root by (apply Forall_app; split; [exact T|constructor; [exact TS|constructor]]). rewrite (trim_root segs NE), (compile_ranged _ x y T X Y). replace (N.ltb (code y) (code x)) with false by (symmetry; apply N.ltb_ge; exact LE).
  cbn [bind]. rewrite (clean_spells (slashed segs) segs (spells_slashed segs NE SG)). destruct (slashed segs) as [|c0 s0] eqn:ES; [destruct segs; [contradiction|discriminate]|]. rewrite <- ES in *. eexists. split; [reflexivity|]. split.
  - intros [dir name] If. apply filter_In in If as [If H]. cbn [fst snd] in *. rewrite !andb_true_iff, negb_true_iff, existsb_segs in H. unfold below in H. rewrite filter_In, starts_with_iff in H. destruct H as [[[_ SUB] NS] _]. split; [exact If|]. split; [exact SUB|]. intros Z. apply existsb_segs in Z. congruence.
  - intros c base If NS R NL. rewrite filter_In. cbn [fst snd]. rewrite !andb_true_iff, negb_true_iff, existsb_segs. unfold below. rewrite filter_In, starts_with_iff. split; [exact If|]. split; [split; [split; [exact I|exists []; symmetry; apply app_nil_r]|apply not_true_iff_false; intros Z; apply existsb_segs in Z; contradiction]|].
    cbn [matches]. apply match_whole. rewrite text_of_snoc, slashed_app. apply lang_literal. change (slashed [c :: base ++ B ".go"]) with ("/"%char :: (c :: base ++ B ".go") ++ []). rewrite app_nil_r.
    apply (l_cat starred (ranged x y) [] ("/"%char :: c :: base ++ B ".go")); [constructor|]. apply (l_cat _ _ ["/"%char] (c :: base ++ B ".go")); [constructor; reflexivity|].
    apply (l_cat _ _ [c] (base ++ B ".go")); [constructor; unfold in_range; cbn [orb]; apply andb_true_iff; split; apply N.leb_le; apply R|].
    apply l_cat; [apply lang_star, Forall_forall; intros z Ic; apply negb_true_iff, not_true_iff_false; intros Z; apply Ascii.eqb_eq in Z as ->; contradiction|].
    apply (l_cat _ _ ["."%char] (B "go")); [constructor; reflexivity|]. apply (l_cat _ _ ["g"%char] (B "o")); [constructor; reflexivity|]. apply (l_cat _ _ ["o"%char] []); [constructor; reflexivity|constructor].
Qed.
Theorem C48_reversed_refuted d skip segs x y : segs <> [] -> Forall tame (slashed segs) -> is_alnum x = true -> is_alnum y = true -> (code y < code x)%N ->
  selected d skip (slashed segs ++ B "/**/[" ++ x :: "-"%char :: y :: B "]*.go") = Panic.
Proof.
  intros NE T X Y LT. unfold selected, plan.
  replace (slashed segs ++ B "/**/[" ++ x :: "-"%char :: y :: B "]*.go") with ((slashed segs ++ B "/") ++ B "**" ++ (B "/[" ++ x :: "-"%char :: y :: B "]*.go")) by (rewrite <- !app_assoc; reflexivity).
  assert (TS : tame "/") by (split; [cbn; intuition discriminate|discriminate]).
  rewrite cut_stars_root by (apply Forall_app; split; [exact T|constructor; [exact TS|constructor]]). rewrite (trim_root segs NE), (compile_ranged _ x y T X Y). replace (N.ltb (code y) (code x)) with true by (symmetry; apply N.ltb_lt; exact LT). reflexivity.
Qed.

Print Assumptions C48_star_partial.
Print Assumptions C48_star_refuted.
Print Assumptions C48_star_elsewhere_refuted.
Print Assumptions C48_panic_refuted.
Print Assumptions C48_range_partial.
Print Assumptions C48_reversed_refuted.

(** ** The hypotheses are met *)
Ltac tamed := repeat (constructor; [split; [cbn; intuition discriminate|discriminate]|]); constructor.
Example C48_star_case : sound home /\ Forall known [B "home"; B "proj"; B "models"] /\ Forall tame (slashed [B "home"; B "proj"; B "models"]) /\
  selected home [] (slashed [B "home"; B "proj"; B "models"] ++ B "/*.go") = Ok [([B "home"; B "proj"; B "models"], B "user.go"); ([B "home"; B "proj"; B "models"], B "User.go")].
Proof. split; [exact home_sound|]. split; [repeat (constructor; [apply known_iff; reflexivity|]); constructor|]. split; [tamed|vm_compute; reflexivity]. Qed.
Example C48_star_other_case : ~ known (B "x") /\ Forall tame (slashed ([B "home"; B "proj"] ++ [B "x"])) /\ ~ known (B "2024").
Proof. split; [rewrite <- known_iff; discriminate|]. split; [tamed|rewrite <- known_iff; discriminate]. Qed.
Example C48_range_case : selected home [] (slashed [B "home"; B "proj"; B "models"] ++ B "/**/[" ++ "u"%char :: "-"%char :: "u"%char :: B "]*.go") = Ok [([B "home"; B "proj"; B "models"], B "user.go")].
Proof. vm_compute. reflexivity. Qed.
