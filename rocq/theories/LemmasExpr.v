(** Finding a package path in a text and replacing it. *)
From Verif Require Import Base ModelStrconv ModelPaths ModelTypes ModelConfig ModelExpr LemmasBase PropPaths PropConfig SpecExpr.

(** ** Characters *)
Definition stop (c : byte) : Prop := ~ path_byte c /\ c <> "/"%char.
Lemma in_range_iff lo hi c : in_range lo hi c = true <-> (lo <= code c <= hi)%N.
Proof. unfold in_range. rewrite andb_true_iff, !N.leb_le. reflexivity. Qed.
Lemma alpha_letter c : is_alpha c = true <-> letter c.
Proof. unfold is_alpha, letter, is_upper, is_lower. rewrite orb_true_iff, !in_range_iff. tauto. Qed.
Lemma path_char_byte c : path_char c = true <-> path_byte c.
Proof.
  unfold path_char, path_byte, word_byte, is_alnum, digit, is_digit. rewrite !orb_true_iff, alpha_letter, in_range_iff, !beq_eq. tauto.
Qed.
Lemma path_or_slash c : path_char c || beq c "/" = true <-> path_byte c \/ c = "/"%char.
Proof. rewrite orb_true_iff, path_char_byte, beq_eq. reflexivity. Qed.
Lemma stop_char c : stop c -> path_char c || beq c "/" = false.
Proof. intros [N S']. apply not_true_iff_false. rewrite path_or_slash. tauto. Qed.
Lemma letter_not c d : letter c -> ~ letter d -> c <> d. Proof. intros L N ->. contradiction. Qed.
Lemma not_letter_point : ~ letter ".". Proof. unfold letter. cbn. lia. Qed.
Lemma word_not_point c : word_byte c -> c <> "."%char.
Proof. intros [L | [D | ->]] E; subst; [ now apply not_letter_point | unfold digit in D; cbn in D; lia | discriminate ]. Qed.
Lemma word_not_slash c : word_byte c -> c <> "/"%char.
Proof. intros [L | [D | ->]] E; subst; [ unfold letter in L; cbn in L; lia | unfold digit in D; cbn in D; lia | discriminate ]. Qed.
Lemma path_not_slash c : path_byte c -> c <> "/"%char.
Proof. intros [W | [-> | ->]]; [ now apply word_not_slash | discriminate.. ]. Qed.
Lemma ident_no s c : identifier s -> ~ word_byte c -> ~ In c s.
Proof. intros (d & r & -> & L & F) N [ <- | I ]; [ apply N; now left | ]. rewrite Forall_forall in F. apply N. now apply F. Qed.
Lemma not_word c : c = "."%char \/ c = "/"%char -> ~ word_byte c.
Proof. intros [-> | ->] W; [ now apply word_not_point in W | now apply word_not_slash in W ]. Qed.
Lemma import_path_chars p : import_path p -> Forall (fun c => path_byte c \/ c = "/"%char) p.
Proof.
  assert (Lt : forall s, lettered s -> Forall (fun c => path_byte c \/ c = "/"%char) s).
  { intros s (c & r & -> & L & F). constructor; [ left; left; now left | ]. eapply Forall_impl; [ | exact F ]. cbn. auto. }
  induction 1 as [ s L | s p L H IH ]; [ now apply Lt | ]. apply Forall_app. split; [ now apply Lt | ]. constructor; auto.
Qed.
Lemma import_path_nonempty p : import_path p -> p <> [].
Proof. intros [ s (c & r & -> & _) | s q (c & r & -> & _) _ ]; discriminate. Qed.

(** ** The match *)
Lemma last_point_none s : ~ In "."%char s -> last_point s = None.
Proof.
  induction s as [|c s IH]; intros N; [ reflexivity | ]. cbn [last_point]. rewrite IH by (intros I; apply N; now right).
  replace (beq c ".") with false; [ reflexivity | ]. symmetry. apply beq_neq. intros ->. apply N. now left.
Qed.
Lemma last_point_found a c r : letter c -> ~ In "."%char (c :: r) -> last_point (a ++ "."%char :: c :: r) = Some a.
Proof.
  intros L N. induction a as [|x a IH]; [ | cbn [app last_point]; now rewrite IH ].
  cbn [app last_point]. fold (last_point (c :: r)). change (match last_point r with Some a => Some (c :: a) | None => if beq c "." && match r with d :: _ => is_alpha d | [] => false end then Some [] else None end) with (last_point (c :: r)).
  rewrite last_point_none by exact N. rewrite (proj2 (alpha_letter c) L). reflexivity.
Qed.
Lemma match_none segs : Forall (fun s => ~ In "."%char s) segs -> match_segments segs = None.
Proof.
  induction segs as [|s segs IH]; intros F; [ reflexivity | ]. inversion F; subst. cbn [match_segments]. destruct s as [|c r]; [ reflexivity | ]. destruct (is_alpha c); [ | reflexivity ].
  rewrite IH by assumption. rewrite last_point_none; [ reflexivity | ]. intros I. apply H1. now right.
Qed.
Lemma split_none sep s c : ~ In c s -> Forall (fun x => ~ In c x) (split_on sep s).
Proof.
  induction s as [|d s IH]; intros N; cbn [split_on]; [ repeat constructor; intros [] | ]. specialize (IH (fun I => N (or_intror I))).
  destruct (beq d sep); [ constructor; [ intros [] | exact IH ] | ]. destruct (split_on sep s) as [|p ps]; [ repeat constructor; intros [ E | [] ]; apply N; now left | ].
  inversion IH; subst. constructor; [ | assumption ]. intros [ E | I ]; [ apply N; now left | contradiction ].
Qed.
Lemma path_chars_in s c : In c (path_chars s) -> In c s.
Proof. induction s as [|d s IH]; [ auto | ]. cbn [path_chars]. destruct (_ || _); [ | intros [] ]. intros [ -> | I ]; [ now left | right; auto ]. Qed.
Lemma find_path_eq s : find_path s = match match_segments (split_on "/" (path_chars s)) with Some p => Some p | None => match s with _ :: r => find_path r | [] => None end end.
Proof. destruct s; reflexivity. Qed.
Lemma find_path_none s : ~ In "."%char s -> find_path s = None.
Proof.
  induction s as [|c s IH]; intros N; rewrite find_path_eq.
  - reflexivity.
  - rewrite match_none; [ apply IH; intros I; apply N; now right | ]. apply split_none. intros I. apply N. exact (path_chars_in _ _ I).
Qed.
Lemma path_chars_stop a c s : stop c -> path_chars (a ++ c :: s) = path_chars a.
Proof.
  intros St. induction a as [|x a IH]; cbn [app path_chars]; [ now rewrite stop_char | ]. now rewrite IH.
Qed.
Lemma path_chars_all a : Forall (fun c => path_byte c \/ c = "/"%char) a -> path_chars a = a.
Proof. induction 1 as [|c a H F IH]; [ reflexivity | ]. cbn [path_chars]. rewrite (proj2 (path_or_slash c) H). now rewrite IH. Qed.
Lemma find_path_skip a c s : ~ In "."%char a -> stop c -> find_path (a ++ c :: s) = find_path s.
Proof.
  intros N St. induction a as [|x a IH].
  - cbn [app]. rewrite find_path_eq. cbn [path_chars]. rewrite (stop_char c St). reflexivity.
  - cbn [app]. rewrite find_path_eq. change (x :: a ++ c :: s) with ((x :: a) ++ c :: s). rewrite path_chars_stop by exact St. rewrite match_none.
    + apply IH. intros I. apply N. now right.
    + apply split_none. intros I. apply N. exact (path_chars_in _ _ I).
Qed.
Definition opening (a : bytes) : Prop := ~ In "."%char a /\ ~ In "/"%char a /\ (a = [] \/ exists b c, a = b ++ [c] /\ stop c).
Definition closing (z : bytes) : Prop := z = [] \/ exists c b, z = c :: b /\ stop c.
Lemma path_chars_closing a z : closing z -> path_chars (a ++ z) = path_chars a.
Proof. intros [ -> | (c & b & -> & St) ]; [ now rewrite app_nil_r | now apply path_chars_stop ]. Qed.
Lemma lettered_no_slash s : lettered s -> ~ In "/"%char s.
Proof.
  intros (c & r & -> & L & F) [ E | I ]; [ subst; unfold letter in L; cbn in L; lia | ]. rewrite Forall_forall in F. now apply F, path_not_slash in I.
Qed.
Lemma ident_word n : identifier n -> Forall word_byte n.
Proof. intros (c & r & -> & L & F). constructor; [ now left | exact F ]. Qed.
Lemma match_path p n : import_path p -> identifier n -> match_segments (split_on "/" (p ++ "."%char :: n)) = Some p.
Proof.
  intros P I. assert (NS : ~ In "/"%char n) by (apply ident_no; [ exact I | apply not_word; now right ]). assert (NP : ~ In "."%char n) by (apply ident_no; [ exact I | apply not_word; now left ]).
  induction P as [ s L | s p L P IH ].
  - pose proof (lettered_no_slash s L) as NL. rewrite split_on_whole.
    + destruct L as (c & r & -> & Lc & F). cbn [app match_segments]. rewrite (proj2 (alpha_letter c) Lc). destruct I as (d & m & -> & Ld & _). now rewrite last_point_found.
    + intros J. apply in_app_or in J as [ J | [ J | J ] ]; [ contradiction | discriminate | contradiction ].
  - rewrite <- app_assoc. cbn [app]. rewrite split_on_part by (now apply lettered_no_slash). destruct L as (c & r & -> & Lc & F). cbn [match_segments]. rewrite (proj2 (alpha_letter c) Lc), IH. reflexivity.
Qed.
Lemma find_path_at a p n z : opening a -> import_path p -> identifier n -> closing z -> find_path (a ++ p ++ "."%char :: n ++ z) = Some p.
Proof.
  intros (N & _ & O) P I Cl. assert (H : find_path (p ++ "."%char :: n ++ z) = Some p).
  { rewrite find_path_eq. replace (p ++ "."%char :: n ++ z) with ((p ++ "."%char :: n) ++ z) by (now rewrite <- app_assoc). rewrite path_chars_closing by exact Cl.
    rewrite path_chars_all; [ now rewrite match_path | ]. apply Forall_app. split; [ now apply import_path_chars | ]. constructor; [ left; right; now left | ].
    eapply Forall_impl; [ | exact (ident_word n I) ]. cbn. intros c W. left. now left. }
  destruct O as [ -> | (b & c & -> & St) ]; [ exact H | ]. rewrite <- app_assoc. cbn [app]. rewrite find_path_skip; [ exact H | | exact St ]. intros J. apply N. apply in_or_app. now left.
Qed.

(** ** Replacing *)
Lemma has_prefix_app p r : has_prefix (p ++ r) p = true. Proof. apply has_prefix_spec. now exists r. Qed.
Lemma replace_fuel old new : old <> [] -> forall s f g, (length s <= f)%nat -> (length s <= g)%nat -> replace_all f s old new = replace_all g s old new.
Proof.
  intros NE s. remember (length s) as n eqn:En. revert s En. induction n as [n IH] using (well_founded_induction lt_wf). intros s En f g Hf Hg.
  destruct s as [|c s]; [ destruct f, g; reflexivity | ]. cbn in En. destruct f as [|f]; [ lia | ]. destruct g as [|g]; [ lia | ]. cbn [replace_all].
  destruct (has_prefix (c :: s) old) eqn:E.
  - f_equal. assert (Lt : (length (skipn (length old) (c :: s)) < n)%nat) by (rewrite skipn_length; cbn; destruct old; [ contradiction | cbn; lia ]). apply (IH _ Lt); [ reflexivity | lia | lia ].
  - f_equal. apply (IH (length s)); [ lia | reflexivity | lia | lia ].
Qed.
Section Replace.
Variables old new : bytes.
Hypothesis NE : old <> [].
Lemma rep_cons c s : has_prefix (c :: s) old = false -> replaced (c :: s) old new = c :: replaced s old new.
Proof. intros E. unfold replaced. cbn [length replace_all]. now rewrite E. Qed.
Lemma rep_head r : replaced (old ++ r) old new = new ++ replaced r old new.
Proof.
  unfold replaced. destruct old as [|c o] eqn:Eo; [ contradiction | ]. rewrite <- Eo in *. assert (H : (length (old ++ r) = S (length (o ++ r)))%nat) by (rewrite Eo; reflexivity). rewrite H. cbn [replace_all].
  assert (Hs : old ++ r = c :: (o ++ r)) by (rewrite Eo; reflexivity). rewrite Hs at 1. rewrite has_prefix_app. f_equal. rewrite skipn_app, skipn_all, Nat.sub_diag. cbn [app skipn].
  apply replace_fuel; [ exact NE | rewrite app_length; lia | lia ].
Qed.
Lemma prefix_sep x a b : ~ In x old -> has_prefix (a ++ x :: b) old = has_prefix a old.
Proof.
  intros N. destruct (has_prefix (a ++ x :: b) old) eqn:E; symmetry.
  - apply has_prefix_spec in E as [r E]. apply has_prefix_spec. revert a E. clear NE. induction old as [|o old' IH]; intros a E; [ now exists a | ]. destruct a as [|y a]; cbn [app] in E.
    + injection E as E _. exfalso. apply N. now left.
    + injection E as -> E. destruct (IH (fun I => N (or_intror I)) a E) as [r' Er]. exists r'. cbn. now rewrite Er.
  - destruct (has_prefix a old) eqn:E2; [ | reflexivity ]. apply has_prefix_spec in E2 as [r ->]. rewrite <- app_assoc, has_prefix_app in E. discriminate.
Qed.
Lemma rep_sep x a b : ~ In x old -> replaced (a ++ x :: b) old new = replaced a old new ++ x :: replaced b old new.
Proof.
  intros N. remember (length a) as n eqn:En. revert a En. induction n as [n IH] using (well_founded_induction lt_wf). intros a En. destruct a as [|c a].
  - cbn [app]. rewrite rep_cons; [ reflexivity | ]. destruct (has_prefix (x :: b) old) eqn:E; [ | reflexivity ]. apply has_prefix_spec in E as [r E]. destruct old as [|o old']; [ contradiction | ]. injection E as -> _. exfalso. apply N. now left.
  - destruct (has_prefix (c :: a) old) eqn:E.
    + apply has_prefix_spec in E as [r E]. rewrite E, <- app_assoc, !rep_head. rewrite <- app_assoc. f_equal. apply (IH (length r)); [ | reflexivity ].
      apply (f_equal (@length _)) in E. rewrite app_length in E. rewrite En, E. destruct old; [ contradiction | cbn; lia ].
    + change ((c :: a) ++ x :: b) with (c :: (a ++ x :: b)). rewrite rep_cons; [ | rewrite <- E; apply (prefix_sep x (c :: a) b N) ]. rewrite rep_cons by exact E. cbn [app]. f_equal. apply (IH (length a)); [ cbn in En; lia | reflexivity ].
Qed.
Lemma rep_absent m s : In m old -> ~ In m s -> replaced s old new = s.
Proof.
  intros I. induction s as [|c s IH]; intros N; [ reflexivity | ]. rewrite rep_cons; [ f_equal; apply IH; intros J; apply N; now right | ].
  destruct (has_prefix (c :: s) old) eqn:E; [ | reflexivity ]. apply has_prefix_spec in E as [r E]. exfalso. apply N. rewrite E. apply in_or_app. now left.
Qed.
End Replace.
Lemma rep_same o s : o <> [] -> replaced s o o = s.
Proof.
  intros NE. remember (length s) as n eqn:En. revert s En. induction n as [n IH] using (well_founded_induction lt_wf). intros s En. destruct s as [|c s]; [ reflexivity | ].
  destruct (has_prefix (c :: s) o) eqn:E.
  - apply has_prefix_spec in E as [r E]. rewrite E, rep_head by exact NE. f_equal. apply (IH (length r)); [ | reflexivity ]. apply (f_equal (@length _)) in E. rewrite app_length in E. rewrite En, E. destruct o; [ contradiction | cbn; lia ].
  - rewrite rep_cons by assumption. f_equal. apply (IH (length s)); [ cbn in En; lia | reflexivity ].
Qed.

(** ** Types *)
Scheme written_ind2 := Minimality for written Sort Prop with written_list_ind2 := Minimality for written_list Sort Prop.
Combined Scheme written_both from written_ind2, written_list_ind2.
Lemma type_string_written : (forall t s, written by_path t s -> type_string t = s) /\ (forall ts s, written_list by_path ts s -> ts <> [] /\ join (B ",") (map type_string ts) = s).
Proof.
  apply written_both.
  - reflexivity.
  - intros p n q I ->. cbn [type_string]. rewrite app_nil_r, <- app_assoc. reflexivity.
  - intros p n q args s I -> W [NE E]. cbn [type_string]. destruct args as [|x args]; [ contradiction | ]. rewrite E, <- app_assoc. reflexivity.
  - intros t s W E. cbn [type_string]. now rewrite E.
  - intros t s W E. cbn [type_string]. now rewrite E.
  - intros n t s W E. cbn [type_string]. now rewrite E.
  - intros k v a b W1 E1 W2 E2. cbn [type_string]. now rewrite E1, E2.
  - intros t s W E. split; [ discriminate | ]. cbn [map]. rewrite join_one. exact E.
  - intros t u ts s r W E W2 [_ E2]. split; [ discriminate | ]. cbn [map] in *. rewrite join_cons, E, E2. reflexivity.
Qed.
Lemma stop_open c : In c [ "["%char; "]"%char; ","%char; "*"%char; "("%char; ")"%char; "&"%char ] -> stop c.
Proof.
  intros I. cbn in I. split; [ intros [ [ L | [ D | E ] ] | [ E | E ] ] | ].
  all: unfold letter, digit in *; destruct I as [ <- | [ <- | [ <- | [ <- | [ <- | [ <- | [ <- | [] ] ] ] ] ] ] ]; cbn in *; try lia; try discriminate.
Qed.
Definition located (p s : bytes) : Prop := exists a n z, s = a ++ p ++ "."%char :: n ++ z /\ opening a /\ identifier n /\ closing z.
Lemma digits_no n c : ~ digit c -> ~ In c (format_uint n).
Proof. intros N I. pose proof (format_uint_digits n) as F. unfold all_digits in F. rewrite Forall_forall in F. apply F in I. apply N. unfold digit. unfold is_digit in I. now apply in_range_iff in I. Qed.
Lemma opening_before a c b : opening b -> ~ In "."%char a -> ~ In "/"%char a -> stop c -> opening (a ++ c :: b).
Proof.
  intros (N1 & N2 & O) A1 A2 St. split; [ | split ].
  - intros I. apply in_app_or in I as [ I | [ -> | I ] ]; [ contradiction | | contradiction ]. destruct St as [St _]. apply St. right. now left.
  - intros I. apply in_app_or in I as [ I | [ -> | I ] ]; [ contradiction | | contradiction ]. now destruct St.
  - right. destruct O as [ -> | (b' & d & -> & Sd) ]; [ exists a, c; auto | ]. exists (a ++ c :: b'), d. rewrite <- app_assoc. auto.
Qed.
Lemma located_before p a c s : located p s -> ~ In "."%char a -> ~ In "/"%char a -> stop c -> located p (a ++ c :: s).
Proof. intros (b & n & z & -> & O & I & Cl) A1 A2 St. exists (a ++ c :: b), n, z. rewrite <- app_assoc. split; [ reflexivity | ]. split; [ now apply opening_before | auto ]. Qed.
Lemma located_after p c s r : located p s -> stop c -> located p (s ++ c :: r).
Proof.
  intros (b & n & z & -> & O & I & Cl) St. exists b, n, (z ++ c :: r). split; [ rewrite <- !app_assoc; cbn [app]; now rewrite <- app_assoc | ]. split; [ exact O | split; [ exact I | ] ].
  right. destruct Cl as [ -> | (d & z' & -> & Sd) ]; [ now exists c, r | ]. exists d, (z' ++ c :: r). auto.
Qed.
Definition dotless (s : bytes) : Prop := ~ In "."%char s /\ ~ In "/"%char s.
Lemma dotless_app a b : dotless a -> dotless b -> dotless (a ++ b).
Proof. intros [A1 A2] [B1 B2]. split; intros I; apply in_app_or in I as [ I | I ]; contradiction. Qed.
Lemma dotless_cons c s : stop c -> dotless s -> dotless (c :: s).
Proof. intros [St1 St2] [N1 N2]. split; intros [ -> | I ]; auto. apply St1. right. now left. Qed.
Lemma dotless_ident n : identifier n -> dotless n.
Proof. intros I. split; apply ident_no; auto; apply not_word; auto. Qed.
Lemma dotless_digits n : dotless (format_uint n).
Proof. split; apply digits_no; unfold digit; cbn; lia. Qed.
Ltac stops := apply stop_open; cbn; tauto.
Lemma located_type p :
  (forall t s, written by_path t s -> (forall q, mentions q t -> q = p) -> (forall q, ~ mentions q t) /\ dotless s \/ mentions p t /\ located p s) /\
  (forall ts s, written_list by_path ts s -> (forall t q, In t ts -> mentions q t -> q = p) -> dotless s \/ located p s).
Proof.
  apply written_both.
  - intros n I _. left. split; [ intros q M; inversion M | now apply dotless_ident ].
  - intros q0 n q I -> H. right. pose proof (H q0 (in_name q0 n [])) as ->. split; [ constructor | ]. exists [], n, []. rewrite <- app_assoc, app_nil_r. split; [ reflexivity | ].
    split; [ split; [ intros [] | split; [ intros [] | now left ] ] | split; [ exact I | now left ] ].
  - intros q0 n q args s I -> W IH H. right. pose proof (H q0 (in_name q0 n args)) as ->. split; [ constructor | ]. exists [], n, ("["%char :: s ++ ["]"%char]). rewrite <- app_assoc. split; [ reflexivity | ].
    split; [ split; [ intros [] | split; [ intros [] | now left ] ] | split; [ exact I | right; eexists _, _; split; [ reflexivity | stops ] ] ].
  - intros t s W IH H. destruct IH as [ [M D] | [M L] ]; [ intros q Mq; apply H; now constructor | left; split; [ intros q Mq; inversion Mq; subst; eapply M; eassumption | apply dotless_cons; [ stops | exact D ] ] | right ].
    split; [ now constructor | ]. apply (located_before p [] "*"); [ exact L | intros [] | intros [] | stops ].
  - intros t s W IH H. destruct IH as [ [M D] | [M L] ]; [ intros q Mq; apply H; now constructor | left; split; [ intros q Mq; inversion Mq; subst; eapply M; eassumption | apply dotless_cons; [ stops | apply dotless_cons; [ stops | exact D ] ] ] | right ].
    split; [ now constructor | ]. apply (located_before p ["["%char] "]"); [ exact L | intros [ E | [] ]; discriminate | intros [ E | [] ]; discriminate | stops ].
  - intros n t s W IH H. pose proof (dotless_digits n) as [D1 D2]. destruct IH as [ [M D] | [M L] ]; [ intros q Mq; apply H; now constructor | left; split; [ intros q Mq; inversion Mq; subst; eapply M; eassumption | ] | right ].
    + apply dotless_cons; [ stops | ]. apply dotless_app; [ now split | apply dotless_cons; [ stops | exact D ] ].
    + split; [ now constructor | ]. apply (located_before p ("["%char :: format_uint n) "]"); [ exact L | intros [ E | E ]; [ discriminate | contradiction ] | intros [ E | E ]; [ discriminate | contradiction ] | stops ].
  - intros k v a b W1 IH1 W2 IH2 H. specialize (IH1 (fun q Mq => H q (in_key q k v Mq))). specialize (IH2 (fun q Mq => H q (in_value q k v Mq))).
    assert (DM : dotless (B "map[")) by (split; cbn; intuition discriminate).
    destruct IH1 as [ [M1 D1] | [M1 L1] ].
    + destruct IH2 as [ [M2 D2] | [M2 L2] ].
      * left. split; [ intros q Mq; inversion Mq; subst; [ eapply M1 | eapply M2 ]; eassumption | ]. apply dotless_app; [ exact DM | apply dotless_app; [ exact D1 | apply dotless_cons; [ stops | exact D2 ] ] ].
      * right. split; [ now apply in_value | ]. rewrite app_assoc. pose proof (dotless_app _ _ DM D1) as [N1 N2]. apply located_before; auto. stops.
    + right. split; [ now apply in_key | ]. change (B "map[" ++ a ++ "]"%char :: b) with ((B "map" ++ "["%char :: a ++ "]"%char :: b)). apply located_before; [ apply located_after; [ exact L1 | stops ] | cbn; intuition discriminate.. | stops ].
  - intros t s W IH H. destruct IH as [ [_ D] | [_ L] ]; [ intros q Mq; eapply H; [ now left | exact Mq ] | now left | now right ].
  - intros t u ts s r W IH W2 IH2 H. destruct IH as [ [_ D] | [_ L] ]; [ intros q Mq; eapply H; [ now left | exact Mq ] | | right; apply located_after; [ exact L | stops ] ].
    destruct IH2 as [ D2 | L2 ]; [ intros x q Ix Mq; eapply H; [ right; exact Ix | exact Mq ] | left; apply dotless_app; [ exact D | apply dotless_cons; [ stops | exact D2 ] ] | right ].
    destruct D. apply located_before; auto. stops.
Qed.

Section Renaming.
Variables p old new : bytes.
Variable m : byte.
Variable Q : bytes -> bytes -> Prop.
Variable q : bytes.
Hypothesis NE : old <> [].
Hypothesis Hm : In m old.
Hypothesis Mm : m = "."%char \/ m = "/"%char.
Hypothesis Ho : forall c, In c old -> path_byte c \/ c = "/"%char.
Hypothesis Hp : forall n, identifier n -> replaced ((p ++ ["."%char]) ++ n) old new = q ++ n.
Hypothesis HQ : Q p q.
Lemma rep_stop c a b : stop c -> replaced (a ++ c :: b) old new = replaced a old new ++ c :: replaced b old new.
Proof. intros [St1 St2]. apply rep_sep; [ exact NE | ]. intros I. destruct (Ho c I); contradiction. Qed.
Lemma rep_dotless s : dotless s -> replaced s old new = s.
Proof. intros [D1 D2]. apply (rep_absent old new m); [ exact Hm | destruct Mm as [ -> | -> ]; assumption ]. Qed.
Lemma rep_stop_cons c b : stop c -> replaced (c :: b) old new = c :: replaced b old new.
Proof. intros St. exact (rep_stop c [] b St). Qed.
Lemma renamed :
  (forall t s, written by_path t s -> (forall r, mentions r t -> r = p) -> written Q t (replaced s old new)) /\
  (forall ts s, written_list by_path ts s -> (forall t r, In t ts -> mentions r t -> r = p) -> written_list Q ts (replaced s old new)).
Proof.
  apply written_both.
  - intros n I _. rewrite rep_dotless by (now apply dotless_ident). now constructor.
  - intros q0 n x I -> H. pose proof (H q0 (in_name q0 n [])) as ->. rewrite Hp by exact I. now constructor.
  - intros q0 n x args s I -> W IH H. pose proof (H q0 (in_name q0 n args)) as ->. rewrite app_assoc. rewrite rep_stop by stops. rewrite Hp by exact I. rewrite rep_stop by stops. rewrite <- app_assoc. apply w_generic; auto.
    apply IH. intros t r It Mr. apply H. eapply in_args; eassumption.
  - intros t s W IH H. rewrite rep_stop_cons by stops. constructor. apply IH. intros r Mr. apply H. now constructor.
  - intros t s W IH H. rewrite !rep_stop_cons by stops. constructor. apply IH. intros r Mr. apply H. now constructor.
  - intros n t s W IH H. rewrite rep_stop_cons, rep_stop by stops. rewrite rep_dotless by apply dotless_digits. constructor. apply IH. intros r Mr. apply H. now constructor.
  - intros k v a b W1 IH1 W2 IH2 H. change (B "map[" ++ a ++ "]"%char :: b) with (B "map" ++ "["%char :: a ++ "]"%char :: b). rewrite rep_stop by stops. rewrite rep_stop by stops.
    rewrite rep_dotless by (split; cbn; intuition discriminate). apply (w_map Q k v); [ apply IH1 | apply IH2 ]; intros r Mr; apply H; [ now apply in_key | now apply in_value ].
  - intros t s W IH H. constructor. apply IH. intros r Mr. eapply H; [ now left | exact Mr ].
  - intros t u ts s r W IH W2 IH2 H. rewrite rep_stop by stops. constructor; [ apply IH; intros x Mx; eapply H; [ now left | exact Mx ] | apply IH2; intros x y Ix My; eapply H; [ right; exact Ix | exact My ] ].
Qed.
End Renaming.
Lemma written_mono (Q R : bytes -> bytes -> Prop) :
  (forall t s, written Q t s -> (forall r x, mentions r t -> Q r x -> R r x) -> written R t s) /\
  (forall ts s, written_list Q ts s -> (forall t r x, In t ts -> mentions r t -> Q r x -> R r x) -> written_list R ts s).
Proof.
  apply written_both.
  - intros n I _. now constructor.
  - intros p n q I H HR. constructor; [ exact I | apply HR; [ constructor | exact H ] ].
  - intros p n q args s I H W IH HR. apply w_generic; [ exact I | apply HR; [ constructor | exact H ] | ]. apply IH. intros t r x It Mr. apply HR. eapply in_args; eassumption.
  - intros t s W IH HR. constructor. apply IH. intros r x Mr. apply HR. now constructor.
  - intros t s W IH HR. constructor. apply IH. intros r x Mr. apply HR. now constructor.
  - intros n t s W IH HR. constructor. apply IH. intros r x Mr. apply HR. now constructor.
  - intros k v a b W1 IH1 W2 IH2 HR. constructor; [ apply IH1 | apply IH2 ]; intros r x Mr; apply HR; [ now apply in_key | now apply in_value ].
  - intros t s W IH HR. constructor. apply IH. intros r x Mr. eapply HR; [ now left | exact Mr ].
  - intros t u ts s r W IH W2 IH2 HR. constructor; [ apply IH; intros y x My; eapply HR; [ now left | exact My ] | apply IH2; intros y z x Iy My; eapply HR; [ right; exact Iy | exact My ] ].
Qed.
