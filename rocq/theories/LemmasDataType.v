(** Reading the declarations of the dialects. *)
From Coq Require Import List Bool ZArith Lia.
From Verif Require Import SpecSql Base LemmasBase ModelStrconv ModelTypes ModelGen ModelMigration LemmasGen LemmasArray SpecScript LemmasScript LemmasScript4 LemmasScript5 ModelDataType SpecDataType.
Import ListNotations.
Open Scope Z_scope.

Fixpoint all2 (ws : list bytes) (ts : list stok) : bool :=
  match ws, ts with [], [] => true | w :: ws, t :: ts => kw w t && all2 ws ts | _, _ => false end.
Definition flat (db : system) (ts : list stok) : option sqltype :=
  match find (fun p => all2 (fst p) ts) (word_types db) with
  | Some (_, t) => Some t
  | None =>
      match ts with
      | [x; Sy "("; Wd ds; Sy ")"] =>
          match find (fun p => kw (fst (fst (fst p))) x) (sized_types db) with
          | Some (_, f, lo, hi) =>
              let n := Z.of_N (SpecSql.number_of ds) in
              if negb (match ds with [] => true | _ => false end) && forallb is_digit ds && Z.leb lo n && Z.leb n hi then Some (f n) else None
          | None => None
          end
      | _ => None
      end
  end.
Definition pgdb (db : system) : bool := match db with PostgresDB => true | _ => false end.
Fixpoint typed (db : system) (rts : list stok) {struct rts} : option sqltype :=
  match rts with
  | Sy "]" :: Sy "[" :: r => if pgdb db then option_map TArray (typed db r) else None
  | Sy "]" :: Wd ds :: Sy "[" :: r => if pgdb db && negb (match ds with [] => true | _ => false end) && forallb is_digit ds then option_map TArray (typed db r) else None
  | _ => flat db (rev rts)
  end.
Definition decl_of (db : system) (x : bytes) : option decl :=
  match piece (match db with MySQLDB => true | _ => false end) x with
  | Some ts => match read_col (Nm (B "c") :: ts) with
               | Some s => match typed db (rev (s_type s)) with Some t => Some (Decl t (s_null s) (s_default s)) | None => None end
               | None => None
               end
  | None => None
  end.

Lemma all2_Forall2 ws : forall ts, all2 ws ts = true <-> Forall2 (fun w x => kw w x = true) ws ts.
Proof.
  induction ws as [|w ws IH]; intros [|t ts]; cbn [all2]; split; intros H; try discriminate; try (inversion H; fail); try constructor; auto.
  - apply andb_prop in H as [H _]. exact H.
  - apply andb_prop in H as [_ H]. apply IH, H.
  - inversion H; subst. apply andb_true_intro. split; [assumption|]. apply IH. assumption.
Qed.
(** Different names are different words *)
Lemma kw_eq w w' x : kw w x = true -> kw w' x = true -> w = w'.
Proof. destruct x; cbn [kw]; try discriminate. intros A C. apply bseq_eq in A as <-. apply bseq_eq in C. exact C. Qed.
Lemma all2_eq ws : forall ws' ts, all2 ws ts = true -> all2 ws' ts = true -> ws = ws'.
Proof.
  induction ws as [|w ws IH]; intros [|w' ws'] [|t ts]; cbn [all2]; try discriminate; [reflexivity|]. intros H H'. apply andb_prop in H as [A C], H' as [A' C']. f_equal; [eapply kw_eq; eassumption|eapply IH; eassumption].
Qed.
Lemma word_keys db : NoDup (map fst (word_types db)).
Proof.
  assert (DB : forall a b : list bytes, {a = b} + {a <> b}) by (do 2 apply list_eq_dec; apply Ascii.ascii_dec).
  destruct db; cbn [word_types map fst]; repeat (constructor; [cbn [In]; intuition discriminate|]); constructor.
Qed.
Lemma sized_keys db : NoDup (map (fun p => fst (fst (fst p))) (sized_types db)).
Proof. destruct db; cbn [sized_types map fst]; repeat (constructor; [cbn [In]; intuition discriminate|]); constructor. Qed.
Lemma find_key {A K : Type} (key : A -> K) (f : A -> bool) (l : list A) a :
  NoDup (map key l) -> In a l -> f a = true -> (forall b, f b = true -> key b = key a) -> find f l = Some a.
Proof.
  intros N I F U. induction l as [|b l IH]; [destruct I|]. cbn [find]. cbn [map] in N. inversion N as [|? ? NI N']; subst. destruct I as [->|I]; [rewrite F; reflexivity|].
  destruct (f b) eqn:E; [|apply IH; assumption]. exfalso. apply NI. rewrite (U b E). apply in_map, I.
Qed.
Lemma word_flat db ws t ts : In (ws, t) (word_types db) -> Forall2 (fun w x => kw w x = true) ws ts -> flat db ts = Some t.
Proof.
  intros I F. apply all2_Forall2 in F. unfold flat. rewrite (find_key fst _ _ (ws, t) (word_keys db) I F); [reflexivity|]. intros [ws' t'] E. eapply all2_eq; eassumption.
Qed.
(** The words of a type are one or two *)
Lemma word_length db ws t : In (ws, t) (word_types db) -> (length ws <= 2)%nat /\ ws <> [].
Proof. destruct db; cbn [word_types In]; intros I; repeat (destruct I as [I|I]; [injection I as <- <-; split; [cbn; lia|discriminate]|]); destruct I. Qed.
Lemma all2_length ws : forall ts, all2 ws ts = true -> length ws = length ts.
Proof. induction ws as [|w ws IH]; intros [|t ts]; cbn [all2]; try discriminate; [reflexivity|]. intros H. apply andb_prop in H as [_ H]. cbn. f_equal. apply IH, H. Qed.
Lemma no_word db ts : (2 < length ts)%nat -> find (fun p => all2 (fst p) ts) (word_types db) = None.
Proof.
  intros L. destruct (find _ _) as [[ws t]|] eqn:E; [|reflexivity]. apply find_some in E as [I E]. cbn [fst] in E. apply word_length in I as [I _]. apply all2_length in E. lia.
Qed.
Lemma digits_forallb ds : forallb is_digit ds = true <-> Forall (fun c => is_digit c = true) ds.
Proof. rewrite forallb_forall, Forall_forall. reflexivity. Qed.
Lemma sized_flat db x w ds f lo hi : In (w, f, lo, hi) (sized_types db) -> kw w x = true -> ds <> [] -> Forall (fun c => is_digit c = true) ds -> lo <= Z.of_N (SpecSql.number_of ds) <= hi ->
  flat db [x; Sy "("; Wd ds; Sy ")"] = Some (f (Z.of_N (SpecSql.number_of ds))).
Proof.
  intros I K N D L. unfold flat. rewrite no_word by (cbn; lia). rewrite (find_key (fun p => fst (fst (fst p))) _ _ (w, f, lo, hi) (sized_keys db) I K); [|intros b E; eapply kw_eq; eassumption].
  apply digits_forallb in D. rewrite D. destruct ds; [contradiction|]. cbn [negb andb]. rewrite (proj2 (Z.leb_le _ _)) by lia. rewrite (proj2 (Z.leb_le _ _)) by lia. reflexivity.
Qed.
Lemma not_bracket w x : kw w x = true -> x <> Sy "]".
Proof. intros K ->. discriminate K. Qed.
Lemma typed_flat db ts : ts <> [] -> last ts (Sy "]") <> Sy "]" -> typed db (rev ts) = flat db ts.
Proof.
  intros N L. destruct (exists_last N) as (ts' & t & ->). rewrite last_last in L. rewrite rev_app_distr. cbn [rev app]. unfold typed at 1. fold typed.
  assert (E : flat db (rev (t :: rev ts')) = flat db (ts' ++ [t])) by (cbn [rev]; rewrite rev_involutive; reflexivity).
  destruct t as [|n|s|c]; try exact E. destruct (Ascii.ascii_dec c "]") as [->|NE]; [contradiction|].
  destruct c as [b0 b1 b2 b3 b4 b5 b6 b7]. destruct b0, b1, b2, b3, b4, b5, b6, b7; try exact E; contradiction.
Qed.
Lemma flat_sound db ts t : flat db ts = Some t -> is_type db ts t.
Proof.
  unfold flat. destruct (find (fun p => all2 (fst p) ts) (word_types db)) as [[ws t0]|] eqn:E.
  - intros H. injection H as <-. apply find_some in E as [I E]. eapply ty_words; [exact I|]. apply all2_Forall2, E.
  - intros H. repeat match type of H with
      | match ?l with [] => _ | _ :: _ => _ end = _ => destruct l; try discriminate H
      | match ?l with Wd _ => _ | Nm _ => _ | St _ => _ | Sy _ => _ end = _ => destruct l; try discriminate H
      | match ?c with Ascii.Ascii _ _ _ _ _ _ _ _ => _ end = _ => destruct c; try discriminate H
      | (if ?b then _ else _) = _ => is_var b; destruct b; try discriminate H
      end.
    all: match type of H with match ?o with Some _ => _ | None => _ end = _ => destruct o as [[[[w0 f] lo] hi]|] eqn:F; [|discriminate H] end.
    all: match type of H with (if ?b then _ else _) = _ => destruct b eqn:C; [|discriminate H] end; injection H as <-; apply find_some in F as [I F]; cbn [fst] in F;
      apply andb_prop in C as [C H2]; apply andb_prop in C as [C H1]; apply andb_prop in C as [C0 C1]; apply Z.leb_le in H1, H2; apply digits_forallb in C1; eapply ty_sized; try eassumption; [destruct w; discriminate|lia].
Qed.
Lemma typed_sound db : forall n rts t, (length rts <= n)%nat -> typed db rts = Some t -> is_type db (rev rts) t.
Proof.
  induction n as [|n IH]; intros rts t L H.
  - destruct rts; [|cbn in L; lia]. apply flat_sound, H.
  - destruct rts as [|a rts]; [apply flat_sound, H|]. 
    assert (K : (exists r, a = Sy "]" /\ rts = Sy "[" :: r) \/ (exists ds r, a = Sy "]" /\ rts = Wd ds :: Sy "[" :: r) \/ typed db (a :: rts) = flat db (rev (a :: rts))).
    { unfold typed; fold typed. destruct a as [| | |c]; try (right; right; reflexivity). destruct c as [[] [] [] [] [] [] [] []]; try (right; right; reflexivity). destruct rts as [|b r]; [right; right; reflexivity|].
      destruct b as [ds| | |c]; try (right; right; reflexivity).
      - destruct r as [|e r]; [right; right; reflexivity|]. destruct e as [| | |c]; try (right; right; reflexivity). destruct c as [[] [] [] [] [] [] [] []]; try (right; right; reflexivity). right. left. exists ds, r. split; reflexivity.
      - destruct c as [[] [] [] [] [] [] [] []]; try (right; right; reflexivity). left. exists r. split; reflexivity. }
    destruct K as [(r & -> & ->)|[(ds & r & -> & ->)|K]]; [| |apply flat_sound; rewrite <- K; exact H].
    + cbn [typed] in H. destruct (pgdb db) eqn:P; [|discriminate]. destruct (typed db r) as [t'|] eqn:E; [|discriminate]. injection H as <-. cbn [rev]. rewrite <- app_assoc. apply ty_array; [destruct db; try discriminate; reflexivity|]. apply IH; [cbn in L; lia|exact E].
    + cbn [typed] in H. destruct (pgdb db && _ && _) eqn:P; [|discriminate]. destruct (typed db r) as [t'|] eqn:E; [|discriminate]. injection H as <-. apply andb_prop in P as [P D]. apply andb_prop in P as [P N]. apply digits_forallb in D. cbn [rev]. rewrite <- !app_assoc. apply ty_array_of; [destruct db; try discriminate; reflexivity| |destruct ds; discriminate|exact D]. apply IH; [cbn in L; lia|exact E].
Qed.
Lemma typed_complete db ts t : is_type db ts t -> typed db (rev ts) = Some t.
Proof.
  induction 1 as [ts ws t I F|x w ds f lo hi I K N D L|ts t -> H IH|ts t ds -> H IH N D].
  - rewrite typed_flat; [eapply word_flat; eassumption| |].
    + intros ->. inversion F; subst. destruct (word_length _ _ _ I) as [_ X]. apply X. reflexivity.
    + intros E. destruct (word_length _ _ _ I) as [_ X]. revert X. clear I. induction F as [|w x ws ts K F IH]; [intros X; apply X; reflexivity|]. intros _. destruct F as [|w1 x1 ws1 ts1 K1 F1]; [cbn in E; exact (not_bracket _ _ K E)|]. apply IH; [exact E|discriminate].
  - rewrite typed_flat; [eapply sized_flat; eassumption|discriminate|discriminate].
  - rewrite rev_app_distr. cbn [rev app]. cbn [typed pgdb]. rewrite IH. reflexivity.
  - rewrite rev_app_distr. cbn [rev app]. cbn [typed pgdb]. apply digits_forallb in D. rewrite D. destruct ds; [contradiction|]. cbn [negb andb]. rewrite IH. reflexivity.
Qed.
Lemma declares_iff db x dc : declares db x dc <-> decl_of db x = Some dc.
Proof.
  unfold declares, decl_of. split.
  - intros (ts & s & P & R & T & N & D). rewrite P, R, (typed_complete _ _ _ T), N, D. destruct dc; reflexivity.
  - intros H. destruct (piece _ x) as [ts|]; [|discriminate]. destruct (read_col _) as [s|] eqn:R; [|discriminate]. destruct (typed db _) as [t|] eqn:T; [|discriminate]. injection H as <-. exists ts, s. split; [reflexivity|]. split; [exact R|]. split; [|split; reflexivity]. rewrite <- (rev_involutive (s_type s)). eapply typed_sound; [reflexivity|exact T].
Qed.
Lemma declares_unique db x dc dc' : declares db x dc -> declares db x dc' -> dc = dc'.
Proof. rewrite !declares_iff. congruence. Qed.

(** ** A type with its size *)
Lemma piece_sized my w n tail ts : w <> [] -> Forall (fun c => word_char c = true) w -> starts my tail -> piece my tail = Some ts ->
  piece my (w ++ B "(" ++ format_uint n ++ B ")" ++ tail) = Some (Wd w :: Sy "(" :: Wd (format_uint n) :: Sy ")" :: ts).
Proof.
  intros N F ST P. change (Wd w :: Sy "(" :: Wd (format_uint n) :: Sy ")" :: ts) with ([Wd w] ++ [Sy "("] ++ [Wd (format_uint n)] ++ [Sy ")"] ++ ts).
  apply piece_app; [apply piece_word; assumption| |cbn; unfold sep, opens; case my; reflexivity].
  apply eats_piece; [unfold eats; case my; reflexivity|]. apply piece_app; [apply piece_word; [apply format_uint_nonempty|apply digits_word]| |cbn; unfold sep, opens; case my; reflexivity].
  apply eats_piece; [unfold eats; case my; reflexivity|exact P].
Qed.
Lemma digits_clause n : clause (Wd (format_uint n)) = false.
Proof.
  pose proof (format_uint_digits n) as F. pose proof (format_uint_nonempty n) as N. destruct (format_uint n) as [|c r]; [contradiction|]. unfold all_digits in F. inversion F as [|? ? D _]; subst.
  assert (U : upper1 c = c). { unfold upper1. destruct (is_lower c) eqn:E; [|reflexivity]. exfalso. unfold is_lower, is_digit, in_range in *. rewrite andb_true_iff, !N.leb_le in *. change (code "a") with 97%N in *. change (code "9") with 57%N in *. lia. }
  assert (X : forall w, match w with [] => False | a :: _ => is_digit a = false end -> bseq (map upper1 (c :: r)) w = false).
  { intros [|a w] A; [contradiction|]. destruct (bseq (map upper1 (c :: r)) (a :: w)) eqn:E; [|reflexivity]. apply bseq_eq in E. cbn [map] in E. injection E as E _. congruence. }
  unfold clause, kw. rewrite !X by reflexivity. reflexivity.
Qed.
Definition tail_of (null : bool) : bytes := if null then [] else B " NOT NULL".
Lemma sized_decl db w f lo hi n null : In (w, f, lo, hi) (sized_types db) -> forall w', w' <> [] -> Forall (fun c => word_char c = true) w' -> clause (Wd w') = false -> kw w (Wd w') = true ->
  decl_of db (w' ++ B "(" ++ format_uint n ++ B ")" ++ tail_of null) = if Z.leb lo (Z.of_N n) && Z.leb (Z.of_N n) hi then Some (Decl (f (Z.of_N n)) null None) else None.
Proof.
  intros I w' N F C K. unfold decl_of. set (my := match db with MySQLDB => true | _ => false end).
  assert (P : piece my (tail_of null) = Some (if null then [] else [Wd (B "NOT"); Wd (B "NULL")])) by (unfold tail_of; destruct null; case my; reflexivity).
  rewrite (piece_sized my w' n (tail_of null) (if null then [] else [Wd (B "NOT"); Wd (B "NULL")]) N F); [|unfold tail_of, starts; destruct null; [exact Logic.I|unfold sep, opens; case my; reflexivity]|exact P].
  set (ty := [Wd w'; Sy "("; Wd (format_uint n); Sy ")"]).
  assert (R : read_col (Nm (B "c") :: Wd w' :: Sy "(" :: Wd (format_uint n) :: Sy ")" :: (if null then [] else [Wd (B "NOT"); Wd (B "NULL")])) = Some (SCol (B "c") ty null None)).
  { unfold read_col. cbn [until_clause]. rewrite C, digits_clause. change (clause (Sy "(")) with false. change (clause (Sy ")")) with false. cbn iota. destruct null; reflexivity. }
  rewrite R. cbn [s_type s_null s_default]. subst ty.
  rewrite typed_flat; [|discriminate|discriminate].
  unfold flat. rewrite no_word by (cbn; lia). rewrite (find_key (fun p => fst (fst (fst p))) _ _ (w, f, lo, hi) (sized_keys db) I K); [|intros b E; eapply kw_eq; eassumption].
  assert (D : forallb is_digit (format_uint n) = true) by (apply digits_forallb, format_uint_digits). rewrite D, number_of_uint. pose proof (format_uint_nonempty n) as NE. destruct (format_uint n); [contradiction|]. cbn [negb andb].
  destruct (Z.leb lo (Z.of_N n) && Z.leb (Z.of_N n) hi); reflexivity.
Qed.
