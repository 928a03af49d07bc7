(** The lines of a migration file and what they read as. *)
From Coq Require Import List Bool ZArith Lia.
From Verif Require Import SpecSql Base LemmasBase ModelStrconv ModelGen ModelMigration ModelScript SpecScript SpecScript2 LemmasScript.
Import ListNotations.

Section Files.
Variable printable : N -> bool.
Variable md5 : bytes -> bytes.
Variable d : driver.
Notation my := (my_of d).
Notation idn := (ident printable d).
Notation q := (idq my).
Definition good (n : bytes) : Prop := ~ In q n /\ one_line n /\ idn n = q :: n ++ [q].
Lemma good_piece n : good n -> piece my (idn n) = Some [Nm n].
Proof. intros (A & _ & E). rewrite E. apply piece_name, A. Qed.
Lemma q_lf : q <> LF. Proof. unfold idq. destruct my; discriminate. Qed.
Lemma good_line n : good n -> one_line (idn n).
Proof. intros (_ & A & E). rewrite E. apply one_line_cons; [apply q_lf|]. apply one_line_app; [exact A|]. apply one_line_cons; [apply q_lf|intros []]. Qed.
Ltac lit := first [reflexivity|unfold eats, starts, sep, opens, piece, scan; case my; reflexivity].
Lemma sp_starts x : starts my (" "%char :: x). Proof. unfold starts, sep, opens. case my; reflexivity. Qed.
Lemma cm_starts x : starts my (","%char :: x). Proof. unfold starts, sep, opens. case my; reflexivity. Qed.
Lemma sc_starts x : starts my (";"%char :: x). Proof. unfold starts, sep, opens. case my; reflexivity. Qed.
Lemma rp_starts x : starts my (")"%char :: x). Proof. unfold starts, sep, opens. case my; reflexivity. Qed.

(** ** Columns *)
Definition null_text (b : bool) : bytes := if b then [] else B " NOT NULL".
Definition null_toks (b : bool) : list stok := if b then [] else [Wd (B "NOT"); Wd (B "NULL")].
Definition def_text (x : option bytes) : bytes := match x with Some x => B " DEFAULT " ++ x | None => [] end.
Definition def_toks (x : option (list stok)) : list stok := match x with Some x => Wd (B "DEFAULT") :: x | None => [] end.
Definition default_ok (x : option bytes) (ts : option (list stok)) : Prop := match x, ts with Some x, Some ts => default_text my x ts | None, None => True | _, _ => False end.
Lemma null_piece b y ts : piece my y = Some ts -> starts my y -> piece my (null_text b ++ y) = Some (null_toks b ++ ts) /\ starts my (null_text b ++ y).
Proof.
  intros P H. destruct b; cbn [null_text null_toks app]; [split; assumption|]. split; [|apply sp_starts]. change (piece my (B " NOT NULL" ++ y) = Some ([Wd (B "NOT"); Wd (B "NULL")] ++ ts)).
  apply piece_app; [lit|exact P|exact H].
Qed.
Lemma def_piece x ts y us : default_ok x ts -> piece my y = Some us -> starts my y -> piece my (def_text x ++ y) = Some (def_toks ts ++ us) /\ starts my (def_text x ++ y).
Proof.
  intros D P H. destruct x as [x|], ts as [ts|]; try contradiction; cbn [def_text def_toks app]; [|split; assumption]. split; [|apply sp_starts]. destruct D as (_ & D & _).
  change (piece my ((B " DEFAULT " ++ x) ++ y) = Some ([Wd (B "DEFAULT")] ++ ts ++ us)). rewrite <- app_assoc. apply eats_piece; [lit|]. apply piece_app; assumption.
Qed.
Lemma calm_null b : calm 0 (null_toks b) = true. Proof. destruct b; reflexivity. Qed.
Lemma calm_def x ts : default_ok x ts -> calm 0 (def_toks ts) = true.
Proof. destruct x, ts; try contradiction; intros D; [|reflexivity]. destruct D as (_ & _ & _ & D). exact D. Qed.
Lemma until_app ty r : Forall (fun t => clause t = false) ty -> match r with [] => True | t :: _ => clause t = true end -> until_clause (ty ++ r) = (ty, r).
Proof.
  intros F H. induction F as [|t ty E F IH]; [destruct r as [|t r]; [reflexivity|]; cbn [app until_clause]; rewrite H; reflexivity|]. cbn [app until_clause]. rewrite E, IH. reflexivity.
Qed.
Lemma read_col_toks n ty b dt : ty <> [] -> Forall (fun t => clause t = false) ty -> match dt with Some [] => False | _ => True end -> read_col (Nm n :: ty ++ null_toks b ++ def_toks dt) = Some (SCol n ty b dt).
Proof.
  intros N F H. cbn [read_col]. rewrite until_app; [|exact F|destruct b; [destruct dt; reflexivity|reflexivity]]. destruct ty as [|t ty]; [contradiction|].
  destruct b; cbn [null_toks app].
  - replace (skip [B "NOT"; B "NULL"] (def_toks dt)) with (@None (list stok)) by (destruct dt; reflexivity). destruct dt as [[|x l]|]; [contradiction| |]; reflexivity.
  - change (skip [B "NOT"; B "NULL"] (Wd (B "NOT") :: Wd (B "NULL") :: def_toks dt)) with (Some (def_toks dt)). destruct dt as [[|x l]|]; [contradiction| |]; reflexivity.
Qed.
Definition col_good (m : mcol) : Prop := good (m_name m) /\ (exists ts, type_text my (m_type m) ts) /\ match m_default m with Some x => exists ts, default_text my x ts | None => True end.
Lemma col_good_default m : col_good m -> exists dt, default_ok (m_default m) dt /\ match dt with Some [] => False | _ => True end.
Proof.
  intros (_ & _ & D). destruct (m_default m) as [x|]; [|exists None; split; exact I]. destruct D as (ts & D). exists (Some ts). split; [exact D|]. destruct D as (_ & _ & N & _). destruct ts; [contradiction|exact I].
Qed.
Lemma col_text_eq m : col_text printable d m = idn (m_name m) ++ " "%char :: m_type m ++ null_text (m_null m) ++ def_text (m_default m).
Proof. reflexivity. Qed.
Lemma col_reads m : col_good m -> exists ts c, piece my (col_text printable d m) = Some ts /\ calm 0 ts = true /\ read_col ts = Some c /\ col_says my m c /\ one_line (col_text printable d m).
Proof.
  intros G. destruct (col_good_default m G) as (dt & DO & DN). destruct G as (GN & (ty & TY) & GD). exists (Nm (m_name m) :: ty ++ null_toks (m_null m) ++ def_toks dt), (SCol (m_name m) ty (m_null m) dt).
  pose proof TY as (TL & TP & TN & TC & TF). rewrite col_text_eq. split; [|split; [|split; [|split]]].
  - destruct (def_piece _ _ [] [] DO (piece_nil my) I) as [P1 S1]. rewrite app_nil_r in P1, S1. rewrite app_nil_r in P1. destruct (null_piece (m_null m) _ _ P1 S1) as [P2 S2].
    change (Nm (m_name m) :: ty ++ null_toks (m_null m) ++ def_toks dt) with ([Nm (m_name m)] ++ ty ++ null_toks (m_null m) ++ def_toks dt). apply piece_app; [apply good_piece, GN| |apply sp_starts]. apply space_piece. apply piece_app; [exact TP|exact P2|exact S2].
  - cbn [calm sym]. apply calm_app; [exact TC|]. apply calm_app; [apply calm_null|apply (calm_def _ _ DO)].
  - apply read_col_toks; assumption.
  - split; [reflexivity|]. split; [exact TY|]. split; [reflexivity|]. exact DO.
  - apply one_line_app; [apply good_line, GN|]. apply one_line_cons; [discriminate|]. apply one_line_app; [exact TL|]. apply one_line_app; [destruct (m_null m); apply one_line_b; reflexivity|].
    destruct (m_default m) as [x|], dt as [dt|]; try contradiction; [|intros []]. destruct DO as (L & _). apply one_line_app; [apply one_line_b; reflexivity|exact L].
Qed.

(** ** Actions *)
Definition act_line (a : action) : bytes :=
  match a with
  | SetType n ty => TAB :: B "ALTER " ++ idn n ++ B " SET DATA TYPE " ++ ty
  | SetNotNull n => TAB :: B "ALTER " ++ idn n ++ B " SET NOT NULL"
  | SetDefault n x => TAB :: B "ALTER " ++ idn n ++ B " SET DEFAULT " ++ x
  | Add n ty b x => TAB :: B "ADD COLUMN " ++ idn n ++ match ty with Some ty => " "%char :: ty | None => [] end ++ null_text b ++ def_text x
  | Drop n => TAB :: B "DROP COLUMN " ++ idn n
  end.
Definition act_good (a : action) : Prop :=
  match a with
  | SetType n ty => good n /\ exists ts, type_text my ty ts
  | SetNotNull n => good n
  | SetDefault n x => good n /\ exists ts, default_text my x ts
  | Add n (Some ty) b x => col_good (MCol n ty b x)
  | Add n None _ _ => False
  | Drop n => good n
  end.
Lemma tab_piece y ts : piece my y = Some ts -> piece my (TAB :: y) = Some ts.
Proof. intros H. exact (eats_piece my [TAB] [] y ts eq_refl H). Qed.
Definition act_reading (a : action) (ts : list stok) (s : sact) : Prop :=
  piece my (act_line a) = Some ts /\ calm 0 ts = true /\ read_act ts = Some s /\ act_says my a s /\ one_line (act_line a).
Lemma lit_line x y : forallb (fun c => negb (beq c LF)) x = true -> one_line y -> one_line (x ++ y).
Proof. intros H L. apply one_line_app; [apply one_line_b, H|exact L]. Qed.
Lemma read_set n ty : ty <> [] -> read_act (Wd (B "ALTER") :: Nm n :: Wd (B "SET") :: Wd (B "DATA") :: Wd (B "TYPE") :: ty) = Some (SSetType n ty).
Proof. intros N. destruct ty; [contradiction|reflexivity]. Qed.
Lemma read_set_default n x : x <> [] -> read_act (Wd (B "ALTER") :: Nm n :: Wd (B "SET") :: Wd (B "DEFAULT") :: x) = Some (SSetDefault n x).
Proof. intros N. destruct x; [contradiction|reflexivity]. Qed.
Lemma act_reads a : act_good a -> exists ts s, act_reading a ts s.
Proof.
  destruct a as [n ty|n|n x|n [ty|] b x|n]; cbn [act_good]; intros G; try contradiction; unfold act_reading; cbn [act_line].
  - destruct G as (G & ty0 & TY). pose proof TY as (TL & TP & TN & TC & TF). exists ([Wd (B "ALTER")] ++ [Nm n] ++ [Wd (B "SET"); Wd (B "DATA"); Wd (B "TYPE")] ++ ty0), (SSetType n ty0). split; [|split; [|split; [|split]]].
    + apply tab_piece. apply eats_piece; [lit|]. apply piece_app; [apply good_piece, G| |apply sp_starts]. apply eats_piece; [lit|exact TP].
    + exact TC.
    + apply read_set, TN.
    + split; [reflexivity|exact TY].
    + apply one_line_cons; [discriminate|]. apply lit_line; [reflexivity|]. apply one_line_app; [apply good_line, G|]. apply lit_line; [reflexivity|exact TL].
  - exists ([Wd (B "ALTER")] ++ [Nm n] ++ [Wd (B "SET"); Wd (B "NOT"); Wd (B "NULL")]), (SSetNotNull n). split; [|split; [|split; [|split]]]; try reflexivity.
    + apply tab_piece. apply eats_piece; [lit|]. apply piece_app; [apply good_piece, G|lit|apply sp_starts].
    + apply one_line_cons; [discriminate|]. apply lit_line; [reflexivity|]. apply one_line_app; [apply good_line, G|]. apply one_line_b. reflexivity.
  - destruct G as (G & dt & DT). pose proof DT as (TL & TP & TN & TC). exists ([Wd (B "ALTER")] ++ [Nm n] ++ [Wd (B "SET"); Wd (B "DEFAULT")] ++ dt), (SSetDefault n dt). split; [|split; [|split; [|split]]].
    + apply tab_piece. apply eats_piece; [lit|]. apply piece_app; [apply good_piece, G| |apply sp_starts]. apply eats_piece; [lit|exact TP].
    + exact TC.
    + apply read_set_default, TN.
    + split; [reflexivity|exact DT].
    + apply one_line_cons; [discriminate|]. apply lit_line; [reflexivity|]. apply one_line_app; [apply good_line, G|]. apply lit_line; [reflexivity|exact TL].
  - destruct (col_reads _ G) as (ts & c & P & C & R & S1 & L). rewrite col_text_eq in P, L. cbn [m_name m_type m_null m_default] in P, L. exists ([Wd (B "ADD"); Wd (B "COLUMN")] ++ ts), (SAdd c). split; [|split; [|split; [|split]]].
    + apply tab_piece. apply eats_piece; [lit|]. exact P.
    + exact C.
    + change (option_map SAdd (read_col ts) = Some (SAdd c)). rewrite R. reflexivity.
    + exact S1.
    + apply one_line_cons; [discriminate|]. apply lit_line; [reflexivity|exact L].
  - exists ([Wd (B "DROP"); Wd (B "COLUMN")] ++ [Nm n]), (SDrop n). split; [|split; [|split; [|split]]]; try reflexivity.
    + apply tab_piece. apply eats_piece; [lit|]. apply good_piece, G.
    + apply one_line_cons; [discriminate|]. apply lit_line; [reflexivity|]. apply good_line, G.
Qed.
Lemma acts_read acts : Forall act_good acts -> exists tss ss, Forall2 (fun a ts => piece my (act_line a) = Some ts) acts tss /\ Forall (fun ts => calm 0 ts = true) tss /\ read_acts tss = Some ss /\ Forall2 (act_says my) acts ss /\ Forall one_line (map act_line acts).
Proof.
  induction 1 as [|a acts G F IH]; [exists [], []; repeat constructor|]. destruct (act_reads a G) as (ts & s & P & C & R & A & L). destruct IH as (tss & ss & P' & C' & R' & A' & L'). exists (ts :: tss), (s :: ss).
  split; [constructor; assumption|]. split; [constructor; assumption|]. split; [cbn [read_acts]; rewrite R, R'; reflexivity|]. split; constructor; assumption.
Qed.

(** ** Lines and their tokens *)
Lemma ended_eats e et : (forall x ts, piece my x = Some ts -> eats my ((x ++ e) ++ [LF]) (ts ++ et)) -> eats my (e ++ [LF]) et ->
  forall l tss, Forall2 (fun x ts => piece my x = Some ts) l tss -> exists uss, Forall2 (fun x us => eats my (x ++ [LF]) us) (ended e l) uss /\ concat uss = commas tss ++ et.
Proof.
  intros HE H0 l. induction l as [|x l IH]; intros tss F; inversion F as [|? ts ? tss' P F']; subst.
  - exists [et]. split; [constructor; [exact H0|constructor]|]. cbn [concat commas app]. apply app_nil_r.
  - destruct l as [|y l].
    + inversion F'; subst. exists [ts ++ et]. split; [constructor; [apply HE, P|constructor]|]. cbn [concat commas]. apply app_nil_r.
    + destruct (IH _ F') as (uss & FU & C). exists ((ts ++ [Sy ","]) :: uss). split.
      * cbn [ended]. constructor; [|exact FU]. rewrite <- app_assoc. apply piece_eats; [exact P|discriminate|lit|apply cm_starts].
      * cbn [concat]. rewrite C. inversion F' as [|? ? ? ? ? ?]; subst. cbn [commas]. rewrite <- !app_assoc. reflexivity.
Qed.
Lemma ended_semi l tss : Forall2 (fun x ts => piece my x = Some ts) l tss -> exists uss, Forall2 (fun x us => eats my (x ++ [LF]) us) (ended (B ";") l) uss /\ concat uss = commas tss ++ [Sy ";"].
Proof. apply ended_eats; [|lit]. intros x ts P. rewrite <- app_assoc. apply piece_eats; [exact P|discriminate|lit|apply sc_starts]. Qed.
Lemma ended_none l tss : Forall2 (fun x ts => piece my x = Some ts) l tss -> exists uss, Forall2 (fun x us => eats my (x ++ [LF]) us) (ended [] l) uss /\ concat uss = commas tss.
Proof. intros F. destruct (ended_eats [] [] (fun x ts P => eq_ind_r (fun x0 => eats my (x0 ++ [LF]) (ts ++ [])) (eq_ind_r (fun t0 => eats my (x ++ [LF]) t0) (piece_line my x ts P) (app_nil_r ts)) (app_nil_r x)) eq_refl l tss F) as (uss & A & C). exists uss. split; [exact A|]. rewrite C. apply app_nil_r. Qed.
Lemma ended_commands e l : command e = false -> Forall (fun x => exists y, x = TAB :: y) l -> Forall (fun x => command x = false) (ended e l).
Proof.
  intros E F. induction F as [|x l (y & ->) F IH]; [constructor; [exact E|constructor]|]. destruct l as [|z l]; [constructor; [reflexivity|constructor]|]. cbn [ended]. constructor; [reflexivity|exact IH].
Qed.
Lemma ended_lines e l : one_line e -> Forall one_line l -> Forall one_line (ended e l).
Proof.
  intros E F. induction F as [|x l H F IH]; [constructor; [exact E|constructor]|]. destruct l as [|z l]; [constructor; [apply one_line_app; assumption|constructor]|]. cbn [ended]. constructor; [apply one_line_app; [exact H|apply one_line_b; reflexivity]|exact IH].
Qed.
End Files.
