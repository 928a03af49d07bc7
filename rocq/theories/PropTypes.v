(** C52, C64: column types. *)
From Coq Require Import List Bool ZArith Ascii Lia.
From Verif Require Import Base LemmasBase ModelTypes.
Import ListNotations.
Open Scope Z_scope.

(** The values of the Go types; int and uint have 64 bits *)
Definition go_min (k : ikind) : Z := match k with KInt | KInt64 => - 2 ^ 63 | KInt8 => - 2 ^ 7 | KInt16 => - 2 ^ 15 | KInt32 | KRune => - 2 ^ 31 | _ => 0 end.
Definition go_max (k : ikind) : Z :=
  match k with KInt | KInt64 => 2 ^ 63 - 1 | KInt8 => 2 ^ 7 - 1 | KInt16 => 2 ^ 15 - 1 | KInt32 | KRune => 2 ^ 31 - 1 | KUint | KUint64 => 2 ^ 64 - 1 | KUint8 | KByte => 2 ^ 8 - 1 | KUint16 => 2 ^ 16 - 1 | KUint32 => 2 ^ 32 - 1 end.
(** What a column declared with a text holds: the first word is the type. A CHAR(1) column holds the numbers of one digit.
    MySQL 8.0 manual 11.1.2; PostgreSQL manual 8.1; SQLite: datatype3.html (an INTEGER has up to 8 bytes). *)
Fixpoint first_word (s : bytes) : bytes := match s with [] => [] | c :: r => if beq c " " then [] else c :: first_word r end.
Definition sql_types (d : dialect) : list (bytes * (Z * Z)) :=
  match d with
  | MySQL => [(B "TINYINT", (- 2 ^ 7, 2 ^ 7 - 1)); (B "SMALLINT", (- 2 ^ 15, 2 ^ 15 - 1)); (B "INTEGER", (- 2 ^ 31, 2 ^ 31 - 1)); (B "BIGINT", (- 2 ^ 63, 2 ^ 63 - 1)); (B "CHAR(1)", (0, 9))]
  | Postgres => [(B "int2", (- 2 ^ 15, 2 ^ 15 - 1)); (B "int4", (- 2 ^ 31, 2 ^ 31 - 1)); (B "int8", (- 2 ^ 63, 2 ^ 63 - 1)); (B "bigint", (- 2 ^ 63, 2 ^ 63 - 1));
                 (B "serial2", (- 2 ^ 15, 2 ^ 15 - 1)); (B "serial4", (- 2 ^ 31, 2 ^ 31 - 1)); (B "bigserial", (- 2 ^ 63, 2 ^ 63 - 1)); (B "char(1)", (0, 9))]
  | SQLite => [(B "INTEGER", (- 2 ^ 63, 2 ^ 63 - 1))]
  end.
Definition holds (d : dialect) (decl : bytes) (v : Z) : Prop := exists lo hi, In (first_word decl, (lo, hi)) (sql_types d) /\ lo <= v <= hi.
(** The kinds whose column holds every value *)
Definition safe (d : dialect) (k : ikind) : bool :=
  match d with
  | MySQL => match k with KInt8 | KInt16 | KInt32 | KUint8 | KUint16 => true | _ => false end
  | Postgres => match k with KInt8 | KInt16 | KInt32 | KInt64 | KUint8 => true | _ => false end
  | SQLite => match k with KUint | KUint64 | KByte | KRune => false | _ => true end
  end.
Ltac find_range := first [left; reflexivity | right; find_range].
Ltac beyond I L := vm_compute in I; repeat (destruct I as [I|I]; [try discriminate I; injection I as <- <-; lia|]); contradiction.
Ltac within := match goal with |- holds ?d ?x _ => let w := eval vm_compute in (first_word x) in let e := eval vm_compute in (find (fun p => bseq (fst p) w) (sql_types d)) in match e with Some (_, (?lo, ?hi)) => exists lo, hi; split; [vm_compute; find_range|lia] end end.
Lemma go_range k : go_min k <= go_max k.
Proof. destruct k; discriminate. Qed.
(** Exactly these kinds are safe: each value of a safe kind fits, and for the others some value of the Go type does not. *)
Theorem C52_exact_partial d k null incr : (forall v, go_min k <= v <= go_max k -> holds d (data_type d k null incr) v) <-> safe d k = true.
Proof.
  split.
  - intros H. destruct (safe d k) eqn:E; [reflexivity|]. exfalso.
    destruct (H (go_max k) (conj (go_range k) (Z.le_refl _))) as (lo & hi & I & L).
    destruct d, k, null, incr; try discriminate E; unfold go_max in L; beyond I L.
  - intros E v L. destruct d, k, null, incr; try discriminate E; unfold go_min, go_max in L; within.
Qed.
(** The failures, one by one *)
Theorem C52_int_refuted : ~ holds MySQL (data_type MySQL KInt false false) (2 ^ 31) /\ ~ holds MySQL (data_type MySQL KInt64 false false) (2 ^ 31) /\ ~ holds MySQL (data_type MySQL KUint32 false false) (2 ^ 31) /\ ~ holds Postgres (data_type Postgres KInt false false) (2 ^ 31) /\
  ~ holds Postgres (data_type Postgres KUint16 false false) (2 ^ 15) /\ ~ holds Postgres (data_type Postgres KUint32 false false) (2 ^ 31) /\ ~ holds MySQL (data_type MySQL KByte false false) 10.
Proof.
  repeat split; intros (lo & hi & I & L); beyond I L.
Qed.
(** PostgreSQL arrays: the element type *)
Definition elem_type (decl : bytes) : bytes := firstn (length decl - 2) decl.
Theorem C52_arrays_partial k ty : pg_array_type k = Some ty -> ((forall v, go_min k <= v <= go_max k -> holds Postgres (elem_type ty) v) <-> In k [KInt8; KInt16; KInt32; KInt64; KUint8]).
Proof.
  intros E. split.
  - intros H. destruct (H (go_max k) (conj (go_range k) (Z.le_refl _))) as (lo & hi & I & L).
    destruct k; try discriminate E; injection E as <-; unfold go_max in L; try (cbn [In]; tauto); exfalso; beyond I L.
  - intros I v L. cbn [In] in I. destruct I as [<-|[<-|[<-|[<-|[<-|[]]]]]]; injection E as <-; unfold go_min, go_max in L; within.
Qed.
(** The number that is sent is the number of the field, but for unsigned numbers of 2^63 and more that go through int64: they arrive negative *)
Lemma wrap_id v : - 2 ^ 63 <= v < 2 ^ 63 -> wrap64 v = v.
Proof. intros H. unfold wrap64. rewrite Z.mod_small; lia. Qed.
Lemma wrap_high v : 2 ^ 63 <= v < 2 ^ 64 -> wrap64 v = v - 2 ^ 64.
Proof. intros H. unfold wrap64. rewrite <- (Z.mod_add _ (-1)) by lia. rewrite Z.mod_small; lia. Qed.
Theorem C52_sent_partial d k v : k <> KRune -> go_min k <= v <= go_max k -> (sent d k v = v <-> v < 2 ^ 63 \/ (k = KUint64 /\ d <> Postgres)).
Proof.
  intros _ L. assert (R : - 2 ^ 63 <= v < 2 ^ 64) by (destruct k; unfold go_min, go_max in L; lia). split.
  - intros S. destruct (Z_lt_ge_dec v (2 ^ 63)) as [?|G]; [left; assumption|right]. destruct k; unfold go_max in L; try (exfalso; lia); destruct d; cbn [sent] in S; try (rewrite wrap_high in S by lia; exfalso; lia); split; [reflexivity|discriminate|reflexivity|discriminate].
  - intros [S|[-> N]].
    + unfold sent. destruct d, k; try reflexivity; apply wrap_id; lia.
    + destruct d; try reflexivity. exfalso. apply N. reflexivity.
Qed.
Theorem C52_sent_refuted d : sent d KUint (2 ^ 63) = - 2 ^ 63.
Proof. destruct d; reflexivity. Qed.
(** ** C64: auto-increment *)
(** The declarations with which the database makes the values itself *)
Definition generates (d : dialect) (decl : bytes) : Prop :=
  match d with
  | MySQL => exists a b, decl = a ++ B "AUTO_INCREMENT" ++ b
  | Postgres => In (first_word decl) [B "serial2"; B "serial4"; B "serial8"; B "serial"; B "bigserial"; B "smallserial"]
  | SQLite => first_word decl = B "INTEGER" (* as the primary key: an alias of the rowid *)
  end.
Theorem C64_exact_partial k null : In k [KInt; KInt8; KInt16; KInt32; KInt64; KUint; KUint8; KUint16; KUint32; KUint64] ->
  (generates Postgres (data_type Postgres k null true) <-> k <> KInt64) /\ generates SQLite (data_type SQLite k null true) /\ ~ generates MySQL (data_type MySQL k null true).
Proof.
  intros I. split; [|split].
  - split; [intros G ->; vm_compute in G; repeat (destruct G as [G|G]; [discriminate|]); contradiction|]. intros N. cbn [In] in I. repeat destruct I as [<-|I]; try contradiction; vm_compute; tauto.
  - cbn [In] in I. repeat destruct I as [<-|I]; try contradiction; destruct null; reflexivity.
  - intros (a & b & E).
    assert (G : forall l : bytes, (if in_dec Ascii.ascii_dec "_"%char l then true else false) = false -> l = a ++ B "AUTO_INCREMENT" ++ b -> False).
    { intros l X ->. destruct (in_dec Ascii.ascii_dec "_"%char (a ++ B "AUTO_INCREMENT" ++ b)) as [J|J]; [discriminate|]. apply J. apply in_or_app. right. apply in_or_app. left. cbn. tauto. }
    apply (G _ (eq_refl) E) || (eapply G; [|exact E]; cbn [In] in I; repeat destruct I as [<-|I]; try contradiction; destruct null; vm_compute; reflexivity).
Qed.
Theorem C64_mysql_refuted k null : ~ generates MySQL (data_type MySQL k null true).
Proof.
  intros (a & b & E). assert (J : In "_"%char (data_type MySQL k null true)) by (rewrite E; apply in_or_app; right; apply in_or_app; left; cbn; tauto).
  clear E. destruct k, null; vm_compute in J; repeat (destruct J as [J|J]; [discriminate J|]); contradiction.
Qed.
Theorem C64_int64_refuted null : ~ generates Postgres (data_type Postgres KInt64 null true).
Proof. intros G. vm_compute in G. repeat (destruct G as [G|G]; [discriminate|]). contradiction. Qed.
Example C52_case : data_type MySQL KInt16 false false = B "INTEGER NOT NULL DEFAULT false" /\ holds MySQL (B "INTEGER NOT NULL DEFAULT false") (-32768) /\ data_type Postgres KUint64 false true = B "bigserial".
Proof. split; [reflexivity|]. split; [within|reflexivity]. Qed.
Example C64_case : data_type Postgres KInt true true = B "serial4" /\ data_type Postgres KInt64 true true = B "bigint".
Proof. split; reflexivity. Qed.
Print Assumptions C52_exact_partial.
Print Assumptions C52_int_refuted.
Print Assumptions C52_arrays_partial.
Print Assumptions C52_sent_partial.
Print Assumptions C52_sent_refuted.
Print Assumptions C64_exact_partial.
Print Assumptions C64_mysql_refuted.
Print Assumptions C64_int64_refuted.
