(** C82: the types the dialects give to columns exist and hold the values. *)
From Coq Require Import List Bool ZArith Lia.
From Verif Require Import SpecSql Base LemmasBase ModelStrconv ModelTypes ModelGen ModelMigration LemmasArray SpecScript ModelDataType SpecDataType LemmasDataType.
Import ListNotations.
Open Scope Z_scope.

Definition db_of (d : driver) : system := match d with DMySQL => MySQLDB | DPostgres => PostgresDB | DSQLite => SQLiteDB end.
(** The dialect declares a column of the Go type [key] as [dc] *)
Definition column_is (d : driver) (key : bytes) (c : column) (dc : decl) : Prop := exists f, In (key, f) (data_types d) /\ declares (db_of d) (f c) dc.
(** The dialect has an entry for the Go type, but the database has no such type *)
Definition no_type (d : driver) (key : bytes) (c : column) : Prop := (exists f, In (key, f) (data_types d)) /\ forall dc, ~ column_is d key c dc.
(** The Go types PostgreSQL gets no type for, whatever the column *)
Definition pg_broken : list bytes := [B "[]byte"; B "[]float32"; B "[]float64"; B "[...]string"; B "[...]bool"].
Definition arrays : list bytes := [B "[...]rune"; B "[...]byte"].
(** The declared size is one the database has *)
Definition size_fits (d : driver) (key : bytes) (c : column) : Prop :=
  0 <= c_size c /\
  match d with
  | DMySQL => c_size c <= (if bmem key [B "[...]byte"] then 255 else 65535)
  | DPostgres => c_size c <= 10485760 /\ (In key arrays -> c_size c <> 0)
  | DSQLite => True
  end.

Fixpoint distinct (l : list bytes) : bool := match l with [] => true | x :: r => negb (bmem x r) && distinct r end.
Lemma distinct_NoDup l : distinct l = true -> NoDup l.
Proof. induction l as [|x r IH]; [constructor|]. cbn [distinct]. intros H. apply andb_prop in H as [M H]. constructor; [|apply IH, H]. intros I. apply bmem_In in I. rewrite I in M. discriminate M. Qed.
Lemma keys_nodup d : NoDup (map fst (data_types d)).
Proof. apply distinct_NoDup. destruct d; vm_compute; reflexivity. Qed.
Lemma key_fun d key f f' : In (key, f) (data_types d) -> In (key, f') (data_types d) -> f = f'.
Proof.
  pose proof (keys_nodup d) as N. induction (data_types d) as [|[k g] l IH]; [intros []|]. cbn [map fst] in N. inversion N as [|? ? NI N']; subst. intros [E|I] [E'|I'].
  - congruence.
  - exfalso. apply NI. injection E as -> _. apply (in_map fst) in I'. exact I'.
  - exfalso. apply NI. injection E' as -> _. apply (in_map fst) in I. exact I.
  - apply IH; assumption.
Qed.
Lemma column_iff d key f c dc : In (key, f) (data_types d) -> column_is d key c dc <-> decl_of (db_of d) (f c) = Some dc.
Proof. intros I. split; [intros (f' & I' & D); rewrite (key_fun d key f f' I I'); apply declares_iff, D|intros D; exists f; split; [exact I|apply declares_iff, D]]. Qed.

Lemma format_nat n : 0 <= n -> format_int n = format_uint (Z.to_N n).
Proof. intros H. destruct n; [reflexivity|reflexivity|lia]. Qed.
(** The four types with a size *)
Definition mysql_string (c : column) : bytes := B "VARCHAR(" ++ format_int (if Z.ltb 0 (c_size c) then c_size c else 255) ++ B ")".
Lemma sized_text db w w' f lo hi n null : 0 <= n -> In (w, f, lo, hi) (sized_types db) -> w' <> [] -> Forall (fun c => word_char c = true) w' -> clause (Wd w') = false -> kw w (Wd w') = true ->
  decl_of db (w' ++ B "(" ++ format_int n ++ B ")" ++ tail_of null) = if Z.leb lo n && Z.leb n hi then Some (Decl (f n) null None) else None.
Proof. intros H I N F C K. rewrite (format_nat n H), (sized_decl db w f lo hi _ null I w' N F C K), Z2N.id by exact H. reflexivity. Qed.
Definition eff_size (c : column) : Z := if Z.ltb 0 (c_size c) then c_size c else 255.
Lemma eff_size_pos c : 0 < eff_size c.
Proof. unfold eff_size. destruct (Z.ltb_spec 0 (c_size c)); lia. Qed.
Ltac words := repeat first [discriminate | reflexivity | constructor].
Lemma mysql_string_decl c dc : column_is DMySQL (B "string") c dc <-> eff_size c <= 65535 /\ dc = Decl (TVarchar (eff_size c)) true None.
Proof.
  rewrite (column_iff DMySQL (B "string") (fun c => B "VARCHAR(" ++ format_int (if Z.ltb 0 (c_size c) then c_size c else 255) ++ B ")")) by (right; right; left; reflexivity).
  fold (eff_size c). pose proof (eff_size_pos c) as P. pose proof (sized_text MySQLDB (B "VARCHAR") (B "VARCHAR") TVarchar 0 65535 (eff_size c) true ltac:(lia) ltac:(right; left; reflexivity) ltac:(discriminate) ltac:(words) eq_refl eq_refl) as E.
  cbn [tail_of] in E. rewrite app_nil_r in E. cbn [db_of]. change (B "VARCHAR(" ++ format_int (eff_size c) ++ B ")") with (B "VARCHAR" ++ B "(" ++ format_int (eff_size c) ++ B ")"). rewrite E.
  rewrite (proj2 (Z.leb_le 0 _)) by lia. cbn [andb]. destruct (Z.leb_spec (eff_size c) 65535); split.
  - intros X. injection X as <-. split; [assumption|reflexivity].
  - intros [_ ->]. reflexivity.
  - discriminate.
  - intros [X _]. lia.
Qed.
Lemma pg_string_decl c dc : column_is DPostgres (B "string") c dc <-> eff_size c <= 10485760 /\ dc = Decl (TVarchar (eff_size c)) true None.
Proof.
  rewrite (column_iff DPostgres (B "string") (fun c => B "varchar(" ++ format_int (if Z.ltb 0 (c_size c) then c_size c else 255) ++ B ")")) by (right; right; left; reflexivity).
  fold (eff_size c). pose proof (eff_size_pos c) as P. pose proof (sized_text PostgresDB (B "VARCHAR") (B "varchar") TVarchar 1 10485760 (eff_size c) true ltac:(lia) ltac:(right; left; reflexivity) ltac:(discriminate) ltac:(words) eq_refl eq_refl) as E.
  cbn [tail_of] in E. rewrite app_nil_r in E. cbn [db_of]. change (B "varchar(" ++ format_int (eff_size c) ++ B ")") with (B "varchar" ++ B "(" ++ format_int (eff_size c) ++ B ")"). rewrite E.
  rewrite (proj2 (Z.leb_le 1 _)) by lia. cbn [andb]. destruct (Z.leb_spec (eff_size c) 10485760); split.
  - intros X. injection X as <-. split; [assumption|reflexivity].
  - intros [_ ->]. reflexivity.
  - discriminate.
  - intros [X _]. lia.
Qed.
Lemma mysql_array_decl c dc : 0 <= c_size c ->
  (column_is DMySQL (B "[...]rune") c dc <-> c_size c <= 65535 /\ dc = Decl (TVarchar (c_size c)) (c_null c) None) /\
  (column_is DMySQL (B "[...]byte") c dc <-> c_size c <= 255 /\ dc = Decl (TChar (c_size c)) (c_null c) None).
Proof.
  intros P. split.
  - rewrite (column_iff DMySQL (B "[...]rune") (fun c => declared (B "VARCHAR(" ++ format_int (c_size c) ++ B ")") None c)) by (do 19 right; left; reflexivity).
    pose proof (sized_text MySQLDB (B "VARCHAR") (B "VARCHAR") TVarchar 0 65535 (c_size c) (c_null c) P ltac:(right; left; reflexivity) ltac:(discriminate) ltac:(words) eq_refl eq_refl) as E.
    unfold declared. rewrite app_nil_r. fold (tail_of (c_null c)). cbn [db_of]. rewrite <- !app_assoc. change (B "VARCHAR(" ++ ?x) with (B "VARCHAR" ++ B "(" ++ x). rewrite E.
    rewrite (proj2 (Z.leb_le 0 _)) by lia. cbn [andb]. destruct (Z.leb_spec (c_size c) 65535); split.
    + intros X. injection X as <-. split; [assumption|reflexivity].
    + intros [_ ->]. reflexivity.
    + discriminate.
    + intros [X _]. lia.
  - rewrite (column_iff DMySQL (B "[...]byte") (fun c => declared (B "CHAR(" ++ format_int (c_size c) ++ B ")") None c)) by (do 20 right; left; reflexivity).
    pose proof (sized_text MySQLDB (B "CHAR") (B "CHAR") TChar 0 255 (c_size c) (c_null c) P ltac:(left; reflexivity) ltac:(discriminate) ltac:(words) eq_refl eq_refl) as E.
    unfold declared. rewrite app_nil_r. fold (tail_of (c_null c)). cbn [db_of]. rewrite <- !app_assoc. change (B "CHAR(" ++ ?x) with (B "CHAR" ++ B "(" ++ x). rewrite E.
    rewrite (proj2 (Z.leb_le 0 _)) by lia. cbn [andb]. destruct (Z.leb_spec (c_size c) 255); split.
    + intros X. injection X as <-. split; [assumption|reflexivity].
    + intros [_ ->]. reflexivity.
    + discriminate.
    + intros [X _]. lia.
Qed.
Lemma pg_array_decl key c dc : In key arrays -> 0 <= c_size c ->
  (column_is DPostgres key c dc <-> 1 <= c_size c <= 10485760 /\ dc = Decl (TVarchar (c_size c)) true None).
Proof.
  intros K P. rewrite (column_iff DPostgres key (fun c => bare (B "varchar(" ++ format_int (c_size c) ++ B ")") c)) by (destruct K as [<-|[<-|[]]]; [do 19 right; left; reflexivity|do 20 right; left; reflexivity]).
  pose proof (sized_text PostgresDB (B "VARCHAR") (B "varchar") TVarchar 1 10485760 (c_size c) true P ltac:(right; left; reflexivity) ltac:(discriminate) ltac:(words) eq_refl eq_refl) as E.
  cbn [tail_of] in E. rewrite app_nil_r in E. cbn [db_of]. unfold bare. change (B "varchar(" ++ ?x) with (B "varchar" ++ B "(" ++ x). rewrite E.
  destruct (Z.leb_spec 1 (c_size c)), (Z.leb_spec (c_size c) 10485760); cbn [andb]; split.
  all: try discriminate.
  all: try (intros [X _]; lia).
  - intros X. injection X as <-. split; [lia|reflexivity].
  - intros [_ ->]. reflexivity.
Qed.
(** The others do not look at the size *)
Definition sized_keys (d : driver) : list bytes := match d with DSQLite => [] | _ => B "string" :: arrays end.
Definition plain_decl (d : driver) (key : bytes) (null incr : bool) : option decl :=
  match find (fun p => bseq (fst p) key) (data_types d) with Some (_, f) => decl_of (db_of d) (f (Column 0 null incr)) | None => None end.
Lemma plain_eq d key f c : In (key, f) (data_types d) -> ~ In key (sized_keys d) -> decl_of (db_of d) (f c) = plain_decl d key (c_null c) (c_incr c).
Proof.
  intros I N. unfold plain_decl. rewrite (find_key fst _ _ (key, f) (keys_nodup d) I); [|apply bseq_refl|intros [k g] E; apply bseq_eq in E; exact E].
  f_equal. destruct c as [n a i]. cbn [c_null c_incr].
  destruct d; cbn [data_types mysql_types pg_types sqlite_types In] in I; repeat (destruct I as [I|I]; [injection I as <- <-; first [reflexivity|exfalso; apply N; cbn; auto; fail]|]); destruct I.
Qed.
Lemma plain_iff d key c dc : In key (map fst (data_types d)) -> ~ In key (sized_keys d) -> column_is d key c dc <-> plain_decl d key (c_null c) (c_incr c) = Some dc.
Proof. intros K N. apply in_map_iff in K as ((k & f) & E & I). cbn [fst] in E. subst k. rewrite (column_iff d key f c dc I), (plain_eq d key f c I N). reflexivity. Qed.
Definition is_key (d : driver) (key : bytes) : bool := bmem key (map fst (data_types d)) && negb (bmem key (sized_keys d)).
Lemma plain d key c dc : is_key d key = true -> column_is d key c dc <-> plain_decl d key (c_null c) (c_incr c) = Some dc.
Proof. intros H. apply andb_prop in H as [A C]. apply plain_iff; [apply bmem_In, A|]. intros I. apply bmem_In in I. rewrite I in C. discriminate C. Qed.
(** All the keys that need no size have a type, except the broken ones *)
Definition fine (d : driver) (p : bytes * (column -> bytes)) : bool :=
  bmem (fst p) (sized_keys d) || (match d with DPostgres => bmem (fst p) pg_broken | _ => false end) ||
  forallb (fun n => forallb (fun i => match plain_decl d (fst p) n i with Some _ => true | None => false end) [true; false]) [true; false].
Lemma all_fine d : forallb (fine d) (data_types d) = true.
Proof. destruct d; vm_compute; reflexivity. Qed.
Lemma bool_cases (P : bool -> bool) b : forallb P [true; false] = true -> P b = true.
Proof. cbn. rewrite andb_true_r, andb_true_iff. intros [A C]. destruct b; assumption. Qed.

(** Every Go type the dialects know gets a type its database has. Missing: the list types of PostgreSQL named in [pg_broken]. *)
Theorem C82_types_partial d key c : In key (map fst (data_types d)) -> (d = DPostgres -> ~ In key pg_broken) -> size_fits d key c -> exists dc, column_is d key c dc.
Proof.
  intros K N (P & SZ). destruct (in_dec (list_eq_dec Ascii.ascii_dec) key (sized_keys d)) as [S1|S1].
  - destruct d; cbn [sized_keys] in S1.
    + destruct S1 as [<-|[<-|[<-|[]]]].
      * change (bmem (B "string") [B "[...]byte"]) with false in SZ. cbn iota in SZ. eexists. apply mysql_string_decl. split; [|reflexivity]. unfold eff_size. destruct (Z.ltb 0 (c_size c)); lia.
      * change (bmem (B "[...]rune") [B "[...]byte"]) with false in SZ. cbn iota in SZ. eexists. apply (mysql_array_decl c _ P). split; [lia|reflexivity].
      * change (bmem (B "[...]byte") [B "[...]byte"]) with true in SZ. cbn iota in SZ. eexists. apply (mysql_array_decl c _ P). split; [lia|reflexivity].
    + destruct SZ as (SZ & AZ). destruct S1 as [<-|S1].
      * eexists. apply pg_string_decl. split; [|reflexivity]. unfold eff_size. destruct (Z.ltb 0 (c_size c)); lia.
      * eexists. apply (pg_array_decl key c _ S1 P). split; [|reflexivity]. specialize (AZ S1). lia.
    + destruct S1.
  - apply in_map_iff in K as ((k & f) & E & I). cbn [fst] in E. subst k. pose proof (all_fine d) as A. rewrite forallb_forall in A. specialize (A _ I). unfold fine in A. cbn [fst] in A.
    assert (S2 : bmem key (sized_keys d) = false) by (destruct (bmem key (sized_keys d)) eqn:X; [exfalso; apply S1, bmem_In, X|reflexivity]). rewrite S2 in A. cbn [orb] in A.
    assert (S3 : match d with DPostgres => bmem key pg_broken | _ => false end = false) by (destruct d; try reflexivity; destruct (bmem key pg_broken) eqn:X; [exfalso; apply (N eq_refl), bmem_In, X|reflexivity]). rewrite S3 in A. cbn [orb] in A.
    apply (bool_cases _ (c_null c)) in A. apply (bool_cases _ (c_incr c)) in A. cbv beta in A. destruct (plain_decl d key (c_null c) (c_incr c)) as [dc|] eqn:D; [|discriminate A]. exists dc. apply (column_iff d key f c dc I). rewrite (plain_eq d key f c I S1). exact D.
Qed.
(** PostgreSQL has neither blob nor double, and no {{len}} *)
Theorem C82_pg_unknown_refuted key c : In key pg_broken -> no_type DPostgres key c.
Proof.
  intros K. assert (M : forallb (fun k => is_key DPostgres k && forallb (fun n => forallb (fun i => match plain_decl DPostgres k n i with Some _ => false | None => true end) [true; false]) [true; false]) pg_broken = true) by (vm_compute; reflexivity).
  rewrite forallb_forall in M. apply M in K. clear M. apply andb_prop in K as [K A]. split.
  - apply andb_prop in K as [K _]. apply bmem_In in K. apply in_map_iff in K as ((k & f) & E & I). cbn [fst] in E. subst k. exists f. exact I.
  - intros dc D. apply (plain DPostgres key c dc K) in D. apply (bool_cases _ (c_null c)) in A. apply (bool_cases _ (c_incr c)) in A. cbv beta in A. rewrite D in A. discriminate A.
Qed.
(** The size of an array column is the one the user declares, not the length of the array: without it MySQL gets CHAR(0), PostgreSQL varchar(0) *)
Theorem C82_array_refuted c : c_size c = 0 ->
  (forall key, In key arrays -> no_type DPostgres key c) /\
  (forall key dc us, In key arrays -> column_is DMySQL key c dc -> holds MySQLDB (d_type dc) (VText us) -> us = []).
Proof.
  intros Z0. split.
  - intros key K. split.
    + eexists. destruct K as [<-|[<-|[]]]; [do 19 right; left; reflexivity|do 20 right; left; reflexivity].
    + intros dc D. apply pg_array_decl in D as [D _]; [lia|exact K|lia].
  - intros key dc us [<-|[<-|[]]] D H; apply mysql_array_decl in D as [_ ->]; try lia; cbn [d_type holds] in H; rewrite Z0 in H; destruct us; try reflexivity; cbn [length] in H; lia.
Qed.
Example C82_types_example : column_is DMySQL (B "time.Time") (Column 0 false false) (Decl (TTimestamp 0) false (Some [Wd (B "CURRENT_TIMESTAMP")])) /\ column_is DPostgres (B "float64") (Column 0 false false) (Decl double true None)
  /\ column_is DPostgres (B "uint64") (Column 0 false true) (Decl (TSerial 8) true None) /\ column_is DSQLite (B "string") (Column 0 true false) (Decl TText true (Some [St []])) /\ column_is DPostgres (B "[]string") (Column 0 true false) (Decl (TArray TText) true None)
  /\ column_is DMySQL (B "string") (Column 40 false false) (Decl (TVarchar 40) true None).
Proof. repeat split; try (apply plain; [reflexivity|vm_compute; reflexivity]). apply mysql_string_decl. split; [cbn; lia|reflexivity]. Qed.

(** ** NULL and defaults *)
(** NULL is allowed exactly for the nullable Go types, if the dialect says NOT NULL at all *)
Definition says_null (d : driver) (key : bytes) : bool := match d with DMySQL => negb (bseq key (B "string")) | DSQLite => true | DPostgres => false end.
Definition null_ok (d : driver) (p : bytes * (column -> bytes)) : bool :=
  negb (is_key d (fst p)) ||
  forallb (fun n => forallb (fun i => match plain_decl d (fst p) n i with Some dc => Bool.eqb (d_null dc) (if says_null d (fst p) then n else true) | None => true end) [true; false]) [true; false].
Lemma all_null d : forallb (null_ok d) (data_types d) = true.
Proof. destruct d; vm_compute; reflexivity. Qed.
Lemma null_is d key c dc : 0 <= c_size c -> column_is d key c dc -> d_null dc = if says_null d key then c_null c else true.
Proof.
  intros P D. assert (D0 := D). destruct D0 as (f & I & _). destruct (is_key d key) eqn:K.
  - pose proof (all_null d) as A. rewrite forallb_forall in A. specialize (A _ I). unfold null_ok in A. cbn [fst] in A. rewrite K in A. cbn [negb orb] in A. apply (plain d key c dc K) in D.
    apply (bool_cases _ (c_null c)) in A. apply (bool_cases _ (c_incr c)) in A. cbv beta in A. rewrite D in A. apply eqb_prop in A. exact A.
  - unfold is_key in K. apply (in_map fst) in I. cbn [fst] in I. apply bmem_In in I. rewrite I in K. cbn [andb] in K. apply negb_false_iff, bmem_In in K.
    destruct d; cbn [sized_keys] in K.
    + destruct K as [<-|[<-|[<-|[]]]]; [apply mysql_string_decl in D|apply mysql_array_decl in D; [|exact P]|apply mysql_array_decl in D; [|exact P]]; destruct D as [_ ->]; reflexivity.
    + destruct K as [<-|K]; [apply pg_string_decl in D|apply (pg_array_decl key c dc K P) in D]; destruct D as [_ ->]; reflexivity.
    + destruct K.
Qed.
Theorem C82_null_partial d key c dc : 0 <= c_size c -> (d = DMySQL /\ key <> B "string" \/ d = DSQLite) -> column_is d key c dc -> d_null dc = c_null c.
Proof. intros P K D. rewrite (null_is d key c dc P D). destruct K as [[-> K]| ->]; [|reflexivity]. cbn [says_null]. rewrite (proj2 (bseq_neq _ _) K). reflexivity. Qed.
(** Strings in MySQL and everything in PostgreSQL: NULL is always allowed *)
Theorem C82_null_refuted d key c dc : 0 <= c_size c -> (d = DMySQL /\ key = B "string" \/ d = DPostgres) -> column_is d key c dc -> d_null dc = true.
Proof. intros P K D. rewrite (null_is d key c dc P D). destruct K as [[-> ->]| ->]; reflexivity. Qed.
(** Defaults: the zero value of the Go type, or the current time; none in PostgreSQL, none where MySQL takes none *)
Definition zero_default (dv : list stok) : Prop := In dv [[Wd (B "false")]; [Wd (B "0")]; [St []]].
Definition default_fine (d : driver) (key : bytes) (dc : decl) : bool :=
  match d_default dc with
  | None => true
  | Some dv => match d with DPostgres => false | _ => true end
               && match dv with [Wd x] => bseq x (B "false") || bseq x (B "0") || (bseq x (B "CURRENT_TIMESTAMP") && bseq key (B "time.Time")) | [St []] => true | _ => false end
               && match d, d_type dc with DMySQL, (TText | TBlob | TJson) => false | _, _ => true end
  end.
Lemma all_default d : forallb (fun p => negb (is_key d (fst p)) || forallb (fun n => forallb (fun i => match plain_decl d (fst p) n i with Some dc => default_fine d (fst p) dc | None => true end) [true; false]) [true; false]) (data_types d) = true.
Proof. destruct d; vm_compute; reflexivity. Qed.
Theorem C82_default d key c dc dv : 0 <= c_size c -> column_is d key c dc -> d_default dc = Some dv ->
  d <> DPostgres /\ (zero_default dv \/ key = B "time.Time" /\ dv = [Wd (B "CURRENT_TIMESTAMP")]) /\ (d = DMySQL -> d_type dc <> TText /\ d_type dc <> TBlob /\ d_type dc <> TJson).
Proof.
  intros P D DV. assert (D0 := D). destruct D0 as (f & I & _). destruct (is_key d key) eqn:K.
  - pose proof (all_default d) as A. rewrite forallb_forall in A. specialize (A _ I). cbn [fst] in A. rewrite K in A. cbn [negb orb] in A. apply (plain d key c dc K) in D.
    apply (bool_cases _ (c_null c)) in A. apply (bool_cases _ (c_incr c)) in A. cbv beta in A. rewrite D in A. unfold default_fine in A. rewrite DV in A. apply andb_prop in A as [A T]. apply andb_prop in A as [A V].
    split; [intros ->; discriminate A|]. split.
    + destruct dv as [|[x|x|x|x] [|t r]]; try discriminate V; try (destruct x; discriminate V).
      * apply orb_true_iff in V as [V|V]; [left; apply orb_true_iff in V as [V|V]; apply bseq_eq in V as ->; [left|right; left]; reflexivity|right]. apply andb_prop in V as [V V']. apply bseq_eq in V as ->. apply bseq_eq in V' as ->. split; reflexivity.
      * destruct x; [|discriminate V]. left. right. right. left. reflexivity.
    + intros ->. destruct (d_type dc); try discriminate T; repeat split; discriminate.
  - exfalso. unfold is_key in K. apply (in_map fst) in I. cbn [fst] in I. apply bmem_In in I. rewrite I in K. cbn [andb] in K. apply negb_false_iff, bmem_In in K.
    destruct d; cbn [sized_keys] in K.
    + destruct K as [<-|[<-|[<-|[]]]]; [apply mysql_string_decl in D|apply mysql_array_decl in D; [|exact P]|apply mysql_array_decl in D; [|exact P]]; destruct D as [_ ->]; discriminate DV.
    + destruct K as [<-|K]; [apply pg_string_decl in D|apply (pg_array_decl key c dc K P) in D]; destruct D as [_ ->]; discriminate DV.
    + destruct K.
Qed.
Example C82_default_example : column_is DSQLite (B "int") (Column 0 false false) (Decl (TInteger 8) false (Some [Wd (B "false")])) /\ column_is DMySQL (B "float32") (Column 0 true false) (Decl single true (Some [Wd (B "0")])).
Proof. split; (apply plain; [reflexivity|vm_compute; reflexivity]). Qed.

(** ** Values *)
(** Texts: exactly those up to the declared size, or 255 characters *)
Theorem C82_string d c limit : (0 < c_size c -> limit = c_size c) -> (c_size c <= 0 -> limit = 255) -> (d = DMySQL -> limit <= 65535) -> (d = DPostgres -> limit <= 10485760) ->
  exists dc, column_is d (B "string") c dc /\
    forall us, holds (db_of d) (d_type dc) (VText us) <-> (d = DSQLite \/ Z.of_nat (length us) <= limit) /\ (d = DPostgres -> ~ In 0%N us).
Proof.
  intros L1 L2 M Q. assert (E : limit = eff_size c) by (unfold eff_size; destruct (Z.ltb_spec 0 (c_size c)); auto). destruct d.
  - exists (Decl (TVarchar limit) true None). split; [apply mysql_string_decl; rewrite E in M |- *; split; [apply M; reflexivity|reflexivity]|]. intros us. cbn [db_of holds d_type]. split; intros [A C]; (split; [|discriminate]); [right; exact A|destruct A as [A|A]; [discriminate A|exact A]].
  - exists (Decl (TVarchar limit) true None). split; [apply pg_string_decl; rewrite E in Q |- *; split; [apply Q; reflexivity|reflexivity]|]. intros us. cbn [db_of holds d_type]. split; intros [A C]; (split; [|intros _; exact (C eq_refl)]); [right; exact A|destruct A as [A|A]; [discriminate A|exact A]].
  - exists (Decl TText (c_null c) (Some [St []])). split; [apply plain; [reflexivity|]; case (c_null c), (c_incr c); vm_compute; reflexivity|]. intros us. cbn [db_of holds d_type]. split; [intros _; split; [left; reflexivity|discriminate]|trivial].
Qed.
(** A text of more than 255 characters has no place in the default column *)
Theorem C82_string_refuted d c dc us : d <> DSQLite -> c_size c <= 0 -> 255 < Z.of_nat (length us) -> column_is d (B "string") c dc -> ~ holds (db_of d) (d_type dc) (VText us).
Proof.
  intros N Z0 L D H. assert (E : eff_size c = 255) by (unfold eff_size; destruct (Z.ltb_spec 0 (c_size c)); [lia|reflexivity]).
  destruct d; [apply mysql_string_decl in D|apply pg_string_decl in D|contradiction]; destruct D as [_ ->]; cbn [holds d_type db_of] in H; rewrite E in H; destruct H; lia.
Qed.
Example C82_string_example : exists dc, column_is DMySQL (B "string") (Column 3 false false) dc /\ holds MySQLDB (d_type dc) (VText [97; 98; 8364]%N) /\ ~ holds MySQLDB (d_type dc) (VText [97; 98; 99; 100]%N).
Proof. exists (Decl (TVarchar 3) true None). split; [apply mysql_string_decl; split; [cbn; lia|reflexivity]|]. cbn. split; [split; [lia|discriminate]|intros [A _]; lia]. Qed.

(** Single characters, written as text *)
Theorem C82_rune d c : exists dc, column_is d (B "rune") c dc /\
  forall u, holds (db_of d) (d_type dc) (VText [u]) <-> match d with DMySQL => u <> 32%N | DPostgres => u <> 0%N | DSQLite => True end.
Proof.
  destruct d.
  - exists (Decl (TChar 1) (c_null c) None). split; [apply plain; [reflexivity|]; case (c_null c), (c_incr c); vm_compute; reflexivity|]. intros u. cbn. split; [intros [_ H]; exact H|intros H; split; [lia|exact H]].
  - exists (Decl (TChar 1) true None). split; [apply plain; [reflexivity|]; case (c_null c), (c_incr c); vm_compute; reflexivity|]. intros u. cbn. split; [intros [_ H] ->; apply H; left; reflexivity|intros H; split; [reflexivity|intros [X|[]]; apply H; exact X]].
  - exists (Decl TText (c_null c) None). split; [apply plain; [reflexivity|]; case (c_null c), (c_incr c); vm_compute; reflexivity|]. intros u. cbn. split; trivial.
Qed.
(** A byte is written as a number; the column has one character *)
Theorem C82_byte d c : exists dc, column_is d (B "byte") c dc /\ forall z, unsigned 8 z -> (holds (db_of d) (d_type dc) (VNum z) <-> d = DSQLite \/ z < 10).
Proof.
  destruct d.
  - exists (Decl (TChar 1) (c_null c) None). split; [apply plain; [reflexivity|]; case (c_null c), (c_incr c); vm_compute; reflexivity|]. intros z [A _]. cbn [db_of holds d_type]. change (10 ^ 1) with 10. split; [intros H; right; lia|intros [H|H]; [discriminate H|lia]].
  - exists (Decl (TChar 1) true None). split; [apply plain; [reflexivity|]; case (c_null c), (c_incr c); vm_compute; reflexivity|]. intros z [A _]. cbn [db_of holds d_type]. change (10 ^ 1) with 10. split; [intros H; right; lia|intros [H|H]; [discriminate H|lia]].
  - exists (Decl TBlob (c_null c) None). split; [apply plain; [reflexivity|]; case (c_null c), (c_incr c); vm_compute; reflexivity|]. intros z [A C]. cbn [db_of holds d_type]. change (2 ^ 8) with 256 in C. change (2 ^ 63) with 9223372036854775808. split; [intros _; left; reflexivity|intros _; split; [reflexivity|lia]].
Qed.
Theorem C82_byte_refuted d c dc : d <> DSQLite -> column_is d (B "byte") c dc -> exists z, unsigned 8 z /\ ~ holds (db_of d) (d_type dc) (VNum z).
Proof.
  intros N D. destruct (C82_byte d c) as (dc' & D' & H). destruct D as (f & I & D), D' as (f' & I' & D'). rewrite (key_fun _ _ _ _ I' I) in D'. rewrite (declares_unique _ _ _ _ D D').
  exists 10. assert (U : unsigned 8 10) by (split; [lia|reflexivity]). split; [exact U|]. intros X. apply (H 10 U) in X as [X|X]; [contradiction|lia].
Qed.
Theorem C82_bytes d c : d <> DPostgres -> exists dc, column_is d (B "[]byte") c dc /\ forall b, holds (db_of d) (d_type dc) (VBytes b) <-> d = DSQLite \/ Z.of_nat (length b) <= 65535.
Proof.
  intros N. destruct d; [|contradiction|]; exists (Decl TBlob (c_null c) None); (split; [apply plain; [reflexivity|]; case (c_null c), (c_incr c); vm_compute; reflexivity|]); intros b; cbn [db_of holds d_type].
  - split; [intros H; right; exact (H eq_refl)|intros [H|H]; [discriminate H|intros _; exact H]].
  - split; [intros _; left; reflexivity|intros _ X; discriminate X].
Qed.

(** Numbers: every 32-bit float *)
Lemma same_refl m e : same_number m e m e.
Proof. exists (Z.abs e). split; [lia|]. split; [lia|reflexivity]. Qed.
Theorem C82_float32 d c v : float32 v -> exists dc, column_is d (B "float32") c dc /\ holds (db_of d) (d_type dc) v.
Proof.
  intros (m & e & -> & M & E). change (2 ^ 24) with 16777216 in M. destruct d.
  - exists (Decl single (c_null c) (Some [Wd (B "0")])). split; [apply plain; [reflexivity|]; case (c_null c), (c_incr c); vm_compute; reflexivity|]. cbn [holds d_type single]. exists m, e. split; [exact M|]. split; [exact E|apply same_refl].
  - exists (Decl single true None). split; [apply plain; [reflexivity|]; case (c_null c), (c_incr c); vm_compute; reflexivity|]. cbn [holds d_type single]. exists m, e. split; [exact M|]. split; [exact E|apply same_refl].
  - exists (Decl double (c_null c) (Some [Wd (B "0")])). split; [apply plain; [reflexivity|]; case (c_null c), (c_incr c); vm_compute; reflexivity|]. cbn [holds d_type double]. exists m, e. split; [change (2 ^ 53) with 9007199254740992; lia|]. split; [lia|apply same_refl].
Qed.
(** Every 64-bit float. Missing: MySQL. *)
Theorem C82_float64_partial d c v : d <> DMySQL -> float64 v -> exists dc, column_is d (B "float64") c dc /\ holds (db_of d) (d_type dc) v.
Proof.
  intros N (m & e & -> & M & E). destruct d; [contradiction| |].
  - exists (Decl double true None). split; [apply plain; [reflexivity|]; case (c_null c), (c_incr c); vm_compute; reflexivity|]. cbn [holds d_type double]. exists m, e. split; [exact M|]. split; [exact E|apply same_refl].
  - exists (Decl double (c_null c) (Some [Wd (B "0")])). split; [apply plain; [reflexivity|]; case (c_null c), (c_incr c); vm_compute; reflexivity|]. cbn [holds d_type double]. exists m, e. split; [exact M|]. split; [exact E|apply same_refl].
Qed.
(** An odd number beyond 24 bits is none of the numbers of a single *)
Lemma odd_big m m' e' : Z.odd m = true -> Z.abs m' < Z.abs m -> ~ same_number m 0 m' e'.
Proof.
  intros O L (k & K0 & K1 & E). cbn [Z.add] in K0, E. assert (K : 0 <= k) by lia. destruct (Z.ltb_spec 0 e').
  - assert (X : m = m' * 2 ^ e'). { rewrite Z.pow_add_r, Z.mul_assoc in E by lia. apply Z.mul_cancel_r in E; [exact E|]. apply Z.pow_nonzero; lia. }
    rewrite X, Z.odd_mul, Z.odd_pow in O by lia. rewrite andb_false_r in O. discriminate O.
  - assert (X : m * 2 ^ (- e') = m'). { replace k with ((e' + k) + - e') in E by lia. rewrite Z.pow_add_r, Z.mul_assoc in E by lia. replace (m * 2 ^ (e' + k) * 2 ^ (- e')) with (m * 2 ^ (- e') * 2 ^ (e' + k)) in E by ring. replace (e' + (e' + k + - e')) with (e' + k) in E by lia. apply Z.mul_cancel_r in E; [exact E|]. apply Z.pow_nonzero; lia. }
    rewrite <- X, Z.abs_mul in L. assert (1 <= Z.abs (2 ^ (- e'))) by (assert (0 < 2 ^ (- e')) by (apply Z.pow_pos_nonneg; lia); lia). nia.
Qed.
Theorem C82_float64_refuted c dc : column_is DMySQL (B "float64") c dc -> exists v, float64 v /\ ~ holds MySQLDB (d_type dc) v.
Proof.
  intros D. apply plain in D; [|reflexivity]. exists (VFloat 16777217 0). split; [exists 16777217, 0; repeat split; try reflexivity; lia|].
  assert (T : d_type dc = single) by (destruct (c_null c), (c_incr c); vm_compute in D; injection D as <-; reflexivity). rewrite T. cbn [holds single]. intros (m' & e' & M & _ & H). change (2 ^ 24) with 16777216 in M. revert H. apply odd_big; [reflexivity|lia].
Qed.
(** Times *)
Theorem C82_time c ns :
  (exists dc, column_is DMySQL (B "time.Time") c dc /\ (holds MySQLDB (d_type dc) (VTime ns) <-> (exists s, ns = s * second) /\ second <= ns < 2147483648 * second)) /\
  (exists dc, column_is DPostgres (B "time.Time") c dc /\ (holds PostgresDB (d_type dc) (VTime ns) <-> (exists us, ns = us * 1000) /\ -210866803200 * second <= ns < 9224318016000 * second)).
Proof.
  split.
  - exists (Decl (TTimestamp 0) (c_null c) (Some [Wd (B "CURRENT_TIMESTAMP")])). split; [apply plain; [reflexivity|]; case (c_null c), (c_incr c); vm_compute; reflexivity|]. cbn [holds d_type]. change (10 ^ (9 - 0)) with second.
    assert (X : ns mod second = 0 <-> exists s, ns = s * second) by (split; [intros H; exists (ns / second); rewrite Z.mul_comm; apply Z.div_exact in H; [exact H|discriminate]|intros (s & ->); apply Z_mod_mult]). rewrite X. reflexivity.
  - exists (Decl (TTimestamptz 6) true None). split; [apply plain; [reflexivity|]; case (c_null c), (c_incr c); vm_compute; reflexivity|]. cbn [holds d_type]. change (10 ^ (9 - 6)) with 1000.
    assert (X : ns mod 1000 = 0 <-> exists s, ns = s * 1000) by (split; [intros H; exists (ns / 1000); rewrite Z.mul_comm; apply Z.div_exact in H; [exact H|discriminate]|intros (s & ->); apply Z_mod_mult]). rewrite X. reflexivity.
Qed.
(** Half a second, and 2038, are lost in MySQL; nanoseconds are lost in both *)
Theorem C82_time_refuted c dc dc' : column_is DMySQL (B "time.Time") c dc -> column_is DPostgres (B "time.Time") c dc' ->
  ~ holds MySQLDB (d_type dc) (VTime (1700000000 * second + 500000000)) /\ ~ holds MySQLDB (d_type dc) (VTime (2147483648 * second)) /\ ~ holds PostgresDB (d_type dc') (VTime (1700000000 * second + 1)).
Proof.
  intros D D'. apply plain in D, D'; try reflexivity.
  assert (T : d_type dc = TTimestamp 0) by (destruct (c_null c), (c_incr c); vm_compute in D; injection D as <-; reflexivity).
  assert (T' : d_type dc' = TTimestamptz 6) by (destruct (c_null c), (c_incr c); vm_compute in D'; injection D' as <-; reflexivity). rewrite T, T'. cbn [holds].
  repeat split; intros [A C]; try discriminate A; destruct C as [_ C]; revert C; apply Z.le_ngt; vm_compute; discriminate.
Qed.
(** ** Lists of integers in PostgreSQL *)
Definition list_keys : list (bytes * (Z -> Prop)) :=
  [(B "[]int8", signed 8); (B "[]int16", signed 16); (B "[]int32", signed 32); (B "[]int64", signed 64); (B "[]uint8", unsigned 8)].
Definition small_keys : list (bytes * (Z -> Prop)) :=
  [(B "[]int", signed 64); (B "[]uint", unsigned 64); (B "[]uint16", unsigned 16); (B "[]uint32", unsigned 32); (B "[]uint64", unsigned 64)].
Lemma pg_list key c n : is_key DPostgres key = true -> plain_decl DPostgres key true true = Some (Decl (TArray (TInteger n)) true None) -> plain_decl DPostgres key true false = Some (Decl (TArray (TInteger n)) true None) ->
  plain_decl DPostgres key false true = Some (Decl (TArray (TInteger n)) true None) -> plain_decl DPostgres key false false = Some (Decl (TArray (TInteger n)) true None) ->
  column_is DPostgres key c (Decl (TArray (TInteger n)) true None).
Proof. intros K A A1 A2 A3. apply plain; [exact K|]. destruct (c_null c), (c_incr c); assumption. Qed.
(** Missing: the types in [small_keys] *)
Theorem C82_int_lists_partial key range c l : In (key, range) list_keys -> Forall range l -> exists dc, column_is DPostgres key c dc /\ holds PostgresDB (d_type dc) (VNums l).
Proof.
  intros K F. cbn [list_keys In] in K.
  repeat (destruct K as [K|K]; [injection K as <- <-; eexists; split; [apply pg_list; [reflexivity|vm_compute; reflexivity..]|]; cbn [holds d_type]; eapply Forall_impl; [|exact F]; intros z H; unfold signed, unsigned in H; cbn in H |- *; lia|]). destruct K.
Qed.
Theorem C82_int_lists_refuted key range c dc : In (key, range) small_keys -> column_is DPostgres key c dc -> exists z, range z /\ ~ holds PostgresDB (d_type dc) (VNums [z]).
Proof.
  intros K D. assert (PK : is_key DPostgres key = true) by (cbn [small_keys In] in K; repeat (destruct K as [K|K]; [injection K as <- <-; reflexivity|]); destruct K). apply (plain DPostgres key c dc PK) in D.
  assert (W : forall n, dc = Decl (TArray (TInteger n)) true None -> forall z, 2 ^ (8 * n - 1) <= z -> ~ holds PostgresDB (d_type dc) (VNums [z])) by (intros n -> z L H; cbn [holds d_type] in H; inversion H; subst; lia).
  cbn [small_keys In] in K.
  destruct K as [K|[K|[K|[K|[K|[]]]]]]; injection K as <- <-; destruct (c_null c), (c_incr c); vm_compute in D; injection D as <-.
  all: match goal with W : forall n, Decl (TArray (TInteger ?k)) _ _ = _ -> _ |- _ => exists (2 ^ (8 * k - 1)); split; [split; vm_compute; [discriminate|reflexivity]|apply (W k eq_refl); lia] end.
Qed.
Example C82_int_lists_example : exists dc, column_is DPostgres (B "[]int16") (Column 0 true false) dc /\ holds PostgresDB (d_type dc) (VNums [-32768; 0; 32767]).
Proof. apply (C82_int_lists_partial (B "[]int16") (signed 16)); [right; left; reflexivity|]. repeat constructor; vm_compute; discriminate. Qed.
Print Assumptions C82_types_partial.
Print Assumptions C82_pg_unknown_refuted.
Print Assumptions C82_array_refuted.
Print Assumptions C82_null_partial.
Print Assumptions C82_null_refuted.
Print Assumptions C82_default.
Print Assumptions C82_string.
Print Assumptions C82_string_refuted.
Print Assumptions C82_rune.
Print Assumptions C82_byte.
Print Assumptions C82_byte_refuted.
Print Assumptions C82_bytes.
Print Assumptions C82_float32.
Print Assumptions C82_float64_partial.
Print Assumptions C82_float64_refuted.
Print Assumptions C82_time.
Print Assumptions C82_time_refuted.
Print Assumptions C82_int_lists_partial.
Print Assumptions C82_int_lists_refuted.
