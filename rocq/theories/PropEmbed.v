(** C92: a struct that embeds a model is a model of its own.

    With the embedded models in the same package, the functions of db.go.tpl see of the outer struct exactly what was
    generated for it, for any depth and number of embedded models, when it can be written to and its key is not a
    composite key beside a PK that Go promotes.  Otherwise they see methods of the embedded model (refuted): a composite
    key is taken for the key of the embedded model, a struct annotated as read-only inserts a row of the embedded
    model, and a model of another package gives its table, its columns and its values. *)
From Verif Require Import Base ModelStrconv ModelCompiler ModelGen ModelMethods ModelRuntime ModelEmbed SpecEmbed LemmasBase LemmasEmbed.
From Coq Require Import Lia.

Section Theorems.
Context {V : Type}.
Notation struct := (struct V).

(** ** The lookup is Go's *)
Theorem C92_lookup : forall n (s x : struct), find_method n s = Some x <-> shallowest n s x.
Proof. exact find_iff. Qed.

(** A struct as the generator leaves it, when its package is generated with the embedded structs [seen] *)
Definition made (seen : list struct) (s : struct) : Prop :=
  (exists strict, generate (B "Column") strict (st_table s) (st_own s) seen (st_embeds s) = Ok s)
  /\ (forall c, In c (t_columns (st_table s)) -> c_goname c <> B "s").
(** no methods yet on the embedded structs: they are in the package at work *)
Definition bare (seen : list struct) : Prop := forall e p x, In e seen -> reach e p x -> st_methods x = [].
(** the embedded structs are models themselves, and their fields are those of the outer struct *)
Definition embeds_models (s : struct) : Prop :=
  forall x, inside s x -> (exists seen, made seen x) /\ flattened (st_table x) (st_table s).

Lemma promoted_not_wrong : forall t (m : model V) seen n, promoted t m seen n <> Wrong.
Proof. intros t m seen n. unfold promoted. destruct (find_method n _); discriminate. Qed.
Lemma made_methods : forall seen (s : struct) n, made seen s -> In n known ->
  (In n (st_methods s) <-> written (promoted (st_table s) (st_own s) seen) (st_table s) n).
Proof.
  intros seen s n [[strict G] X] K. unfold generate in G.
  destruct (gen_methods _ _ _ _) as [ms| |] eqn:E; cbn [bind] in G; [|discriminate G|discriminate G].
  assert (M : st_methods s = map m_name ms) by (rewrite <- (f_equal (fun r => match r with Ok z => st_methods z | _ => [] end) G); reflexivity).
  rewrite M. apply (written_iff strict _ _ (promoted_not_wrong _ _ _) X ms n E K).
Qed.
Lemma bare_missing : forall t (m : model V) seen n, bare seen -> promoted t m seen n = Missing.
Proof.
  intros t m seen n Ba. unfold promoted. rewrite find_none; [reflexivity|]. intros p x R I.
  inversion R as [|s' i e q y N R' E1 E2]; subst; [destruct I|]. cbn [st_embeds] in N.
  rewrite (Ba e q x (nth_error_In _ _ N) R') in I. destruct I.
Qed.

Ltac member := vm_compute; tauto.
Ltac other E := vm_compute in E; discriminate E.
(** [n] is one name, [W : written u t n] *)
Ltac cases_of W :=
  let n := fresh "n" in let E := fresh "E" in
  match type of W with written _ _ ?k => remember k as n eqn:E end; destruct W; try (other E); clear E.

(** nothing of this name anywhere *)
Lemma nowhere : forall seen (s : struct) n, made seen s -> embeds_models s -> In n known ->
  ~ written (promoted (st_table s) (st_own s) seen) (st_table s) n ->
  (forall x u, inside s x -> ~ written u (st_table x) n) -> find_method n s = None.
Proof.
  intros seen s n M EM K N1 N2. apply find_none. intros p x R I. destruct p as [|i p].
  - inversion R; subst. apply N1. apply (made_methods seen x n M K). exact I.
  - assert (IN : inside s x) by (exists (i :: p); split; [discriminate|exact R]).
    destruct (EM x IN) as [[seen' M'] _]. exact (N2 x _ IN (proj1 (made_methods seen' x n M' K) I)).
Qed.
Lemma call_here : forall {R} n (f : model V -> R) none s, In n (st_methods s) -> call n f none s = f (st_own s).
Proof. intros R n f none s I. unfold call. rewrite (find_here n s I). reflexivity. Qed.
Lemma call_none : forall {R} n (f : model V -> R) none s, find_method n s = None -> call n f none s = none.
Proof. intros R n f none s E. unfold call. rewrite E. reflexivity. Qed.

(** ** The outer struct is seen as it was generated *)
Theorem C92_own_partial : forall (seen : list struct) (s : struct),
  made seen s -> bare seen -> embeds_models s -> made_for (st_table s) (st_own s) ->
  t_readonly (st_table s) = false -> insert_columns (st_table s) <> [] ->
  (composite (st_table s) -> forall x, inside s x -> ~ shallowest (B "PK") s x) ->
  seen_model s = st_own s.
Proof.
  intros seen s M Ba EM MF RO IC CK. set (t := st_table s) in *.
  assert (MM : forall n, promoted t (st_own s) seen n = Missing) by (intros n; apply bare_missing; exact Ba).
  assert (HERE : forall n, In n known -> written (promoted t (st_own s) seen) t n -> In n (st_methods s)).
  { intros n K W. exact (proj2 (made_methods seen s n M K) W). }
  destruct MF as [f1 f2 f3 f4 f5 f6 f7 f8].
  (* keys *)
  assert (KEY : seen_key s = m_key (st_own s)).
  { unfold seen_key. unfold has.
    assert (KD : keyed_table t \/ ~ keyed_table t).
    { unfold keyed_table. destruct (t_auto t); [left; left; discriminate|]. destruct (t_keys t); [right|left; right; discriminate].
      intros [X|X]; exact (X eq_refl). }
    destruct KD as [KT|NK].
    2: { rewrite (nowhere seen s (B "HasPK") M EM ltac:(member)).
         - destruct (t_auto t) eqn:A; [destruct NK; left; fold t; congruence|]. destruct (t_keys t) eqn:KS; [|destruct NK; right; fold t; congruence].
           symmetry. exact f5.
         - intros W. cases_of W. exact (NK H).
         - intros x u I W. cases_of W. apply NK. exact (flattened_keyed _ _ (proj2 (EM x I)) H). }
    rewrite (find_here (B "HasPK") s (HERE (B "HasPK") ltac:(member) (w_has_pk _ _ KT))).
    destruct (t_auto t) as [a|] eqn:A.
    - destruct f5 as [n [i [v E]]].
      rewrite (call_here (B "PK") pk_of None s) by (apply HERE; [member|apply w_pk; left; congruence]).
      unfold pk_of. rewrite E.
      rewrite (find_here (B "IsAutoIncr") s) by (apply HERE; [member|apply w_auto; congruence]). reflexivity.
    - assert (NA : find_method (B "IsAutoIncr") s = None).
      { apply (nowhere seen s (B "IsAutoIncr") M EM ltac:(member)).
        - intros W. cases_of W. exact (H A).
        - intros x u I W. cases_of W. destruct (EM x I) as [_ [F _]]. exact (F H A). }
      destruct (t_keys t) as [|k [|k2 ks]] eqn:KS; [destruct KT; fold t in H; congruence| |].
      + destruct f5 as [n [i [v E]]].
        rewrite (call_here (B "PK") pk_of None s) by (apply HERE; [member|apply w_pk; right; rewrite KS; reflexivity]).
        unfold pk_of. rewrite E, NA. reflexivity.
      + destruct f5 as [ns [is [vs E]]].
        assert (C : composite t) by (split; [exact A|rewrite KS; cbn; lia]).
        assert (NP : find_method (B "PK") s = None).
        { destruct (find_method (B "PK") s) as [x|] eqn:P; [|reflexivity]. exfalso.
          destruct (find_inside (B "PK") s x) as [I _]; [|exact P|].
          - intros I. apply (made_methods seen s _ M) in I; [|member]. cases_of I. destruct H as [H|H]; [exact (H A)|].
            fold t in H. rewrite KS in H. discriminate H.
          - apply find_iff in P. exact (CK C x I P). }
        rewrite (call_none (B "PK") pk_of None s NP).
        rewrite (call_here (B "CompositeKey") (fun m => Some (m_key m)) None s) by (apply HERE; [member|apply w_composite; [exact A|rewrite KS; cbn; lia]]).
        rewrite E. reflexivity. }
  assert (HAND : forall n, In n by_hand -> find_method n s = None).
  { intros n I. assert (K : In n known) by (unfold by_hand in I; destruct I as [<-|[<-|[<-|[<-|[]]]]]; member).
    assert (NW : forall u t', ~ written u t' n).
    { intros u t' W. unfold by_hand in I. destruct I as [<-|[<-|[<-|[<-|[]]]]]; cases_of W. }
    apply (nowhere seen s n M EM K); [apply NW|intros x u _; apply NW]. }
  assert (SQL : call (B "SQLColumns") m_sqlcolumns None s = m_sqlcolumns (st_own s)).
  { destruct (existsb has_scanner (t_columns t)) eqn:SC.
    - apply call_here. apply HERE; [member|]. apply scanner_some in SC as [c [I1 I2]]. exact (w_sql _ t c (MM _) I1 I2).
    - assert (NS : ~ exists c, In c (t_columns t) /\ c_unwrap c <> ([], [])).
      { intros X. apply scanner_some in X. congruence. }
      destruct f6 as [f6|f6]; [destruct (NS f6)|]. rewrite f6. apply call_none. apply (nowhere seen s (B "SQLColumns") M EM ltac:(member)).
      + intros W. cases_of W. apply NS. exists c. split; assumption.
      + intros x u I W. cases_of W. destruct (EM x I) as [_ [_ [_ F]]]. destruct (F c H0) as (c' & J1 & _ & _ & J2 & _).
        apply NS. exists c'. split; [exact J1|congruence]. }
  assert (FIND : call (B "FindOneByPKStmt") m_find None s = m_find (st_own s)).
  { destruct f7 as [f7|[f7|f7]].
    - apply call_here. apply HERE; [member|]. apply w_find. left. exact f7.
    - apply call_here. apply HERE; [member|]. apply w_find. right. exact f7.
    - unfold call. destruct (find_method _ s) as [x|] eqn:F; [|congruence].
      destruct (In_dec (list_eq_dec Ascii.ascii_dec) (B "FindOneByPKStmt") (st_methods s)) as [I|N].
      + rewrite (find_here _ s I) in F. injection F as <-. reflexivity.
      + exfalso. destruct (find_inside _ s x N F) as [I J]. apply N. apply HERE; [member|]. apply w_find.
        destruct (EM x I) as [[seen' M'] Fl]. apply (made_methods seen' x _ M') in J; [|member]. cases_of J.
        exact (flattened_keyed _ _ Fl H). }
  assert (UPD : call (B "UpdateOneByPKStmt") m_update None s = m_update (st_own s)).
  { destruct f8 as [[f8 f9]|f8].
    - apply call_here. apply HERE; [member|]. apply w_update; assumption.
    - unfold call. destruct (find_method _ s) as [x|] eqn:F; [|congruence].
      destruct (In_dec (list_eq_dec Ascii.ascii_dec) (B "UpdateOneByPKStmt") (st_methods s)) as [I|N].
      + rewrite (find_here _ s I) in F. injection F as <-. reflexivity.
      + exfalso. destruct (find_inside _ s x N F) as [I J]. apply N. apply HERE; [member|].
        destruct (EM x I) as [[seen' M'] Fl]. apply (made_methods seen' x _ M') in J; [|member]. cases_of J.
        apply w_update; [exact (flattened_keyed _ _ Fl H)|exact RO|exact (flattened_update _ _ Fl H1)]. }
  unfold seen_model. rewrite KEY, SQL, FIND, UPD.
  rewrite (call_none (B "DatabaseName")) by (apply HAND; member).
  rewrite (call_none (B "DuplicateKeys")) by (apply HAND; member).
  rewrite (call_none (B "OnUpsertOmitColumns")) by (apply HAND; member).
  rewrite (call_none (B "DeleteOneByPKStmt")) by (apply HAND; member).
  rewrite (call_here (B "TableName")) by (apply HERE; [member|apply w_table; apply MM]).
  rewrite (call_here (B "Columns")) by (apply HERE; [member|apply w_columns; apply MM]).
  rewrite (call_here (B "Values")) by (apply HERE; [member|apply w_values; [apply MM|exact RO|exact IC]]).
  rewrite (call_here (B "InsertPlaceholders")) by (apply HERE; [member|apply w_places; assumption]).
  rewrite (call_here (B "InsertOneStmt")) by (apply HERE; [member|apply w_insert; assumption]).
  clear - f1 f2 f3 f4. destruct (st_own s) as [x1 x2 x3 x4 x5 x6 x7 x8 x9 y1 y2 y3 y4]. cbn in *. subst. reflexivity.
Qed.

(** ** What goes wrong *)
(** A composite key beside a promoted PK: DeleteByPK and LockByPK use the key of the embedded model *)
Theorem C92_composite_refuted : forall (d : driver) (seen : list struct) (s x : struct) n i v,
  made seen s -> composite (st_table s) -> inside s x -> shallowest (B "PK") s x ->
  (forall y, ~ shallowest (B "IsAutoIncr") s y) -> m_key (st_own x) = SingleKey n i v -> find_method (B "DeleteOneByPKStmt") s = None ->
  delete_by_pk d (seen_model s)
  = Ok (B "DELETE FROM " ++ db_table (seen_model s) ++ B " WHERE " ++ n ++ B " = " ++ quote_var d 1 ++ B ";", [v]).
Proof.
  intros d seen s x n i v M [C1 C2] I P NA K ND.
  assert (HP : find_method (B "HasPK") s = Some s).
  { apply find_here. apply (made_methods seen s _ M); [member|]. apply w_has_pk. right. intros E. rewrite E in C2. cbn in C2. lia. }
  assert (KEY : m_key (seen_model s) = SingleKey n i v).
  { cbn [seen_model m_key]. unfold seen_key, has, call. rewrite HP. apply find_iff in P. rewrite P. unfold pk_of. rewrite K.
    destruct (find_method (B "IsAutoIncr") s) as [y|] eqn:A; [|reflexivity]. apply find_iff in A. destruct (NA y A). }
  unfold delete_by_pk. cbn [seen_model m_delete]. rewrite (call_none _ _ _ s ND). unfold keyed. rewrite KEY.
  rewrite <- ?app_assoc. reflexivity.
Qed.

(** A struct annotated as read-only still inserts: the row of the embedded model *)
Theorem C92_readonly_refuted : forall (d : driver) (seen : list struct) (s x : struct) r,
  made seen s -> t_readonly (st_table s) = true -> inside s x -> shallowest (B "InsertOneStmt") s x -> m_insert (st_own x) = Some r ->
  insert_one d (seen_model s) = Ok r.
Proof.
  intros d seen s x r M RO I P E. unfold insert_one. cbn [seen_model m_insert]. unfold call. apply find_iff in P. rewrite P, E. reflexivity.
Qed.

(** the lookup below the outer struct does not depend on it *)
Lemma below : forall n t t' ms ms' (m m' : model V) es x, ~ In n ms -> ~ In n ms' ->
  shallowest n (Struct t ms m es) x -> shallowest n (Struct t' ms' m' es) x.
Proof.
  intros n t t' ms ms' m m' es x N N' [p [R [I U]]]. destruct p as [|i p]; [inversion R; subst; destruct (N I)|].
  exists (i :: p). split; [|split; [exact I|]].
  - inversion R as [|s' k e q y NE R' E1 E2]; subst. exact (r_down (Struct t' ms' m' es) i e p x NE R').
  - intros q y R' I'. destruct q as [|k q]; [inversion R'; subst; destruct (N' I')|].
    apply (U (k :: q) y); [|exact I']. inversion R' as [|s' k' e q' y' NE R'' E1 E2]; subst. exact (r_down (Struct t ms m es) k e q y NE R'').
Qed.
(** With a model of another package, generated before, the outer struct has that model's table, columns and values *)
Theorem C92_imported_refuted : forall (es : list struct) (s x y z : struct),
  made es s -> st_embeds s = es ->
  shallowest (B "TableName") (Struct (st_table s) [] (st_own s) es) x ->
  shallowest (B "Columns") (Struct (st_table s) [] (st_own s) es) y ->
  shallowest (B "Values") (Struct (st_table s) [] (st_own s) es) z ->
  m_table (seen_model s) = m_table (st_own x) /\ m_columns (seen_model s) = m_columns (st_own y)
  /\ m_values (seen_model s) = m_values (st_own z).
Proof.
  intros es s x y z M EE P Q W.
  assert (T : forall n x, In n [B "TableName"; B "Columns"; B "Values"] -> shallowest n (Struct (st_table s) [] (st_own s) es) x -> find_method n s = Some x).
  { intros n w I P'. apply find_iff.
    assert (N : ~ In n (st_methods s)).
    { intros J. assert (HS : promoted (st_table s) (st_own s) es n = Has).
      { unfold promoted. apply find_iff in P'. rewrite P'. reflexivity. }
      destruct I as [<-|[<-|[<-|[]]]]; (apply (made_methods es s _ M) in J; [|member]); cases_of J; congruence. }
    destruct s as [t ms m es']. cbn [st_embeds st_table st_own st_methods] in *. subst es'.
    exact (below n t t [] ms m m es w (fun f => f) N P'). }
  cbn [seen_model m_table m_columns m_values]. unfold call.
  rewrite (T _ x (or_introl eq_refl) P), (T _ y (or_intror (or_introl eq_refl)) Q), (T _ z (or_intror (or_intror (or_introl eq_refl))) W).
  repeat split.
Qed.

End Theorems.

(** ** Cases *)
(** type Doc struct { ID string `sql:",pk"`; Title string } and type Rev struct { Doc; Ver int `sql:",pk"` } *)
Definition col (n g : bytes) (pos : nat) : column :=
  {| c_name := n; c_goname := g; c_gopath := B "." ++ g; c_type := {| ty_base := B "string"; ty_ptr := 0 |}; c_pos := pos;
     c_readonly := false; c_paths := [(g, false)]; c_wrap := ([], []); c_unwrap := ([], []) |}.
Definition t_doc : table :=
  {| t_name := B "doc"; t_keys := [col (B "id") (B "ID") 0]; t_columns := [col (B "id") (B "ID") 0; col (B "title") (B "Title") 1];
     t_readonly := false; t_auto := None |}.
(** Rev with its version in the key (two keys), Note with the key of Doc, View annotated as read-only *)
Definition t_rev : table :=
  {| t_name := B "rev"; t_keys := [col (B "id") (B "ID") 0; col (B "ver") (B "Ver") 2];
     t_columns := [col (B "id") (B "ID") 0; col (B "title") (B "Title") 1; col (B "ver") (B "Ver") 2]; t_readonly := false; t_auto := None |}.
Definition t_note : table :=
  {| t_name := B "note"; t_keys := [col (B "id") (B "ID") 0];
     t_columns := [col (B "id") (B "ID") 0; col (B "title") (B "Title") 1; col (B "text") (B "Text") 2]; t_readonly := false; t_auto := None |}.
Definition t_view : table :=
  {| t_name := B "view"; t_keys := [col (B "id") (B "ID") 0];
     t_columns := [col (B "id") (B "ID") 0; col (B "title") (B "Title") 1]; t_readonly := true; t_auto := None |}.
Definition own_of (name : bytes) (cols : list bytes) (k : mkey nat) (vals : list nat) (ins : option (request nat)) : model nat :=
  {| m_db := None; m_table := name; m_columns := cols; m_sqlcolumns := None; m_values := vals; m_places := fun _ => B "(?,?)";
     m_key := k; m_dup := None; m_omit := None; m_insert := ins; m_find := Some (B "SELECT", []); m_update := Some (B "UPDATE", []); m_delete := None |}.
Definition own_doc : model nat :=
  own_of (B "doc") [B "id"; B "title"] (SingleKey (B "id") 0 1) [1; 2] (Some (B "INSERT INTO `doc` (`id`,`title`) VALUES (?,?);", [1; 2])).
Definition own_rev : model nat :=
  own_of (B "rev") [B "id"; B "title"; B "ver"] (CompKey [B "id"; B "ver"] [0; 2] [1; 3]) [1; 2; 3] (Some (B "INSERT INTO `rev` (`id`,`title`,`ver`) VALUES (?,?,?);", [1; 2; 3])).
Definition own_note : model nat :=
  own_of (B "note") [B "id"; B "title"; B "text"] (SingleKey (B "id") 0 1) [1; 2; 4] (Some (B "INSERT INTO `note` (`id`,`title`,`text`) VALUES (?,?,?);", [1; 2; 4])).
Definition own_view : model nat := own_of (B "view") [B "id"; B "title"] (SingleKey (B "id") 0 1) [] None.

Definition struct_of (t : table) (m : model nat) (seen es : list (struct nat)) : struct nat :=
  match generate (B "Column") true t m seen es with Ok s => s | _ => Struct t [] m es end.
Definition bare_doc : struct nat := Struct t_doc [] own_doc [].
Definition doc : struct nat := struct_of t_doc own_doc [] [].
Definition rev_s : struct nat := struct_of t_rev own_rev [bare_doc] [doc].
Definition note_s : struct nat := struct_of t_note own_note [bare_doc] [doc].
Definition view_s : struct nat := struct_of t_view own_view [bare_doc] [doc].
(** Note of another package, generated after Doc *)
Definition note_i : struct nat := struct_of t_note own_note [doc] [doc].

Lemma made_case : forall t m seen es, generate (B "Column") true t m seen es = Ok (struct_of t m seen es) ->
  forallb (fun c => negb (bseq (c_goname c) (B "s"))) (t_columns t) = true -> @made nat seen (struct_of t m seen es).
Proof.
  intros t m seen es G F.
  assert (E : st_table (struct_of t m seen es) = t /\ st_own (struct_of t m seen es) = m /\ st_embeds (struct_of t m seen es) = es).
  { unfold struct_of. destruct (generate _ _ t m seen es) as [x| |] eqn:X; [|repeat split|repeat split].
    unfold generate in X. destruct (gen_methods _ _ _ _) as [ms| |]; cbn [bind] in X; [|discriminate X|discriminate X].
    injection X as <-. repeat split. }
  destruct E as [E1 [E2 E3]]. split.
  - exists true. rewrite E1, E2, E3. exact G.
  - rewrite E1. intros c I N. rewrite forallb_forall in F. specialize (F c I). rewrite N in F. discriminate F.
Qed.
Lemma bare_case : bare [bare_doc].
Proof. intros e p x [<-|[]] R. inversion R as [|s' i e q y N R' E1 E2]; subst; [reflexivity|]. destruct i; discriminate N. Qed.
Lemma inside_case : forall t ms m x, inside (Struct t ms m [doc]) x -> x = doc.
Proof.
  intros t ms m x [p [N R]]. inversion R as [|s' i e q y E R' E1 E2]; subst; [congruence|].
  destruct i as [|[|i]]; [|discriminate E|discriminate E]. injection E as <-.
  inversion R' as [|s' i e q' y E R'' E1 E2]; subst; [reflexivity|]. destruct i; discriminate E.
Qed.
Lemma inside_doc : forall s, st_embeds s = [doc] -> forall x, inside s x -> x = doc.
Proof. intros [t ms m es] E x I. cbn in E. subst es. exact (inside_case t ms m x I). Qed.
Lemma doc_in : forall s, st_embeds s = [doc] -> inside s doc.
Proof. intros s E. exists [0]. split; [discriminate|]. apply (r_down s 0 doc [] doc); [rewrite E; reflexivity|constructor]. Qed.
Lemma doc_made : made [] doc.
Proof. apply made_case; vm_compute; reflexivity. Qed.

Ltac flat :=
  split; [intros X; destruct (X eq_refl)|split; [intros _; discriminate|]];
  intros c J; cbn in J; destruct J as [<-|[<-|[]]];
  [exists (col (B "id") (B "ID") 0)|exists (col (B "title") (B "Title") 1)];
  (split; [cbn; tauto|do 3 (split; [reflexivity|]); split; [split; intros X; discriminate X|]]);
  split; intros X; try (left; reflexivity);
  vm_compute in X; destruct X as [X|[]]; discriminate X.

Example C92_case :
  made [bare_doc] note_s /\ bare [bare_doc] /\ embeds_models note_s /\ made_for t_note own_note
  /\ t_readonly t_note = false /\ insert_columns t_note <> [] /\ ~ composite t_note
  /\ seen_model note_s = own_note.
Proof.
  assert (M : made [bare_doc] note_s) by (apply made_case; vm_compute; reflexivity).
  assert (EM : embeds_models note_s).
  { intros x I. rewrite (inside_doc note_s eq_refl x I). split; [exists []; exact doc_made|flat]. }
  assert (MF : made_for t_note own_note).
  { split; try reflexivity; [do 3 eexists; reflexivity|right; reflexivity|right; left; discriminate|].
    left. split; [right; discriminate|vm_compute; discriminate]. }
  assert (NC : ~ composite t_note) by (intros [_ C]; cbn in C; lia).
  split; [exact M|]. split; [exact bare_case|]. split; [exact EM|]. split; [exact MF|]. split; [reflexivity|].
  split; [vm_compute; discriminate|]. split; [exact NC|].
  apply (C92_own_partial [bare_doc] note_s M bare_case EM MF eq_refl); [vm_compute; discriminate|].
  intros C. destruct (NC C).
Qed.

(** DeleteByPK of one revision deletes every revision of the document *)
Example C92_composite_case :
  made [bare_doc] rev_s /\ composite t_rev /\ inside rev_s doc /\ shallowest (B "PK") rev_s doc
  /\ m_key own_rev = CompKey [B "id"; B "ver"] [0; 2] [1; 3]
  /\ delete_by_pk DMySQL own_rev = Ok (B "DELETE FROM rev WHERE (id,ver) = (?,?);", [1; 3])
  /\ delete_by_pk DMySQL (seen_model rev_s) = Ok (B "DELETE FROM rev WHERE id = ?;", [1]).
Proof.
  split; [apply made_case; vm_compute; reflexivity|]. split; [split; [reflexivity|cbn; lia]|].
  split; [exact (doc_in rev_s eq_refl)|]. split; [apply C92_lookup; vm_compute; reflexivity|].
  split; [reflexivity|]. split; vm_compute; reflexivity.
Qed.
Example C92_readonly_case :
  made [bare_doc] view_s /\ t_readonly t_view = true /\ inside view_s doc /\ shallowest (B "InsertOneStmt") view_s doc
  /\ insert_one DMySQL (seen_model view_s) = Ok (B "INSERT INTO `doc` (`id`,`title`) VALUES (?,?);", [1; 2]).
Proof.
  split; [apply made_case; vm_compute; reflexivity|]. split; [reflexivity|]. split; [exact (doc_in view_s eq_refl)|].
  split; [apply C92_lookup; vm_compute; reflexivity|]. vm_compute. reflexivity.
Qed.
(** The struct of another package: the first run, before the embedded model is generated, and the second run differ *)
Theorem C92_second_run_refuted : exists (t : table) (m : model nat) (e e' s s' : struct nat),
  st_table e' = st_table e /\ st_own e' = st_own e /\ made [] e' /\ st_methods e = []
  /\ made [e] s /\ made [e'] s' /\ st_table s = t /\ st_table s' = t /\ st_embeds s = [e'] /\ st_embeds s' = [e']
  /\ m_table (seen_model s) = B "note" /\ m_table (seen_model s') = B "doc"
  /\ m_columns (seen_model s) = [B "id"; B "title"; B "text"] /\ m_columns (seen_model s') = [B "id"; B "title"].
Proof.
  exists t_note, own_note, bare_doc, doc, note_s, note_i.
  split; [reflexivity|]. split; [reflexivity|]. split; [exact doc_made|]. split; [reflexivity|].
  split; [apply made_case; vm_compute; reflexivity|]. split; [apply made_case; vm_compute; reflexivity|].
  repeat (split; [reflexivity|]). repeat split; vm_compute; reflexivity.
Qed.
Print Assumptions C92_lookup.
Print Assumptions C92_own_partial.
Print Assumptions C92_composite_refuted.
Print Assumptions C92_readonly_refuted.
Print Assumptions C92_imported_refuted.
Print Assumptions C92_second_run_refuted.
