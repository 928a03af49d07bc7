(** C65: the predefined types, slices and fixed arrays of them.  C78: a mapping that is no template. *)
From Coq Require Import List Bool Ascii PeanoNat NArith Lia.
From Verif Require Import Base ModelStrconv LemmasBase ModelResolve PropResolve.
Import ListNotations.

(** The predefined types that a column can have *)
Definition numbers : list bytes := [B "int"; B "int8"; B "int16"; B "int32"; B "int64"; B "uint"; B "uint8"; B "uint16"; B "uint32"; B "uint64"; B "float32"; B "float64"].
Definition predefined : list bytes := B "string" :: B "bool" :: B "byte" :: B "rune" :: numbers.
(** The values that a database driver takes as they are *)
Definition native : list bytes := [B "string"; B "bool"; B "int64"; B "float64"].
(** Every predefined type is written and read by itself or by the mapping of its own name. *)
Theorem C65_predefined_partial g keys x t n f : In keys [mysql_keys; pg_keys; sqlite_keys] -> g t = NBasic n -> In n predefined -> has_value x t = false -> has_scan x t = false -> 1 <= f ->
  (In n native -> write_enc f g keys [] x t = Some (Plain n) /\ read_enc f g keys [] x t = Some (Plain n)) /\
  (~ In n native -> write_enc f g keys [] x t = Some (Map n) /\ read_enc f g keys [] x t = Some (Map n)).
Proof.
  intros K G P V C F. destruct f as [|f]; [lia|]. assert (EL : elem g t = t) by (unfold elem; rewrite G; reflexivity). assert (PL : plain g t = if bmem n native then Some n else None) by (unfold plain; rewrite G; reflexivity).
  assert (RS : resolve (S f) g keys t = Some (finish keys n)) by (unfold resolve; cbn [walk]; rewrite G; reflexivity). unfold write_enc, read_enc. cbn zeta. rewrite EL, PL, RS, V, C. cbn [bmem]. split; intros I.
  - rewrite (proj2 (bmem_In _ _) I). split; reflexivity.
  - rewrite (proj2 (bmem_not_In _ _) I). assert (FN : finish keys n = Some n); [|rewrite FN; split; reflexivity].
    unfold finish. assert (IK : In n keys); [|rewrite (proj2 (bmem_In _ _) IK); reflexivity]. apply bmem_In. clear - K P. unfold predefined, numbers in P.
    destruct K as [<-|[<-|[<-|[]]]]; cbn [In] in P; repeat (destruct P as [<-|P]; [vm_compute; reflexivity|]); destruct P.
Qed.
(** A slice of strings, bytes, booleans or numbers has a mapping of its own with every dialect; a slice of runes only with PostgreSQL, otherwise it is JSON. *)
Theorem C65_slices_partial g keys x t u n f : In keys [mysql_keys; pg_keys; sqlite_keys] -> g t = NSlice u -> g u = NBasic n -> In n (B "rune" :: B "string" :: B "byte" :: B "bool" :: numbers) ->
  has_value x t = false -> has_scan x t = false -> has_mtext x t = false -> has_utext x t = false -> 2 <= f ->
  exists k, write_enc f g keys [] x t = Some (Map k) /\ read_enc f g keys [] x t = Some (Map k) /\ (n <> B "rune" -> k = B "[]" ++ n) /\ (n = B "rune" -> keys = pg_keys -> k = B "[]" ++ n) /\ (n = B "rune" -> keys <> pg_keys -> k = B "*").
Proof.
  intros K G U P V C MT UT F. destruct f as [|[|f]]; [lia|lia|]. assert (EL : elem g t = t) by (unfold elem; rewrite G; reflexivity). assert (PL : plain g t = None) by (unfold plain; rewrite G; reflexivity).
  assert (RS : resolve (S (S f)) g keys t = Some (finish keys (B "[]" ++ n))) by (unfold resolve; cbn [walk]; rewrite G; cbn [walk]; rewrite U; reflexivity). unfold write_enc, read_enc. cbn zeta. rewrite EL, PL, RS, V, C, MT, UT. cbn [bmem].
  exists (match finish keys (B "[]" ++ n) with Some k => k | None => B "*" end). split; [destruct (finish keys (B "[]" ++ n)); reflexivity|]. split; [destruct (finish keys (B "[]" ++ n)); reflexivity|].
  assert (S1 : n <> B "rune" -> finish keys (B "[]" ++ n) = Some (B "[]" ++ n)).
  { intros N. destruct P as [P|P]; [symmetry in P; contradiction|]. unfold numbers in P. clear - K P. destruct K as [<-|[<-|[<-|[]]]]; cbn [In] in P; repeat (destruct P as [<-|P]; [vm_compute; reflexivity|]); destruct P. }
  split; [intros N; rewrite (S1 N); reflexivity|]. split.
  - intros -> ->. vm_compute. reflexivity.
  - intros -> N. destruct K as [<-|[<-|[<-|[]]]]; [vm_compute; reflexivity|contradiction|vm_compute; reflexivity].
Qed.
(** A fixed array of bytes or runes has a mapping for any length with every dialect, one of strings with PostgreSQL only. *)
Theorem C65_arrays_partial g keys x t u n len f : In keys [mysql_keys; pg_keys; sqlite_keys] -> g t = NArr len u -> g u = NBasic n -> In n [B "byte"; B "rune"; B "string"] ->
  has_value x t = false -> has_scan x t = false -> has_mtext x t = false -> has_utext x t = false -> 2 <= f ->
  exists k, write_enc f g keys [] x t = Some (Map k) /\ read_enc f g keys [] x t = Some (Map k) /\ (n <> B "string" \/ keys = pg_keys -> k = B "[...]" ++ n) /\ (n = B "string" -> keys <> pg_keys -> k = B "*").
Proof.
  intros K G U P V C MT UT F. destruct f as [|[|f]]; [lia|lia|]. assert (EL : elem g t = t) by (unfold elem; rewrite G; reflexivity). assert (PL : plain g t = None) by (unfold plain; rewrite G; reflexivity).
  assert (RS : resolve (S (S f)) g keys t = Some (finish keys ((B "[" ++ format_uint len ++ B "]") ++ n))) by (unfold resolve; cbn [walk]; rewrite G; cbn [walk]; rewrite U; reflexivity). unfold write_enc, read_enc. cbn zeta. rewrite EL, PL, RS, V, C, MT, UT. cbn [bmem].
  set (s := (B "[" ++ format_uint len ++ B "]") ++ n). assert (ES : s = B "[" ++ format_uint len ++ B "]" ++ n) by (unfold s; rewrite <- !app_assoc; reflexivity).
  exists (match finish keys s with Some k => k | None => B "*" end). split; [destruct (finish keys s); reflexivity|]. split; [destruct (finish keys s); reflexivity|].
  assert (FX : fixed_array s = Some n) by (rewrite ES; apply fixed_some; cbn [In] in *; tauto).
  assert (NB : bmem s keys = false).
  { apply bmem_not_In. intros I. clear - K I ES. pose proof (format_uint_nonempty len) as N. pose proof (format_uint_digits len) as D. unfold all_digits in D. destruct (format_uint len) as [|d l]; [contradiction|]. inversion D as [|? ? Dd _]; subst. rewrite ES in I.
    change (B "[" ++ (d :: l) ++ B "]" ++ n) with ("["%char :: d :: (l ++ B "]" ++ n)) in I. generalize (l ++ B "]" ++ n) I. clear - K Dd. intros r I.
    assert (Z : forallb (fun k => match k with c :: e :: _ => negb (beq c "[" && is_digit e) | _ => true end) keys = true) by (destruct K as [<-|[<-|[<-|[]]]]; vm_compute; reflexivity).
    rewrite forallb_forall in Z. specialize (Z _ I). cbn beta iota in Z. rewrite Dd in Z. discriminate. }
  assert (FN : finish keys s = if bmem (B "[...]" ++ n) keys then Some (B "[...]" ++ n) else None).
  { unfold finish. rewrite NB, FX. rewrite ES. change (B "[" ++ format_uint len ++ B "]" ++ n) with ("["%char :: (format_uint len ++ B "]" ++ n)). change (beq "[" "*") with false. cbn [andb]. reflexivity. }
  rewrite FN. clear FN FX NB ES s. split.
  - intros Q. assert (BM : bmem (B "[...]" ++ n) keys = true); [|rewrite BM; reflexivity]. destruct P as [<-|[<-|[<-|[]]]].
    + destruct K as [<-|[<-|[<-|[]]]]; vm_compute; reflexivity.
    + destruct K as [<-|[<-|[<-|[]]]]; vm_compute; reflexivity.
    + destruct Q as [Q| ->]; [contradiction|vm_compute; reflexivity].
  - intros -> N. destruct K as [<-|[<-|[<-|[]]]]; [vm_compute; reflexivity|contradiction|vm_compute; reflexivity].
Qed.
Print Assumptions C65_predefined_partial.
Print Assumptions C65_slices_partial.
Print Assumptions C65_arrays_partial.
Definition kinds : graph := fun t => match t with 0 => NBasic (B "int8") | 1 => NSlice 2 | 2 => NBasic (B "rune") | 3 => NArr 16%N 4 | 4 => NBasic (B "byte") | _ => NOther end.
Example C65_kinds : map (fun t => write_enc 5 kinds pg_keys [] no_facts t) [0; 1; 3] = [Some (Map (B "int8")); Some (Map (B "[]rune")); Some (Map (B "[...]byte"))] /\ map (fun t => read_enc 5 kinds mysql_keys [] no_facts t) [0; 1; 3] = [Some (Map (B "int8")); Some (Map (B "*")); Some (Map (B "[...]byte"))].
Proof. split; vm_compute; reflexivity. Qed.
