From Verif Require Import Base ModelPgutil SpecPg LemmasBase.

Lemma ebody_quote_byte c r : ebody (pg_quote_byte c ++ r) =
  match ebody r with Some (v, rest) => Some (c :: v, rest) | None => None end.
Proof.
  destruct c as [[] [] [] [] [] [] [] []]; reflexivity.
Qed.

Lemma ebody_quote s rest : match rest with c :: _ => c <> squote | [] => True end ->
  ebody (concat (map pg_quote_byte s) ++ squote :: rest) = Some (s, rest).
Proof.
  intro H. induction s as [|c s IH].
  - cbn [map concat app]. destruct rest as [|d rest]; [reflexivity|].
    cbn [ebody]. change (Ascii.eqb squote "'") with true. cbn iota.
    destruct (Ascii.eqb_spec d "'"%char) as [E|_]; [exfalso; apply H; exact E|]. reflexivity.
  - cbn [map concat]. rewrite <- app_assoc, ebody_quote_byte, IH. reflexivity.
Qed.

Lemma estring_quote s rest : match rest with c :: _ => c <> squote | [] => True end ->
  estring (pg_quote s ++ rest) = Some (s, rest).
Proof.
  intro H. unfold pg_quote. rewrite <- !app_comm_cons, <- app_assoc.
  cbn [estring]. change ([squote] ++ rest) with (squote :: rest). exact (ebody_quote s rest H).
Qed.

Lemma pg_quote_inj s t : pg_quote s = pg_quote t -> s = t.
Proof.
  intro E. pose proof (estring_quote s [] I) as A. pose proof (estring_quote t [] I) as D.
  rewrite app_nil_r in A, D. rewrite E in A. congruence.
Qed.
