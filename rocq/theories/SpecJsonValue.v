(** Which Go value a JSON value denotes. *)
From Verif Require Import Base SpecText SpecJson ModelJson.

(** The zero value of a type. *)
Inductive is_zero : gtype -> gval -> Prop :=
| ZAny : is_zero GAny (XAny JNull)
| ZBool : is_zero GBool (XBool false)
| ZInt bits : is_zero (GInt bits) (XInt 0)
| ZString : is_zero GString (XString [])
| ZSlice t : is_zero (GSlice t) XNil
| ZMap t : is_zero (GMap t) XNil
| ZPtr t : is_zero (GPtr t) XNil
| ZStruct fs xs : Forall2 (fun (f : bytes * gtype) (p : bytes * gval) => fst f = fst p /\ is_zero (snd f) (snd p)) fs xs -> is_zero (GStruct fs) (XStruct xs).

Inductive denotes : gtype -> json -> gval -> Prop :=
| DAny j : denotes GAny j (XAny j)
| DBool b : denotes GBool (JBool b) (XBool b)
| DInt bits s z : denotes_int s z -> fits_signed bits z -> denotes (GInt bits) (JNum s) (XInt z)
| DString s : denotes GString (JStr s) (XString s)
(** null stands for nil, and for the zero value of a type that cannot be nil *)
| DNull t x : is_zero t x -> denotes t JNull x
| DPtr t j x : j <> JNull -> denotes t j x -> denotes (GPtr t) j (XPtr x)
| DSlice t js xs : Forall2 (denotes t) js xs -> denotes (GSlice t) (JArr js) (XSlice xs)
| DMap t js xs : Forall2 (fun (a : bytes * json) (b : bytes * gval) => fst a = fst b /\ denotes t (snd a) (snd b)) js xs -> denotes (GMap t) (JObj js) (XMap xs)
(** members without a field are ignored, fields without a member are zero *)
| DStruct fs js xs :
    Forall2 (fun (f : bytes * gtype) (p : bytes * gval) => fst f = fst p /\
      ((exists j, In (fst f, j) js /\ denotes (snd f) j (snd p)) \/ (~ In (fst f) (map fst js) /\ is_zero (snd f) (snd p)))) fs xs ->
    denotes (GStruct fs) (JObj js) (XStruct xs).

(** No object names a member twice. *)
Fixpoint unique_keys (j : json) : Prop :=
  match j with
  | JArr l => fold_right (fun x P => unique_keys x /\ P) True l
  | JObj l => NoDup (map fst l) /\ fold_right (fun (p : bytes * json) P => unique_keys (snd p) /\ P) True l
  | _ => True
  end.
(** A Go type: integers have some bits, the fields of a struct have different names. *)
Fixpoint proper (t : gtype) : Prop :=
  match t with
  | GInt bits => (0 < bits)%N
  | GSlice t | GMap t | GPtr t => proper t
  | GStruct fs => NoDup (map fst fs) /\ fold_right (fun (f : bytes * gtype) P => proper (snd f) /\ P) True fs
  | _ => True
  end.
(** A value of a type. *)
Inductive typed : gtype -> gval -> Prop :=
| TAny j : typed GAny (XAny j)
| TBool b : typed GBool (XBool b)
| TInt bits z : fits_signed bits z -> typed (GInt bits) (XInt z)
| TString s : typed GString (XString s)
| TSlice t xs : Forall (typed t) xs -> typed (GSlice t) (XSlice xs)
| TNilSlice t : typed (GSlice t) XNil
| TMap t xs : NoDup (map fst xs) -> Forall (fun p : bytes * gval => typed t (snd p)) xs -> typed (GMap t) (XMap xs)
| TNilMap t : typed (GMap t) XNil
| TPtr t x : typed t x -> typed (GPtr t) (XPtr x)
| TNil t : typed (GPtr t) XNil
| TStruct fs xs : Forall2 (fun (f : bytes * gtype) (p : bytes * gval) => fst f = fst p /\ typed (snd f) (snd p)) fs xs -> typed (GStruct fs) (XStruct xs).

(** Values that JSON writes as null. *)
Inductive nullish : gval -> Prop :=
| NNil : nullish XNil
| NAny : nullish (XAny JNull)
| NPtr x : nullish x -> nullish (XPtr x).
(** UTF-8 texts: code points that are no surrogates, encoded one after the other. *)
Definition utf8_text (s : bytes) : Prop := exists us, Forall (fun u => u < 55296 \/ 57343 < u < 1114112)%N us /\ s = concat (map utf8_of us).
(** Trees that JSON can write: numbers follow the grammar, strings are UTF-8. *)
Fixpoint clean (j : json) : Prop :=
  match j with
  | JNum s => number_ok s = true
  | JStr s => utf8_text s
  | JArr l => fold_right (fun x P => clean x /\ P) True l
  | JObj l => fold_right (fun (p : bytes * json) P => (utf8_text (fst p) /\ clean (snd p)) /\ P) True l
  | _ => True
  end.
Fixpoint no_numbers (j : json) : Prop :=
  match j with
  | JNum _ => False
  | JArr l => fold_right (fun x P => no_numbers x /\ P) True l
  | JObj l => fold_right (fun (p : bytes * json) P => no_numbers (snd p) /\ P) True l
  | _ => True
  end.
(** How deep arrays and objects are nested. *)
Fixpoint depth (j : json) : nat :=
  match j with
  | JArr l => S (fold_right (fun x n => Nat.max (depth x) n) 0 l)
  | JObj l => S (fold_right (fun (p : bytes * json) n => Nat.max (depth (snd p)) n) 0 l)
  | _ => 0
  end.
Fixpoint nesting (x : gval) : nat :=
  match x with
  | XAny j => depth j
  | XSlice l => S (fold_right (fun x n => Nat.max (nesting x) n) 0 l)
  | XMap l | XStruct l => S (fold_right (fun (p : bytes * gval) n => Nat.max (nesting (snd p)) n) 0 l)
  | XPtr x => nesting x
  | _ => 0
  end.
(** Values that JSON can tell from all others: strings, map keys and member names are UTF-8, no member of a tree appears twice, no pointer leads to
    something that is written as null.  Trees with numbers are left out: Go reads the numbers of an interface as float64. *)
Fixpoint storable (x : gval) : Prop :=
  match x with
  | XAny j => unique_keys j /\ clean j /\ no_numbers j
  | XString s => utf8_text s
  | XSlice l => fold_right (fun x P => storable x /\ P) True l
  | XMap l | XStruct l => fold_right (fun (p : bytes * gval) P => (utf8_text (fst p) /\ storable (snd p)) /\ P) True l
  | XPtr x => ~ nullish x /\ storable x
  | _ => True
  end.
(** Texts that say something about every part of the value: no null where nil is impossible, no field without a member, and no map. *)
Inductive covers : gtype -> json -> Prop :=
| CAny j : covers GAny j
| CBool b : covers GBool (JBool b)
| CInt bits s : covers (GInt bits) (JNum s)
| CString s : covers GString (JStr s)
| CNilSlice t : covers (GSlice t) JNull
| CNilMap t : covers (GMap t) JNull
| CNilPtr t : covers (GPtr t) JNull
| CPtr t j : j <> JNull -> covers t j -> covers (GPtr t) j
| CSlice t js : Forall (covers t) js -> covers (GSlice t) (JArr js)
| CStruct fs js : Forall (fun f : bytes * gtype => exists j, In (fst f, j) js /\ covers (snd f) j) fs -> covers (GStruct fs) (JObj js).
