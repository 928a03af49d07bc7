(** In which form database/sql sends the value of a generated expression, and in which form a generated destination reads it. *)
From Verif Require Import Base ModelTypes ModelExpr ModelColumn SpecExpr SpecSource SpecTyping.

(** Own t: what the method Value of [t] gives and the method Scan of *t takes; Listed p n: the same of a list of the library, whatever its elements *)
Inductive form := Number | Truth | Letters | Moment | Json | Marshalled | Listed (p n : bytes) | Own (t : gtype).
Section Forms.
Variable P : program.
(** The argument: a type with a method Value is asked for it; JSONValue and TextValue of sequel/encoding say what they produce; times, numbers,
    booleans, texts and bytes are sent as they are (database/sql/driver: DefaultParameterConverter). *)
Inductive sends : expr -> gtype -> form -> Prop :=
| sd_own ex t : method P t (B "Value") -> sends ex t (Own t)
| sd_listed ex p n ks u : In (p, n, ks) library -> sends ex (TNamed p n [u]) (Listed p n)
| sd_moment ex : ~ method P time_type (B "Value") -> sends ex time_type Moment
| sd_number ex t : one_of P t (signed ++ unsigned ++ floats) -> ~ method P t (B "Value") -> sends ex t Number
| sd_truth ex t : kind P t (B "bool") -> ~ method P t (B "Value") -> sends ex t Truth
| sd_letters ex t : kind P t (B "string") -> ~ method P t (B "Value") -> sends ex t Letters
| sd_bytes ex t b : underlying P t (TSlice b) -> kind P b (B "byte") -> ~ method P t (B "Value") -> sends ex t Letters
| sd_json m es : sends (ECall (ESel (EName m) (B "JSONValue")) es) valuer_type Json
| sd_marshalled m es : sends (ECall (ESel (EName m) (B "TextValue")) es) valuer_type Marshalled.
(** The scanners of sequel/encoding *)
Definition scanner_forms : list (bytes * form) :=
  [(B "StringScanner", Letters); (B "RuneArrayScanner", Letters); (B "ByteArrayScanner", Letters); (B "BoolScanner", Truth); (B "TimeScanner", Moment); (B "JSONScanner", Json); (B "TextScanner", Marshalled)] ++
  map (fun f => (f, Number)) [B "IntScanner"; B "Int8Scanner"; B "Int16Scanner"; B "Int32Scanner"; B "Int64Scanner"; B "UintScanner"; B "Uint8Scanner"; B "Uint16Scanner"; B "Uint32Scanner"; B "Uint64Scanner"; B "Float32Scanner"; B "Float64Scanner"].
(** The destination for values of type [t] (database/sql: convertAssign): a method Scan is called with what the database sent; otherwise the
    type that is pointed to decides. *)
Inductive takes (t : gtype) : expr -> gtype -> form -> Prop :=
| tk_call m f es fm : In (f, fm) scanner_forms -> takes t (ECall (ESel (EName m) f) es) scanner_type fm
| tk_generic m f us es fm : In (f, fm) scanner_forms -> takes t (ECall (EIndex (ESel (EName m) f) us) es) scanner_type fm
| tk_pointer m es : method P (TPointer t) (B "Scan") -> takes t (ECall (ESel (EName m) (B "PtrScanner")) es) scanner_type (Own t)
| tk_own ex u : method P (TPointer u) (B "Scan") -> takes t ex (TPointer u) (Own u)
| tk_listed ex p n ks u : In (p, n, ks) library -> takes t ex (TPointer (TNamed p n [u])) (Listed p n)
| tk_moment ex : ~ method P (TPointer time_type) (B "Scan") -> takes t ex (TPointer time_type) Moment
| tk_number ex u : one_of P u (signed ++ unsigned ++ floats) -> ~ method P (TPointer u) (B "Scan") -> takes t ex (TPointer u) Number
| tk_truth ex u : kind P u (B "bool") -> ~ method P (TPointer u) (B "Scan") -> takes t ex (TPointer u) Truth
| tk_letters ex u : kind P u (B "string") -> ~ method P (TPointer u) (B "Scan") -> takes t ex (TPointer u) Letters
| tk_bytes ex u b : underlying P u (TSlice b) -> kind P b (B "byte") -> ~ method P (TPointer u) (B "Scan") -> takes t ex (TPointer u) Letters.
(** The methods of a type come in pairs. *)
Definition paired (t : gtype) : Prop :=
  (method P t (B "Value") <-> method P (TPointer t) (B "Scan")) /\ (method P t (B "MarshalText") <-> method P (TPointer t) (B "UnmarshalText")).
(** A column that is a pointer points to a type without a name, to a struct, or to a type that converts itself. *)
Definition plain_pointer (c : gtype) : Prop :=
  forall p n args, c = TPointer (TNamed p n args) -> method P (TNamed p n args) (B "Value") \/ declared P p n args /\ exists fs, stands_for P p n args = UStruct fs.
(** No character: a value of type rune is written as a text and read as a number. *)
Definition no_character (t : gtype) : Prop := ~ underlying P t (TBasic (B "rune")).
End Forms.
