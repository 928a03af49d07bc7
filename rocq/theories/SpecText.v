(** Small specifications of textual encodings, independent of the model. *)
From Verif Require Import Base.

(** Value of a non-empty digit string read left to right. *)
Definition digits_to_Z (ds : bytes) : Z :=
  fold_left (fun acc c => acc * 10 + (Z.of_N (N_of_ascii c) - 48))%Z ds 0%Z.

Definition decimal_digits (ds : bytes) : Prop :=
  ds <> [] /\ Forall (fun c => 48 <= N_of_ascii c <= 57)%N ds.

(** [denotes_int s z]: the text [s] is a decimal number (optional sign) whose value is [z]. *)
Inductive denotes_int : bytes -> Z -> Prop :=
| DI_plain ds : decimal_digits ds -> denotes_int ds (digits_to_Z ds)
| DI_plus ds : decimal_digits ds -> denotes_int ("+"%char :: ds) (digits_to_Z ds)
| DI_minus ds : decimal_digits ds -> denotes_int ("-"%char :: ds) (- digits_to_Z ds).

(** Range of the Go integer types. *)
Definition fits_signed (bits : N) (z : Z) : Prop :=
  (- 2 ^ (Z.of_N bits - 1) <= z < 2 ^ (Z.of_N bits - 1))%Z.
Definition fits_unsigned (bits : N) (z : Z) : Prop := (0 <= z < 2 ^ Z.of_N bits)%Z.

(** A bracketed, comma separated list of element texts. *)
Definition list_text (o c : byte) (elems : list bytes) : bytes :=
  o :: join (B ",") elems ++ [c].

(** ** Texts of one-dimensional arrays *)
(** [unescape body v]: between quotes, a backslash stands before a character to take as it is. *)
Inductive unescape : bytes -> bytes -> Prop :=
| un_nil : unescape [] []
| un_esc c body v : unescape body v -> unescape (backslash :: c :: body) (c :: v)
| un_char c body v : c <> backslash -> c <> dquote -> unescape body v -> unescape (c :: body) (c :: v).

(** [element_text o c t v]: the text [t] is an element with value [v] ([None] is NULL) in an array
    between the brackets [o] and [c]. *)
Inductive element_text (o c : byte) : bytes -> option bytes -> Prop :=
| el_quoted body v : unescape body v -> element_text o c (dquote :: body ++ [dquote]) (Some v)
| el_null : element_text o c (B "NULL") None
| el_raw x s : x <> o -> x <> dquote -> Forall (fun y => y <> ","%char /\ y <> c) (x :: s) ->
    x :: s <> B "NULL" -> element_text o c (x :: s) (Some (x :: s)).

(** [array_text o c b vs]: the text [b] is a list of elements with values [vs]; an empty array may
    have any number of brackets around it. *)
Definition array_text (o c : byte) (b : bytes) (vs : list (option bytes)) : Prop :=
  (vs = [] /\ exists n, b = repeat o (S n) ++ repeat c (S n))
  \/ (exists ts, ts <> [] /\ b = list_text o c ts /\ Forall2 (element_text o c) ts vs).
