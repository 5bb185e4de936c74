(* The format of binary events, as the comment on encode_response lists it (push field, push
   index, pop segment, string content; all numbers big endian). *)
From Verif Require Export Spec.Codec Spec.Scopes Model.TrustedBinary.

Inductive number : octets -> N -> Prop :=
| nu : forall x y z t, number [x; y; z; t] (x * 256 * 256 * 256 + y * 256 * 256 + z * 256 + t)%N.
(* [l] are the bytes of the operations; [text b s]: the bytes [b] are read as the string [s] *)
Inductive written (text : octets -> str -> Prop) : octets -> list visit_op -> Prop :=
| wr_end : written text [] []
| wr_field : forall n b s l ops, number n (N.of_nat (length b)) -> text b s -> written text l ops ->
    written text (0%N :: n ++ b ++ l) (OpPush (Field s) :: ops)
| wr_index : forall n i l ops, number n (N.of_nat i) -> written text l ops ->
    written text (1%N :: n ++ l) (OpPush (Index i) :: ops)
| wr_pop : forall l ops, written text l ops -> written text (2%N :: l) (OpPop :: ops)
| wr_string : forall n b s l ops, number n (N.of_nat (length b)) -> text b s -> written text l ops ->
    written text (3%N :: n ++ b ++ l) (OpString s :: ops).

(* the bytes of strings only *)
Inductive strings_only : list visit_op -> Prop :=
| so_end : strings_only []
| so_string : forall s ops, strings_only ops -> strings_only (OpString s :: ops).
