(* Specification of hashed matches: hexadecimal numerals and the bytes of UTF-16, written
   without the functions of the model *)
From Verif Require Export Model.Hash Spec.Codec.
Local Open Scope N_scope.

(* the digits of lower-case hexadecimal *)
Definition lower_digit (c : char) (d : N) : Prop :=
  d < 10 /\ c = 48 + d \/ 10 <= d < 16 /\ c = 97 + (d - 10).
(* numerals without zeros in front *)
Inductive hex_numeral : str -> N -> Prop :=
| hn_digit : forall c d, lower_digit c d -> hex_numeral [c] d
| hn_more : forall t n c d, hex_numeral t n -> 0 < n -> lower_digit c d -> hex_numeral (t ++ [c]) (n * 16 + d).

(* UTF-16, the smaller byte of a unit first: a unit, or two surrogates *)
Inductive char_utf16 : char -> octets -> Prop :=
| cs_unit : forall lo hi, lo < 256 -> hi < 256 -> ~ 55296 <= hi * 256 + lo < 57344 -> char_utf16 (hi * 256 + lo) [lo; hi]
| cs_pair : forall x y z t, x < 4 -> y < 256 -> z < 4 -> t < 256 ->
    char_utf16 (65536 + (x * 256 + y) * 1024 + (z * 256 + t)) [y; 216 + x; t; 220 + z].
Inductive utf16_of : str -> octets -> Prop :=
| us_nil : utf16_of [] []
| us_cons : forall c b s bs, char_utf16 c b -> utf16_of s bs -> utf16_of (c :: s) (b ++ bs).
