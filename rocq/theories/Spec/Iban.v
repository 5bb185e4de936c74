(* What an IBAN is (ISO 13616) *)
From Verif Require Export Model.Iban Spec.Checksums.
Local Open Scope N_scope.

Definition upper_letter (c : char) : Prop := 65 <= c <= 90.
Definition lower_letter (c : char) : Prop := 97 <= c <= 122.
(* the kinds of characters of the registry *)
Inductive of_kind : iban_kind -> char -> Prop :=
| ok_digit : forall c, is_digit c -> of_kind KDigit c
| ok_upper : forall c, upper_letter c -> of_kind KUpper c
| ok_any_digit : forall c, is_digit c -> of_kind KAlnum c
| ok_any_upper : forall c, upper_letter c -> of_kind KAlnum c.
(* the parts of an account, one after the other *)
Inductive structured : list (nat * iban_kind) -> str -> Prop :=
| st_none : structured [] []
| st_part : forall n k rest a b, length a = n -> Forall (of_kind k) a -> structured rest b ->
    structured ((n, k) :: rest) (a ++ b).
Inductive in_upper_case : char -> char -> Prop :=
| iu_lower : forall c, lower_letter c -> in_upper_case c (c - 32)
| iu_other : forall c, ~ lower_letter c -> in_upper_case c c.
(* the digits of the number that is checked: letters count 10 to 35 *)
Inductive spelled : str -> list N -> Prop :=
| sp_nil : spelled [] []
| sp_digit : forall c s l, is_digit c -> spelled s l -> spelled (c :: s) (c - 48 :: l)
| sp_letter : forall c s l a b, upper_letter c -> a < 10 -> b < 10 -> 10 * a + b = c - 65 + 10 -> spelled s l ->
    spelled (c :: s) (a :: b :: l).
(* country, check digits and account; the number of the account, the country and the check
   digits is 1 modulo 97 *)
Definition iban (countries : str -> option (list (nat * iban_kind))) (s : str) : Prop :=
  exists country check account structure in_upper digits,
    s = country ++ check ++ account /\ length country = 2%nat /\ Forall upper_letter country /\
    length check = 2%nat /\ Forall is_digit check /\ (length account <= 30)%nat /\
    Forall2 in_upper_case account in_upper /\ countries country = Some structure /\ structured structure in_upper /\
    spelled (in_upper ++ country ++ check) digits /\ decimal digits mod 97 = 1.
(* the text without the characters that are neither letters nor digits *)
Inductive without_separators (alphanumeric : char -> bool) : str -> str -> Prop :=
| ws_nil : without_separators alphanumeric [] []
| ws_keep : forall c s t, alphanumeric c = true -> without_separators alphanumeric s t ->
    without_separators alphanumeric (c :: s) (c :: t)
| ws_drop : forall c s t, alphanumeric c = false -> without_separators alphanumeric s t ->
    without_separators alphanumeric (c :: s) t.
(* letters and digits of ASCII are alphanumeric (char::is_alphanumeric) *)
Definition ascii_alphanumeric (alphanumeric : char -> bool) : Prop :=
  forall c, is_digit c \/ upper_letter c \/ lower_letter c -> alphanumeric c = true.
(* two letters (of either case), or two digits, that stand for different numbers *)
Inductive different_kin : char -> char -> Prop :=
| dk_digits : forall c d, is_digit c -> is_digit d -> c <> d -> different_kin c d
| dk_letters : forall c d c' d', in_upper_case c c' -> in_upper_case d d' -> upper_letter c' -> upper_letter d' -> c' <> d' ->
    different_kin c d.
