(* What the checksum validators should accept *)
From Verif Require Export Model.Checksums.
Local Open Scope N_scope.

(* the digits of a text, in order *)
Definition is_digit (c : char) : Prop := 48 <= c <= 57.
Inductive has_digits : str -> list N -> Prop :=
| hd_nil : has_digits [] []
| hd_digit : forall c s l, is_digit c -> has_digits s l -> has_digits (c :: s) (c - 48 :: l)
| hd_other : forall c s l, ~ is_digit c -> has_digits s l -> has_digits (c :: s) l.

(* Luhn: from the right, every second digit is doubled and its digits are added; the
   total is a multiple of ten.  [twice] tells whether the next digit is doubled. *)
Fixpoint luhn_total (twice : bool) (from_right : list N) : N :=
  match from_right with
  | [] => 0
  | d :: l => (if twice then (2 * d) / 10 + (2 * d) mod 10 else d) + luhn_total (negb twice) l
  end.
Definition luhn (digits : list N) : Prop :=
  digits <> [] /\ luhn_total false (rev digits) mod 10 = 0.

(* ISO 7064 MOD 11-2: the characters, with X as ten, are the digits of a number in
   base 2 that is 1 modulo 11 *)
Inductive iso_value : char -> N -> Prop :=
| iv_digit : forall c, is_digit c -> iso_value c (c - 48)
| iv_upper : iso_value 88 10
| iv_lower : iso_value 120 10.
Definition base2 (values : list N) : N := fold_left (fun acc a => 2 * acc + a) values 0.
Definition iso7064_mod_11_2 (s : str) : Prop :=
  exists front c values v,
    s = front ++ [c] /\ length front = 17%nat /\ Forall is_digit front /\
    values = map (fun d => d - 48) front /\ iso_value c v /\ base2 (values ++ [v]) mod 11 = 1.

(* NHS number: ten digits, the first nine weighted 10 down to 2; the check digit is 11
   minus the remainder modulo 11, with 11 read as 0, and 10 is not allowed *)
Definition nhs_number (digits : list N) : Prop :=
  exists d1 d2 d3 d4 d5 d6 d7 d8 d9 d10,
    digits = [d1; d2; d3; d4; d5; d6; d7; d8; d9; d10] /\
    let check := 11 - (10 * d1 + 9 * d2 + 8 * d3 + 7 * d4 + 6 * d5 + 5 * d6 + 4 * d7 + 3 * d8 + 2 * d9) mod 11 in
    check <> 10 /\ d10 = if check =? 11 then 0 else check.

(* decimal value *)
Definition decimal (digits : list N) : N := fold_left (fun acc d => 10 * acc + d) digits 0.
(* NIR: 13 digits and the key *)
Definition nir_number (digits : list N) : Prop :=
  exists number key, digits = number ++ key /\ length number = 13%nat /\ length key = 2%nat /\
    decimal key = 97 - decimal number mod 97.

(* value of a base 62 numeral *)
Definition alnum (c : char) : Prop := 48 <= c <= 57 \/ 65 <= c <= 90 \/ 97 <= c <= 122.
Definition base62_digit (c : char) : N :=
  if c <=? 57 then c - 48 else if c <=? 90 then c - 55 else c - 61.
Definition base62_value (s : str) : N := fold_left (fun acc c => 62 * acc + base62_digit c) s 0.
(* prefix, '_', payload, and six characters that write the checksum of the payload in
   base 62, padded with zeros *)
Definition github_token (crc : list N -> N) (s payload : str) : Prop :=
  exists prefix check, s = prefix ++ [95] ++ payload ++ check /\
    Forall alnum (payload ++ check) /\ payload <> [] /\ length check = 6%nat /\
    base62_value check = crc payload.

(* three segments separated by dots *)
Definition three_segments (s a b c : str) : Prop :=
  s = a ++ [46] ++ b ++ [46] ++ c /\ ~ In 46 a /\ ~ In 46 b /\ ~ In 46 c.
