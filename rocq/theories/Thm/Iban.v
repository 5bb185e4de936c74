(* The IBAN check, with the crate it calls (C98) *)
From Coq Require Import Lia.
From Verif Require Import Proofs.IbanClaims.
Local Open Scope N_scope.

(* The validator accepts exactly the texts whose letters and digits are an IBAN: two capital
   letters, two check digits, and an account of at most 30 characters with the structure of its
   country, such that the number they spell is 1 modulo 97. *)
Theorem C98_exact :
  forall alphanumeric countries s,
  iban_is_valid alphanumeric (iban_parses countries) s = true <->
  exists t, without_separators alphanumeric s t /\ iban countries t.
Proof. exact c98_exact_lemma. Qed.
Print Assumptions C98_exact.

(* the unit tests of iban_checker.rs *)
Example C98_exact_nonvacuous :
  map (iban_is_valid ascii_word (iban_parses some_countries))
    [chars "DE44500105175407324931"; chars "DE4450-0105-1754-0732-4931"; chars "KZ86 125K ZT50 0410 0100"] = [true; true; true] /\
  map (iban_is_valid ascii_word (iban_parses some_countries))
    [chars "DE45500105175407324931"; chars "ZZZFO6666000000000000031231ZZZ"; chars "AL84212110090000AB023569874"] = [false; false; false] /\
  iban some_countries (chars "KZ86125KZT5004100100").
Proof. split; [reflexivity|]. split; [reflexivity|]. apply iban_parses_spec. reflexivity. Qed.

(* An IBAN with one character replaced by another one of its kind is rejected. *)
Theorem C98_single_errors :
  forall alphanumeric countries x c d y, ascii_alphanumeric alphanumeric -> different_kin c d ->
  iban_is_valid alphanumeric (iban_parses countries) (x ++ c :: y) = true ->
  iban_is_valid alphanumeric (iban_parses countries) (x ++ d :: y) = false.
Proof. exact c98_single_errors_lemma. Qed.
Print Assumptions C98_single_errors.

Example C98_single_nonvacuous :
  different_kin 53 54 /\ different_kin 107 88 /\ ascii_alphanumeric ascii_word /\
  iban_is_valid ascii_word (iban_parses some_countries) (chars "KZ86 12" ++ 53 :: chars "K ZT50 0410 0100") = true /\
  iban_is_valid ascii_word (iban_parses some_countries) (chars "KZ86 12" ++ 54 :: chars "K ZT50 0410 0100") = false /\
  iban_is_valid ascii_word (iban_parses some_countries) (chars "KZ86 125" ++ 107 :: chars " ZT50 0410 0100") = true.
Proof.
  split; [apply dk_digits; [split; discriminate|split; discriminate|discriminate]|].
  split; [apply (dk_letters 107 88 75 88); [apply (iu_lower 107); split; discriminate|apply iu_other; intros [H _]; apply H; reflexivity|split; discriminate|split; discriminate|discriminate]|].
  split; [exact ascii_word_alphanumeric|]. split; [reflexivity|split; reflexivity].
Qed.

(* An IBAN with two different digits exchanged is rejected, wherever they stand; so is one with
   two different letters exchanged. *)
Theorem C98_exchanges :
  forall alphanumeric countries x c y d z, ascii_alphanumeric alphanumeric -> different_kin c d ->
  iban_is_valid alphanumeric (iban_parses countries) (x ++ c :: y ++ d :: z) = true ->
  iban_is_valid alphanumeric (iban_parses countries) (x ++ d :: y ++ c :: z) = false.
Proof. exact c98_exchanges_lemma. Qed.
Print Assumptions C98_exchanges.

(* the last check digit and the last digit of the account *)
Example C98_exchange_nonvacuous :
  iban_is_valid ascii_word (iban_parses some_countries) (chars "DE4" ++ 52 :: chars "50-0105-1754-0732-493" ++ [49]) = true /\
  iban_is_valid ascii_word (iban_parses some_countries) (chars "DE4" ++ 49 :: chars "50-0105-1754-0732-493" ++ [52]) = false.
Proof. split; reflexivity. Qed.

(* For each country and account the check digits are determined up to 97: if two are accepted,
   they are equal or differ by 97. *)
Theorem C98_check_digits :
  forall alphanumeric countries x c d c' d' y, ascii_alphanumeric alphanumeric ->
  Forall upper_letter x -> length x = 2%nat -> is_digit c -> is_digit d -> is_digit c' -> is_digit d' ->
  iban_is_valid alphanumeric (iban_parses countries) (x ++ c :: d :: y) = true ->
  iban_is_valid alphanumeric (iban_parses countries) (x ++ c' :: d' :: y) = true ->
  let n := decimal [c - 48; d - 48] in let n' := decimal [c' - 48; d' - 48] in
  n = n' \/ n = n' + 97 \/ n' = n + 97.
Proof. exact c98_check_digits_lemma. Qed.
Print Assumptions C98_check_digits.

(* both kinds of check digits are accepted, as the crate does not ask for those of ISO 7064 *)
Example C98_check_digits_nonvacuous :
  exists y, iban_is_valid ascii_word (iban_parses some_countries) (chars "DE" ++ 48 :: 49 :: y) = true /\
    iban_is_valid ascii_word (iban_parses some_countries) (chars "DE" ++ 57 :: 56 :: y) = true.
Proof. exists (chars "000000000000000048"). split; reflexivity. Qed.

