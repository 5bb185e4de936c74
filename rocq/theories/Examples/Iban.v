(* Countries for the examples of the IBAN check *)
From Coq Require Import Lia ZifyN ZifyBool.
From Verif Require Export Model.Ascii Spec.Iban.
Local Open Scope N_scope.

(* Germany, Kazakhstan and Albania, as in the IBAN registry *)
Definition some_countries (c : str) : option (list (nat * iban_kind)) :=
  if str_eqb c (chars "DE") then Some [(18%nat, KDigit)]
  else if str_eqb c (chars "KZ") then Some [(3%nat, KDigit); (13%nat, KAlnum)]
  else if str_eqb c (chars "AL") then Some [(8%nat, KDigit); (16%nat, KAlnum)]
  else None.
Definition ascii_word (c : char) : bool := is_ascii_alnum c.
Lemma ascii_word_alphanumeric : ascii_alphanumeric ascii_word.
Proof. intros c H. unfold ascii_word, is_ascii_alnum, is_ascii_alpha, is_ascii_upper, is_ascii_lower, is_ascii_digit, in_range. unfold is_digit, upper_letter, lower_letter in H. lia. Qed.
