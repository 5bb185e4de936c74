(* Model of str::parse::<Iban>, called in sds/src/secondary_validation/iban_checker.rs 12.
   The type Iban is of the external crate iban_validate 4 (sds/Cargo.toml 37); it is written
   from memory after the crate.  Simplifications: the table of countries is a parameter; the
   second reading of the crate, for texts printed in groups of four with spaces, is left out,
   as the characters that reach it are alphanumeric (iban_checker.rs 8-11), and on texts
   without spaces it accepts nothing that the first one does not; errors are None. *)
From Verif Require Export Model.Checksums.
Local Open Scope N_scope.

(* CharacterType (crate iban_validate, countries): n, a and c of the IBAN registry *)
Inductive iban_kind := KDigit | KUpper | KAlnum.
Definition kind_contains (k : iban_kind) (c : char) : bool :=
  match k with
  | KDigit => is_ascii_digit c
  | KUpper => is_ascii_upper c
  | KAlnum => is_ascii_digit c || is_ascii_upper c
  end.
(* Matcher::match_str: each part takes its number of characters; nothing is left over *)
Fixpoint match_structure (structure : list (nat * iban_kind)) (s : str) : bool :=
  match structure with
  | [] => match s with [] => true | _ => false end
  | (n, k) :: rest =>
    Nat.leb n (length s) && forallb (kind_contains k) (firstn n s) && match_structure rest (skipn n s)
  end.
(* BaseIban::try_form_string_from_electronic: two upper case letters, two digits, and at most
   30 letters or digits, which are made upper case *)
Definition iban_electronic (s : str) : option str :=
  match s with
  | c1 :: c2 :: d1 :: d2 :: rest =>
    if is_ascii_upper c1 && is_ascii_upper c2 && is_ascii_digit d1 && is_ascii_digit d2 &&
       forallb is_ascii_alnum rest && Nat.leb (length rest) 30
    then Some (c1 :: c2 :: d1 :: d2 :: map to_ascii_upper rest) else None
  | _ => None
  end.
(* BaseIban::compute_checksum: the first four characters move to the back; digits add one
   decimal digit, letters two *)
Definition iban_step (acc : N) (c : char) : N :=
  (if N.testbit c 5 then acc * 10 + (c - 48) else acc * 100 + (c - 65 + 10)) mod 97.
Definition iban_checksum (s : str) : N := fold_left iban_step (skipn 4 s ++ firstn 4 s) 0.
(* FromStr for Iban *)
Definition iban_parses (countries : str -> option (list (nat * iban_kind))) (s : str) : bool :=
  match iban_electronic s with
  | Some t =>
    (iban_checksum t =? 1) &&
    match countries (firstn 2 t) with
    | Some structure => match_structure structure (skipn 4 t)
    | None => false
    end
  | None => false
  end.
