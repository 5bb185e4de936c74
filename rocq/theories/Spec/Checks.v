(* What the check named in the configuration of a rule accepts, and the parts of a path *)
From Verif Require Export Spec.Checksums Model.Path Model.Ascii.
Local Open Scope N_scope.

(* numbers with fewer digits are filled with zeros, of eleven digits the second is dropped *)
Definition nhs_digits (l : list N) : list N :=
  match l with
  | [d0; _; d2; d3; d4; d5; d6; d7; d8; d9; d10] => [d0; d2; d3; d4; d5; d6; d7; d8; d9; d10]
  | _ => repeat 0 (10 - length l) ++ l
  end.
Definition passes (env : validator_env) (v : secondary_validator) (s : str) : Prop :=
  match v with
  | LuhnChecksum => exists l, has_digits s l /\ luhn l
  | ChineseIdChecksum => iso7064_mod_11_2 s
  | GithubTokenChecksum => exists payload, github_token crc32 s payload /\ 62 ^ 5 <= crc32 payload
  | NhsCheckDigit => exists l, has_digits s l /\ (length l <= 11)%nat /\ nhs_number (nhs_digits l)
  | IbanChecker => exists kept, env_iban env kept = true /\
      kept = filter (env_alphanumeric env) s
  | NirChecksum => exists l, has_digits s l /\ nir_number l
  | JwtExpirationChecker => exists header payload signature h p,
      three_segments s header payload signature /\ env_decode_segment env header = Some h /\
      env_decode_segment env payload = Some p /\
      forall m e, p = JObject m -> In (chars "exp", e) m ->
        exists n t, e = JNumber n /\ env_number env n = Some t /\ (env_now env < t)%Z
  end.
(* the names in a JSON object are distinct *)
Definition sane_env (env : validator_env) : Prop :=
  forall x m, env_decode_segment env x = Some (JObject m) -> NoDup (map fst m).
(* the sum of the Luhn check fits 32 bits *)
Definition short (s : str) : Prop := 9 * N.of_nat (length s) < 4294967296.
