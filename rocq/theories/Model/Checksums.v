(* sds/src/secondary_validation: the checksum validators *)
From Verif Require Export Model.Str Model.Event.
Local Open Scope N_scope.

(* secondary_validation/mod.rs 34-41.  The iterator is the rest of the string. *)
Fixpoint get_next_digit (s : str) : option (N * str) :=
  match s with
  | [] => None
  | c :: s' => match to_digit10 c with Some d => Some (d, s') | None => get_next_digit s' end
  end.

(* u32 addition; wrapping as in a release build *)
Definition add32 (a b : N) : N := (a + b) mod 4294967296.

(* luhn_checksum.rs 12-21.  [rest] are the remaining characters from the last to the
   first: get_previous_digit (mod.rs 26-33) skips what is not a digit, so the loop
   goes over the characters and skips them itself. *)
Fixpoint luhn_loop (rest : str) (sum : N) (is_odd : bool) : N :=
  match rest with
  | [] => sum
  | c :: rest' =>
    match to_digit10 c with
    | None => luhn_loop rest' sum is_odd
    | Some digit =>
      let sum' :=
        if is_odd then add32 sum digit
        else if 4 <? digit then add32 sum (digit * 2 - 9)
        else add32 sum (digit * 2) in
      luhn_loop rest' sum' (negb is_odd)
    end
  end.
(* luhn_checksum.rs 6-25 *)
Definition luhn_is_valid (s : str) : bool :=
  match get_next_digit (rev s) with
  | Some (checksum, rest) => (10 - luhn_loop rest 0 false mod 10) mod 10 =? checksum
  | None => false
  end.

(* chinese_id_checksum.rs 5-6 *)
Definition chinese_id_length : nat := 18.
Definition chinese_id_coefficients : list N := [7; 9; 10; 5; 8; 4; 2; 1; 6; 3; 7; 9; 10; 5; 8; 4; 2].

(* chinese_id_checksum.rs 20-26; the sum stays below 2^31, so i32 is N here.  Indexing
   the coefficients is in range for the 17 characters taken. *)
Fixpoint chinese_sum (cs : list N) (s : str) (sum : N) : option N :=
  match s with
  | [] => Some sum
  | c :: s' =>
    match to_digit10 c, cs with
    | Some x, k :: cs' => chinese_sum cs' s' (sum + k * x)
    | _, _ => None
    end
  end.
(* chinese_id_checksum.rs 28-35 *)
Definition chinese_check_char (sum : N) : char :=
  match sum mod 11 with
  | 0 => 49 (* '1' *)
  | 1 => 48 (* '0' *)
  | 2 => 88 (* 'X' *)
  | r => 12 - r + 48
  end.
(* chinese_id_checksum.rs 11-44; [next_back().unwrap()] cannot fail on 18 bytes *)
Definition chinese_id_is_valid (s : str) : bool :=
  if negb (Nat.eqb (blen s) chinese_id_length) then false
  else match chinese_sum chinese_id_coefficients (firstn (chinese_id_length - 1) s) 0 with
       | None => false
       | Some sum =>
         match hd_error (rev s) with
         | Some c => to_ascii_upper c =? chinese_check_char sum
         | None => false
         end
       end.

(* nhs_check_digit.rs 5-7 *)
Definition nhs_multiplier_from_number_idx (index : nat) : N := 11 - (N.of_nat index + 1).
(* nhs_check_digit.rs 19-30: [None] is the early [return false] *)
Fixpoint nhs_loop (rest : str) (nb_digit : nat) (total_sum check_digit : N) : option (N * N) :=
  match rest with
  | [] => Some (total_sum, check_digit)
  | c :: rest' =>
    match to_digit10 c with
    | None => nhs_loop rest' nb_digit total_sum check_digit
    | Some digit =>
      if Nat.ltb 10 nb_digit then None
      else if Nat.ltb nb_digit 9 then
        nhs_loop rest' (S nb_digit) (total_sum + digit * nhs_multiplier_from_number_idx nb_digit) check_digit
      else nhs_loop rest' (S nb_digit) total_sum digit
    end
  end.
(* nhs_check_digit.rs 10-53 *)
Definition nhs_is_valid (s : str) : bool :=
  match nhs_loop (rev s) 0 0 0 with
  | None => false
  | Some (total_sum, check_digit) =>
    let identifier := 11 - total_sum mod 11 in
    let identifier := if identifier =? 11 then 0 else identifier in
    if identifier =? 10 then false else identifier =? check_digit
  end.

(* nir_checksum.rs 25-35; 13 digits fit in an i64 *)
Fixpoint get_next_digit_chars (size : nat) (s : str) (total : N) : option (N * str) :=
  match size with
  | O => Some (total, s)
  | S n => match get_next_digit s with
           | Some (d, s') => get_next_digit_chars n s' (total * 10 + d)
           | None => None
           end
  end.
(* nir_checksum.rs 8-22 *)
Definition nir_is_valid (s : str) : bool :=
  match get_next_digit_chars 13 s 0 with
  | None => false
  | Some (digit, s1) =>
    match get_next_digit_chars 2 s1 0 with
    | None => false
    | Some (checksum, s2) =>
      match get_next_digit s2 with
      | Some _ => false
      | None => 97 - digit mod 97 =? checksum
      end
    end
  end.

(* [str::split(c)] collected: the parts between the separators *)
Fixpoint split_on (sep : char) (s : str) : list str :=
  match s with
  | [] => [[]]
  | c :: s' =>
    if c =? sep then [] :: split_on sep s'
    else match split_on sep s' with
         | p :: ps => (c :: p) :: ps
         | [] => [[c]]
         end
  end.

(* [crc32fast::hash] (external crate): CRC-32 of ISO 3309, one bit at a time.  The
   bytes are given as numbers; the only caller passes ASCII letters and digits, so
   the bytes are the characters. *)
Definition crc_bit (c : N) : N :=
  if N.odd c then N.lxor (N.shiftr c 1) 3988292384 else N.shiftr c 1.
Definition crc_byte (c b : N) : N := Nat.iter 8 crc_bit (N.lxor c b).
Definition crc32 (bytes : list N) : N := N.lxor (fold_left crc_byte bytes 4294967295) 4294967295.

(* [base62::encode] (external crate): most significant digit first, digits
   0-9 A-Z a-z, no padding *)
Definition base62_char (d : N) : char :=
  if d <? 10 then 48 + d else if d <? 36 then 65 + (d - 10) else 97 + (d - 36).
Fixpoint base62_digits (fuel : nat) (n : N) (acc : str) : str :=
  match fuel with
  | O => acc
  | S f => if n =? 0 then acc else base62_digits f (n / 62) (base62_char (n mod 62) :: acc)
  end.
Definition base62_encode (n : N) : str := if n =? 0 then [48] else base62_digits 22 n [].

(* github_token_checksum.rs 6-28.  [crc] is the checksum of the payload ([crc32]).
   After the test for ASCII the byte positions are character positions. *)
Definition github_is_valid (crc : list N -> N) (s : str) : bool :=
  let parts := split_on 95 s in
  if Nat.ltb (length parts) 2 then false
  else
    let last_part := last parts [] in
    if negb (forallb is_ascii_alnum last_part) then false
    else if Nat.leb (length last_part) 6 then false
    else
      let n := (length last_part - 6)%nat in
      str_eqb (base62_encode (crc (firstn n last_part))) (skipn n last_part).

(* iban_checker.rs 6-17.  [alphanumeric] is char::is_alphanumeric, [parses] is
   str::parse::<Iban> of the iban crate. *)
Definition iban_is_valid (alphanumeric : char -> bool) (parses : str -> bool) (s : str) : bool :=
  parses (filter alphanumeric s).

(* jwt_expiration_checker.rs 11-56.  [decode_segment] (base64url without padding, then
   serde_json) and [as_i64] of a JSON number are parameters; [now] is the clock in
   seconds. *)
Definition jwt_decode_segments (decode_segment : str -> option json) (s : str) : option (json * json) :=
  match split_on 46 s with
  | [header; payload; _] =>
    match decode_segment header with
    | Some h => match decode_segment payload with Some p => Some (h, p) | None => None end
    | None => None
    end
  | _ => None
  end.
(* [Value::get(&str)] and [Value::as_i64] of serde_json *)
Definition json_field (j : json) (k : str) : option json :=
  match j with JObject m => map_get m k | _ => None end.
Definition json_as_i64 (number : str -> option Z) (j : json) : option Z :=
  match j with JNumber t => number t | _ => None end.
Definition exp_name : str := [101; 120; 112].
Definition jwt_is_valid (decode_segment : str -> option json) (number : str -> option Z) (now : Z) (s : str) : bool :=
  match jwt_decode_segments decode_segment s with
  | Some (_, payload) =>
    match json_field payload exp_name with
    | Some e => match json_as_i64 number e with Some t => (now <? t)%Z | None => false end
    | None => true
    end
  | None => false
  end.

(* scanner/regex_rule/config.rs (enum SecondaryValidator) and
   secondary_validation/mod.rs 43-59 *)
Inductive secondary_validator :=
| LuhnChecksum | ChineseIdChecksum | GithubTokenChecksum | NhsCheckDigit | IbanChecker | NirChecksum
| JwtExpirationChecker.
(* what the validators take from outside *)
Record validator_env := {
  env_alphanumeric : char -> bool;
  env_iban : str -> bool;
  env_decode_segment : str -> option json;
  env_number : str -> option Z;
  env_now : Z
}.
Definition is_valid_match (env : validator_env) (v : secondary_validator) (s : str) : bool :=
  match v with
  | LuhnChecksum => luhn_is_valid s
  | ChineseIdChecksum => chinese_id_is_valid s
  | GithubTokenChecksum => github_is_valid crc32 s
  | NhsCheckDigit => nhs_is_valid s
  | IbanChecker => iban_is_valid (env_alphanumeric env) (env_iban env) s
  | NirChecksum => nir_is_valid s
  | JwtExpirationChecker => jwt_is_valid (env_decode_segment env) (env_number env) (env_now env) s
  end.
