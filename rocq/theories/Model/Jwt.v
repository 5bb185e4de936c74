(* The decoding of JWT segments, sds/src/secondary_validation/jwt_expiration_checker.rs
   52-57: base64url without padding (the base64 crate) and serde_json::from_slice into a
   Value.  Both crates are external and written from memory. *)
From Verif Require Export Model.Checksums Model.JsonText.
Local Open Scope N_scope.

(* the URL_SAFE alphabet *)
Definition base64_value (c : char) : option N :=
  if in_range 65 90 c then Some (c - 65)
  else if in_range 97 122 c then Some (c - 71)
  else if in_range 48 57 c then Some (c + 4)
  else if c =? 45 then Some 62
  else if c =? 95 then Some 63
  else None.
(* URL_SAFE_NO_PAD.decode: no padding, and the bits that are left over must be zero *)
Fixpoint base64_decode (s : str) : option octets :=
  match s with
  | [] => Some []
  | [_] => None
  | [a; b] =>
    let? a := base64_value a in
    let? b := base64_value b in
    if b mod 16 =? 0 then Some [a * 4 + b / 16] else None
  | [a; b; c] =>
    let? a := base64_value a in
    let? b := base64_value b in
    let? c := base64_value c in
    if c mod 4 =? 0 then Some [a * 4 + b / 16; b mod 16 * 16 + c / 4] else None
  | a :: b :: c :: d :: s' =>
    let? a := base64_value a in
    let? b := base64_value b in
    let? c := base64_value c in
    let? d := base64_value d in
    let? l := base64_decode s' in
    Some (a * 4 + b / 16 :: b mod 16 * 16 + c / 4 :: c mod 4 * 64 + d :: l)
  end.

(* str::from_utf8: a text has exactly these bytes *)
Definition from_utf8 (b : octets) : option str :=
  let s := from_utf8_lossy b in if str_eqb (as_bytes s) b then Some s else None.

(* a Map of serde_json: the last of several members with the same name stays *)
Fixpoint last_members (m : list (str * json)) : list (str * json) :=
  match m with
  | [] => []
  | x :: m' => if existsb (fun y => str_eqb (fst y) (fst x)) m' then last_members m' else x :: last_members m'
  end.
Fixpoint json_value (v : json) : json :=
  match v with
  | JArray l => JArray (map json_value l)
  | JObject m => JObject (last_members (map (fun x => (fst x, json_value (snd x))) m))
  | _ => v
  end.
(* numbers must not be too large for f64; which are is a parameter *)
Fixpoint numbers_in (finite : str -> bool) (v : json) : bool :=
  match v with
  | JNumber t => finite t
  | JArray l => forallb (numbers_in finite) l
  | JObject m => forallb (fun x => numbers_in finite (snd x)) m
  | _ => true
  end.
(* serde_json::from_slice into a Value: strings must be valid UTF-8, and there is nothing
   but ASCII outside strings *)
Definition json_from_slice (finite : str -> bool) (b : octets) : option json :=
  let? s := from_utf8 b in
  let? v := json_from_str s in
  if numbers_in finite v then Some (json_value v) else None.
(* 52-57 *)
Definition decode_segment (finite : str -> bool) (s : str) : option json :=
  let? b := base64_decode s in json_from_slice finite b.

(* Value::as_i64 of the number with the text [t]: parse_integer and parse_number of
   serde_json keep an integer of 64 bits; a fraction, an exponent, a larger integer and -0
   become f64 *)
Definition digits_value (t : str) : N := fold_left (fun n c => n * 10 + (c - 48)) t 0.
Definition number_as_i64 (t : str) : option Z :=
  match t with
  | 45 :: t' =>
    if forallb is_ascii_digit t' then
      let n := digits_value t' in
      if (0 <? n) && (n <=? 2 ^ 63) then Some (- Z.of_N n)%Z else None
    else None
  | _ =>
    if forallb is_ascii_digit t then
      let n := digits_value t in
      if n <? 2 ^ 63 then Some (Z.of_N n) else None
    else None
  end.

(* secondary_validation/mod.rs 43-59 with this decoder *)
Definition jwt_env (alphanumeric : char -> bool) (iban : str -> bool) (finite : str -> bool) (now : Z) : validator_env := {|
  env_alphanumeric := alphanumeric;
  env_iban := iban;
  env_decode_segment := decode_segment finite;
  env_number := number_as_i64;
  env_now := now
|}.
