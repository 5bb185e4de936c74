(* Model of the JSON texts that carry rule configurations: what json.Marshal of Go and
   serde_json::to_string write, the C string in between, and what serde_json::from_str
   reads.  encoding/json and serde_json are external and written from memory; the code of
   the repository that uses them is sds-go/go/regex_rule.go 116-131, 175-199 and
   sds-go/rust/src/native/mod.rs 21-25, rule.rs 10-25. *)
From Verif Require Export Model.Config Model.Utf8 Model.RegexParser.

(* ---- reading: serde_json::from_str ---- *)
(* blanks, tabs, line feeds and carriage returns *)
Definition is_json_blank (c : char) : bool := ((c =? 32) || (c =? 10) || (c =? 9) || (c =? 13))%N.
Fixpoint skip_blanks (s : str) : str :=
  match s with
  | c :: s' => if is_json_blank c then skip_blanks s' else s
  | [] => []
  end.

(* decode_hex_escape: four hexadecimal digits *)
Definition hex4 (a b c d : char) : option N :=
  let? a := hex_value a in
  let? b := hex_value b in
  let? c := hex_value c in
  let? d := hex_value d in
  Some (((a * 16 + b) * 16 + c) * 16 + d)%N.

(* parse_escape, except for \u *)
Definition short_escape (c : char) : option char :=
  pick [c] [(chars """", 34%N); (chars "\", 92%N); (chars "/", 47%N); (chars "b", 8%N); (chars "f", 12%N);
            (chars "n", 10%N); (chars "r", 13%N); (chars "t", 9%N)].

(* parse_str, after the opening quote: the string and what follows the closing quote.
   A surrogate must be the first of a pair of escapes. *)
Fixpoint read_string (s : str) : option (str * str) :=
  match s with
  | [] => None
  | c :: s1 =>
    if (c =? 34)%N then Some ([], s1)
    else if (c <? 32)%N then None
    else if (c =? 92)%N then
      match s1 with
      | [] => None
      | e :: s2 =>
        if (e =? 117)%N then
          match s2 with
          | a :: b :: c :: d :: s3 =>
            let? n := hex4 a b c d in
            if in_range 56320 57343 n then None
            else if in_range 55296 56319 n then
              match s3 with
              | 92%N :: 117%N :: a' :: b' :: c' :: d' :: s4 =>
                let? m := hex4 a' b' c' d' in
                if in_range 56320 57343 m then
                  let? (t, rest) := read_string s4 in
                  Some (((n - 55296) * 1024 + (m - 56320) + 65536)%N :: t, rest)
                else None
              | _ => None
              end
            else let? (t, rest) := read_string s3 in Some (n :: t, rest)
          | _ => None
          end
        else
          let? x := short_escape e in
          let? (t, rest) := read_string s2 in Some (x :: t, rest)
      end
    else let? (t, rest) := read_string s1 in Some (c :: t, rest)
  end.

(* digits at the front *)
Fixpoint span_digits (s : str) : str * str :=
  match s with
  | c :: s' => if is_ascii_digit c then let (d, r) := span_digits s' in (c :: d, r) else ([], s)
  | [] => ([], [])
  end.
(* at least one digit *)
Definition some_digits (s : str) : option (str * str) :=
  match span_digits s with ([], _) => None | (d, r) => Some (d, r) end.

(* parse_integer, parse_decimal, parse_exponent: the text of a number and what follows.
   Numbers outside the range of f64, which are refused, are kept here. *)
Definition read_integer (s : str) : option (str * str) :=
  match s with
  | 48%N :: r => match span_digits r with ([], _) => Some ([48%N], r) | _ => None end
  | _ => some_digits s
  end.
Definition read_fraction (s : str) : option (str * str) :=
  match s with
  | 46%N :: r => let? (d, r') := some_digits r in Some (46%N :: d, r')
  | _ => Some ([], s)
  end.
Definition read_exponent (s : str) : option (str * str) :=
  match s with
  | c :: r =>
    if ((c =? 101) || (c =? 69))%N then
      match r with
      | g :: r' =>
        if ((g =? 43) || (g =? 45))%N then let? (d, r'') := some_digits r' in Some (c :: g :: d, r'')
        else let? (d, r'') := some_digits r in Some (c :: d, r'')
      | [] => None
      end
    else Some ([], s)
  | [] => Some ([], s)
  end.
Definition read_json_number (s : str) : option (str * str) :=
  let (sign, s0) := match s with 45%N :: r => ([45%N], r) | _ => ([], s) end in
  let? (i, s1) := read_integer s0 in
  let? (f, s2) := read_fraction s1 in
  let? (e, s3) := read_exponent s2 in
  Some (sign ++ i ++ f ++ e, s3).

(* parse_ident *)
Fixpoint strip (t s : str) : option str :=
  match t, s with
  | [], _ => Some s
  | a :: t', b :: s' => if (a =? b)%N then strip t' s' else None
  | _, [] => None
  end.

(* deserialize_any of serde_json::Deserializer: a value and what follows it.  [depth] is
   remaining_depth, 128 at first; an array or object that brings it to 0 is an error.
   Every call needs one of [fuel].  Fields that occur twice are kept. *)
Fixpoint read_value (fuel depth : nat) (s : str) {struct fuel} : option (json * str) :=
  match fuel with
  | 0 => None
  | S fuel =>
    match skip_blanks s with
    | [] => None
    | c :: r =>
      if (c =? 110)%N then let? r := strip (chars "ull") r in Some (JNull, r)
      else if (c =? 116)%N then let? r := strip (chars "rue") r in Some (JBool true, r)
      else if (c =? 102)%N then let? r := strip (chars "alse") r in Some (JBool false, r)
      else if (c =? 34)%N then let? (t, r) := read_string r in Some (JString t, r)
      else if (c =? 91)%N then
        match depth with
        | S (S _ as depth) =>
          match skip_blanks r with
          | 93%N :: r => Some (JArray [], r)
          | _ => let? (l, r) := read_elements fuel depth r in Some (JArray l, r)
          end
        | _ => None
        end
      else if (c =? 123)%N then
        match depth with
        | S (S _ as depth) =>
          match skip_blanks r with
          | 125%N :: r => Some (JObject [], r)
          | _ => let? (l, r) := read_members fuel depth r in Some (JObject l, r)
          end
        | _ => None
        end
      else let? (t, r) := read_json_number (c :: r) in Some (JNumber t, r)
    end
  end
with read_elements (fuel depth : nat) (s : str) {struct fuel} : option (list json * str) :=
  match fuel with
  | 0 => None
  | S fuel =>
    let? (v, r) := read_value fuel depth s in
    match skip_blanks r with
    | 44%N :: r => let? (l, r) := read_elements fuel depth r in Some (v :: l, r)
    | 93%N :: r => Some ([v], r)
    | _ => None
    end
  end
with read_members (fuel depth : nat) (s : str) {struct fuel} : option (list (str * json) * str) :=
  match fuel with
  | 0 => None
  | S fuel =>
    match skip_blanks s with
    | 34%N :: r =>
      let? (k, r) := read_string r in
      match skip_blanks r with
      | 58%N :: r =>
        let? (v, r) := read_value fuel depth r in
        match skip_blanks r with
        | 44%N :: r => let? (l, r) := read_members fuel depth r in Some ((k, v) :: l, r)
        | 125%N :: r => Some ([(k, v)], r)
        | _ => None
        end
      | _ => None
      end
    | _ => None
    end
  end.
(* serde_json::from_str: only blanks may follow.  The fuel is enough, see the proofs. *)
Definition json_fuel (s : str) : nat := 2 * length s + 1.
Definition json_from_str (s : str) : option json :=
  let? (v, r) := read_value (json_fuel s) 128 s in
  match skip_blanks r with [] => Some v | _ => None end.

(* ---- writing ---- *)
Definition hex_char (n : N) : char := (if n <? 10 then 48 + n else 87 + n)%N.
(* \u and four digits, below 65536 *)
Definition unicode_escape (c : char) : str :=
  chars "\u" ++ [hex_char (c / 4096); hex_char (c / 256 mod 16); hex_char (c / 16 mod 16); hex_char (c mod 16)].
Definition commas (l : list str) : str :=
  match l with [] => [] | x :: l' => x ++ flat_map (fun y => chars "," ++ y) l' end.

Section Written.
(* how the characters of a string are written *)
Variable string : str -> str.
Definition json_quoted (s : str) : str := chars """" ++ string s ++ chars """".
(* compact JSON, with the fields in the given order *)
Fixpoint json_written (v : json) : str :=
  match v with
  | JNull => chars "null"
  | JBool b => bool_text b
  | JNumber t => t
  | JString s => json_quoted s
  | JArray l => chars "[" ++ commas (map json_written l) ++ chars "]"
  | JObject m => chars "{" ++ commas (map (fun f => json_quoted (fst f) ++ chars ":" ++ json_written (snd f)) m) ++ chars "}"
  end.
End Written.

(* format_escaped_str of serde_json: quotes, backslashes and control characters *)
Definition serde_char (c : char) : str :=
  if (c =? 34)%N then chars "\""" else if (c =? 92)%N then chars "\\"
  else if (c =? 8)%N then chars "\b" else if (c =? 9)%N then chars "\t"
  else if (c =? 10)%N then chars "\n" else if (c =? 12)%N then chars "\f" else if (c =? 13)%N then chars "\r"
  else if (c <? 32)%N then unicode_escape c
  else [c].
Definition serde_string : str -> str := flat_map serde_char.
(* serde_json::to_string of a value *)
Definition json_to_string : json -> str := json_written serde_string.

(* appendString of encoding/json, with escapeHTML, for bytes below 128.  Since Go 1.22
   ([short]) \b and \f are used. *)
Definition go_ascii (short : bool) (b : octet) : octets :=
  if (b =? 34)%N then chars "\""" else if (b =? 92)%N then chars "\\"
  else if (b =? 8)%N && short then chars "\b" else if (b =? 12)%N && short then chars "\f"
  else if (b =? 10)%N then chars "\n" else if (b =? 13)%N then chars "\r" else if (b =? 9)%N then chars "\t"
  else if (b <? 32)%N || (b =? 60)%N || (b =? 62)%N || (b =? 38)%N then unicode_escape b
  else [b].
(* utf8.DecodeRune on a byte that is not ASCII: the character and the rest, None for an
   invalid sequence, of which one byte is taken *)
Definition go_decode_rune (b0 : octet) (l : octets) : option (char * octets) :=
  if in_range 194 223 b0 then
    match l with
    | b1 :: l1 => if is_cont b1 then Some (((b0 - 192) * 64 + (b1 - 128))%N, l1) else None
    | _ => None
    end
  else if in_range 224 239 b0 then
    match l with
    | b1 :: b2 :: l2 =>
      if second_of_three b0 b1 && is_cont b2
      then Some (((b0 - 224) * 4096 + (b1 - 128) * 64 + (b2 - 128))%N, l2) else None
    | _ => None
    end
  else if in_range 240 244 b0 then
    match l with
    | b1 :: b2 :: b3 :: l3 =>
      if second_of_four b0 b1 && is_cont b2 && is_cont b3
      then Some (((b0 - 240) * 262144 + (b1 - 128) * 4096 + (b2 - 128) * 64 + (b3 - 128))%N, l3) else None
    | _ => None
    end
  else None.
(* appendString: invalid bytes are written as an escaped U+FFFD, U+2028 and U+2029 are escaped.  Each
   character takes one of [fuel]. *)
Fixpoint go_string_fuel (short : bool) (fuel : nat) (l : octets) : octets :=
  match fuel, l with
  | S fuel, b :: l' =>
    if (b <? 128)%N then go_ascii short b ++ go_string_fuel short fuel l'
    else match go_decode_rune b l' with
         | Some (c, rest) =>
           (if ((c =? 8232) || (c =? 8233))%N then unicode_escape c else firstn (length l' + 1 - length rest) l)
           ++ go_string_fuel short fuel rest
         | None => chars "\ufffd" ++ go_string_fuel short fuel l'
         end
  | _, _ => []
  end.
Definition go_string (short : bool) (l : octets) : octets := go_string_fuel short (length l) l.
(* json.Marshal; what MarshalJSON of a field returns is copied, because it is compact and
   has no <, > and & *)
Definition go_marshal (short : bool) : json -> octets := json_written (go_string short).

(* ---- from Go to Rust ---- *)
(* C.CString adds a NUL, CStr::from_ptr stops at the first *)
Fixpoint until_nul (l : octets) : octets :=
  match l with
  | [] => []
  | b :: l' => if (b =? 0)%N then [] else b :: until_nul l'
  end.
(* native/mod.rs 21-25, rule.rs 10-25: None is a panic at the unwrap *)
Definition native_create_rule (utf16 : bool) (memory : octets) : option rule_config :=
  let? v := json_from_str (from_utf8_lossy (until_nul memory)) in de_config utf16 v.
(* regex_rule.go 116-131.  The strings of the rule are bytes. *)
Definition go_create_rule_bytes (short utf16 : bool) (r : go_rule) : option rule_config :=
  native_create_rule utf16 (go_marshal short (go_rule_json r) ++ [0%N]).
