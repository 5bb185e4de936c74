(* Specification of JSON texts (RFC 8259): which text stands for which value.  The value of
   a number is its text. *)
From Coq Require Export List NArith.
From Verif Require Export Model.Event Model.Ascii.
Export ListNotations.

Definition blank (c : char) : Prop := In c [32; 9; 10; 13]%N.
Definition blanks (s : str) : Prop := Forall blank s.

(* ---- strings ---- *)
Definition hex_numeral (c : char) (d : N) : Prop :=
  (48 <= c <= 57 /\ c = 48 + d \/ 97 <= c <= 102 /\ c + 10 = 97 + d \/ 65 <= c <= 70 /\ c + 10 = 65 + d)%N.
Definition four_hex (n : N) (t : str) : Prop :=
  exists a b c d x y z w, t = [a; b; c; d] /\ hex_numeral a x /\ hex_numeral b y /\ hex_numeral c z /\ hex_numeral d w /\
  n = (4096 * x + 256 * y + 16 * z + w)%N.
Definition json_escapes : list (char * char) :=
  [(34, 34); (92, 92); (47, 47); (98, 8); (102, 12); (110, 10); (114, 13); (116, 9)]%N.
(* a character in a string and how it may be written *)
Inductive json_char : char -> str -> Prop :=
| jc_plain : forall c, (32 <= c)%N -> c <> 34%N -> c <> 92%N -> json_char c [c]
| jc_short : forall e c, In (e, c) json_escapes -> json_char c [92%N; e]
| jc_unicode : forall n h, four_hex n h -> (n < 55296 \/ 57343 < n)%N -> json_char n (chars "\u" ++ h)
| jc_pair : forall n m h l, four_hex n h -> four_hex m l ->
    (55296 <= n <= 56319)%N -> (56320 <= m <= 57343)%N ->
    json_char (65536 + (n - 55296) * 1024 + (m - 56320))%N (chars "\u" ++ h ++ chars "\u" ++ l).
Inductive json_chars : str -> str -> Prop :=
| jcs_nil : json_chars [] []
| jcs_cons : forall c t s u, json_char c t -> json_chars s u -> json_chars (c :: s) (t ++ u).
Definition string_text (s t : str) : Prop := exists u, json_chars s u /\ t = chars """" ++ u ++ chars """".

(* ---- numbers ---- *)
Definition digit (c : char) : Prop := (48 <= c <= 57)%N.
Definition numerals (s : str) : Prop := s <> [] /\ Forall digit s.
Definition integer_text (s : str) : Prop := s = [48%N] \/ (numerals s /\ forall s', s <> 48%N :: s').
Definition fraction_text (s : str) : Prop := s = [] \/ exists d, numerals d /\ s = chars "." ++ d.
Definition exponent_text (s : str) : Prop :=
  s = [] \/ exists m g d, (m = chars "e" \/ m = chars "E") /\ (g = [] \/ g = chars "+" \/ g = chars "-") /\ numerals d /\ s = m ++ g ++ d.
Definition json_number (t : str) : Prop :=
  exists g i f e, (g = [] \/ g = chars "-") /\ integer_text i /\ fraction_text f /\ exponent_text e /\ t = g ++ i ++ f ++ e.

(* ---- values ---- *)
Inductive json_text : json -> str -> Prop :=
| jt_null : json_text JNull (chars "null")
| jt_true : json_text (JBool true) (chars "true")
| jt_false : json_text (JBool false) (chars "false")
| jt_number : forall t, json_number t -> json_text (JNumber t) t
| jt_string : forall s t, string_text s t -> json_text (JString s) t
| jt_no_elements : forall b, blanks b -> json_text (JArray []) (chars "[" ++ b ++ chars "]")
| jt_array : forall l t, elements_text l t -> json_text (JArray l) (chars "[" ++ t ++ chars "]")
| jt_no_members : forall b, blanks b -> json_text (JObject []) (chars "{" ++ b ++ chars "}")
| jt_object : forall m t, members_text m t -> json_text (JObject m) (chars "{" ++ t ++ chars "}")
with elements_text : list json -> str -> Prop :=
| et_last : forall v b t b', blanks b -> json_text v t -> blanks b' -> elements_text [v] (b ++ t ++ b')
| et_more : forall v b t b' l s, blanks b -> json_text v t -> blanks b' -> elements_text l s ->
    elements_text (v :: l) (b ++ t ++ b' ++ chars "," ++ s)
with members_text : list (str * json) -> str -> Prop :=
| mt_last : forall k v b1 kt b2 b3 t b4, blanks b1 -> string_text k kt -> blanks b2 -> blanks b3 -> json_text v t -> blanks b4 ->
    members_text [(k, v)] (b1 ++ kt ++ b2 ++ chars ":" ++ b3 ++ t ++ b4)
| mt_more : forall k v b1 kt b2 b3 t b4 l s, blanks b1 -> string_text k kt -> blanks b2 -> blanks b3 -> json_text v t ->
    blanks b4 -> members_text l s ->
    members_text ((k, v) :: l) (b1 ++ kt ++ b2 ++ chars ":" ++ b3 ++ t ++ b4 ++ chars "," ++ s).
Definition json_document (v : json) (s : str) : Prop :=
  exists b t b', blanks b /\ json_text v t /\ blanks b' /\ s = b ++ t ++ b'.

(* nested arrays and objects *)
Fixpoint json_depth (v : json) : nat :=
  match v with
  | JArray l => S (fold_right (fun v n => Nat.max (json_depth v) n) 0 l)
  | JObject m => S (fold_right (fun f n => Nat.max (json_depth (snd f)) n) 0 m)
  | _ => 0
  end.
