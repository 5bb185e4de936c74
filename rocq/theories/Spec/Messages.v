(* What the texts of errors say, read as English: the numbers in a text are read as numbers,
   and the rest as what it means for the configuration of a rule. *)
From Verif Require Export Spec.Builder Spec.Pattern Spec.Reading Model.Messages.

Inductive truthful (en : engines) (c : rule_config) : str -> Prop :=
(* the parser does not read the pattern, or the regex crate does not *)
| tr_syntax : (forall a, ~ pattern_read a (cf_pattern c)) \/
    (exists p, convert_to_rust_regex 51 (cf_pattern c) = Ret (Ok p) /\ en_build en p 1000000 = Err OtherBuildError) ->
    truthful en c (chars "Invalid regex syntax")
| tr_depth : (forall a, ~ pattern_read a (cf_pattern c)) -> 50 <= count_occ N.eq_dec (cf_pattern c) 40%N ->
    truthful en c (chars "The regex pattern is nested too deeply")
| tr_complex : forall p, convert_to_rust_regex 51 (cf_pattern c) = Ret (Ok p) -> en_build en p 1000000 = Err SizeLimit ->
    truthful en c (chars "The regex has exceeded the complexity limit (try simplifying the regex)")
| tr_empty_match : forall re m, pattern_regex en (cf_pattern c) re -> re [] 0 = Some m ->
    truthful en c (chars "Regex patterns are not allowed to match an empty string")
(* the pattern is read with a counted repetition above the number in the text *)
| tr_quantifier : forall t n a q m, reads_as t n -> pattern_read a (cf_pattern c) -> repeats q a -> counts (q_kind q) m ->
    (N.of_nat n < m)%N -> truthful en c (chars "Regex quantifier is too high. Max is " ++ t)
(* there are more keywords than the number in the text *)
| tr_many : forall t n k, reads_as t n -> cf_keywords c = Some k ->
    n < length (kc_included k) \/ n < length (kc_excluded k) ->
    truthful en c (chars "No more than " ++ t ++ chars " keywords are allowed")
(* nothing is left of a keyword *)
| tr_empty : forall k kw, cf_keywords c = Some k ->
    (In kw (kc_included k) /\ effective false kw []) \/ (In kw (kc_excluded k) /\ effective true kw []) ->
    truthful en c (chars "Empty keywords are not allowed")
(* the number in the text is the look-ahead, and a keyword has more characters *)
| tr_long : forall t k kw, cf_keywords c = Some k -> reads_as t (kc_look_ahead k) ->
    In kw (kc_included k) \/ In kw (kc_excluded k) -> kc_look_ahead k < length kw ->
    truthful en c (chars "Keywords cannot be longer than the look ahead character count (" ++ t ++ chars ")")
(* the look-ahead is 0 or above the number in the text *)
| tr_look_ahead : forall t n k, reads_as t n -> cf_keywords c = Some k -> kc_look_ahead k = 0 \/ n < kc_look_ahead k ->
    truthful en c (chars "Look ahead character count should be bigger than 0 and cannot be longer than " ++ t)
| tr_action : forall d, cf_action c = ActPartialRedact d 0 ->
    truthful en c (chars "Partial redaction chars must be non-zero").
