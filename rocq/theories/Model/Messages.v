(* Model of the texts of the errors of building a scanner, as written by #[error("...")] of
   thiserror: sds/src/validation.rs 6-22, sds/src/proximity_keywords/mod.rs 434-451,
   sds/src/match_action.rs 43-47 and sds/src/scanner/error.rs 20-40.  The limits in the texts
   are the constants that the code checks against: QUANTIFIER_LIMIT of
   normalization/rust_regex_adapter.rs, MAX_KEYWORD_COUNT and MAX_LOOK_AHEAD_CHARACTER_COUNT
   of proximity_keywords/mod.rs. *)
From Verif Require Export Model.Builder.

(* [{}] of an unsigned number *)
Definition in_decimal (n : nat) : str := decimal n.

(* validation.rs 6-22 *)
Definition regex_message (e : regex_validation_error) : str :=
  match e with
  | InvalidSyntax => chars "Invalid regex syntax"
  | ExceededDepthLimit => chars "The regex pattern is nested too deeply"
  | TooComplex => chars "The regex has exceeded the complexity limit (try simplifying the regex)"
  | MatchesEmptyString => chars "Regex patterns are not allowed to match an empty string"
  | ExceededQuantifierLimit => chars "Regex quantifier is too high. Max is " ++ in_decimal (N.to_nat quantifier_limit)
  end.

(* proximity_keywords/mod.rs 434-451 *)
Definition keyword_message (e : keyword_error) : str :=
  match e with
  | TooManyKeywords => chars "No more than " ++ in_decimal max_keyword_count ++ chars " keywords are allowed"
  | EmptyKeyword => chars "Empty keywords are not allowed"
  | KeywordTooLong n => chars "Keywords cannot be longer than the look ahead character count (" ++ in_decimal n ++ chars ")"
  | InvalidLookAheadCharacterCount =>
    chars "Look ahead character count should be bigger than 0 and cannot be longer than " ++ in_decimal max_look_ahead_character_count
  end.

(* error.rs 20-40: transparent, the text of the error inside; match_action.rs 43-47 *)
Definition create_message (e : create_error) : str :=
  match e with
  | EInvalidRegex e => regex_message e
  | EInvalidKeywords e => keyword_message e
  | EInvalidMatchAction => chars "Partial redaction chars must be non-zero"
  | EInvalidMatchValidator => chars "Internal error while creating the match validator"
  end.
