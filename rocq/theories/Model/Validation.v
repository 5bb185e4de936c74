(* Model of sds/src/validation.rs *)
From Verif Require Export Model.Keywords.

(* parser/error.rs 6-12 *)
Inductive parse_error := PInvalidSyntax | PExceededDepthLimit | PExceededQuantifierLimit.

(* validation.rs 6-22 *)
Inductive regex_validation_error :=
| InvalidSyntax | ExceededDepthLimit | TooComplex | MatchesEmptyString | ExceededQuantifierLimit.

(* validation.rs 24-32 *)
Definition from_parse_error (e : parse_error) : regex_validation_error :=
  match e with
  | PInvalidSyntax => InvalidSyntax
  | PExceededDepthLimit => ExceededDepthLimit
  | PExceededQuantifierLimit => ExceededQuantifierLimit
  end.

(* validation.rs 34 *)
Definition regex_complexity_limit : N := 1000000.

(* Errors of [meta::Builder::build], as far as validation.rs 104-110 tells them apart *)
Inductive build_error := SizeLimit | OtherBuildError.

(* a compiled regex is its search function *)
Definition compiled := str -> nat -> option (nat * nat).

Section Validation.
(* [convert] stands for convert_to_rust_regex, [build pattern limit] for
   [meta::Builder::build] with the configuration of validation.rs 91-103 *)
Variable convert : str -> result str parse_error.
Variable build : str -> N -> result compiled build_error.

(* validation.rs 87-112 *)
Definition build_regex (pattern : str) (limit : N) : result compiled regex_validation_error :=
  match build pattern limit with
  | Ok re => Ok re
  | Err SizeLimit => Err TooComplex
  | Err OtherBuildError => Err InvalidSyntax
  end.

(* [regex.is_match("")] *)
Definition matches_empty (re : compiled) : bool :=
  match re [] 0 with Some _ => true | None => false end.

(* validation.rs 63-71 *)
Definition validate_and_create_regex (input : str) : result compiled regex_validation_error :=
  match convert input with
  | Err e => Err (from_parse_error e)
  | Ok pattern =>
    match build_regex pattern regex_complexity_limit with
    | Err e => Err e
    | Ok re => if matches_empty re then Err MatchesEmptyString else Ok re
    end
  end.

(* validation.rs 73-84 *)
Definition is_regex_within_complexity_limit (pattern : str) (limit : N)
  : result bool regex_validation_error :=
  match build_regex pattern limit with
  | Ok _ => Ok true
  | Err TooComplex => Ok false
  | Err e => Err e
  end.

(* validation.rs 50-60: the loop; [low + (high - low) / 2] *)
Fixpoint complexity_search (fuel : nat) (pattern : str) (low high : N)
  : outcome (result N regex_validation_error) :=
  match fuel with
  | 0 => Diverge
  | S fuel' =>
    if (low <? high)%N then
      let mid := (low + (high - low) / 2)%N in
      match is_regex_within_complexity_limit pattern mid with
      | Err e => Ret (Err e)
      | Ok true => complexity_search fuel' pattern low mid
      | Ok false => complexity_search fuel' pattern (mid + 1) high
      end
    else Ret (Ok low)
  end.

(* validation.rs 43-61 *)
Definition get_regex_complexity_estimate_very_slow (fuel : nat) (input : str)
  : outcome (result N regex_validation_error) :=
  match convert input with
  | Err e => Ret (Err (from_parse_error e))
  | Ok pattern => complexity_search fuel pattern 1 (10 * regex_complexity_limit)
  end.
End Validation.
