(* Model of the two callers of the regex store: the regex of a rule
   (regex_rule/config.rs 98) and the regexes of keywords (proximity_keywords/mod.rs
   210-236) *)
From Verif Require Export Model.RegexAdapter Model.RegexStore.

(* a compiled regex is identified by the text and the option it was built from; the
   other options differ only in limits *)
Record compiled_regex := { cr_text : str; cr_case_insensitive : bool }.

(* validation.rs 63-71, with [accepts t] for: the text [t] compiles within the limit and
   does not match the empty string.  51 is enough fuel for every pattern (C54). *)
Definition rule_factory (accepts : str -> bool) (pattern : str) : option compiled_regex :=
  match convert_to_rust_regex 51 pattern with
  | Ret (Ok t) => if accepts t then Some {| cr_text := t; cr_case_insensitive := false |} else None
  | _ => None
  end.
(* mod.rs 222-234; the text is not converted, and built with case_insensitive(true) *)
Definition keyword_factory (text : str) : option compiled_regex :=
  Some {| cr_text := text; cr_case_insensitive := true |}.

(* mod.rs 392-432: the AST of a keyword *)
Definition keyword_item_ast (i : kw_item) : rast :=
  match i with
  | KwBoundary => RGroup [RNegation; RFlag RfUnicode] (RAssertion RWordBoundary)
  | KwLit c => RLiteral {| rl_kind := if is_meta_character c then RMeta else RVerbatim; rl_c := c |}
  end.
(* mod.rs 197-205, 216-217: the text that is looked up and compiled *)
Definition keywords_text (l : list kw_pattern) : str :=
  print_ast (RAlternation (map (fun k => RConcat (map keyword_item_ast k)) l)).
