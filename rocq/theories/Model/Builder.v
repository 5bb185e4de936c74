(* Model of the construction of scanners: sds/src/scanner/mod.rs 611-716,
   sds/src/scanner/regex_rule/config.rs 92-134, sds/src/scanner/error.rs,
   sds-go/rust/src/native/{mod,create_scanner}.rs and sds-go/go/scanner.go 51-99.
   RegexRuleConfig is the only implementation of RuleConfig modelled.  Group
   configurations, metrics and statistics are left out (the labels given to the metrics
   are kept); get_memoized_regex is modelled in Model/RegexStore.v and is taken here as a
   call of validate_and_create_regex. *)
From Verif Require Export Model.Config Model.RegexAdapter Model.Validation Model.Scanner.

(* error.rs 20-40; InvalidMatchAction and InvalidMatchValidator each carry an error type
   with one constructor *)
Inductive create_error :=
| EInvalidRegex (e : regex_validation_error)
| EInvalidKeywords (e : keyword_error)
| EInvalidMatchAction
| EInvalidMatchValidator.

(* What comes from outside: [meta::Builder::build] for regexes, the searches of compiled
   keyword patterns (the content of included keywords from an offset, a path, and a span
   for excluded keywords), and what validators take from outside *)
Record engines := {
  en_build : str -> N -> result compiled build_error;
  en_earliest : list kw_pattern -> str -> nat -> option (nat * nat);
  en_path : list kw_pattern -> str -> bool;
  en_span : list kw_pattern -> str -> nat -> nat -> bool;
  en_validators : validator_env
}.

(* nesting is limited to 50 (parser/regex_parser.rs), so this fuel suffices *)
Definition pattern_fuel : nat := 51.

(* config.rs 93-126; the rule and the labels of its metrics *)
Definition convert_to_compiled_rule (en : engines) (c : rule_config) (rule_index : nat) (scanner_labels : labels)
  : outcome (result (rule * labels) create_error) :=
  let* r := convert_to_rust_regex pattern_fuel (cf_pattern c) in
  match validate_and_create_regex (fun _ => r) (en_build en) (cf_pattern c) with
  | Err e => Ret (Err (EInvalidRegex e))
  | Ok regex =>
    if action_validate (cf_action c) then
      let rule_labels := clone_with_labels scanner_labels (cf_labels c) in
      let* k := match cf_keywords c with
                | Some config =>
                  let* k := compile_keywords_proximity_config config in
                  Ret (match k with
                       | Err e => Err e
                       | Ok (inc, exc) =>
                         Ok (option_map (fun p => {| ik_look_ahead := kc_look_ahead config;
                                                     ik_find := en_earliest en (fst p);
                                                     ik_path_match := en_path en (snd p) |}) inc,
                             option_map (fun p => {| xk_look_ahead := kc_look_ahead config;
                                                     xk_match_in := en_span en (fst p) |}) exc)
                       end)
                | None => Ret (Ok (None, None))
                end in
      match k with
      | Err e => Ret (Err (EInvalidKeywords e))
      | Ok (included, excluded) =>
        Ret (Ok (regex_compiled (cf_action c) (cf_scope c) (cf_validation c)
                   {| rr_index := rule_index; rr_find := regex; rr_included := included;
                      rr_excluded := excluded;
                      rr_validator := option_map (is_valid_match (en_validators en)) (cf_validator c) |},
                 rule_labels))
      end
    else Ret (Err EInvalidMatchAction)
  end.

(* mod.rs 674-681: the first error ends the conversion *)
Fixpoint convert_rules (en : engines) (cs : list rule_config) (i : nat) (scanner_labels : labels)
  : outcome (result (list (rule * labels)) create_error) :=
  match cs with
  | [] => Ret (Ok [])
  | c :: cs' =>
    let* r := convert_to_compiled_rule en c i scanner_labels in
    match r with
    | Err e => Ret (Err e)
    | Ok x =>
      let* rs := convert_rules en cs' (S i) scanner_labels in
      match rs with
      | Err e => Ret (Err e)
      | Ok xs => Ret (Ok (x :: xs))
      end
    end
  end.

(* mod.rs 276-294, 611-648 *)
Record builder := {
  bu_rules : list rule_config;
  bu_labels : labels;
  bu_kw_paths : bool;
  bu_wild : bool;
  bu_multipass : bool
}.
Definition builder_new (rules : list rule_config) : builder := {|
  bu_rules := rules; bu_labels := []; bu_kw_paths := false; bu_wild := false; bu_multipass := true
|}.

(* mod.rs 296-304 *)
Record built := {
  bt_scanner : scanner;
  bt_validators : list (internal_type * validator);
  bt_labels : labels;
  bt_rule_labels : list labels
}.

(* mod.rs 650-715; return_matches starts as false and only the builder can set it *)
Definition build (en : engines) (b : builder) : outcome (result built create_error) :=
  match build_validators (map cf_validation (bu_rules b)) [] false with
  | Err tt => Ret (Err EInvalidMatchValidator)
  | Ok (validators, return_matches) =>
    let* rs := convert_rules en (bu_rules b) 0 (bu_labels b) in
    match rs with
    | Err e => Ret (Err e)
    | Ok xs =>
      Ret (Ok {| bt_scanner := {| sc_rules := map fst xs; sc_kw_paths := bu_kw_paths b; sc_wild := bu_wild b;
                                  sc_multipass := bu_multipass b; sc_return_matches := return_matches |};
                 bt_validators := validators;
                 bt_labels := bu_labels b;
                 bt_rule_labels := map snd xs |})
    end
  end.

(* error.rs 9-18 *)
Definition error_code (e : create_error) : Z :=
  match e with
  | EInvalidRegex _ => -2 | EInvalidKeywords _ => -3 | EInvalidMatchAction => -4 | EInvalidMatchValidator => -5
  end.
(* native/mod.rs 13 *)
Definition err_panic : Z := -5.

(* native/mod.rs 52-60 and native/create_scanner.rs 9-35: the number returned and the
   message stored.  [address] is the address of the scanner; the conversion of an error to
   i64 cannot fail. *)
Definition native_create_scanner (address : Z) (panic_message : str) (r : outcome (result built create_error))
  : outcome (Z * option str) :=
  match r with
  | Ret (Ok _) => Ret (address, None)
  | Ret (Err e) => Ret (error_code e, None)
  | Panic => Ret (err_panic, Some panic_message)
  | Diverge => Diverge
  end.

(* scanner.go 56-99 *)
Inductive go_created :=
| GoScanner (id : Z)
| GoErrRule          (* "Failed to create regex rule" *)
| GoErrUnknown
| GoErrInvalidRegex
| GoErrInvalidKeywords
| GoErrInvalidMatchAction
| GoErrPanic (message : option str).

(* scanner.go 72-98 *)
Definition go_created_of (code : Z) (message : option str) : go_created :=
  if (code <? 0)%Z then
    match code with
    | (-1)%Z => GoErrUnknown
    | (-2)%Z => GoErrInvalidRegex
    | (-3)%Z => GoErrInvalidKeywords
    | (-4)%Z => GoErrInvalidMatchAction
    | (-5)%Z => GoErrPanic message
    | _ => GoErrUnknown
    end
  else GoScanner code.

(* scanner.go 56-99, with create_scanner.rs 20-23 (the other options keep their default) *)
Definition go_create_scanner (en : engines) (utf16 : bool) (address : Z) (panic_message : str) (rules : list go_rule)
  : outcome go_created :=
  match all_some (map (go_create_rule utf16) rules) with
  | None => Ret GoErrRule
  | Some configs =>
    let* r := native_create_scanner address panic_message (build en (builder_new configs)) in
    Ret (go_created_of (fst r) (snd r))
  end.
