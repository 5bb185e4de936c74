(* What building a scanner should do, and what configurations stand for *)
From Verif Require Export Spec.KeywordConfig Spec.RegexScan Spec.MatchValidation Spec.Codec Model.Builder.

(* what is wrong with a pattern *)
Inductive pattern_error (en : engines) (pattern : str) : regex_validation_error -> Prop :=
| pe_syntax : convert_to_rust_regex 51 pattern = Ret (Err PInvalidSyntax) -> pattern_error en pattern InvalidSyntax
| pe_depth : convert_to_rust_regex 51 pattern = Ret (Err PExceededDepthLimit) -> pattern_error en pattern ExceededDepthLimit
| pe_quantifier : convert_to_rust_regex 51 pattern = Ret (Err PExceededQuantifierLimit) ->
    pattern_error en pattern ExceededQuantifierLimit
| pe_size : forall p, convert_to_rust_regex 51 pattern = Ret (Ok p) -> en_build en p 1000000 = Err SizeLimit ->
    pattern_error en pattern TooComplex
| pe_engine : forall p, convert_to_rust_regex 51 pattern = Ret (Ok p) -> en_build en p 1000000 = Err OtherBuildError ->
    pattern_error en pattern InvalidSyntax
| pe_empty : forall p re m, convert_to_rust_regex 51 pattern = Ret (Ok p) -> en_build en p 1000000 = Ok re ->
    re [] 0 = Some m -> pattern_error en pattern MatchesEmptyString.

(* the regex of a pattern *)
Definition pattern_regex (en : engines) (pattern : str) (re : compiled) : Prop :=
  exists p, convert_to_rust_regex 51 pattern = Ret (Ok p) /\ en_build en p 1000000 = Ok re.

(* what is wrong with a rule: the pattern, else the action, else the keywords *)
Inductive rule_error (en : engines) (c : rule_config) : create_error -> Prop :=
| re_pattern : forall e, pattern_error en (cf_pattern c) e -> rule_error en c (EInvalidRegex e)
| re_action : forall d, (forall e, ~ pattern_error en (cf_pattern c) e) -> cf_action c = ActPartialRedact d 0 ->
    rule_error en c EInvalidMatchAction
| re_keywords : forall k e, (forall e, ~ pattern_error en (cf_pattern c) e) ->
    (forall d, cf_action c <> ActPartialRedact d 0) -> cf_keywords c = Some k -> config_error k e ->
    rule_error en c (EInvalidKeywords e).

(* [e] is the error of the first rule that has one *)
Definition first_rule_error (en : engines) (cs : list rule_config) (e : create_error) : Prop :=
  exists i c, nth_error cs i = Some c /\ rule_error en c e /\
    forall j c' e', j < i -> nth_error cs j = Some c' -> ~ rule_error en c' e'.

(* [rr] is the compiled form of the rule [c] at position [i] *)
Record compiled_from (en : engines) (c : rule_config) (i : nat) (rr : regex_rule) : Prop := {
  cp_index : rr_index rr = i;
  cp_regex : pattern_regex en (cf_pattern c) (rr_find rr);
  cp_validator : rr_validator rr = match cf_validator c with
                                   | Some v => Some (is_valid_match (en_validators en) v)
                                   | None => None end;
  cp_included : forall ik, rr_included rr = Some ik <->
    exists k inc pinc exc, cf_keywords c = Some k /\ compile_keywords_proximity_config k = Ret (Ok (Some (inc, pinc), exc)) /\
      ik = {| ik_look_ahead := kc_look_ahead k; ik_find := en_earliest en inc; ik_path_match := en_path en pinc |};
  cp_excluded : forall xk, rr_excluded rr = Some xk <->
    exists k inc exc pexc, cf_keywords c = Some k /\ compile_keywords_proximity_config k = Ret (Ok (inc, Some (exc, pexc))) /\
      xk = {| xk_look_ahead := kc_look_ahead k; xk_match_in := en_span en exc |}
}.

(* the configurations that can exist: numbers fit their types, and Utf16Hash needs its
   feature *)
Definition fits (limit : N) (n : nat) : Prop := (N.of_nat n < limit)%N.
Definition indices_fit (p : path) : Prop := forall i, In (Index i) p -> fits u64_limit i.
Definition scope_fits (s : scope) : Prop :=
  match s with
  | ScopeInclude i e => (forall p, In p i -> indices_fit p) /\ (forall p, In p e -> indices_fit p)
  | ScopeExclude ps => forall p, In p ps -> indices_fit p
  end.
Definition validation_fits (t : match_validation_type) : Prop :=
  match t with
  | MVAws (AwsSecret c) => (aws_timeout c < u64_limit)%N
  | MVAws _ => True
  | MVCustomHttp c => (hc_timeout c < u64_limit)%N /\
      (forall r, In r (hc_valid c) -> (fst r < u16_limit /\ snd r < u16_limit)%N) /\
      (forall r, In r (hc_invalid c) -> (fst r < u16_limit /\ snd r < u16_limit)%N)
  end.
Record config_fits (utf16 : bool) (c : rule_config) : Prop := {
  cfi_utf16 : utf16 = false -> cf_action c <> ActUtf16Hash;
  cfi_action : forall d n, cf_action c = ActPartialRedact d n -> fits u64_limit n;
  cfi_scope : scope_fits (cf_scope c);
  cfi_keywords : forall k, cf_keywords c = Some k -> fits u64_limit (kc_look_ahead k);
  cfi_validation : forall t, cf_validation c = Some t -> validation_fits t
}.

(* the rule a Go configuration stands for *)
Inductive go_action_means (a : go_action) : match_action -> Prop :=
| gm_none : ga_type a = chars "None" -> go_action_means a ActNone
| gm_redact : ga_type a = chars "Redact" -> go_action_means a (ActRedact (ga_redaction a))
| gm_hash : ga_type a = chars "Hash" -> go_action_means a ActHash
| gm_first : ga_type a = chars "PartialRedact" -> ga_direction a = chars "FirstCharacters" ->
    go_action_means a (ActPartialRedact FirstCharacters (N.to_nat (ga_count a)))
| gm_last : ga_type a = chars "PartialRedact" -> ga_direction a = chars "LastCharacters" ->
    go_action_means a (ActPartialRedact LastCharacters (N.to_nat (ga_count a))).
Inductive go_validator_means : str -> option secondary_validator -> Prop :=
| gv_none : go_validator_means [] None
| gv_luhn : go_validator_means (chars "LuhnChecksum") (Some LuhnChecksum)
| gv_chinese : go_validator_means (chars "ChineseIdChecksum") (Some ChineseIdChecksum)
| gv_github : go_validator_means (chars "GithubTokenChecksum") (Some GithubTokenChecksum)
| gv_nhs : go_validator_means (chars "NhsCheckDigit") (Some NhsCheckDigit)
| gv_iban : go_validator_means (chars "IbanChecker") (Some IbanChecker)
| gv_nir : go_validator_means (chars "NirChecksum") (Some NirChecksum)
| gv_jwt : go_validator_means (chars "JwtExpirationChecker") (Some JwtExpirationChecker).
Definition slice_elements (o : option (list str)) : list str := match o with Some l => l | None => [] end.
Definition go_keywords_mean (k : go_keywords) : keywords_config :=
  {| kc_look_ahead := N.to_nat (gk_look_ahead k); kc_included := slice_elements (gk_included k);
     kc_excluded := slice_elements (gk_excluded k) |}.
Record go_rule_means (g : go_rule) (c : rule_config) : Prop := {
  gr_means_pattern : cf_pattern c = gr_pattern g;
  gr_means_action : go_action_means (gr_action g) (cf_action c);
  gr_means_scope : cf_scope c = ScopeExclude [];
  gr_means_keywords : cf_keywords c = match gr_keywords g with Some k => Some (go_keywords_mean k) | None => None end;
  gr_means_validator : go_validator_means (gr_validator g) (cf_validator c);
  gr_means_labels : cf_labels c = [];
  gr_means_validation : cf_validation c = None
}.
(* numbers are of type uint32 *)
Definition go_rule_fits (g : go_rule) : Prop :=
  (ga_count (gr_action g) < u32_limit)%N /\ forall k, gr_keywords g = Some k -> (gk_look_ahead k < u32_limit)%N.
