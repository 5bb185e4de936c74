(* Model of the configuration of rules and of its JSON form:
   sds/src/scanner/regex_rule/config.rs, match_action.rs, scanner/scope.rs, path.rs,
   observability/labels.rs, match_validation/config.rs, and sds-go/go/regex_rule.go.
   JSON is modelled as values here; the texts are in JsonText.v.  The code derived by serde is modelled for
   objects: that it also reads a struct from an array, and an enum variant without content
   from an object with null, is left out.  Durations are whole seconds, and
   forced_datetime_utc, which exists for tests, is always absent. *)
From Verif Require Export Model.Checksums Model.MatchValidation.

(* labels.rs 10; the keys and values of metrics::Label *)
Definition labels := list (str * str).
(* labels.rs 14-18 *)
Definition clone_with_labels (l additional : labels) : labels := l ++ additional.

(* regex_rule/config.rs 16-30 *)
Record rule_config := {
  cf_pattern : str;
  cf_action : match_action;
  cf_scope : scope;
  cf_keywords : option keywords_config;
  cf_validator : option secondary_validator;
  cf_labels : labels;
  cf_validation : option match_validation_type
}.

(* ---- serialization ---- *)
Definition ser_num (n : N) : json := JNumber (decimal (N.to_nat n)).
Definition ser_nat (n : nat) : json := JNumber (decimal n).
Definition ser_option {A} (f : A -> json) (o : option A) : json :=
  match o with Some x => f x | None => JNull end.
Definition ser_list {A} (f : A -> json) (l : list A) : json := JArray (map f l).

(* labels.rs 93-104 *)
Definition ser_labels : labels -> json := ser_list (fun l => JArray [JString (fst l); JString (snd l)]).
(* match_action.rs 35-39 *)
Definition ser_direction (d : direction) : json :=
  JString match d with FirstCharacters => chars "FirstCharacters" | LastCharacters => chars "LastCharacters" end.
(* match_action.rs 12-33 *)
Definition ser_action (a : match_action) : json :=
  match a with
  | ActNone => JObject [(chars "type", JString (chars "None"))]
  | ActRedact s => JObject [(chars "type", JString (chars "Redact")); (chars "replacement", JString s)]
  | ActHash => JObject [(chars "type", JString (chars "Hash"))]
  | ActUtf16Hash => JObject [(chars "type", JString (chars "Utf16Hash"))]
  | ActPartialRedact d n =>
    JObject [(chars "type", JString (chars "PartialRedact")); (chars "direction", ser_direction d);
             (chars "character_count", ser_nat n)]
  end.
(* path.rs 10-20 *)
Definition ser_segment (s : segment) : json :=
  match s with
  | Field f => JObject [(chars "type", JString (chars "Field")); (chars "value", JString f)]
  | Index i => JObject [(chars "type", JString (chars "Index")); (chars "value", ser_nat i)]
  end.
Definition ser_path (p : path) : json := JObject [(chars "segments", ser_list ser_segment p)].
(* scope.rs 4-14 *)
Definition ser_scope (s : scope) : json :=
  match s with
  | ScopeInclude include exclude =>
    JObject [(chars "type", JString (chars "Include"));
             (chars "paths", JObject [(chars "include", ser_list ser_path include);
                                      (chars "exclude", ser_list ser_path exclude)])]
  | ScopeExclude paths =>
    JObject [(chars "type", JString (chars "Exclude")); (chars "paths", ser_list ser_path paths)]
  end.
(* config.rs 136-148 *)
Definition ser_keywords (k : keywords_config) : json :=
  JObject [(chars "look_ahead_character_count", ser_nat (kc_look_ahead k));
           (chars "included_keywords", ser_list JString (kc_included k));
           (chars "excluded_keywords", ser_list JString (kc_excluded k))].
(* config.rs 150-160 *)
Definition validator_name (v : secondary_validator) : str :=
  match v with
  | LuhnChecksum => chars "LuhnChecksum" | ChineseIdChecksum => chars "ChineseIdChecksum"
  | GithubTokenChecksum => chars "GithubTokenChecksum" | NhsCheckDigit => chars "NhsCheckDigit"
  | IbanChecker => chars "IbanChecker" | NirChecksum => chars "NirChecksum"
  | JwtExpirationChecker => chars "JwtExpirationChecker"
  end.
Definition ser_validator (v : secondary_validator) : json :=
  JObject [(chars "type", JString (validator_name v))].
(* match_validation/config.rs 11-19, 30-59, 62-79, 188-192, and serde for Duration and
   Range *)
Definition ser_duration (secs : N) : json := JObject [(chars "secs", ser_num secs); (chars "nanos", ser_num 0)].
Definition ser_range (r : N * N) : json := JObject [(chars "start", ser_num (fst r)); (chars "end", ser_num (snd r))].
Definition ser_aws (c : aws_config) : json :=
  JObject [(chars "aws_sts_endpoint", JString (aws_sts_endpoint c)); (chars "forced_datetime_utc", JNull);
           (chars "timeout", ser_duration (aws_timeout c))].
Definition ser_aws_type (t : aws_type) : json :=
  match t with
  | AwsId => JString (chars "AwsId")
  | AwsSecret c => JObject [(chars "AwsSecret", ser_aws c)]
  | AwsSession => JString (chars "AwsSession")
  end.
Definition method_name (m : http_method) : str :=
  match m with
  | MGet => chars "Get" | MPost => chars "Post" | MPut => chars "Put" | MDelete => chars "Delete" | MPatch => chars "Patch"
  end.
Definition ser_header (h : str * str) : json := JObject [(chars "key", JString (fst h)); (chars "value", JString (snd h))].
Definition ser_http (c : http_config) : json :=
  JObject [(chars "endpoints", ser_list JString (hc_endpoints c)); (chars "method", JString (method_name (hc_method c)));
           (chars "request_header", ser_list ser_header (hc_headers c));
           (chars "valid_http_status_code", ser_list ser_range (hc_valid c));
           (chars "invalid_http_status_code", ser_list ser_range (hc_invalid c));
           (chars "options", JObject [(chars "timeout", ser_duration (hc_timeout c))])].
Definition ser_validation (t : match_validation_type) : json :=
  match t with
  | MVAws t => JObject [(chars "Aws", ser_aws_type t)]
  | MVCustomHttp c => JObject [(chars "CustomHttp", ser_http c)]
  end.
(* config.rs 16-30 *)
Definition ser_config (c : rule_config) : json :=
  JObject [(chars "pattern", JString (cf_pattern c)); (chars "match_action", ser_action (cf_action c));
           (chars "scope", ser_scope (cf_scope c));
           (chars "proximity_keywords", ser_option ser_keywords (cf_keywords c));
           (chars "validator", ser_option ser_validator (cf_validator c));
           (chars "labels", ser_labels (cf_labels c));
           (chars "match_validation_type", ser_option ser_validation (cf_validation c))].

(* ---- deserialization; None is an error ---- *)
Definition obind {A B} (o : option A) (f : A -> option B) : option B :=
  match o with Some x => f x | None => None end.
Notation "'let?' x := o 'in' f" := (obind o (fun x => f)) (at level 200, x pattern, f at level 200, right associativity).

Fixpoint all_some {A} (l : list (option A)) : option (list A) :=
  match l with
  | [] => Some []
  | Some x :: l' => let? r := all_some l' in Some (x :: r)
  | None :: _ => None
  end.
(* an unsigned number below [limit] without fraction and exponent *)
Definition read_number (limit : N) (t : str) : option N :=
  let value := fold_left (fun n c => n * 10 + (c - 48))%N t 0%N in
  if negb (match t with [] => true | _ => false end) && forallb is_ascii_digit t && (value <? limit)%N
  then Some value else None.
Definition u16_limit : N := 65536.
Definition u32_limit : N := 4294967296.
Definition u64_limit : N := 18446744073709551616.

Definition de_str (j : json) : option str := match j with JString s => Some s | _ => None end.
Definition de_num (limit : N) (j : json) : option N := match j with JNumber t => read_number limit t | _ => None end.
Definition de_usize (j : json) : option nat := option_map N.to_nat (de_num u64_limit j).
Definition de_list {A} (f : json -> option A) (j : json) : option (list A) :=
  match j with JArray l => all_some (map f l) | _ => None end.
Definition de_object (j : json) : option (list (str * json)) := match j with JObject m => Some m | _ => None end.

(* the value of a field; a field that occurs twice is an error *)
Definition jfield (k : str) (m : list (str * json)) : option (option json) :=
  match filter (fun e => str_eqb (fst e) k) m with
  | [] => Some None
  | [e] => Some (Some (snd e))
  | _ => None
  end.
Definition required {A} (k : str) (f : json -> option A) (m : list (str * json)) : option A :=
  match jfield k m with Some (Some j) => f j | _ => None end.
Definition optional {A} (k : str) (f : json -> option A) (m : list (str * json)) : option (option A) :=
  match jfield k m with
  | Some None | Some (Some JNull) => Some None
  | Some (Some j) => option_map Some (f j)
  | None => None
  end.
(* #[serde(default)] *)
Definition with_default {A} (k : str) (d : A) (f : json -> option A) (m : list (str * json)) : option A :=
  match jfield k m with Some None => Some d | Some (Some j) => f j | None => None end.
(* #[serde_as(deserialize_as = "DefaultOnNull")] #[serde(default)] *)
Definition default_on_null {A} (k : str) (d : A) (f : json -> option A) (m : list (str * json)) : option A :=
  match jfield k m with
  | Some None | Some (Some JNull) => Some d
  | Some (Some j) => f j
  | None => None
  end.
(* the tag of an internally or adjacently tagged enum *)
Definition de_tag (m : list (str * json)) : option str := required (chars "type") de_str m.
Fixpoint pick {A} (name : str) (l : list (str * A)) : option A :=
  match l with
  | [] => None
  | (n, x) :: l' => if str_eqb name n then Some x else pick name l'
  end.

(* labels.rs 57-90 *)
Definition de_label (j : json) : option (str * str) :=
  let? l := de_list de_str j in
  match l with [k; v] => Some (k, v) | _ => None end.
Definition de_labels : json -> option labels := de_list de_label.

Definition de_direction (j : json) : option direction :=
  let? s := de_str j in
  pick s [(chars "FirstCharacters", FirstCharacters); (chars "LastCharacters", LastCharacters)].
(* [utf16]: the feature utf16_hash_match_action *)
Definition de_action (utf16 : bool) (j : json) : option match_action :=
  let? m := de_object j in
  let? tag := de_tag m in
  if str_eqb tag (chars "None") then Some ActNone
  else if str_eqb tag (chars "Redact") then option_map ActRedact (required (chars "replacement") de_str m)
  else if str_eqb tag (chars "Hash") then Some ActHash
  else if str_eqb tag (chars "Utf16Hash") then (if utf16 then Some ActUtf16Hash else None)
  else if str_eqb tag (chars "PartialRedact") then
    let? d := required (chars "direction") de_direction m in
    let? n := required (chars "character_count") de_usize m in
    Some (ActPartialRedact d n)
  else None.
Definition de_segment (j : json) : option segment :=
  let? m := de_object j in
  let? tag := de_tag m in
  if str_eqb tag (chars "Field") then option_map Field (required (chars "value") de_str m)
  else if str_eqb tag (chars "Index") then option_map Index (required (chars "value") de_usize m)
  else None.
Definition de_path (j : json) : option path :=
  let? m := de_object j in required (chars "segments") (de_list de_segment) m.
Definition de_scope (j : json) : option scope :=
  let? m := de_object j in
  let? tag := de_tag m in
  if str_eqb tag (chars "Include") then
    let? m' := required (chars "paths") de_object m in
    let? include := required (chars "include") (de_list de_path) m' in
    let? exclude := required (chars "exclude") (de_list de_path) m' in
    Some (ScopeInclude include exclude)
  else if str_eqb tag (chars "Exclude") then option_map ScopeExclude (required (chars "paths") (de_list de_path) m)
  else None.
Definition de_keywords (j : json) : option keywords_config :=
  let? m := de_object j in
  let? n := required (chars "look_ahead_character_count") de_usize m in
  let? i := default_on_null (chars "included_keywords") [] (de_list de_str) m in
  let? e := default_on_null (chars "excluded_keywords") [] (de_list de_str) m in
  Some {| kc_look_ahead := n; kc_included := i; kc_excluded := e |}.
Definition all_validators : list secondary_validator :=
  [LuhnChecksum; ChineseIdChecksum; GithubTokenChecksum; NhsCheckDigit; IbanChecker; NirChecksum; JwtExpirationChecker].
Definition de_validator (j : json) : option secondary_validator :=
  let? m := de_object j in
  let? tag := de_tag m in
  pick tag (map (fun v => (validator_name v, v)) all_validators).
Definition de_duration (j : json) : option N :=
  let? m := de_object j in
  let? secs := required (chars "secs") (de_num u64_limit) m in
  let? nanos := required (chars "nanos") (de_num u32_limit) m in
  if (nanos =? 0)%N then Some secs else None.
Definition de_range (j : json) : option (N * N) :=
  let? m := de_object j in
  let? a := required (chars "start") (de_num u16_limit) m in
  let? b := required (chars "end") (de_num u16_limit) m in
  Some (a, b).
Definition de_aws (j : json) : option aws_config :=
  let? m := de_object j in
  let? endpoint := required (chars "aws_sts_endpoint") de_str m in
  let? _ := optional (chars "forced_datetime_utc") (fun _ => @None unit) m in
  let? timeout := required (chars "timeout") de_duration m in
  Some {| aws_sts_endpoint := endpoint; aws_timeout := timeout |}.
Definition de_aws_type (j : json) : option aws_type :=
  match j with
  | JString s => pick s [(chars "AwsId", AwsId); (chars "AwsSession", AwsSession)]
  | JObject [(k, c)] => if str_eqb k (chars "AwsSecret") then option_map AwsSecret (de_aws c) else None
  | _ => None
  end.
Definition all_methods : list http_method := [MGet; MPost; MPut; MDelete; MPatch].
Definition de_method (j : json) : option http_method :=
  let? s := de_str j in pick s (map (fun x => (method_name x, x)) all_methods).
Definition de_header (j : json) : option (str * str) :=
  let? m := de_object j in
  let? k := required (chars "key") de_str m in
  let? v := required (chars "value") de_str m in
  Some (k, v).
Definition de_http (j : json) : option http_config :=
  let? m := de_object j in
  let? endpoints := required (chars "endpoints") (de_list de_str) m in
  let? method := required (chars "method") de_method m in
  let? headers := required (chars "request_header") (de_list de_header) m in
  let? valid := required (chars "valid_http_status_code") (de_list de_range) m in
  let? invalid := required (chars "invalid_http_status_code") (de_list de_range) m in
  let? options := required (chars "options") de_object m in
  let? timeout := required (chars "timeout") de_duration options in
  Some {| hc_endpoints := endpoints; hc_method := method; hc_headers := headers; hc_valid := valid;
          hc_invalid := invalid; hc_timeout := timeout |}.
Definition de_validation (j : json) : option match_validation_type :=
  match j with
  | JObject [(k, c)] =>
    if str_eqb k (chars "Aws") then option_map MVAws (de_aws_type c)
    else if str_eqb k (chars "CustomHttp") then option_map MVCustomHttp (de_http c)
    else None
  | _ => None
  end.
Definition de_config (utf16 : bool) (j : json) : option rule_config :=
  let? m := de_object j in
  let? pattern := required (chars "pattern") de_str m in
  let? action := required (chars "match_action") (de_action utf16) m in
  let? scope := with_default (chars "scope") (ScopeExclude []) de_scope m in
  let? keywords := optional (chars "proximity_keywords") de_keywords m in
  let? validator := optional (chars "validator") de_validator m in
  let? labels := default_on_null (chars "labels") [] de_labels m in
  let? validation := optional (chars "match_validation_type") de_validation m in
  Some {| cf_pattern := pattern; cf_action := action; cf_scope := scope; cf_keywords := keywords;
          cf_validator := validator; cf_labels := labels; cf_validation := validation |}.

(* ---- sds-go/go/regex_rule.go ---- *)
(* 92-101, 74-80, 15-21.  Strings are valid UTF-8 (others are changed by json.Marshal);
   a slice may be nil. *)
Record go_action := { ga_type : str; ga_redaction : str; ga_count : N; ga_direction : str }.
Record go_keywords := { gk_look_ahead : N; gk_included : option (list str); gk_excluded : option (list str) }.
Record go_rule := {
  gr_id : str;
  gr_pattern : str;
  gr_action : go_action;
  gr_keywords : option go_keywords;
  gr_validator : str
}.
(* 59-72 *)
Definition go_create_keywords (n : N) (included excluded : option (list str)) : go_keywords :=
  let some (o : option (list str)) := match o with Some l => Some l | None => Some [] end in
  {| gk_look_ahead := n; gk_included := some included; gk_excluded := some excluded |}.
(* 175-180 *)
Definition go_validator_json (s : str) : json := JObject [(chars "type", JString s)].
(* 182-199; the keys of a map are sorted *)
Definition go_action_json (a : go_action) : json :=
  let common := [(chars "match_action", JString (ga_type a)); (chars "type", JString (ga_type a))] in
  if str_eqb (ga_type a) (chars "Redact") then
    JObject [(chars "match_action", JString (ga_type a)); (chars "replacement", JString (ga_redaction a));
             (chars "type", JString (ga_type a))]
  else if str_eqb (ga_type a) (chars "PartialRedact") then
    JObject [(chars "character_count", ser_num (ga_count a)); (chars "direction", JString (ga_direction a));
             (chars "match_action", JString (ga_type a)); (chars "type", JString (ga_type a))]
  else JObject common.
Definition go_slice_json (o : option (list str)) : json := ser_option (ser_list JString) o.
Definition go_keywords_json (k : go_keywords) : json :=
  JObject [(chars "look_ahead_character_count", ser_num (gk_look_ahead k));
           (chars "included_keywords", go_slice_json (gk_included k));
           (chars "excluded_keywords", go_slice_json (gk_excluded k))].
(* 15-21: nil and the empty string are left out *)
Definition go_rule_json (r : go_rule) : json :=
  JObject ([(chars "id", JString (gr_id r)); (chars "pattern", JString (gr_pattern r));
            (chars "match_action", go_action_json (gr_action r))] ++
           match gr_keywords r with Some k => [(chars "proximity_keywords", go_keywords_json k)] | None => [] end ++
           match gr_validator r with [] => [] | v => [(chars "validator", go_validator_json v)] end).
(* 116-131 and sds-go/rust/src/native/rule.rs 10-25: the configuration that Rust gets, or
   the error "Failed to create regex rule" *)
Definition go_create_rule (utf16 : bool) (r : go_rule) : option rule_config := de_config utf16 (go_rule_json r).
