(* The unit tests of /repo that are not in UnitTests, RegexTests, ScannerTests and GoTests, run
   on the model: normalization/test.rs with data/simple_patterns.txt, parser/regex_parser.rs,
   normalization/rust_regex_adapter.rs 864-894, validation.rs, observability/labels.rs,
   regex_rule/{config,regex_store}.rs, path.rs, event.rs and event_json.rs.
   Left out are the tests of the texts of errors and of the complexity of a
   regex, which depends on the regex crate.  Nothing here models code. *)
From Verif Require Export Examples.ScannerTests Examples.Store.

(* ---- normalization/test.rs: data/simple_patterns.txt ---- *)
Definition simple_patterns : list str := [
  chars "helloworld";
  chars "test";
  chars "x";
  chars "(x)";
  chars "";
  chars "[1]";
  chars "[a]";
  chars "[1-9]";
  chars "[a-z]";
  chars "\d\w\s";
  chars "\d\W\S";
  chars "a|bd";
  chars "(?:abcd)";
  chars "literal'";
  chars ".";
  chars ".*?";
  chars ".*";
  chars "\b";
  chars "x{3}";
  chars "\d{3}";
  chars "-?";
  chars "\d{2}-?\d{4}";
  chars "x+";
  chars "x?";
  chars "[\w]";
  chars "(?i:foo)";
  chars "(?i)";
  chars "[^abc]";
  chars "foo{3,4}";
  chars "[#!@$%^&*_+.?=]";
  chars "[()]";
  chars "[\/]";
  chars "[\\]";
  chars """quoted""";
  chars "[<>,;':""|`~]";
  chars "[[]";
  chars "[]]";
  chars "a|";
  chars "|a";
  chars "|||";
  chars "";
  chars "\W";
  chars "\[";
  chars "\]";
  chars "[{}]";
  chars "[/]";
  chars "[\b]";
  chars "[\@]";
  chars "\x08";
  chars "\x{0}";
  chars "\x{00}";
  chars "\x{000}";
  chars "\x{0000}";
  chars "from [\s\w]+";
  chars "\|";
  [230; 248; 229]%N;
  chars "\p{L}";
  chars "\p{M}";
  chars "[\p{L}\p{M}]";
  chars "[\_]";
  chars "[\<]";
  chars "(?<name>foo)";
  chars "\+";
  chars "\d{1}?";
  chars "[-\s]?";
  chars "\(?\d{3}\)?";
  chars "[-\s]?";
  chars "\d{3}";
  chars "[-\s]?";
  chars "\d{4}";
  chars "\O";
  chars "\i";
  chars "product_id=(?<product_id>\w+)"
].
Definition parsed (p : str) : bool := match parse_regex_pattern pattern_fuel p with Ret (Ok _) => true | _ => false end.
Example simple_patterns_can_be_parsed : length simple_patterns = 73 /\ forallb parsed simple_patterns = true.
Proof. split; vm_compute; reflexivity. Qed.

(* ---- parser/regex_parser.rs ---- *)
Definition generate_pattern_with_depth (depth : nat) : str := repeat 40%N depth ++ chars "x" ++ repeat 41%N depth.
Example test_recursion_limit :
  map (fun d => parsed (generate_pattern_with_depth d)) [1; 2; 49; 50; 1050] = [true; true; true; false; false].
Proof. vm_compute. reflexivity. Qed.

(* ---- normalization/rust_regex_adapter.rs ---- *)
Definition converted (p : str) : option parse_error :=
  match convert_to_rust_regex pattern_fuel p with Ret (Err e) => Some e | Ret (Ok _) => None | _ => Some PInvalidSyntax end.
Example test_validation : map converted [chars "x{3000}"; chars "x{3001}"; chars "x{2999,3000}"; chars "x{3000,3001}"; chars "x{3000,}"; chars "x{3001,}"]
  = [None; Some PExceededQuantifierLimit; None; Some PExceededQuantifierLimit; None; Some PExceededQuantifierLimit].
Proof. vm_compute. reflexivity. Qed.

(* ---- validation.rs ---- *)
Definition validated_as (p : str) : option regex_validation_error :=
  match validate_and_create_regex (fun t => match convert_to_rust_regex pattern_fuel t with Ret r => r | _ => Err PInvalidSyntax end) (en_build test_engines) p with
  | Ok _ => None
  | Err e => Some e
  end.
Example pattern_matching_empty_string_is_invalid :
  map validated_as [[]; chars "a|"; chars "(a|)b"] = [Some MatchesEmptyString; Some MatchesEmptyString; None].
Proof. vm_compute. reflexivity. Qed.
Example high_repetition_pattern_is_rejected : validated_as (chars ".{10000}") = Some ExceededQuantifierLimit.
Proof. vm_compute. reflexivity. Qed.
Example test_invalid_range_quantifiers : validated_as (chars ".{100,1}") = Some InvalidSyntax.
Proof. vm_compute. reflexivity. Qed.
Example dot_new_line : ScannerTests.run (builder_new [rule_new (chars ".")]) [10%N] = Some ([10%N], 0).
Proof. vm_compute. reflexivity. Qed.

(* ---- observability/labels.rs ---- *)
Definition key_1 := (chars "key_1", chars "value_1").
Definition key_2 := (chars "key_2", chars "value_2").
Example test_clone_labels : clone_with_labels [key_1] [key_2] = [key_1; key_2].
Proof. reflexivity. Qed.
Example test_deserialization_empty : ser_labels [] = JArray [] /\ de_labels (JArray []) = Some [].
Proof. split; reflexivity. Qed.
Example test_ser_de : let j := JArray [JArray [JString (chars "key_1"); JString (chars "value_1")]; JArray [JString (chars "key_2"); JString (chars "value_2")]] in
  ser_labels [key_1; key_2] = j /\ de_labels j = Some [key_1; key_2].
Proof. split; reflexivity. Qed.
Example labels_should_fail_de : map de_labels [
    JArray [JArray [JString (chars "key_1"); JString (chars "value_1"); JString (chars "value_2")]];
    JArray [JArray [JString (chars "key_1")]];
    JArray [JArray [JString (chars "key_1"); JNumber (chars "1")]]]
  = [None; None; None].
Proof. reflexivity. Qed.

(* ---- scanner/regex_rule/config.rs ---- *)
Definition no_keywords := Some {| kc_look_ahead := 0; kc_included := []; kc_excluded := [] |}.
Definition de_text {A} (f : json -> option A) (t : str) : option A := match json_from_str t with Some j => f j | None => None end.
Example proximity_keywords_should_have_default :
  de_text de_keywords (chars "{""look_ahead_character_count"": 0}") = no_keywords /\
  de_text de_keywords (chars "{""look_ahead_character_count"": 0, ""excluded_keywords"": null, ""included_keywords"": null}") = no_keywords.
Proof. split; vm_compute; reflexivity. Qed.

(* ---- scanner/regex_rule/regex_store.rs ---- *)
Definition stored (l : list (action unit)) : option nat := match Model.RegexStore.run no_size l process_new with Some (Ret p) => Some (sm_len (rs_keys (p_store p))) | _ => None end.
Definition numbered (i : nat) : list (action unit) := request (chars "test-" ++ decimal i) ++ [ADrop 0].
(* the insertion that collects visits every entry *)
Definition collecting (n i : nat) : list (action unit) :=
  [ALookup (chars "test-" ++ decimal i) always; ABegin 0] ++ repeat (AVisit 0) n ++ [AFinishGc; AInsert; ADrop 0].
Example test_automatic_gc :
  stored (request (chars "test")) = Some 1 /\
  let before := request (chars "test") ++ [ADrop 0] ++ flat_map numbered (List.seq 0 998) in
  stored before = Some 999 /\ stored (before ++ collecting 999 998) = Some 1.
Proof. split; [|split]; vm_compute; reflexivity. Qed.

(* ---- path.rs ---- *)
Definition joined (p : path) : str :=
  match flat_map (fun s => match sanitize_segment s with Some t => [t] | None => [] end) p with
  | [] => []
  | t :: l => t ++ flat_map (fun t => unified_link_char :: t) l
  end.
Example test_sanitize_segments : map joined [
    [Field (chars "hello"); Index 0; Field (chars "world")];
    [Field (chars "hello"); Index 1; Field (chars "CHICKEN"); Index 2];
    [Field (chars "hello_world-of"); Index 1; Field (chars "CHICKEN"); Index 2];
    [Field (chars "hello_world-of-"); Field (chars "/chickens_/")]]
  = [chars "hello.world"; chars "hello.chicken"; chars "hello.world.of.chicken"; chars "hello.world.of-./chickens./"].
Proof. vm_compute. reflexivity. Qed.

(* ---- event.rs, event_json.rs ---- *)
Example test_string_event : ev_ops string_event (chars "sdsisthebest") = [OpString (chars "sdsisthebest")].
Proof. reflexivity. Qed.
Example test_simple_event :
  simple_ops (SMap [(chars "key-a", SString (chars "value-a")); (chars "key-b", SMap [(chars "key-b-1", SString (chars "value-b-1"))])])
  = [OpPush (Field (chars "key-a")); OpString (chars "value-a"); OpPop;
     OpPush (Field (chars "key-b")); OpPush (Field (chars "key-b-1")); OpString (chars "value-b-1"); OpPop; OpPop].
Proof. vm_compute. reflexivity. Qed.
Definition json_event : json := JObject [(chars "key-a", JObject [
  (chars "key-a-1", JString (chars "value-a-1")); (chars "key-a-2", JString (chars "value-b-1"));
  (chars "key-a-3", JArray [JString (chars "an"); JString (chars "array")])])].
Example test_hashmap_event :
  json_ops json_event
  = [OpPush (Field (chars "key-a")); OpPush (Field (chars "key-a-1")); OpString (chars "value-a-1"); OpPop;
     OpPush (Field (chars "key-a-2")); OpString (chars "value-b-1"); OpPop;
     OpPush (Field (chars "key-a-3")); OpPush (Index 0); OpString (chars "an"); OpPop; OpPush (Index 1); OpString (chars "array"); OpPop; OpPop; OpPop] /\
  json_get json_event [Field (chars "key-a"); Field (chars "key-a-3"); Index 1] = Ret (chars "array").
Proof. split; vm_compute; reflexivity. Qed.
