(* The tests of sds-go/go/scanner_test.go, run on the model: the rules as Go writes them, their
   JSON text, the native library with its memory, the binary events and responses, with the
   regex engine proved correct in Examples/RegexEngine.v.  A match of the same event is
   compared in the order of the response.  Nothing here models code. *)
From Verif Require Export Model.JsonText Model.Native Examples.ScannerTests Examples.Native.

Definition go_world : native_world := library lowest_free (fun b => N.of_nat (length b)) (chars "oops") test_engines 1000 farm_hashers isort.
Definition go_conf : go_rule -> option rule_config := go_create_rule_bytes true true.

(* ---- writing rules as the tests do: regex_rule.go 103-172 ---- *)
Definition go_acting (ty redaction : str) (count : N) (direction : str) : go_action :=
  {| ga_type := ty; ga_redaction := redaction; ga_count := count; ga_direction := direction |}.
Definition go_plain (id pattern : str) (a : go_action) : go_rule :=
  {| gr_id := id; gr_pattern := pattern; gr_action := a; gr_keywords := None; gr_validator := [] |}.
Definition new_matching_rule (id pattern : str) : go_rule := go_plain id pattern (go_acting (chars "None") [] 0 []).
Definition new_redacting_rule (id pattern value : str) : go_rule := go_plain id pattern (go_acting (chars "Redact") value 0 []).
Definition new_hash_rule (id pattern : str) : go_rule := go_plain id pattern (go_acting (chars "Hash") [] 0 []).
Definition new_partial_rule (id pattern : str) (n : N) (direction : str) : go_rule :=
  go_plain id pattern (go_acting (chars "PartialRedact") [] n direction).
Definition near (n : N) (inc exc : option (list str)) (r : go_rule) : go_rule :=
  {| gr_id := gr_id r; gr_pattern := gr_pattern r; gr_action := gr_action r;
     gr_keywords := Some (go_create_keywords n inc exc); gr_validator := gr_validator r |}.
Definition validating (v : str) (r : go_rule) : go_rule :=
  {| gr_id := gr_id r; gr_pattern := gr_pattern r; gr_action := gr_action r; gr_keywords := gr_keywords r; gr_validator := v |}.

(* ---- running: create the scanner, scan the events one after the other, delete the scanner;
   [None] when creating fails, an error of a scan is [None] in the list; the last part is what
   is left in native memory ---- *)
Definition seen (o : outcome (result scan_outcome go_error)) : option scan_outcome :=
  match o with Ret (Ok r) => Some r | _ => None end.
Fixpoint scan_strings (m : machine) (id : Z) (l : list octets) : stepped (list (option scan_outcome)) :=
  match l with
  | [] => Done [] m
  | e :: l' => after (go_scan_string go_world m 0 id e) (fun r m => after (scan_strings m id l') (fun rs m => Done (seen r :: rs) m))
  end.
Fixpoint scan_maps (m : machine) (id : Z) (l : list (list (octets * go_value))) : stepped (list (option (scan_outcome * go_value))) :=
  match l with
  | [] => Done [] m
  | e :: l' => after (go_scan_map go_world m 0 id e) (fun r m => after (scan_maps m id l') (fun rs m =>
      Done (match r with Ret (Ok o, v) => Some (o, v) | _ => None end :: rs) m))
  end.
Definition with_scanner {A} (rules : list go_rule) (f : machine -> Z -> stepped A) : option (option A * heap) :=
  match go_create go_world go_conf start rules with
  | Done (GoScanner id) m =>
    match after (f m id) (fun r m => after (go_delete go_world m id) (fun _ m => Done r m)) with
    | Done r m => Some (Some r, ma_heap m)
    | _ => None
    end
  | Done _ m => Some (None, ma_heap m)
  | _ => None
  end.
Definition run_test (rules : list go_rule) (events : list octets) := with_scanner rules (fun m id => scan_strings m id events).
Definition run_test_map (rules : list go_rule) (events : list (list (octets * go_value))) := with_scanner rules (fun m id => scan_maps m id events).

Definition hit (path : octets) (r : N) (k : replacement_kind) (a b : N) (shift : Z) : go_match :=
  {| gm_rule := r; gm_path := path; gm_kind := k; gm_start := a; gm_end := b; gm_shift := shift |}.
Definition gave (mutated : bool) (s : octets) (l : list go_match) : option scan_outcome :=
  Some {| so_event := s; so_mutated := mutated; so_matches := l |}.
Definition clean {A} (r : A) : option (option A * heap) := Some (Some r, []).

(* ---- the tests ---- *)
Definition hello_rule := new_matching_rule (chars "rule_hello") (chars "hello").
Definition world_rule := new_matching_rule (chars "rule_world") (chars "(?i)WoRlD").
Definition secret_rule := new_redacting_rule (chars "rule_secret") (chars "se..et").
Definition three_rules := [hello_rule; world_rule; secret_rule (chars "[REDACTED]")].
Definition bad_world_rule := new_matching_rule (chars "rule_world") (chars "(?i)Wo))RlD").

Example TestCreateScannerFailOnBadRegex :
  run_test [hello_rule; world_rule; secret_rule (chars "aaaaaaaaa")] [] = clean [] /\
  match go_create go_world go_conf start [hello_rule; bad_world_rule; secret_rule (chars "aaaaaaaaa")] with
  | Done GoErrInvalidRegex m => ma_heap m = []
  | _ => False
  end.
Proof. split; vm_compute; reflexivity. Qed.

Example TestCreateScanner :
  match go_create go_world go_conf start [hello_rule; world_rule; secret_rule (chars "aaaaaaaaa")] with
  | Done (GoScanner id) m => (0 < id)%Z
  | _ => False
  end.
Proof. vm_compute. reflexivity. Qed.

Definition leaf (s : octets) := GString s.
Definition redaction_needed := chars "this is a secret event needing redaction".
Definition redaction_done := chars "this is a [REDACTED] event needing redaction".
Definition hello_event := chars "this is a hello event".
Definition content (v : go_value) := [(chars "content", v)].
(* number of matches, matches, whether the event was mutated and the event afterwards *)
Definition gave_map (mutated : bool) (v : list (octets * go_value)) (l : list go_match) : list (option (bool * list go_match * go_value)) :=
  [Some (mutated, l, GMap v)].
Definition map_results (r : option (option (list (option (scan_outcome * go_value))) * heap)) :=
  match r with
  | Some (Some l, []) => map (option_map (fun x => (so_mutated (fst x), so_matches (fst x), snd x))) l
  | _ => []
  end.
Example TestScanMapEvent : map_results (run_test_map three_rules [
    content (leaf redaction_needed);
    content (GList [leaf redaction_needed]);
    content (GList [GMap [(chars "key1", leaf redaction_needed)]]);
    [(chars "message", leaf (chars "this is a log to process"))];
    content (leaf hello_event);
    content (GMap [(chars "nested", leaf hello_event)]);
    content (GList [leaf hello_event]);
    content (GList [GMap [(chars "nested0", leaf hello_event)]; GMap [(chars "nested1", leaf hello_event)]])])
  = gave_map true (content (leaf redaction_done)) [hit (chars "content") 2 RKPlaceholder 10 20 4] ++
    gave_map true (content (GList [leaf redaction_done])) [hit (chars "content[0]") 2 RKPlaceholder 10 20 4] ++
    gave_map true (content (GList [GMap [(chars "key1", leaf redaction_done)]])) [hit (chars "content[0].key1") 2 RKPlaceholder 10 20 4] ++
    gave_map false [(chars "message", leaf (chars "this is a log to process"))] [] ++
    gave_map false (content (leaf hello_event)) [hit (chars "content") 0 RKNone 10 15 0] ++
    gave_map false (content (GMap [(chars "nested", leaf hello_event)])) [hit (chars "content.nested") 0 RKNone 10 15 0] ++
    gave_map false (content (GList [leaf hello_event])) [hit (chars "content[0]") 0 RKNone 10 15 0] ++
    gave_map false (content (GList [GMap [(chars "nested0", leaf hello_event)]; GMap [(chars "nested1", leaf hello_event)]]))
      [hit (chars "content[0].nested0") 0 RKNone 10 15 0; hit (chars "content[1].nested1") 0 RKNone 10 15 0].
Proof. vm_compute. reflexivity. Qed.

Example TestScanStringWithHash :
  match run_test [new_hash_rule (chars "rule_secret") (chars "se..et")] [chars "this is a hello event, and containing a secret here!"] with
  | Some (Some [Some o], []) => so_mutated o = true /\ map gm_kind (so_matches o) = [RKHash]
  | _ => False
  end.
Proof. vm_compute. split; reflexivity. Qed.

Example TestScanStringEvent : run_test three_rules [
    chars "this is a log to process"; chars "this is a hello event"; chars "this is a hello event, even a hello world!";
    chars "this is a hello event, and containing a secret here!"]
  = clean [
    gave false (chars "this is a log to process") [];
    gave false (chars "this is a hello event") [hit [] 0 RKNone 10 15 0];
    gave false (chars "this is a hello event, even a hello world!") [hit [] 0 RKNone 10 15 0; hit [] 0 RKNone 30 35 0; hit [] 1 RKNone 36 41 0];
    gave true (chars "this is a hello event, and containing a [REDACTED] here!") [hit [] 0 RKNone 10 15 0; hit [] 2 RKPlaceholder 40 50 4]].
Proof. vm_compute. reflexivity. Qed.

Example TestScanStringEventMultipleMutations :
  run_test [hello_rule; secret_rule (chars "[REDACTED]"); new_redacting_rule (chars "rule_numbers") (chars "[0-9]{4}") (chars "[NREDAC]")] [
    chars "this is a log to process";
    chars "here there are two matches resulting to some redacting, here the secret word and here some 1234 random numbers"]
  = clean [
    gave false (chars "this is a log to process") [];
    gave true (chars "here there are two matches resulting to some redacting, here the [REDACTED] word and here some [NREDAC] random numbers")
      [hit [] 1 RKPlaceholder 65 75 4; hit [] 2 RKPlaceholder 95 103 8]].
Proof. vm_compute. reflexivity. Qed.

Definition nothing_here := chars "this is a log to process, no match no partial redact nor anything".
Definition near_card := near 10 (Some [chars "card"]) None.
Example TestProximityKeywords :
  run_test [near_card (new_matching_rule (chars "rule_6_numbers") (chars "[0-9]{6}"))] [
    nothing_here;
    chars "here card 237339, this one should match, but this second one 382448 should not as it's not prefixed by card"]
  = clean [
    gave false nothing_here [];
    gave false (chars "here card 237339, this one should match, but this second one 382448 should not as it's not prefixed by card")
      [hit [] 0 RKNone 10 16 0]].
Proof. vm_compute. reflexivity. Qed.

Definition card_rule := new_redacting_rule (chars "rule_card")
  (chars "\b4\d{3}(?:(?:\s\d{4}){3}|(?:\.\d{4}){3}|(?:-\d{4}){3}|(?:\d{9}(?:\d{3}(?:\d{3})?)?))\b").
Example TestSecondaryValidator :
  run_test [card_rule (chars "[redacted]")] [chars "4556997807150071 4111 1111 1111 1111"]
  = clean [gave true (chars "[redacted] [redacted]") [hit [] 0 RKPlaceholder 0 10 (-6); hit [] 0 RKPlaceholder 11 21 (-15)]] /\
  run_test [validating (chars "LuhnChecksum") (card_rule (chars "[redacted]"))] [chars "4556997807150071 4111 1111 1111 1111"]
  = clean [gave true (chars "4556997807150071 [redacted]") [hit [] 0 RKPlaceholder 17 27 (-9)]].
Proof. split; vm_compute; reflexivity. Qed.

Definition partly (direction : str) := near_card (new_partial_rule (chars "rule_6_numbers") (chars "[0-9]{6}") 4 direction).
Definition two_numbers := chars "here card 328339, this one should match, but this second one 382448 should not as it's not prefixed by card".
Example TestPartialRedactStart : run_test [partly (chars "FirstCharacters")] [nothing_here; two_numbers]
  = clean [
    gave false nothing_here [];
    gave true (chars "here card ****39, this one should match, but this second one 382448 should not as it's not prefixed by card")
      [hit [] 0 RKPartialStart 10 16 0]].
Proof. vm_compute. reflexivity. Qed.
Example TestPartialRedactEnd : run_test [partly (chars "LastCharacters")] [nothing_here; two_numbers]
  = clean [
    gave false nothing_here [];
    gave true (chars "here card 32****, this one should match, but this second one 382448 should not as it's not prefixed by card")
      [hit [] 0 RKPartialEnd 10 16 0]].
Proof. vm_compute. reflexivity. Qed.

Definition potato := chars "this is a potato 4111 1111 1111 1111".
Definition credit_card := chars "this is a credit card 4111 1111 1111 1111".
Definition trace_id := chars "this is a traceid 4111 1111 1111 1111".
Example TestExclude : run_test [near 10 None (Some [chars "traceid"]) (card_rule (chars "[REDACTED]"))] [potato; credit_card; trace_id]
  = clean [
    gave true (chars "this is a potato [REDACTED]") [hit [] 0 RKPlaceholder 17 27 (-9)];
    gave true (chars "this is a credit card [REDACTED]") [hit [] 0 RKPlaceholder 22 32 (-9)];
    gave false trace_id []].
Proof. vm_compute. reflexivity. Qed.
Example TestIncludeExclude :
  run_test [near 10 (Some [chars "card"]) (Some [chars "card"; chars "traceid"]) (card_rule (chars "[REDACTED]"))] [potato; credit_card; trace_id]
  = clean [
    gave false potato [];
    gave true (chars "this is a credit card [REDACTED]") [hit [] 0 RKPlaceholder 22 32 (-9)];
    gave false trace_id []].
Proof. vm_compute. reflexivity. Qed.
