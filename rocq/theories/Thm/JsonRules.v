(* JSON texts of rules, from Go and from Rust (C82, C83) *)
From Coq Require Import Lia.
From Verif Require Import Proofs.JsonRulesClaims Examples.Build.

(* A text is read as a value exactly if it is a JSON document for it by the grammar of RFC
   8259 and its arrays and objects are nested at most 127 deep. *)
Theorem C82_reader :
  forall s v, json_from_str s = Some v <-> json_document v s /\ json_depth v < 128.
Proof. exact c82_reader_lemma. Qed.
Print Assumptions C82_reader.

Definition ex_json : str := text " {""a\u00e9\ud83d\ude00"" : [1, -0.5e+3 ,null], ""\n"":{}} ".
Example C82_reader_applies :
  json_from_str ex_json = Some (JObject [([97; 233; 128512]%N, JArray [JNumber (text "1"); JNumber (text "-0.5e+3"); JNull]); ([10%N], JObject [])]) /\
  json_from_str (text "[01]") = None /\ json_from_str (text "[1,]") = None /\ json_from_str (text """\ud83d""") = None /\
  json_from_str (repeat 91%N 127 ++ repeat 93%N 127) <> None /\ json_from_str (repeat 91%N 128 ++ repeat 93%N 128) = None.
Proof. do 4 (split; [vm_compute; reflexivity|]). split; [vm_compute; discriminate|vm_compute; reflexivity]. Qed.

(* A text is a JSON document for at most one value, however deep. *)
Theorem C82_unique :
  forall s v v', json_document v s -> json_document v' s -> v = v'.
Proof. exact c82_unique_lemma. Qed.
Print Assumptions C82_unique.

Example C82_unique_applies : json_document (JArray [JBool true; JString [233%N]]) (text "[true , ""\u00E9""]").
Proof. apply json_reads. vm_compute. reflexivity. Qed.

(* The text of a configuration written by serde is a JSON document and reads back as the
   configuration. *)
Theorem C82_serde :
  forall utf16 c, config_fits utf16 c ->
  json_document (ser_config c) (json_to_string (ser_config c)) /\
  obind (json_from_str (json_to_string (ser_config c))) (de_config utf16) = Some c.
Proof. exact c82_serde_lemma. Qed.
Print Assumptions C82_serde.

Definition quoted_config : rule_config := plain_config (text "a""\d" ++ [1; 9; 233; 8232; 128512]%N).
Example C82_serde_applies : config_fits false quoted_config /\
  json_to_string (ser_config quoted_config) = text "{""pattern"":""a\""\\d\u0001\t" ++ [233; 8232; 128512]%N ++
    text """,""match_action"":{""type"":""None""},""scope"":{""type"":""Exclude"",""paths"":[]},""proximity_keywords"":null,""validator"":null,""labels"":[],""match_validation_type"":null}" /\
  obind (json_from_str (json_to_string (ser_config full_config))) (de_config false) = Some full_config.
Proof.
  split; [|split; vm_compute; reflexivity]. constructor; try (cbn; intros; discriminate). cbn. intros p H. contradiction.
Qed.

(* Whatever bytes the strings of a rule have in Go, the bytes handed to Rust are the UTF-8
   of a JSON document and have no NUL, so that the C string is not cut. *)
Theorem C82_cstring :
  forall short r, (exists v t, json_document v t /\ json_depth v < 128 /\ utf8_of t (go_marshal short (go_rule_json r))) /\
  ~ In 0%N (go_marshal short (go_rule_json r)).
Proof. exact c82_cstring_lemma. Qed.
Print Assumptions C82_cstring.

Definition go_bytes_rule (p : octets) : go_rule := {|
  gr_id := chars "r"; gr_pattern := p; gr_action := {| ga_type := chars "Hash"; ga_redaction := []; ga_count := 0; ga_direction := [] |};
  gr_keywords := Some {| gk_look_ahead := 30; gk_included := Some [chars "key"]; gk_excluded := Some [] |}; gr_validator := []
|}.
Example C82_cstring_applies :
  go_marshal true (go_rule_json (go_bytes_rule [60; 0; 195; 169; 255; 8]%N)) =
  text "{""id"":""r"",""pattern"":""\u003c\u0000" ++ [195; 169]%N ++ text "\ufffd\b"",""match_action"":{""match_action"":""Hash"",""type"":""Hash""}," ++
  text """proximity_keywords"":{""look_ahead_character_count"":30,""included_keywords"":[""key""],""excluded_keywords"":[]}}".
Proof. vm_compute. reflexivity. Qed.

(* The configuration that Rust gets through the C string is the one for the rule with its
   strings read as text, where each byte that does not begin a character is U+FFFD.  Every
   rule has such a reading. *)
Theorem C82_go :
  forall short utf16 r, (exists r', go_rule_text r r') /\
  forall r', go_rule_text r r' -> go_create_rule_bytes short utf16 r = go_create_rule utf16 r'.
Proof. exact c82_go_lemma. Qed.
Print Assumptions C82_go.

Example C82_go_applies : go_rule_text (go_bytes_rule [60; 0; 195; 169; 255; 8]%N) (go_bytes_rule [60; 0; 233; 65533; 8]%N) /\
  go_create_rule_bytes false false (go_bytes_rule [60; 0; 195; 169; 255; 8]%N) = go_create_rule false (go_bytes_rule [60; 0; 233; 65533; 8]%N) /\
  go_create_rule false (go_bytes_rule [60; 0; 233; 65533; 8]%N) <> None.
Proof. split; [apply rule_runes; vm_compute; reflexivity|]. split; [vm_compute; reflexivity|vm_compute; discriminate]. Qed.

(* For strings that are valid UTF-8, the configuration is the one the rule stands for. *)
Theorem C82_valid :
  forall short r r' c, go_rule_utf8 r r' -> go_rule_fits r' ->
  (go_create_rule_bytes short false r = Some c <-> go_rule_means r' c).
Proof. exact c82_valid_lemma. Qed.
Print Assumptions C82_valid.

Example C82_valid_applies : go_rule_utf8 (go_bytes_rule [195; 169]%N) (go_bytes_rule [233]%N) /\ go_rule_fits (go_bytes_rule [233]%N) /\
  go_create_rule_bytes true false (go_bytes_rule [195; 169]%N) = Some {|
    cf_pattern := [233%N]; cf_action := ActHash; cf_scope := ScopeExclude [];
    cf_keywords := Some {| kc_look_ahead := 30; kc_included := [chars "key"]; kc_excluded := [] |};
    cf_validator := None; cf_labels := []; cf_validation := None |}.
Proof.
  assert (A : forall s, Forall scalar s -> utf8_of s (as_bytes s)) by (intros s K; apply utf8_of_iff; auto).
  assert (L : forall s, forallb (fun c => (c <? 128)%N) s = true -> Forall scalar s).
  { intros s K. apply Forall_forall. intros c Hc. rewrite forallb_forall in K. apply K in Hc. apply N.ltb_lt in Hc. unfold scalar. lia. }
  split; [|split; [split; [reflexivity|intros k E; injection E as <-; reflexivity]|vm_compute; reflexivity]].
  split; [apply (A (chars "r")); apply L; reflexivity|]. split; [apply (A [233%N]); repeat constructor; unfold scalar; lia|].
  split; [apply (A (chars "Hash")); apply L; reflexivity|]. split; [constructor|]. split; [reflexivity|]. split; [constructor|].
  split; [|constructor]. split; [reflexivity|]. split; [|constructor]. repeat constructor. apply (A (chars "key")). apply L. reflexivity.
Qed.

(* Rules of Go with different patterns can give the same configuration without an error. *)
Theorem C83_refuted :
  exists short r r' c, gr_pattern r <> gr_pattern r' /\
  go_create_rule_bytes short false r = Some c /\ go_create_rule_bytes short false r' = Some c.
Proof. exact c83_refuted_lemma. Qed.
Print Assumptions C83_refuted.

Example C83_refuted_applies : go_create_rule_bytes false false (go_bytes_rule [97; 255]%N) = go_create_rule_bytes false false (go_bytes_rule [97; 128]%N) /\
  go_create_rule_bytes false false (go_bytes_rule [97; 255]%N) <> None.
Proof. split; [vm_compute; reflexivity|vm_compute; discriminate]. Qed.

(* Rules whose strings are valid UTF-8 and that give the same configuration have the same
   pattern. *)
Theorem C83_valid :
  forall short utf16 r r' t t' c, go_rule_utf8 r t -> go_rule_utf8 r' t' ->
  go_create_rule_bytes short utf16 r = Some c -> go_create_rule_bytes short utf16 r' = Some c -> gr_pattern r = gr_pattern r'.
Proof. exact c83_valid_lemma. Qed.
Print Assumptions C83_valid.

Example C83_valid_applies : go_create_rule_bytes true false (go_bytes_rule [195; 169]%N) <> None /\
  go_create_rule_bytes true false (go_bytes_rule [195; 169]%N) <> go_create_rule_bytes true false (go_bytes_rule [195; 168]%N).
Proof. split; vm_compute; discriminate. Qed.

