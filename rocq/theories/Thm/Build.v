(* Building scanners, error codes, labels and configurations (C59, C60, C63, C67, C68) *)
From Coq Require Import Lia Permutation.
From Verif Require Import Proofs.BuildClaims Examples.Build.

(* Building always ends with a result: success exactly if no rule has an error, and
   otherwise the error of the first rule that has one. *)
Theorem C60_result :
  forall en b, exists r, build en b = Ret r /\
  ((exists t, r = Ok t) <-> forall c e, In c (bu_rules b) -> ~ rule_error en c e) /\
  (forall e, r = Err e <-> first_rule_error en (bu_rules b) e).
Proof. exact c60_result_lemma. Qed.
Print Assumptions C60_result.

Definition ex_rules : list rule_config := [plain_config (chars "ab"); bad_keywords; zero_redact; plain_config (chars "a{5000}"); plain_config (chars "(")].
Example C60_result_applies :
  build literal_engines (builder_new ex_rules) = Ret (Err (EInvalidKeywords EmptyKeyword)) /\
  build literal_engines (builder_new (skipn 2 ex_rules)) = Ret (Err EInvalidMatchAction) /\
  build literal_engines (builder_new (skipn 3 ex_rules)) = Ret (Err (EInvalidRegex ExceededQuantifierLimit)) /\
  build literal_engines (builder_new (skipn 4 ex_rules)) = Ret (Err (EInvalidRegex InvalidSyntax)) /\
  build literal_engines (builder_new [plain_config (chars "abcdefghijk")]) = Ret (Err (EInvalidRegex TooComplex)) /\
  build literal_engines (builder_new [plain_config (chars "^")]) = Ret (Err (EInvalidRegex MatchesEmptyString)) /\
  (exists t, build literal_engines (builder_new [full_config; plain_config (chars "ab")]) = Ret (Ok t)).
Proof.
  repeat (split; [vm_compute; reflexivity|]). destruct (on_built_spec _ (fun _ => tt) (build literal_engines (builder_new [full_config; plain_config (chars "ab")])) tt) as (t & E & _).
  - vm_compute. reflexivity.
  - exists t. exact E.
Qed.

(* A rule has at most one error, and the first error of a list of rules is unique. *)
Theorem C60_one_error :
  forall en, (forall c e e', rule_error en c e -> rule_error en c e' -> e = e') /\
  (forall cs e e', first_rule_error en cs e -> first_rule_error en cs e' -> e = e').
Proof. exact c60_one_error_lemma. Qed.
Print Assumptions C60_one_error.

Example C60_one_error_applies : rule_error literal_engines zero_redact EInvalidMatchAction /\
  config_error {| kc_look_ahead := 0; kc_included := []; kc_excluded := [] |} InvalidLookAheadCharacterCount /\
  cf_keywords zero_redact = Some {| kc_look_ahead := 0; kc_included := []; kc_excluded := [] |} /\
  ~ rule_error literal_engines zero_redact (EInvalidKeywords InvalidLookAheadCharacterCount).
Proof.
  assert (A : rule_error literal_engines zero_redact EInvalidMatchAction).
  { apply (re_action _ _ FirstCharacters); [|reflexivity]. intros e K.
    apply (pattern_error_iff literal_engines (chars "ab") (Ok (chars "ab")) e eq_refl) in K. discriminate K. }
  split; [exact A|]. split; [constructor; cbn; lia|]. split; [reflexivity|].
  intros K. pose proof (proj1 (C60_one_error literal_engines) _ _ _ A K) as E. discriminate E.
Qed.

(* The scanner has one compiled rule per configuration, in order, with its action, scope,
   validation type, regex, keywords and validator, and the options of the builder. *)
Theorem C60_scanner :
  forall en b t, build en b = Ret (Ok t) ->
  length (sc_rules (bt_scanner t)) = length (bu_rules b) /\
  sc_kw_paths (bt_scanner t) = bu_kw_paths b /\ sc_wild (bt_scanner t) = bu_wild b /\ sc_multipass (bt_scanner t) = bu_multipass b /\
  forall i c, nth_error (bu_rules b) i = Some c -> exists rr,
    nth_error (sc_rules (bt_scanner t)) i = Some (regex_compiled (cf_action c) (cf_scope c) (cf_validation c) rr) /\
    compiled_from en c i rr.
Proof. exact c60_scanner_lemma. Qed.
Print Assumptions C60_scanner.

Example C60_scanner_applies : exists t, build literal_engines (builder_new [full_config; plain_config (chars "ab")]) = Ret (Ok t) /\
  (map rule_action (sc_rules (bt_scanner t)), sc_multipass (bt_scanner t)) = ([ActPartialRedact LastCharacters 4; ActNone], true).
Proof.
  apply (on_built_spec _ (fun t => (map rule_action (sc_rules (bt_scanner t)), sc_multipass (bt_scanner t)))). vm_compute. reflexivity.
Qed.

(* If the engines behave for the patterns and keywords of the rules, the rules of the built
   scanner are the regex rules of the theorems about scanning. *)
Theorem C60_behaves :
  forall en fold b t, build en b = Ret (Ok t) ->
  (forall c k inc pinc exc, In c (bu_rules b) -> cf_keywords c = Some k ->
     compile_keywords_proximity_config k = Ret (Ok (Some (inc, pinc), exc)) -> earliest (en_earliest en inc) (kw_occurs fold inc)) ->
  forall i c re at_, nth_error (bu_rules b) i = Some c -> pattern_regex en (cf_pattern c) re -> leftmost re at_ ->
  exists rr occ, regex_rule_at (bt_scanner t) i rr at_ occ /\ rr_find rr = re /\
    forall k inc pinc exc, cf_keywords c = Some k -> compile_keywords_proximity_config k = Ret (Ok (Some (inc, pinc), exc)) ->
      occ = kw_occurs fold inc.
Proof. exact c60_behaves_lemma. Qed.
Print Assumptions C60_behaves.

Definition ex_key : rule_config := {|
  cf_pattern := chars "ab"; cf_action := ActHash; cf_scope := ScopeExclude [];
  cf_keywords := Some {| kc_look_ahead := 30; kc_included := [chars "key"]; kc_excluded := [] |};
  cf_validator := None; cf_labels := []; cf_validation := None
|}.
Example C60_behaves_applies : exists t, build literal_engines (builder_new [plain_config (chars "c"); ex_key]) = Ret (Ok t) /\
  exists rr occ, regex_rule_at (bt_scanner t) 1 rr (match_at (Engine.literal (chars "ab"))) occ.
Proof.
  destruct (on_built_spec _ (fun _ => tt) (build literal_engines (builder_new [plain_config (chars "c"); ex_key])) tt) as (t & B & _).
  { vm_compute. reflexivity. }
  exists t. split; [exact B|].
  destruct (C60_behaves literal_engines (fun c => c) _ t B) with (i := 1) (c := ex_key) (re := engine (Engine.literal (chars "ab")))
    (at_ := match_at (Engine.literal (chars "ab"))) as (rr & occ & R & _).
  - intros c k inc pinc exc [<-|[<-|[]]] K1 K2; [discriminate K1|]. injection K1 as <-. vm_compute in K2. injection K2 as <- _ _.
    apply kw_search_earliest. intros s a b (pat & before & x & after & [<-|[]] & _ & <- & <- & K). rewrite !nbytes_blen, blen_app.
    destruct x as [|x xs]; [cbn in K; rewrite andb_false_r in K; discriminate K|]. cbn [blen]. pose proof (clen_pos x). lia.
  - reflexivity.
  - exists (chars "ab"). split; reflexivity.
  - apply Engine.engine_leftmost.
  - exists rr, occ. exact R.
Qed.

(* Match values are kept exactly if a rule has a type of validation that makes a validator. *)
Theorem C60_matches_returned :
  forall en b t, build en b = Ret (Ok t) ->
  (sc_return_matches (bt_scanner t) = true <->
   exists c ty v, In c (bu_rules b) /\ cf_validation c = Some ty /\ makes ty v) /\
  (forall k v, assoc internal_eqb k (bt_validators t) = Some v <-> first_of_kind (map cf_validation (bu_rules b)) k v).
Proof. exact c60_matches_returned_lemma. Qed.
Print Assumptions C60_matches_returned.

Example C60_matches_returned_applies :
  (exists t, build literal_engines (builder_new [plain_config (chars "ab"); full_config]) = Ret (Ok t) /\ sc_return_matches (bt_scanner t) = true) /\
  (exists t, build literal_engines (builder_new [plain_config (chars "ab")]) = Ret (Ok t) /\ sc_return_matches (bt_scanner t) = false).
Proof. split; apply (on_built_spec _ (fun t => sc_return_matches (bt_scanner t))); vm_compute; reflexivity. Qed.

(* The code of an error in the creation of validators is the code of a panic, and the Go
   binding reports it as one. *)
Theorem C59_refuted :
  error_code EInvalidMatchValidator = err_panic /\
  forall address message, native_create_scanner address message (Ret (Err EInvalidMatchValidator)) = Ret ((-5)%Z, None) /\
    native_create_scanner address message Panic = Ret ((-5)%Z, Some message) /\
    go_created_of (-5) None = GoErrPanic None.
Proof. exact c59_refuted_lemma. Qed.
Print Assumptions C59_refuted.

Example C59_refuted_applies : EInvalidMatchValidator <> EInvalidMatchAction /\ (error_code EInvalidMatchAction <> err_panic)%Z.
Proof. split; discriminate. Qed.

(* Building never gives that error and never panics, so a code tells which kind of error
   the first faulty rule has, and a negative code never stands for a scanner. *)
Theorem C59_codes :
  forall en b address message, (0 <= address)%Z -> exists code,
  native_create_scanner address message (build en b) = Ret (code, None) /\
  (code = (-2)%Z <-> exists e, first_rule_error en (bu_rules b) (EInvalidRegex e)) /\
  (code = (-3)%Z <-> exists e, first_rule_error en (bu_rules b) (EInvalidKeywords e)) /\
  (code = (-4)%Z <-> first_rule_error en (bu_rules b) EInvalidMatchAction) /\
  (code = address <-> forall c e, In c (bu_rules b) -> ~ rule_error en c e) /\
  In code [(-2)%Z; (-3)%Z; (-4)%Z; address] /\ ~ first_rule_error en (bu_rules b) EInvalidMatchValidator.
Proof. exact c59_codes_lemma. Qed.
Print Assumptions C59_codes.

Example C59_codes_applies : native_create_scanner 4096 [] (build literal_engines (builder_new ex_rules)) = Ret ((-3)%Z, None) /\
  native_create_scanner 4096 [] (build literal_engines (builder_new [full_config])) = Ret (4096%Z, None).
Proof. split; vm_compute; reflexivity. Qed.

(* Creating a scanner from Go: a rule that stands for no configuration is refused, and
   otherwise the error returned is the one for the kind of the first error. *)
Theorem C59_go :
  forall en rules address message, (0 <= address)%Z -> (forall g, In g rules -> go_rule_fits g) ->
  exists r, go_create_scanner en false address message rules = Ret r /\
  (r = GoErrRule <-> exists g, In g rules /\ forall c, ~ go_rule_means g c) /\
  (forall m, r <> GoErrPanic m) /\ r <> GoErrUnknown /\
  forall cs, Forall2 go_rule_means rules cs ->
    (r = GoErrInvalidRegex <-> exists e, first_rule_error en cs (EInvalidRegex e)) /\
    (r = GoErrInvalidKeywords <-> exists e, first_rule_error en cs (EInvalidKeywords e)) /\
    (r = GoErrInvalidMatchAction <-> first_rule_error en cs EInvalidMatchAction) /\
    (r = GoScanner address <-> forall c e, In c cs -> ~ rule_error en c e).
Proof. exact c59_go_lemma. Qed.
Print Assumptions C59_go.

Definition ex_go (ty : str) (n : N) : go_rule := {|
  gr_id := chars "r"; gr_pattern := chars "ab"; gr_action := {| ga_type := ty; ga_redaction := chars "[x]"; ga_count := n; ga_direction := chars "LastCharacters" |};
  gr_keywords := Some {| gk_look_ahead := 30; gk_included := Some [chars "key"]; gk_excluded := None |}; gr_validator := chars "LuhnChecksum"
|}.
Example C59_go_applies :
  go_create_scanner literal_engines false 4096 [] [ex_go (chars "Hash") 0; ex_go (chars "PartialRedact") 0] = Ret GoErrInvalidMatchAction /\
  go_create_scanner literal_engines false 4096 [] [ex_go (chars "hash") 0; ex_go (chars "PartialRedact") 0] = Ret GoErrRule /\
  go_create_scanner literal_engines false 4096 [] [ex_go (chars "Hash") 0; ex_go (chars "PartialRedact") 1] = Ret (GoScanner 4096).
Proof. repeat split; vm_compute; reflexivity. Qed.

(* The labels of a rule are all labels of the scanner, in order, and then its own. *)
Theorem C63_combined :
  forall s r, length (clone_with_labels s r) = length s + length r /\
  forall i x, nth_error (clone_with_labels s r) i = Some x <->
    (i < length s /\ nth_error s i = Some x) \/ (length s <= i /\ nth_error r (i - length s) = Some x).
Proof. exact c63_combined_lemma. Qed.
Print Assumptions C63_combined.

Example C63_combined_applies : clone_with_labels [(chars "a", chars "1"); (chars "b", chars "2")] [(chars "a", chars "3")] =
  [(chars "a", chars "1"); (chars "b", chars "2"); (chars "a", chars "3")].
Proof. reflexivity. Qed.

(* This is what the metrics of each rule of a built scanner get. *)
Theorem C63_rule_labels :
  forall en b t, build en b = Ret (Ok t) -> bt_labels t = bu_labels b /\ length (bt_rule_labels t) = length (bu_rules b) /\
  forall i c, nth_error (bu_rules b) i = Some c -> nth_error (bt_rule_labels t) i = Some (bu_labels b ++ cf_labels c).
Proof. exact c63_rule_labels_lemma. Qed.
Print Assumptions C63_rule_labels.

Example C63_rule_labels_applies : exists t,
  build literal_engines {| bu_rules := [plain_config (chars "ab"); full_config]; bu_labels := [(chars "s", chars "1")]; bu_kw_paths := true; bu_wild := false; bu_multipass := true |} = Ret (Ok t) /\
  bt_rule_labels t = [[(chars "s", chars "1")]; [(chars "s", chars "1"); (chars "team", chars "x"); (chars "team", chars "y")]].
Proof. apply (on_built_spec _ bt_rule_labels). vm_compute. reflexivity. Qed.

(* Labels are written as a list of pairs of strings, and exactly such lists are read,
   giving the same labels. *)
Theorem C63_serialized :
  forall j l,
  (j = ser_labels l <-> exists js, j = JArray js /\ Forall2 (fun x kv => x = JArray [JString (fst kv); JString (snd kv)]) js l) /\
  (de_labels j = Some l <-> j = ser_labels l).
Proof. exact c63_serialized_lemma. Qed.
Print Assumptions C63_serialized.

Example C63_serialized_applies : de_labels (JArray [JArray [JString (chars "k"); JString (chars "v")]; JArray [JString (chars "k"); JString []]]) =
    Some [(chars "k", chars "v"); (chars "k", [])] /\
  de_labels (JArray [JArray [JString (chars "k")]]) = None /\
  de_labels (JArray [JArray [JString (chars "k"); JString (chars "v"); JString (chars "w")]]) = None /\ de_labels JNull = None.
Proof. repeat split. Qed.

(* A configuration that was written is read back as it was. *)
Theorem C67_round_trip :
  forall utf16 c, config_fits utf16 c -> de_config utf16 (ser_config c) = Some c.
Proof. exact c67_round_trip_lemma. Qed.
Print Assumptions C67_round_trip.

Example C67_round_trip_applies : config_fits false full_config /\ de_config false (ser_config full_config) = Some full_config /\
  de_config true (ser_config (plain_config (chars "\d+"))) = Some (plain_config (chars "\d+")).
Proof.
  split; [|split; vm_compute; reflexivity]. constructor.
  - discriminate.
  - intros d n E. injection E as <- <-. reflexivity.
  - split; intros p [<-|K]; try (destruct K as [<-|[]]); try destruct K; intros i K; repeat (destruct K as [K|K]; [try discriminate K; try (injection K as <-; reflexivity)|]); destruct K.
  - intros k E. injection E as <-. reflexivity.
  - intros t E. injection E as <-. split; [reflexivity|]. split; intros r K; repeat (destruct K as [<-|K]; [split; reflexivity|]); destruct K.
Qed.

(* Different configurations are written differently. *)
Theorem C67_injective :
  forall c c', config_fits true c -> config_fits true c' -> ser_config c = ser_config c' -> c = c'.
Proof. exact c67_injective_lemma. Qed.
Print Assumptions C67_injective.

Example C67_injective_applies : full_config <> plain_config (chars "secret") /\ ser_config full_config <> ser_config (plain_config (chars "secret")).
Proof. split; discriminate. Qed.

(* The order of the fields does not matter, and fields with other names are ignored. *)
Theorem C67_fields :
  forall utf16 m m', Permutation m m' -> de_config utf16 (JObject m) = de_config utf16 (JObject m') /\
  forall k j, ~ In k [chars "pattern"; chars "match_action"; chars "scope"; chars "proximity_keywords"; chars "validator";
                      chars "labels"; chars "match_validation_type"] ->
    de_config utf16 (JObject ((k, j) :: m)) = de_config utf16 (JObject m').
Proof. exact c67_fields_lemma. Qed.
Print Assumptions C67_fields.

Example C67_fields_applies :
  de_config false (JObject [(chars "labels", JNull); (chars "id", JString (chars "x")); (chars "pattern", JString (chars "a"));
    (chars "match_action", JObject [(chars "type", JString (chars "None"))])]) = Some (plain_config (chars "a")) /\
  de_config false (JObject [(chars "pattern", JString (chars "a"));  (chars "pattern", JString (chars "a"));
    (chars "match_action", JObject [(chars "type", JString (chars "None"))])]) = None.
Proof. split; reflexivity. Qed.

(* Only the pattern and the action are needed; everything else has a default, and nothing
   is accepted without both. *)
Theorem C67_defaults :
  forall utf16 p a, utf16 = true \/ a <> ActUtf16Hash -> (forall d n, a = ActPartialRedact d n -> fits u64_limit n) ->
  de_config utf16 (JObject [(chars "pattern", JString p); (chars "match_action", ser_action a)]) =
    Some {| cf_pattern := p; cf_action := a; cf_scope := ScopeExclude []; cf_keywords := None; cf_validator := None;
            cf_labels := []; cf_validation := None |} /\
  forall m, (forall j, ~ In (chars "pattern", j) m) \/ (forall j, ~ In (chars "match_action", j) m) -> de_config utf16 (JObject m) = None.
Proof. exact c67_defaults_lemma. Qed.
Print Assumptions C67_defaults.

Example C67_defaults_applies : de_config false (JObject [(chars "pattern", JString (chars "a")); (chars "match_action", JObject [(chars "type", JString (chars "Utf16Hash"))])]) = None /\
  de_config true (JObject [(chars "pattern", JString (chars "a")); (chars "match_action", JObject [(chars "type", JString (chars "Utf16Hash"))])]) <> None.
Proof. split; [reflexivity|discriminate]. Qed.

(* The configuration that Rust reads from a Go rule is the one the rule stands for, and a
   rule that stands for none is refused. *)
Theorem C68_go_rule :
  forall g c, go_rule_fits g -> (go_create_rule false g = Some c <-> go_rule_means g c).
Proof. exact c68_go_rule_lemma. Qed.
Print Assumptions C68_go_rule.

Example C68_go_rule_applies : go_rule_fits (ex_go (chars "PartialRedact") 3) /\
  go_create_rule false (ex_go (chars "PartialRedact") 3) = Some {|
    cf_pattern := chars "ab"; cf_action := ActPartialRedact LastCharacters 3; cf_scope := ScopeExclude [];
    cf_keywords := Some {| kc_look_ahead := 30; kc_included := [chars "key"]; kc_excluded := [] |};
    cf_validator := Some LuhnChecksum; cf_labels := []; cf_validation := None |} /\
  go_create_rule false (ex_go (chars "Utf16Hash") 3) = None.
Proof.
  split; [|split; vm_compute; reflexivity]. split; [reflexivity|]. intros k E. injection E as <-. reflexivity.
Qed.

(* A nil slice of keywords and an empty one mean the same, so the constructor of keyword
   configurations changes nothing. *)
Theorem C68_nil_slices :
  forall n i e, (n < u32_limit)%N ->
  de_keywords (go_keywords_json (go_create_keywords n i e)) = Some {| kc_look_ahead := N.to_nat n; kc_included := slice_elements i; kc_excluded := slice_elements e |} /\
  de_keywords (go_keywords_json {| gk_look_ahead := n; gk_included := i; gk_excluded := e |}) = de_keywords (go_keywords_json (go_create_keywords n i e)).
Proof. exact c68_nil_slices_lemma. Qed.
Print Assumptions C68_nil_slices.

Example C68_nil_slices_applies : go_keywords_json {| gk_look_ahead := 30; gk_included := None; gk_excluded := None |} <>
  go_keywords_json (go_create_keywords 30 None None).
Proof. discriminate. Qed.

