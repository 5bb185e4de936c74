(* The fuzz harness (C94, C95) *)
From Coq Require Import Lia ZifyN ZifyBool.
From Verif Require Import Proofs.Text Proofs.ConversionClaims Proofs.RescanClaims Proofs.FuzzClaims Proofs.Codec Examples.Setting Examples.Build Examples.RegexEngine.

(* Rules that find by their patterns alone, with any action, and nothing taken back because of
   excluded scopes.  Something is reported for a string exactly if the pattern of a rule in
   scope, with the documented meaning, matches somewhere in it. *)
Theorem C94_reported :
  forall E (fold : char -> char) en b t e srt fuel, build en b = Ret (Ok t) -> crate_ok E en -> plain_env E ->
  (forall x y, same_letter E x y <-> fold x = fold y) ->
  (forall c, In c (bu_rules b) -> good_pattern E c /\ pattern_rule c) -> nothing_taken_back b ->
  sorter_ok srt -> distinct_keys e -> enough_fuel fuel (simple_strings e) ->
  forall h, exists e' outs, scan simple_event_impl fuel h srt (bt_scanner t) [] e = Ret (e', outs) /\
  scan_result simple_event_impl (simple_strings e) (simple_holds e) e' outs (fun p s s' os =>
    os <> [] <-> exists c, In c (bu_rules b) /\ in_scope b c p /\ somewhere (as_written E c s) s).
Proof. exact c94_reported_lemma. Qed.
Print Assumptions C94_reported.

(* overlapping rules, one of which changes nothing; multi-pass is on *)
Definition fz_rules : list rule_config := [rs_rule (chars "[a-c]{2}") ActNone; rs_rule (chars "b\d") (ActRedact (chars "x"))].
Definition fz_many : builder := builder_new fz_rules.
Definition fz_event : simple_event := SList [SString (chars "ab1"); SString (chars "xx"); SString (chars "b2")].
Example C94_reported_applies : exists t, build rs_engines fz_many = Ret (Ok t) /\ crate_ok ascii_env rs_engines /\
  (forall c, In c (bu_rules fz_many) -> good_pattern ascii_env c /\ pattern_rule c) /\ nothing_taken_back fz_many /\
  distinct_keys fz_event /\ enough_fuel 100 (simple_strings fz_event) /\
  exists outs, scan simple_event_impl 100 ex_hash isort (bt_scanner t) [] fz_event =
    Ret (SList [SString (chars "ax"); SString (chars "xx"); SString (chars "x")], outs) /\ length outs = 2.
Proof.
  destruct (on_built_spec _ (fun t => match scan simple_event_impl 100 ex_hash isort (bt_scanner t) [] fz_event with Ret (e, outs) => Some (e, length outs) | _ => None end)
    (build rs_engines fz_many) (Some (SList [SString (chars "ax"); SString (chars "xx"); SString (chars "x")], 2))) as (t & B & H); [vm_compute; reflexivity|].
  exists t. split; [exact B|]. split; [apply regex_engines_ok|].
  split; [intros c [<-|[<-|[]]]; (split; [good|split; reflexivity]); intros it [<-|[]]; cbn; lia|].
  split; [right; intros c p [<-|[<-|[]]] (sp & [] & _)|].
  split; [constructor; intros c [<-|[<-|[<-|[]]]]; constructor|]. split; [intros p s [E|[E|[E|[]]]]; injection E as _ <-; vm_compute; lia|].
  destruct (scan simple_event_impl 100 ex_hash isort (bt_scanner t) [] fz_event) as [[e outs]| |]; try discriminate H. injection H as -> L. eauto.
Qed.

(* The harness scans with one rule that has the pattern and the action, is in scope everywhere
   and asks for nothing else; keywords count in paths, wildcards are not added, multi-pass is
   on. *)
Theorem C94_scanner :
  forall pattern a, exists c, bu_rules (fuzz_builder pattern a) = [c] /\ cf_pattern c = pattern /\ cf_action c = a /\
  (forall p, in_scope (fuzz_builder pattern a) c p) /\ pattern_rule c /\ cf_labels c = [] /\ cf_validation c = None /\
  bu_labels (fuzz_builder pattern a) = [] /\ bu_kw_paths (fuzz_builder pattern a) = true /\ bu_wild (fuzz_builder pattern a) = false /\
  bu_multipass (fuzz_builder pattern a) = true.
Proof. exact c94_scanner_lemma. Qed.
Print Assumptions C94_scanner.

Example C94_scanner_applies : exists t, build rs_engines (fuzz_builder (chars "a+") ActHash) = Ret (Ok t) /\
  map rule_action (sc_rules (bt_scanner t)) = [ActHash] /\ sc_multipass (bt_scanner t) = true.
Proof.
  destruct (on_built_spec _ (fun t => (map rule_action (sc_rules (bt_scanner t)), sc_multipass (bt_scanner t))) (build rs_engines (fuzz_builder (chars "a+") ActHash)) ([ActHash], true))
    as (t & B & H); [vm_compute; reflexivity|]. injection H as H1 H2. exists t. auto.
Qed.

(* One run of the harness with a pattern of which the conversion is faithful and that never
   matches the empty text.  The run ends, and its assertion fails exactly if the pattern can be
   built and compiled by Hyperscan and it depends on the reading - the documented one, or that
   of PCRE with dot_all - whether the pattern matches somewhere in the input. *)
Theorem C94_oracle :
  forall E (fold : char -> char) en fuel h srt hyperscan pattern input d,
  crate_ok E en -> plain_env E -> (forall x y, same_letter E x y <-> fold x = fold y) -> sorter_ok srt ->
  hyperscan_ok E hyperscan -> good_pattern E (regex_rule_config_new pattern) -> nbytes input + 2 <= fuel ->
  (run_fuzz en fuel h srt hyperscan pattern input d = Ret tt \/ run_fuzz en fuel h srt hyperscan pattern input d = Panic) /\
  (run_fuzz en fuel h srt hyperscan pattern input d = Panic <->
   (exists t, build en (fuzz_builder pattern (gen_match_action d)) = Ret (Ok t)) /\ hyperscan pattern <> None /\
   ~ (somewhere (as_written E (regex_rule_config_new pattern) input) input <-> somewhere (pcre_dot_all E pattern input) input)).
Proof. exact c94_oracle_lemma. Qed.
Print Assumptions C94_oracle.

Example C94_oracle_applies : crate_ok ascii_env rs_engines /\ plain_env ascii_env /\ hyperscan_ok ascii_env small_hyperscan /\
  good_pattern ascii_env (regex_rule_config_new dot_pattern) /\ nbytes (chars "xaxb") + 2 <= 100 /\
  run_fuzz rs_engines 100 ex_hash isort small_hyperscan dot_pattern (chars "xaxb") fz_draws = Ret tt /\
  small_hyperscan dot_pattern <> None /\ dot_find (chars "xaxb") = [(1, 4)].
Proof.
  split; [apply regex_engines_ok|]. split; [exact ascii_env_plain|]. split; [exact small_hyperscan_ok|]. split; [good|].
  split; [vm_compute; lia|]. split; [vm_compute; reflexivity|]. split; [discriminate|vm_compute; reflexivity].
Qed.

(* Hence the assertion holds for such patterns that contain neither "." nor "$" nor \Z. *)
Theorem C94_agree :
  forall E (fold : char -> char) en fuel h srt hyperscan pattern a input d,
  crate_ok E en -> plain_env E -> (forall x y, same_letter E x y <-> fold x = fold y) -> sorter_ok srt ->
  hyperscan_ok E hyperscan -> good_pattern E (regex_rule_config_new pattern) -> nbytes input + 2 <= fuel ->
  parse_regex_pattern 51 pattern = Ret (Ok a) -> no_dots a -> no_ends a ->
  run_fuzz en fuel h srt hyperscan pattern input d = Ret tt.
Proof. exact c94_agree_lemma. Qed.
Print Assumptions C94_agree.

Example C94_agree_applies : exists a, good_pattern ascii_env (regex_rule_config_new (chars "(?:ab|[^x]{2})+\b")) /\
  parse_regex_pattern 51 (chars "(?:ab|[^x]{2})+\b") = Ret (Ok a) /\ no_dots a /\ no_ends a /\
  exists t, build rs_engines (fuzz_builder (chars "(?:ab|[^x]{2})+\b") (gen_match_action fz_draws)) = Ret (Ok t).
Proof.
  eexists. split; [good; intros it [<-|[]]; cbn; lia|]. split; [vm_compute; reflexivity|]. split; [cbn; tauto|]. split; [cbn; tauto|].
  destruct (on_built_spec _ (fun t => tt) (build rs_engines (fuzz_builder (chars "(?:ab|[^x]{2})+\b") (gen_match_action fz_draws))) tt) as (t & B & _); [vm_compute; reflexivity|eauto].
Qed.

(* The assertion can fail although scanner and Hyperscan do what is expected of them: the
   harness has Hyperscan read "." with dot_all, and the scanner does not. *)
Theorem C94_dot_refuted :
  exists E (fold : char -> char) en h hyperscan d, crate_ok E en /\ plain_env E /\ (forall x y, same_letter E x y <-> fold x = fold y) /\
  hyperscan_ok E hyperscan /\ drawable d /\ good_pattern E (regex_rule_config_new (chars "a.b")) /\
  run_fuzz en 100 h isort hyperscan (chars "a.b") (chars "a" ++ [10%N] ++ chars "b") d = Panic.
Proof. exact c94_dot_refuted_lemma. Qed.
Print Assumptions C94_dot_refuted.

(* It can also fail because the scanner lets "$" match the newline at the end of the text,
   and Hyperscan does not. *)
Theorem C94_end_refuted :
  exists E (fold : char -> char) en h hyperscan d, crate_ok E en /\ plain_env E /\ (forall x y, same_letter E x y <-> fold x = fold y) /\
  hyperscan_ok E hyperscan /\ drawable d /\ good_pattern E (regex_rule_config_new (chars "a$\n")) /\
  run_fuzz en 100 h isort hyperscan (chars "a$\n") (chars "a" ++ [10%N]) d = Panic.
Proof. exact c94_end_refuted_lemma. Qed.
Print Assumptions C94_end_refuted.

(* The harness takes the bytes up to the first comma as pattern, those up to the second as
   input, both if they are UTF-8, and the number that the next eight bytes stand for as seed,
   or fewer bytes if there are no more.  Without two commas, or without UTF-8, nothing is run. *)
Theorem C95_parts :
  (forall b pattern input seed, all_bytes b ->
    raw_parts b = Some (pattern, input, seed) <->
    exists x y rest, b = x ++ 44%N :: y ++ 44%N :: rest /\ utf8_of pattern x /\ utf8_of input y /\ no_comma x /\ no_comma y /\
      seed = big_endian (firstn 8 rest)) /\
  forall run b r, run_raw_fuzz run b = Ret r ->
    (r = None <-> raw_parts b = None) /\
    forall pattern input seed, raw_parts b = Some (pattern, input, seed) -> run pattern input seed = Ret tt.
Proof. exact c95_parts_lemma. Qed.
Print Assumptions C95_parts.

Example C95_parts_applies : all_bytes ([195; 164; 98; 44; 120; 121; 44; 1; 0; 44; 2]%N) /\
  raw_parts [195; 164; 98; 44; 120; 121; 44; 1; 0; 44; 2]%N = Some ([228; 98]%N, chars "xy", (16777216 + 44 * 256 + 2)%N) /\
  raw_parts [195; 44; 120; 121; 44; 1]%N = None /\ raw_parts (chars "ab,xy") = None.
Proof. split; [repeat constructor|]. vm_compute. auto. Qed.

(* So pattern, input and seed can be reached exactly if neither text contains a comma and the
   seed is below 2^64. *)
Theorem C95_reached :
  forall pattern input seed, (exists b, all_bytes b /\ raw_parts b = Some (pattern, input, seed)) <->
  is_text pattern /\ is_text input /\ no_comma pattern /\ no_comma input /\ (seed < 2 ^ 64)%N.
Proof. exact c95_reached_lemma. Qed.
Print Assumptions C95_reached.

Example C95_reached_applies : is_text (chars "a{2}") /\ no_comma (chars "a{2}") /\ (2 ^ 63 + 7 < 2 ^ 64)%N /\
  raw_parts (chars "a{2},,!") = Some (chars "a{2}", [], 33%N).
Proof.
  split; [exists (chars "a{2}"); repeat (apply (uo_cons _ [_]); [apply cu_1; reflexivity|]); constructor|].
  split; [intros H; repeat (destruct H as [H|H]; [discriminate H|]); exact H|]. split; vm_compute; reflexivity.
Qed.

(* The actions that the harness can draw.  All of them are accepted by the scanner. *)
Theorem C95_actions :
  (forall a, (exists d, drawable d /\ gen_match_action d = a) <->
    a = ActNone \/ a = ActHash \/ a = ActRedact (chars "[REDACT]") \/ exists dir n, a = ActPartialRedact dir n /\ 1 <= n < 20) /\
  forall d, drawable d -> action_validate (gen_match_action d) = true.
Proof. exact c95_actions_lemma. Qed.
Print Assumptions C95_actions.

Example C95_actions_applies : drawable {| dr_kind := 3; dr_first := false; dr_count := 19 |} /\
  gen_match_action {| dr_kind := 3; dr_first := false; dr_count := 19 |} = ActPartialRedact LastCharacters 19.
Proof. split; [split; cbn; lia|reflexivity]. Qed.

(* Not every pattern that the scanner accepts can be reached: those with a comma, as in a
   repetition with two bounds, cannot, whatever the bytes. *)
Theorem C95_refuted :
  exists en t, build en (fuzz_builder (chars "a{2,3}") ActHash) = Ret (Ok t) /\
  forall b input seed, raw_parts b <> Some (chars "a{2,3}", input, seed).
Proof. exact c95_refuted_lemma. Qed.
Print Assumptions C95_refuted.

