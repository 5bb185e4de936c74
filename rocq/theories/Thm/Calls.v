(* How often regex engines are called (C99) *)
From Coq Require Import Lia Sorted.
From Verif Require Import Proofs.CallsClaims Proofs.Events Thm.EndToEnd.

(* listing the calls of engines changes nothing *)
Theorem C99_same_result :
  forall I fuel h srt sc cs blocked e, calls_of sc cs ->
  (let* r := scan_calls I fuel h srt sc cs blocked e in Ret (fst r)) = scan I fuel h srt sc blocked e.
Proof. exact c99_same_result_lemma. Qed.
Print Assumptions C99_same_result.

Example C99_same_result_applies :
  calls_of calls_scanner (map regex_calls calls_rules) /\
  scan_calls simple_event_impl 100 ex_hash isort calls_scanner (map regex_calls calls_rules) [] (SMap [(chars "f", SString (chars "key 5"))]) =
    Ret (SMap [(chars "f", SString (chars "key 5"))], [],
         [(0, [Field (chars "f")], chars "key 5", CallRule 0); (1, [Field (chars "f")], chars "key 5", CallKeyword 0);
          (1, [Field (chars "f")], chars "key 5", CallRule 0)]).
Proof. split; [exact (looks_calls _ _ calls_behave)|]. vm_compute. reflexivity. Qed.

(* The engines of a rule are called on a string exactly if the rule is not blocked and its
   scope includes the path of the string. *)
Theorem C99_scope :
  forall I fuel h srt sc cs blocked e strs e' outs calls i p c, calls_of sc cs -> strings_of (ev_ops I e) = Some strs ->
  scan_calls I fuel h srt sc cs blocked e = Ret (e', outs, calls) ->
  (exists k, In (i, p, c, k) calls) <->
  In (p, c) strs /\ ~ In i blocked /\ exists r, nth_error (sc_rules sc) i = Some r /\ included (sc_wild sc) (rule_scope r) p.
Proof. exact c99_scope_lemma. Qed.
Print Assumptions C99_scope.

Example C99_scope_applies :
  let e := SMap [(chars "f", SString (chars "key 5"))] in
  calls_of calls_scanner (map regex_calls calls_rules) /\ strings_of (ev_ops simple_event_impl e) = Some (simple_strings e) /\
  scan_calls simple_event_impl 100 ex_hash isort calls_scanner (map regex_calls calls_rules) [0] e =
    Ret (e, [], [(1, [Field (chars "f")], chars "key 5", CallKeyword 0); (1, [Field (chars "f")], chars "key 5", CallRule 0)]).
Proof. intros e. split; [exact (looks_calls _ _ calls_behave)|]. split; [apply simple_strings_of|]. vm_compute. reflexivity. Qed.

(* A rule without included keywords searches each offset of a string at most once, going
   upwards: at most once per character and once at the end.  Excluded keywords are looked for
   at most once per character.  No other engine is called. *)
Theorem C99_plain :
  forall r at_ occ c p excl tp kw x fuel ms x' calls, regex_ok r at_ occ -> rr_included r = None ->
  regex_string_matches_calls fuel r c p excl tp kw x = Ret (ms, x', calls) ->
  StronglySorted lt (rule_starts calls) /\ (forall i, In i (rule_starts calls) -> boundary c i) /\
  StronglySorted lt (windows calls) /\ (forall i, In i (windows calls) -> boundary c i) /\
  length (rule_starts calls) <= length c + 1 /\ length (windows calls) <= length c /\
  length calls = length (rule_starts calls) + length (windows calls).
Proof. exact c99_plain_lemma. Qed.
Print Assumptions C99_plain.

(* "no" bars the first 12; the 2 is then looked at *)
Example C99_plain_applies :
  regex_ok barred_digits (match_at two_digits) (fun _ _ _ => False) /\ rr_included barred_digits = None /\
  regex_string_matches_calls 100 barred_digits (chars "no 123 some words then 45") [] false [] false [] =
    Ret ([(23, 25)], [], [CallRule 0; CallWindow 3; CallRule 4; CallWindow 4; CallRule 5; CallWindow 23; CallRule 25]).
Proof. split; [split; [apply engine_leftmost|discriminate]|]. split; [reflexivity|]. vm_compute. reflexivity. Qed.

(* With included keywords a rule searches a string of n characters at most 4 n + 3 times,
   however far it looks ahead; its keywords are searched at most n + 2 times. *)
Theorem C99_keywords :
  forall r at_ occ ik c p excl tp kw x fuel ms x' calls, regex_ok r at_ occ -> rr_included r = Some ik ->
  regex_string_matches_calls fuel r c p excl tp kw x = Ret (ms, x', calls) ->
  exists n k, tally_calls of_rule calls n /\ tally_calls of_keywords calls k /\ length calls = n + k /\
    n <= 4 * length c + 3 /\ k <= length c + 2.
Proof. exact c99_keywords_lemma. Qed.
Print Assumptions C99_keywords.

Example C99_keywords_applies :
  regex_ok checked_rule (match_at two_digits) (occurrence [chars "key"]) /\ rr_included checked_rule <> None /\
  regex_string_matches_calls 100 checked_rule (chars "key 55 key 11 55") [Field (chars "key")] false [] true [] =
    Ret ([(4, 6); (14, 16); (4, 6); (14, 16)], [],
         [CallKeyword 0; CallRule 0; CallRule 6; CallRule 12; CallKeyword 6; CallRule 7; CallRule 12; CallRule 16;
          CallPresence; CallPath; CallRule 0; CallRule 6; CallRule 12; CallRule 16]).
Proof. split; [apply checked_rule_ok|]. split; [discriminate|]. vm_compute. reflexivity. Qed.

(* "A rule never searches a string twice from the same offset" is false with included
   keywords: the text up to a match too far from one keyword is searched again for the next. *)
Theorem C99_again_refuted :
  exists r at_ occ c ms calls, regex_ok r at_ occ /\
  regex_string_matches_calls 100 r c [] false [] false [] = Ret (ms, [], calls) /\ ~ NoDup calls.
Proof. exact c99_again_refuted_lemma. Qed.
Print Assumptions C99_again_refuted.

Example C99_again_refuted_applies :
  regex_string_matches_calls 100 checked_rule (chars "key .... key 11 55") [] false [] false [] =
    Ret ([(16, 18)], [], [CallKeyword 0; CallRule 0; CallRule 14; CallKeyword 8; CallRule 9; CallRule 14; CallRule 18]).
Proof. vm_compute. reflexivity. Qed.

(* A scan of S strings with N characters by R rules calls engines at most 5 R (N + S) times. *)
Theorem C99_scan :
  forall I fuel h srt sc cs blocked e strs e' outs calls, engines_behave sc cs -> strings_of (ev_ops I e) = Some strs ->
  scan_calls I fuel h srt sc cs blocked e = Ret (e', outs, calls) ->
  length calls <= 5 * length (sc_rules sc) * (list_sum (map (fun pc => length (snd pc)) strs) + length strs).
Proof. exact c99_scan_lemma. Qed.
Print Assumptions C99_scan.

Example C99_scan_applies :
  let e := SMap [(chars "f", SString (chars "key 55 key 11 55")); (chars "g", SString (chars "12"))] in
  engines_behave calls_scanner (map regex_calls calls_rules) /\ strings_of (ev_ops simple_event_impl e) = Some (simple_strings e) /\
  list_sum (map (fun pc => length (snd pc)) (simple_strings e)) = 18 /\ length (simple_strings e) = 2 /\
  (let* r := scan_calls simple_event_impl 100 ex_hash isort calls_scanner (map regex_calls calls_rules) [] e in Ret (length (snd r))) = Ret 19.
Proof.
  intros e. split; [exact calls_behave|]. split; [apply simple_strings_of|]. split; [reflexivity|]. split; [reflexivity|]. vm_compute. reflexivity.
Qed.

(* The bound holds of every scanner that can be built. *)
Theorem C99_built :
  forall en fold b at_ t I fuel h srt blocked e strs, build en b = Ret (Ok t) -> behaves en fold b at_ ->
  strings_of (ev_ops I e) = Some strs ->
  exists cs, calls_of (bt_scanner t) cs /\
  forall e' outs calls, scan_calls I fuel h srt (bt_scanner t) cs blocked e = Ret (e', outs, calls) ->
  length calls <= 5 * length (bu_rules b) * (list_sum (map (fun pc => length (snd pc)) strs) + length strs).
Proof. exact c99_built_lemma. Qed.
Print Assumptions C99_built.

Example C99_built_applies :
  let rules := [ex_plain; ex_keyed; ex_barred] in
  (exists t, build literal_engines (ex_builder rules) = Ret (Ok t)) /\ behaves literal_engines (fun c => c) (ex_builder rules) (ex_at rules) /\
  strings_of (ev_ops simple_event_impl ex_mixed) = Some (simple_strings ex_mixed) /\
  list_sum (map (fun pc => length (snd pc)) (simple_strings ex_mixed)) = 37.
Proof.
  intros rules. split.
  { destruct (on_built_spec _ (fun _ => tt) (build literal_engines (ex_builder rules)) tt) as (t & E & _); [vm_compute; reflexivity|eauto]. }
  split; [apply ex_behaves, incl_refl|]. split; [apply simple_strings_of|]. reflexivity.
Qed.

