(* Metrics and the size of the shared pool (C74, C75, C76) *)
From Coq Require Import Lia.
From Verif Require Import Proofs.MetricsClaims.

(* the pool gets the least power of two of stacks from 4 to 64 that is not below the count
   it was made for, and 64 when there is none *)
Theorem C74_pool_stacks :
  forall count, exists e, pool_stacks count = 2 ^ e /\ 2 <= e <= 6 /\
  (count <= 64 -> count <= pool_stacks count /\ forall d, 2 <= d -> count <= 2 ^ d -> pool_stacks count <= 2 ^ d) /\
  (64 < count -> pool_stacks count = 64).
Proof. exact c74_pool_stacks_lemma. Qed.
Print Assumptions C74_pool_stacks.

(* the examples of shared_pool.rs *)
Example C74_examples : map pool_stacks [0; 4; 7; 16; 42; 65; 1000] = [4; 4; 8; 16; 64; 64; 64].
Proof. reflexivity. Qed.

(* the metrics change nothing: event, reports and panics are those of the scan without them *)
Theorem C75_same_result :
  forall I fuel h srt sc cs blocked e, searches_of sc cs ->
  (let* r := scan_counted I fuel h srt sc cs blocked e in Ret (fst r)) = scan I fuel h srt sc blocked e.
Proof. exact c75_same_result_lemma. Qed.
Print Assumptions C75_same_result.

(* rule 0: \d\d unless "no" is near; rule 1: "key", and what is found under "skip" is harmless *)
Example C75_same_result_applies : searches_of counted_example counted_searches /\
  scan_counted simple_event_impl 100 ex_hash isort counted_example counted_searches [] counted_event =
  Ret (SMap [(text "a", SString (text "[R] no 345 [R]")); (text "b", SString (text "key")); (text "skip", SString (text "a key"))],
       [{| rm_rule := 0; rm_path := [Field (text "a")]; rm_kind := RKPlaceholder; rm_start := 0; rm_end := 3; rm_shift := 1%Z;
           rm_value := None; rm_status := NotAvailable |};
        {| rm_rule := 0; rm_path := [Field (text "a")]; rm_kind := RKPlaceholder; rm_start := 11; rm_end := 14; rm_shift := 2%Z;
           rm_value := None; rm_status := NotAvailable |}],
       [EmKeyword 0; EmKeyword 0; EmExcluded 1; EmScanned; EmMatches 2]).
Proof.
  split; [|vm_compute; reflexivity].
  repeat (constructor; [do 4 eexists; split; reflexivity|]). constructor.
Qed.

(* What one scan adds: one scanned event, as many matches as it reports; for each rule, once
   for each match in scope whose text was also found in an excluded path, and once for each
   offset in the strings it was run on where its regex matches behind an excluded keyword,
   outside the matches that count. *)
Theorem C75_counts :
  forall I w sc cs rrs ats blocked srt e strs holds h fuel,
  scan_setting I w srt sc (finders sc) e strs holds fuel -> counted_scanner sc cs rrs ats strs ->
  exists e' outs em, scan_counted I fuel h srt sc cs blocked e = Ret (e', outs, em) /\
    scan I fuel h srt sc blocked e = Ret (e', outs) /\
    tally (eq EmScanned) em 1 /\ tally (fun a => exists n, a = EmMatches n) em 1 /\ In (EmMatches (length outs)) em /\
    (forall i, exists ns, tally (eq (EmExcluded i)) em (list_sum ns) /\
       Forall2 (fun pc n => multipass_hits sc (finders sc) blocked strs i (fst pc) (snd pc) n) strs ns) /\
    (forall i, exists ns, tally (eq (EmKeyword i)) em (list_sum ns) /\
       Forall2 (fun pc n => keyword_hits_at sc blocked i (rrs i) (ats i) (fst pc) (snd pc) n) strs ns).
Proof. exact c75_counts_lemma. Qed.
Print Assumptions C75_counts.

Example C75_counts_applies : scan_setting simple_event_impl clen isort counted_example (finders counted_example) counted_event
    (simple_strings counted_event) (simple_holds counted_event) 100 /\
  counted_scanner counted_example counted_searches counted_rules (fun i => match_at (match i with 0 => digits 2 | _ => Engine.literal (text "key") end))
    (simple_strings counted_event).
Proof. exact counted_example_ok. Qed.

(* The counters of a scanner that was built, after any scans that ended: scans, reported
   matches; and for each rule its own counters, under the labels of the scanner followed by
   those of the rule.  Rules with the same labels share one counter. *)
Theorem C75_values :
  forall en b t, build en b = Ret (Ok t) -> (exists cs, searches_of (bt_scanner t) cs) /\
  forall cs, searches_of (bt_scanner t) cs -> forall runs : list (list rule_match * list emission),
  Forall (fun run => exists I fuel h srt blocked e e',
            scan_counted I fuel h srt (bt_scanner t) cs blocked e = Ret (e', fst run, snd run)) runs ->
  let em := flat_map snd runs in
  let value k n := counter_value (bt_labels t) (bt_rule_labels t) k em n in
  value (chars "scanned_events", bu_labels b) (length runs) /\
  value (chars "scanning.match_count", bu_labels b) (list_sum (map (fun run => length (fst run)) runs)) /\
  (forall ls n, value (chars "false_positive.multipass.excluded_match", ls) n <->
     tally (fun a => exists i c, nth_error (bu_rules b) i = Some c /\ bu_labels b ++ cf_labels c = ls /\ a = EmExcluded i) em n) /\
  (forall ls n, value (chars "false_positive.proximity_keywords", ls ++ [(chars "type", chars "excluded_keywords")]) n <->
     tally (fun a => exists i c, nth_error (bu_rules b) i = Some c /\ bu_labels b ++ cf_labels c = ls /\ a = EmKeyword i) em n).
Proof. exact c75_values_lemma. Qed.
Print Assumptions C75_values.

(* the tests of metrics in scanner/mod.rs *)
Example C75_test_scanning : test_counts ActNone everywhere (plain_rule 0 (Engine.literal (text "bcdef")))
  (SMap [(text "key1", SString (text "bcdef")); (text "key2", SString (text "no match"))]) = Some [EmScanned; EmMatches 1].
Proof. vm_compute. reflexivity. Qed.
Example C75_test_excluded_match : test_counts ActNone (ScopeExclude [[Field (text "test")]]) (plain_rule 0 (Engine.literal (text "bcdef")))
  (SMap [(text "z-match", SString (text "bcdef")); (text "test", SString (text "bcdef"))]) = Some [EmExcluded 0; EmScanned; EmMatches 0].
Proof. vm_compute. reflexivity. Qed.
Example C75_test_excluded_keywords : test_counts (ActRedact (text "[REDACTED]")) everywhere
  (excluding_rule 0 (Engine.literal (text "world")) 30 [text "hello"])
  (SMap [(text "test", SString (text "hello world"))]) = Some [EmKeyword 0; EmScanned; EmMatches 0].
Proof. vm_compute. reflexivity. Qed.
(* two runs of a scanner with two rules that share their labels *)
Example C75_values_applies : exists t, build literal_engines (test_builder [keyword_config; keyword_config]) = Ret (Ok t) /\
  bt_rule_labels t = [[(chars "s", chars "1")]; [(chars "s", chars "1")]] /\
  counter_value (bt_labels t) (bt_rule_labels t)
    (chars "false_positive.proximity_keywords", [(chars "s", chars "1"); (chars "type", chars "excluded_keywords")])
    [EmKeyword 0; EmKeyword 1; EmScanned; EmMatches 0; EmKeyword 1; EmScanned; EmMatches 0] 3.
Proof.
  destruct (on_built_spec _ (fun t => (bt_labels t, bt_rule_labels t)) (build literal_engines (test_builder [keyword_config; keyword_config]))
    ([(chars "s", chars "1")], [[(chars "s", chars "1")]; [(chars "s", chars "1")]])) as (t & E & V); [vm_compute; reflexivity|].
  injection V as V1 V2. exists t. split; [exact E|]. split; [exact V2|]. rewrite V1, V2. cbn [counter_value].
  exists 2. split; [|left; split; reflexivity]. exists 1. split; [|left; split; reflexivity].
  exists 1. split; [|right; split; [discriminate|reflexivity]]. exists 1. split; [|right; split; [discriminate|reflexivity]].
  exists 0. split; [|left; split; reflexivity].
  exists 0. split; [|right; split; [discriminate|reflexivity]]. exists 0. split; [reflexivity|]. right. split; [discriminate|reflexivity].
Qed.

(* The counter of excluded keywords does not count matches: one match of the same rule
   without excluded keywords, twice in the counter, since the search goes on one character
   after each match it drops. *)
Theorem C76_once_refuted :
  let s := text "no 123" in
let with_keyword := excluding_rule 0 (digits 2) 5 [text "no"] in
let without := plain_rule 0 (digits 2) in
regex_string_matches_counted 100 with_keyword s [] false [] false [] = Ret ([], [], 2) /\
regex_string_matches_counted 100 without s [] false [] false [] = Ret ([(3, 5)], [], 0).
Proof. exact c76_once_refuted_lemma. Qed.
Print Assumptions C76_once_refuted.



(* It is never below the number of matches that are missing: those that the rule would
   find with its excluded keywords ignored, that an excluded keyword stands before, and
   that begin outside the matches it does find. *)
Theorem C76_at_least :
  forall r at_ occ c xk n, regex_ok r at_ occ -> rr_included r = None -> rr_excluded r = Some xk -> keyword_hits r at_ c n ->
  exists ms, scan_chain r at_ true c 0 ms /\
  forall lost : list nat, NoDup lost ->
    (forall a, In a lost -> at_ c a <> None /\ excluded_keyword_before xk c a /\ forall m, In m ms -> ~ (fst m <= a < snd m)) ->
    length lost <= n.
Proof. exact c76_at_least_lemma. Qed.
Print Assumptions C76_at_least.

Example C76_at_least_applies : keyword_hits (excluding_rule 0 (digits 2) 5 [text "no"]) (match_at (digits 2)) (text "12 no 345 67") 2.
Proof. exact counted_hits. Qed.

