(* Regex rules and keywords (C11, C19-C27) *)
From Coq Require Import Sorting.Sorted.
From Verif Require Proofs.Text.
From Verif Require Import Proofs.SearchClaims Examples.Keywords.

(* C11 is refuted: the pattern \b is found, by a leftmost search, to match nothing in
   the empty text, so it is accepted; the scan of "a" never ends. *)
Theorem C11_accepted_pattern_loops_refuted :
  forall convert build input pattern,
  convert input = Ok pattern -> build pattern regex_complexity_limit = Ok boundary_engine ->
  leftmost_any boundary_engine boundary_at /\
  validate_and_create_regex convert build input = Ok boundary_engine /\
  forall fuel h srt,
    let rule := {| rr_index := 0; rr_find := boundary_engine; rr_included := None; rr_excluded := None;
                   rr_validator := None |} in
    let sc := {| sc_rules := [regex_compiled (ActRedact (text "*")) everywhere None rule]; sc_kw_paths := false;
                 sc_wild := false; sc_multipass := false; sc_return_matches := false |} in
    scan string_event fuel h srt sc [] (text "a") = Diverge.
Proof. exact c11_accepted_pattern_loops_refuted_lemma. Qed.
Print Assumptions C11_accepted_pattern_loops_refuted.

Example C11_nonvacuous : exists convert build, convert (text "\b") = @Ok str parse_error (text "\b") /\
  build (text "\b") regex_complexity_limit = @Ok compiled build_error boundary_engine.
Proof. exists (fun s => Ok s), (fun _ _ => Ok boundary_engine). split; reflexivity. Qed.

(* What holds instead: a rule without keywords and validator terminates on a string
   exactly if the repeated search never comes to an empty match. *)
Theorem C11_terminates_iff_nonempty_matches :
  forall i find at_ c p kw, leftmost_any find at_ ->
  let r := {| rr_index := i; rr_find := find; rr_included := None; rr_excluded := None; rr_validator := None |} in
  (exists fuel y, regex_string_matches fuel r c p false [] kw [] = Ret y) <->
  (forall j a, reached find c j -> find c j <> Some (a, a)).
Proof. exact c11_terminates_iff_nonempty_matches_lemma. Qed.
Print Assumptions C11_terminates_iff_nonempty_matches.

Example C11_terminates_nonvacuous :
  leftmost_any boundary_engine boundary_at /\ boundary_engine (text "  ") 0 = None /\
  reached boundary_engine (text " a") 0 /\ boundary_engine (text " a") 0 = Some (1, 1).
Proof. split; [exact boundary_engine_leftmost|]. split; [reflexivity|]. split; [constructor|reflexivity]. Qed.

(* C19.  A rule without included keywords emits validated matches of its regex, in
   increasing order and disjoint, none with an excluded keyword before it. *)
Theorem C19_plain_search :
  forall r at_ occ c p kw fuel x,
  regex_ok r at_ occ -> rr_included r = None -> checkable r at_ c -> nbytes c + 2 <= fuel ->
  exists ms, regex_string_matches fuel r c p false [] kw x = Ret (ms, x) /\
    StronglySorted (fun m1 m2 => snd m1 <= fst m2) ms /\
    forall a b, In (a, b) ms ->
      a < b /\ at_ c a = Some b /\
      (forall valid t, rr_validator r = Some valid -> part_at c a b t -> valid t = true) /\
      (forall xk, rr_excluded r = Some xk -> ~ excluded_keyword_before xk c a).
Proof. exact c19_plain_search_lemma. Qed.
Print Assumptions C19_plain_search.

(* \d\d with excluded keyword "no", look-ahead 5 *)
Example C19_nonvacuous :
  let r := excluding_rule 0 (digits 2) 5 [text "no"] in
  regex_ok r (match_at (digits 2)) (fun _ _ _ => False) /\
  regex_string_matches 100 r (text "12 no 345 67") [] false [] false [] = Ret ([(0, 2); (10, 12)], []).
Proof. split; [apply excluding_ok|vm_compute; reflexivity]. Qed.

(* C19 for scans: whatever is reported for a regex rule is a match of its regex on
   the original string that its validator accepts; without included keywords there is
   no excluded keyword before it. *)
Theorem C19_reported_matches :
  forall I w srt sc e strs holds fuel,
  scan_setting I w srt sc (finders sc) e strs holds fuel -> regex_scanner sc strs ->
  forall h blocked e' outs, scan I fuel h srt sc blocked e = Ret (e', outs) ->
  scan_result I strs holds e' outs (fun p c c' os =>
    exists ranges, reports_from sc (finders sc) blocked p c os ranges /\
      forall k o a b, nth_error os k = Some o -> nth_error ranges k = Some (a, b) ->
        exists rr at_ occ, regex_rule_at sc (rm_rule o) rr at_ occ /\ at_ c a = Some b /\
          (forall valid t, rr_validator rr = Some valid -> part_at c a b t -> valid t = true) /\
          (rr_included rr = None ->
           forall xk, rr_excluded rr = Some xk -> ~ excluded_keyword_before xk c a)).
Proof. exact c19_reported_matches_lemma. Qed.
Print Assumptions C19_reported_matches.

Example C19_reported_nonvacuous :
  scan_setting simple_event_impl clen isort ex_scanner (finders ex_scanner) ex_event
    (simple_strings ex_event) (simple_holds ex_event) 100 /\ regex_scanner ex_scanner (simple_strings ex_event).
Proof. split; [exact ex_setting|apply ex_regex_scanner]. Qed.

(* C20.  Every match that is not a false positive starts in an emitted match. *)
Theorem C20_no_true_positive_is_skipped :
  forall r at_ occ c p kw fuel x,
  regex_ok r at_ occ -> rr_included r = None -> checkable r at_ c -> nbytes c + 2 <= fuel ->
  exists ms, regex_string_matches fuel r c p false [] kw x = Ret (ms, x) /\
    forall a b, at_ c a = Some b ->
      (forall valid t, rr_validator r = Some valid -> part_at c a b t -> valid t = true) ->
      (forall xk, rr_excluded r = Some xk -> ~ excluded_keyword_before xk c a) ->
      exists a' b', In (a', b') ms /\ a' <= a < b'.
Proof. exact c20_no_true_positive_is_skipped_lemma. Qed.
Print Assumptions C20_no_true_positive_is_skipped.

(* \d\d with a validator that wants an even number: 12 is found inside the false
   positives 91 and 12 3 *)
Definition ex_even : regex_rule := {|
  rr_index := 0; rr_find := engine (digits 2); rr_included := None; rr_excluded := None;
  rr_validator := Some (fun t => match rev t with d :: _ => N.even d | [] => false end)
|}.
Example C20_nonvacuous :
  regex_ok ex_even (match_at (digits 2)) (fun _ _ _ => False) /\
  regex_string_matches 100 ex_even (text "9123 5") [] false [] false [] = Ret ([(1, 3)], []).
Proof. split; [split; [apply engine_leftmost|discriminate]|vm_compute; reflexivity]. Qed.

(* C21 is refuted: with included keywords the excluded ones are never looked at. *)
Theorem C21_ignored_with_included_keywords_refuted :
  let r := both_rule 0 (digits 2) 10 [text "kw"] [text "no"] in
let c := text "kw no 11" in
regex_ok r (match_at (digits 2)) (occurrence [text "kw"]) /\
(exists xk, rr_excluded r = Some xk /\ excluded_keyword_before xk c 6) /\
forall fuel x, 10 <= fuel -> regex_string_matches fuel r c [] false [] false x = Ret ([(6, 8)], x).
Proof. exact c21_ignored_with_included_keywords_refuted_lemma. Qed.
Print Assumptions C21_ignored_with_included_keywords_refuted.

(* What holds instead: without included keywords nothing is emitted after an excluded
   keyword. *)
Theorem C21_without_included_keywords :
  forall r at_ occ c p kw fuel x xk a b,
  regex_ok r at_ occ -> rr_included r = None -> rr_excluded r = Some xk -> checkable r at_ c ->
  nbytes c + 2 <= fuel -> excluded_keyword_before xk c a ->
  exists ms, regex_string_matches fuel r c p false [] kw x = Ret (ms, x) /\ ~ In (a, b) ms.
Proof. exact c21_without_included_keywords_lemma. Qed.
Print Assumptions C21_without_included_keywords.

Example C21_nonvacuous : exists xk, rr_excluded (excluding_rule 0 (digits 2) 5 [text "no"]) = Some xk /\
  excluded_keyword_before xk (text "12 no 345 67") 6.
Proof. eexists. split; [reflexivity|]. exists (text "12 no "), 51%N, (text "45 67"). vm_compute. auto. Qed.

(* C22, exactly: the check panics iff the window is full and, without '-' and '_',
   only one character of several bytes is left of the window and the first character
   of the match. *)
Theorem C22_panics_iff_span_reversed :
  forall xk s a, boundary s a -> a < nbytes s ->
  contains_excluded_keyword_match xk s a = Panic <->
  exists before c after x,
    s = before ++ c :: after /\ nbytes before = a /\ xk_look_ahead xk + 1 <= length before /\
    filter not_dash (lastn (xk_look_ahead xk + 1) before ++ [c]) = [x] /\ 2 <= nbytes [x].
Proof. exact c22_panics_iff_span_reversed_lemma. Qed.
Print Assumptions C22_panics_iff_span_reversed.

(* see C22_refuted for a case that panics *)
Example C22_exact_nonvacuous : boundary (text "a----1") 5 /\ 5 < nbytes (text "a----1").
Proof. split; [|vm_compute; auto]. exists (text "a----"), (text "1"). split; reflexivity. Qed.

(* C22 (and with it C10) is refuted: dashes before a match that starts with a
   non-ASCII letter make the scan panic. *)
Theorem C22_excluded_window_panics_refuted :
  let rule := excluding_rule 0 (literal [233%N; 49%N]) 3 [text "no"] in
let sc := {| sc_rules := [regex_compiled (ActRedact (text "*")) everywhere None rule]; sc_kw_paths := false;
             sc_wild := false; sc_multipass := false; sc_return_matches := false |} in
let s := text "----" ++ [233%N; 49%N] in
regex_ok rule (match_at (literal [233%N; 49%N])) (fun _ _ _ => False) /\
(exists xk, rr_excluded rule = Some xk /\ contains_excluded_keyword_match xk s 4 = Panic) /\
forall h, scan string_event 100 h isort sc [] s = Panic.
Proof. exact c22_excluded_window_panics_refuted_lemma. Qed.
Print Assumptions C22_excluded_window_panics_refuted.

(* C23 holds when neither the first character of the match nor the character just
   before the window is '-' or '_': then an excluded keyword is found exactly if it
   occurs in the look-ahead characters before the match. *)
Theorem C23_window :
  forall fold pats xk s a,
  span_search (xk_match_in xk) (kw_occurs fold pats) -> 1 <= xk_look_ahead xk ->
  boundary s a -> a < nbytes s -> context_kept (xk_look_ahead xk) s a ->
  exists v, contains_excluded_keyword_match xk s a = Ret v /\
    (v = true <-> excluded_as_documented fold pats (xk_look_ahead xk) s a).
Proof. exact c23_window_lemma. Qed.
Print Assumptions C23_window.

Example C23_window_nonvacuous :
  let xk := excluded_engine 5 [word_pattern (text "no")] in
  let s := text "12 n-o 345" in
  span_search (xk_match_in xk) (kw_occurs (fun c => c) [word_pattern (text "no")]) /\
  context_kept 5 s 7 /\ contains_excluded_keyword_match xk s 7 = Ret true /\
  contains_excluded_keyword_match xk (text "no 12 345") 6 = Ret false.
Proof.
  split; [apply excluded_engine_ok|]. split; [|split; vm_compute; reflexivity].
  intros before c after E Hb.
  assert (before = text "12 n-o " /\ c :: after = text "345") as [-> E2].
  { apply (Text.app_inj_blen before (c :: after) (text "12 n-o ") (text "345")); [symmetry; exact E|].
    rewrite <- Text.nbytes_blen, Hb. reflexivity. }
  injection E2 as -> _. split; [reflexivity|]. intros x Hx. vm_compute in Hx. injection Hx as <-. reflexivity.
Qed.

(* C23 is refuted in general: (1) a '-' just before the window moves the window, (2) a
   match that starts with '-' cuts the last character off the window; in both cases a
   keyword in the window is missed. *)
Theorem C23_window_shifted_refuted :
  (let xk := excluded_engine 4 [word_pattern (text "foo")] in
 let s := text "-foo 11" in
 excluded_as_documented (fun c => c) [word_pattern (text "foo")] 4 s 5 /\
 contains_excluded_keyword_match xk s 5 = Ret false) /\
(let xk := excluded_engine 9 [word_pattern (text "foo")] in
 let s := text "foo- 11" in
 excluded_as_documented (fun c => c) [word_pattern (text "foo")] 9 s 3 /\
 contains_excluded_keyword_match xk s 3 = Ret false).
Proof. exact c23_window_shifted_refuted_lemma. Qed.
Print Assumptions C23_window_shifted_refuted.

(* C24.  With included keywords (and no search in paths) everything emitted is a true
   positive that starts at or after a keyword start, by at most the look-ahead. *)
Theorem C24_only_after_a_keyword :
  forall r at_ occ ik c p fuel x,
  regex_ok r at_ occ -> rr_included r = Some ik -> nbytes c + 2 <= fuel ->
  exists ms, regex_string_matches fuel r c p false [] false x = Ret (ms, x) /\
    forall a b, In (a, b) ms -> at_ c a = Some b /\
      exists k ke between, occ c k ke /\ part_at c k a between /\ length between <= ik_look_ahead ik.
Proof. exact c24_only_after_a_keyword_lemma. Qed.
Print Assumptions C24_only_after_a_keyword.

Example C24_nonvacuous :
  let r := keyword_rule 0 (digits 2) [text "kw"] 6 in
  regex_ok r (match_at (digits 2)) (occurrence [text "kw"]) /\
  regex_string_matches 100 r (text "11 kw 22 33 44") [] false [] false [] = Ret ([(6, 8); (9, 11)], []).
Proof. split; [apply keyword_ok; auto with arith|vm_compute; reflexivity]. Qed.

(* C24 for scans. *)
Theorem C24_reported_after_a_keyword :
  forall I w srt sc e strs holds fuel,
  scan_setting I w srt sc (finders sc) e strs holds fuel -> sc_kw_paths sc = false ->
  forall h blocked e' outs, scan I fuel h srt sc blocked e = Ret (e', outs) ->
  scan_result I strs holds e' outs (fun p c c' os =>
    exists ranges, reports_from sc (finders sc) blocked p c os ranges /\
      forall k o a b, nth_error os k = Some o -> nth_error ranges k = Some (a, b) ->
        forall rr at_ occ ik, regex_rule_at sc (rm_rule o) rr at_ occ -> rr_included rr = Some ik ->
          exists k ke between, occ c k ke /\ part_at c k a between /\ length between <= ik_look_ahead ik).
Proof. exact c24_reported_after_a_keyword_lemma. Qed.
Print Assumptions C24_reported_after_a_keyword.

Example C24_reported_nonvacuous :
  let sc := {| sc_rules := [regex_compiled (ActRedact (text "*")) everywhere None
                              (keyword_rule 0 (digits 2) [text "kw"] 6)];
               sc_kw_paths := false; sc_wild := false; sc_multipass := false; sc_return_matches := false |} in
  scan_setting string_event clen isort sc (finders sc) (text "11 kw 22") [([], text "11 kw 22")]
    (fun e l => exists b, l = [([], e, b)]) 100 /\
  exists outs, scan string_event 100 ex_hash isort sc [] (text "11 kw 22") = Ret (text "11 kw *", outs).
Proof.
  split; [|eexists; vm_compute; reflexivity]. apply string_setting; [exact isort_ok| |apply Nat.leb_le; reflexivity].
  intros [|i] r Hr; [|destruct i; discriminate Hr]. injection Hr as <-. eexists _, _, _. split.
  - eexists _, _, _. split; [reflexivity|]. split; [reflexivity|]. split; [reflexivity|].
    apply keyword_ok. auto with arith.
  - intros p c _ E. discriminate E.
Qed.

(* C25 is refuted: "22" starts 7 characters after the second "kw" (look-ahead 10), is
   a true positive and overlaps nothing, but is not emitted, since the matches after
   the first keyword end the search for later keywords. *)
Theorem C25_missed_near_a_keyword_refuted :
  let r := keyword_rule 0 (digits 2) [text "kw"] 10 in
let c := text "kw    kw 11  22" in
regex_ok r (match_at (digits 2)) (occurrence [text "kw"]) /\
match_at (digits 2) c 13 = Some 15 /\ occurrence [text "kw"] c 6 8 /\ part_at c 6 13 (text "kw 11  ") /\
forall fuel x, 17 <= fuel -> regex_string_matches fuel r c [] false [] false x = Ret ([(9, 11)], x).
Proof. exact c25_missed_near_a_keyword_refuted_lemma. Qed.
Print Assumptions C25_missed_near_a_keyword_refuted.

(* What holds instead: a true positive behind a keyword, within the look-ahead of its
   start, is covered by an emitted match, or another match starting between the
   keyword and it is emitted. *)
Theorem C25_near_a_keyword :
  forall r at_ occ ik c p kw fuel x,
  regex_ok r at_ occ -> rr_included r = Some ik -> nbytes c + 2 <= fuel ->
  exists ms, regex_string_matches fuel r c p false [] kw x = Ret (ms, x) /\
    forall a b k ke between, at_ c a = Some b ->
      (forall valid t, rr_validator r = Some valid -> part_at c a b t -> valid t = true) ->
      occ c k ke -> ke <= a -> part_at c k a between -> length between <= ik_look_ahead ik ->
      exists a' b', In (a', b') ms /\ a' <= a /\ (a < b' \/ k < a').
Proof. exact c25_near_a_keyword_lemma. Qed.
Print Assumptions C25_near_a_keyword.

Example C25_nonvacuous :
  let c := text "11 kw 22 33 44" in
  match_at (digits 2) c 9 = Some 11 /\ occurrence [text "kw"] c 3 5 /\ part_at c 3 9 (text "kw 22 ").
Proof. split; [reflexivity|]. split; [reflexivity|]. exists (text "11 "), (text "33 44"). auto. Qed.

(* C26.  If paths are searched and the sanitized path contains a keyword, every true
   positive is covered by an emitted match; otherwise the result is the one without
   the search in paths. *)
Theorem C26_keyword_in_path :
  forall r at_ occ ik c p fuel x,
  regex_ok r at_ occ -> rr_included r = Some ik -> nbytes c + 2 <= fuel ->
  exists ms, regex_string_matches fuel r c p false [] true x = Ret (ms, x) /\
    (ik_path_match ik (sanitize p) = true -> forall a b, at_ c a = Some b ->
       (forall valid t, rr_validator r = Some valid -> part_at c a b t -> valid t = true) ->
       exists a' b', In (a', b') ms /\ a' <= a < b') /\
    (ik_path_match ik (sanitize p) = false ->
       forall q, regex_string_matches fuel r c q false [] false x = Ret (ms, x)).
Proof. exact c26_keyword_in_path_lemma. Qed.
Print Assumptions C26_keyword_in_path.

Example C26_nonvacuous :
  let r := keyword_rule 0 (digits 2) [text "kw"] 6 in
  regex_string_matches 100 r (text "11 22") [Field (text "KW")] false [] true [] = Ret ([(0, 2); (3, 5)], []) /\
  regex_string_matches 100 r (text "11 22") [Field (text "k")] false [] true [] = Ret ([], []).
Proof. split; vm_compute; reflexivity. Qed.

(* C27.  The proximity test counts characters. *)
Theorem C27_proximity_in_characters :
  forall s k a between size, part_at s k a between ->
  is_index_within_prefix s k a size = Ret (length between <=? size).
Proof. exact c27_proximity_in_characters_lemma. Qed.
Print Assumptions C27_proximity_in_characters.

(* four characters of two bytes each *)
Example C27_nonvacuous :
  let s := text "k" ++ [233; 233; 233; 233]%N ++ text "1" in
  part_at s 0 9 (text "k" ++ [233; 233; 233; 233]%N) /\
  is_index_within_prefix s 0 9 5 = Ret true /\ is_index_within_prefix s 0 9 4 = Ret false.
Proof.
  split; [|split; reflexivity]. exists [], (text "1"). split; reflexivity || (split; reflexivity).
Qed.

