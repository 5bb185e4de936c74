(* Redaction, reported positions and overlap resolution (C01-C10, C62, C64) *)
From Verif Require Import Proofs.RedactionClaims Examples.Setting.

(* C01.  Every string of the event is cut at the reported matches into gaps and
   pieces; the scanned string consists of the same gaps, with each piece replaced by
   what the action of its rule makes of it. *)
Theorem C01_redaction_is_substitution :
  forall I w srt sc fs e strs holds fuel,
  scan_setting I w srt sc fs e strs holds fuel ->
  forall h blocked e' outs, scan I fuel h srt sc blocked e = Ret (e', outs) ->
  scan_result I strs holds e' outs (fun p c c' os =>
    exists g0 cs, cut_by sc fs blocked h p c c' os g0 cs).
Proof. exact c01_redaction_is_substitution_lemma. Qed.
Print Assumptions C01_redaction_is_substitution.

(* the hypotheses hold for the event and scanner of Examples/Setting.v, and the scan
   really redacts *)
Example C01_nonvacuous :
  scan_setting simple_event_impl clen isort ex_scanner (finders ex_scanner) ex_event
    (simple_strings ex_event) (simple_holds ex_event) 100 /\
  exists outs, scan simple_event_impl 100 ex_hash isort ex_scanner [] ex_event = Ret (ex_redacted, outs) /\
    length outs = 6.
Proof. split; [exact ex_setting|]. eexists. split; [vm_compute; reflexivity|reflexivity]. Qed.

(* C01 for SimpleEvent: the shape of the event is kept, every string is redacted. *)
Theorem C01_simple_event :
  forall srt sc e fuel,
  sorter_ok srt -> distinct_keys e -> regex_scanner sc (simple_strings e) ->
  enough_fuel fuel (simple_strings e) ->
  forall h blocked e' outs, scan simple_event_impl fuel h srt sc blocked e = Ret (e', outs) ->
  exists f : path -> str -> str,
    e' = simple_map f e /\
    forall p c, holds_at e p c -> exists os g0 cs,
      cut_by sc (finders sc) blocked h p c (f p c) os g0 cs /\
      forall o, In o outs /\ rm_path o = p <-> In o os.
Proof. exact c01_simple_event_lemma. Qed.
Print Assumptions C01_simple_event.

Example C01_simple_nonvacuous :
  sorter_ok isort /\ distinct_keys ex_event /\ regex_scanner ex_scanner (simple_strings ex_event) /\
  enough_fuel 100 (simple_strings ex_event).
Proof.
  split; [exact isort_ok|]. split; [exact ex_distinct|]. split; [apply ex_regex_scanner|exact ex_fuel].
Qed.

(* C02.  In the scanned string, the reported range of every match delimits exactly
   the text that the match became. *)
Theorem C02_reported_ranges :
  forall I w srt sc fs e strs holds fuel,
  scan_setting I w srt sc fs e strs holds fuel ->
  forall h blocked e' outs, scan I fuel h srt sc blocked e = Ret (e', outs) ->
  scan_result I strs holds e' outs (fun p c c' os =>
    exists g0 cs, cut_by sc fs blocked h p c c' os g0 cs /\
      forall k o u, nth_error os k = Some o -> nth_error cs k = Some u ->
        exists q, c' = rewritten g0 (firstn k cs) ++ cut_new u ++ q /\
          rm_start o = weight w (rewritten g0 (firstn k cs)) /\
          rm_end o = weight w (rewritten g0 (firstn k cs) ++ cut_new u)).
Proof. exact c02_reported_ranges_lemma. Qed.
Print Assumptions C02_reported_ranges.

(* "7 8", then a two-byte character followed by "12cd345", then "a key" *)
Example C02_nonvacuous :
  exists outs, scan simple_event_impl 100 ex_hash isort ex_scanner [] ex_event = Ret (ex_redacted, outs) /\
    map (fun o => (rm_start o, rm_end o)) outs = [(0, 1); (2, 3); (2, 5); (7, 10); (10, 11); (2, 7)].
Proof. eexists. split; vm_compute; reflexivity. Qed.

(* C03.  shift_offset is the sum of the length changes of this and all earlier
   matches of the string; so the end of the match in the original is its end in the
   scanned string minus the shift. *)
Theorem C03_shift_is_accumulated_change :
  forall I w srt sc fs e strs holds fuel,
  scan_setting I w srt sc fs e strs holds fuel ->
  forall h blocked e' outs, scan I fuel h srt sc blocked e = Ret (e', outs) ->
  scan_result I strs holds e' outs (fun p c c' os =>
    exists g0 cs, cut_by sc fs blocked h p c c' os g0 cs /\
      forall k o u, nth_error os k = Some o -> nth_error cs k = Some u ->
        rm_shift o = fold_right Z.add 0%Z
          (map (fun u => Z.of_nat (weight w (cut_new u)) - Z.of_nat (weight w (cut_old u)))%Z
               (firstn (S k) cs)) /\
        Z.of_nat (weight w (original g0 (firstn k cs) ++ cut_old u)) =
          (Z.of_nat (rm_end o) - rm_shift o)%Z).
Proof. exact c03_shift_is_accumulated_change_lemma. Qed.
Print Assumptions C03_shift_is_accumulated_change.

Example C03_nonvacuous :
  exists outs, scan simple_event_impl 100 ex_hash isort ex_scanner [] ex_event = Ret (ex_redacted, outs) /\
    map rm_shift outs = [0; 0; 1; 2; 2; 2]%Z.
Proof. eexists. split; vm_compute; reflexivity. Qed.

(* C04.  The returned value is the original text of the match; nothing is returned
   when the scanner does not return matches. *)
Theorem C04_match_value_is_original_text :
  forall I w srt sc fs e strs holds fuel,
  scan_setting I w srt sc fs e strs holds fuel ->
  forall h blocked e' outs, scan I fuel h srt sc blocked e = Ret (e', outs) ->
  scan_result I strs holds e' outs (fun p c c' os =>
    exists g0 cs, cut_by sc fs blocked h p c c' os g0 cs /\
      forall k o u, nth_error os k = Some o -> nth_error cs k = Some u ->
        rm_value o = if sc_return_matches sc then Some (cut_old u) else None).
Proof. exact c04_match_value_is_original_text_lemma. Qed.
Print Assumptions C04_match_value_is_original_text.

Example C04_nonvacuous :
  exists outs, scan simple_event_impl 100 ex_hash isort ex_scanner [] ex_event = Ret (ex_redacted, outs) /\
    map rm_value outs = map (fun t => Some t)
      [text "7"; text "8"; text "12"; text "34"; text "5"; text "key"].
Proof. eexists. split; vm_compute; reflexivity. Qed.

(* C05.  Behind the reports of a string stand matches of their rules, in increasing
   order and without overlap, in the original and in the scanned string. *)
Theorem C05_sorted_disjoint_genuine :
  forall I w srt sc fs e strs holds fuel,
  scan_setting I w srt sc fs e strs holds fuel ->
  forall h blocked e' outs, scan I fuel h srt sc blocked e = Ret (e', outs) ->
  scan_result I strs holds e' outs (fun p c c' os =>
    (exists ranges, reports_from sc fs blocked p c os ranges /\
       StronglySorted (fun x y => fst x < snd x /\ snd x <= fst y) ranges) /\
    (forall o, In o os -> rm_path o = p) /\
    forall i j oi oj, i < j -> nth_error os i = Some oi -> nth_error os j = Some oj ->
      rm_end oi <= rm_start oj).
Proof. exact c05_sorted_disjoint_genuine_lemma. Qed.
Print Assumptions C05_sorted_disjoint_genuine.

(* "12" is found by rule 0 and "1", "2" by rule 2: the candidates overlap *)
Example C05_nonvacuous :
  let c := 233%N :: text "12cd345" in let p := [Field (text "list"); Index 0] in
  candidate ex_scanner (finders ex_scanner) [] p c (0, 2, 4) /\
  candidate ex_scanner (finders ex_scanner) [] p c (2, 2, 3) /\
  candidate ex_scanner (finders ex_scanner) [] p c (2, 3, 4).
Proof.
  assert (Hi : forall p, included false everywhere p) by exact (fun _ => I).
  assert (Hx : forall p, ~ excluded false everywhere p) by (intros p (sp & [] & _)).
  repeat split; eexists; (split; [reflexivity|]); (split; [intros []|]);
    (split; [apply Hi|]); (split; [apply Hx|]); vm_compute; auto.
Qed.

(* C06.  The reported matches are genuine, and a match found by a rule (and not
   suppressed by multi-pass) is reported exactly if no reported match beats it and
   shares a byte with it. *)
Theorem C06_greedy_by_priority :
  forall I w srt sc fs e strs holds fuel,
  scan_setting I w srt sc fs e strs holds fuel ->
  forall h blocked e' outs, scan I fuel h srt sc blocked e = Ret (e', outs) ->
  scan_result I strs holds e' outs (fun p c c' os =>
    exists ranges, reports_from sc fs blocked p c os ranges /\
      (forall k, In k (reported os ranges) ->
         candidate sc fs blocked p c k /\ ~ suppressed sc fs blocked strs c k) /\
      forall k, candidate sc fs blocked p c k -> ~ suppressed sc fs blocked strs c k ->
        (In k (reported os ranges) <->
         ~ exists k', In k' (reported os ranges) /\ beats sc k' k /\ share_byte k' k)).
Proof. exact c06_greedy_by_priority_lemma. Qed.
Print Assumptions C06_greedy_by_priority.

(* C05_nonvacuous shows overlapping candidates; here "12" beats "1" *)
Example C06_nonvacuous : beats ex_scanner (0, 2, 4) (2, 2, 3) /\ share_byte (0, 2, 4) (2, 2, 3).
Proof.
  split.
  - left. split; [eexists; split; [reflexivity|discriminate]|].
    intros (r & Hr & Hn). injection Hr as <-. apply Hn. reflexivity.
  - exists 2. auto.
Qed.

(* C06.  A match of a mutating rule that is not reported shares a byte with a reported
   match of a mutating rule; and a match that shares no byte with a reported match is
   reported. *)
Theorem C06_mutating_never_lost :
  forall I w srt sc fs e strs holds fuel,
  scan_setting I w srt sc fs e strs holds fuel ->
  forall h blocked e' outs, scan I fuel h srt sc blocked e = Ret (e', outs) ->
  scan_result I strs holds e' outs (fun p c c' os =>
    exists ranges, reports_from sc fs blocked p c os ranges /\
      forall k, candidate sc fs blocked p c k -> ~ suppressed sc fs blocked strs c k ->
        ~ In k (reported os ranges) ->
        exists k', In k' (reported os ranges) /\ share_byte k' k /\
          (mutating_rule sc (fst (fst k)) -> mutating_rule sc (fst (fst k')))).
Proof. exact c06_mutating_never_lost_lemma. Qed.
Print Assumptions C06_mutating_never_lost.

Example C06_mutating_nonvacuous : mutating_rule ex_scanner 0 /\ ~ mutating_rule ex_scanner 2.
Proof.
  split; [eexists; split; [reflexivity|discriminate]|].
  intros (r & Hr & Hn). injection Hr as <-. apply Hn. reflexivity.
Qed.

(* C07.  Two scanners whose rules find the same ranges and texts, in whatever order
   and multiplicity, with whatever (correct) sorting functions, report the same and
   leave the same strings. *)
Theorem C07_discovery_order_irrelevant :
  forall I w srt1 srt2 sc1 sc2 fs1 fs2 e strs holds fuel1 fuel2,
  scan_setting I w srt1 sc1 fs1 e strs holds fuel1 ->
  scan_setting I w srt2 sc2 fs2 e strs holds fuel2 ->
  similar sc1 sc2 -> (forall i, same_finder (fs1 i) (fs2 i)) ->
  forall h blocked e1 outs1 e2 outs2,
  scan I fuel1 h srt1 sc1 blocked e = Ret (e1, outs1) ->
  scan I fuel2 h srt2 sc2 blocked e = Ret (e2, outs2) ->
  outs1 = outs2 /\ exists l, holds e1 l /\ holds e2 l.
Proof. exact c07_discovery_order_irrelevant_lemma. Qed.
Print Assumptions C07_discovery_order_irrelevant.

(* another sorting function: insertion sort of the reversed list *)
Definition isort_rev : sorter := fun A cmp l => isort A cmp (rev l).
Lemma isort_rev_ok : sorter_ok isort_rev.
Proof.
  intros A cmp l Hp. destruct (isort_ok A cmp (rev l) Hp) as [H1 H2]. split; [|exact H2].
  rewrite <- H1. apply Permutation_rev.
Qed.
Example C07_nonvacuous :
  scan_setting simple_event_impl clen isort_rev ex_scanner (finders ex_scanner) ex_event
    (simple_strings ex_event) (simple_holds ex_event) 50 /\
  similar ex_scanner ex_scanner /\ (forall i, same_finder (finders ex_scanner i) (finders ex_scanner i)) /\
  isort_rev _ Nat.compare [3; 1; 2] = [1; 2; 3].
Proof.
  split; [|split; [|split]].
  - apply simple_setting; [exact isort_rev_ok|exact ex_distinct|apply ex_regex_scanner|].
    intros p c H. apply Nat.leb_le. revert p c H.
    assert (H : forall l : list (path * str), forallb (fun pc => nbytes (snd pc) + 2 <=? 50) l = true ->
            forall p c, In (p, c) l -> (nbytes c + 2 <=? 50) = true).
    { intros l Hl p c Hin. rewrite forallb_forall in Hl. exact (Hl _ Hin). }
    apply H. vm_compute. reflexivity.
  - split; try reflexivity. repeat constructor.
  - intros i c p x kw. split; intros; reflexivity.
  - reflexivity.
Qed.

(* C07 for SimpleEvent: the resulting events are equal. *)
Theorem C07_simple_event :
  forall srt1 srt2 sc1 sc2 e fuel1 fuel2,
  sorter_ok srt1 -> sorter_ok srt2 -> distinct_keys e ->
  regex_scanner sc1 (simple_strings e) -> regex_scanner sc2 (simple_strings e) ->
  enough_fuel fuel1 (simple_strings e) -> enough_fuel fuel2 (simple_strings e) ->
  similar sc1 sc2 -> (forall i, same_finder (finders sc1 i) (finders sc2 i)) ->
  forall h blocked,
    scan simple_event_impl fuel1 h srt1 sc1 blocked e = scan simple_event_impl fuel2 h srt2 sc2 blocked e.
Proof. exact c07_simple_event_lemma. Qed.
Print Assumptions C07_simple_event.

Example C07_simple_nonvacuous :
  scan simple_event_impl 100 ex_hash isort ex_scanner [] ex_event =
  scan simple_event_impl 50 ex_hash isort_rev ex_scanner [] ex_event.
Proof. vm_compute. reflexivity. Qed.

(* C07 for overlap resolution alone: it depends only on the set of candidates. *)
Theorem C07_overlap_resolution :
  forall E srt1 srt2 rules (ms1 ms2 out1 out2 : list (internal_match E)),
  sorter_ok srt1 -> sorter_ok srt2 ->
  (forall m, In m ms1 -> im_start m < im_end m) ->
  (forall k, In k (map key ms1) <-> In k (map key ms2)) ->
  sort_and_remove_overlapping_rules srt1 rules ms1 = Ret out1 ->
  sort_and_remove_overlapping_rules srt2 rules ms2 = Ret out2 ->
  map key out1 = map key out2.
Proof. exact c07_overlap_resolution_lemma. Qed.
Print Assumptions C07_overlap_resolution.

Example C07_overlap_nonvacuous :
  let m i a b := @Build_internal_match utf8_encoding i a b tt tt in
  option_map (map key) (match sort_and_remove_overlapping_rules isort ex_rules [m 2 2 3; m 2 3 4; m 0 2 4; m 0 3 5] with Ret x => Some x | _ => None end)
    = Some [(0, 2, 4)] /\
  option_map (map key) (match sort_and_remove_overlapping_rules isort_rev ex_rules [m 0 3 5; m 2 3 4; m 0 2 4; m 2 2 3] with Ret x => Some x | _ => None end)
    = Some [(0, 2, 4)].
Proof. vm_compute. split; reflexivity. Qed.

(* C08.  A string none of whose reports is by a mutating rule is left alone; the
   reports give original positions and no shift. *)
Theorem C08_unredacted_string_unchanged :
  forall I w srt sc fs e strs holds fuel,
  scan_setting I w srt sc fs e strs holds fuel ->
  forall h blocked e' outs, scan I fuel h srt sc blocked e = Ret (e', outs) ->
  scan_result I strs holds e' outs (fun p c c' os =>
    (forall o r, In o os -> rule_of sc o r -> rule_action r = ActNone) ->
    c' = c /\
    forall o, In o os -> rm_shift o = 0%Z /\ exists before m after,
      c = before ++ m ++ after /\
      candidate sc fs blocked p c (rm_rule o, nbytes before, nbytes (before ++ m)) /\
      rm_start o = weight w before /\ rm_end o = weight w (before ++ m)).
Proof. exact c08_unredacted_string_unchanged_lemma. Qed.
Print Assumptions C08_unredacted_string_unchanged.

(* the string "7 8" of the example is only reported *)
Example C08_nonvacuous :
  exists outs o, scan simple_event_impl 100 ex_hash isort ex_scanner [] ex_event = Ret (ex_redacted, outs) /\
    In o outs /\ rm_path o = [Field (text "message")] /\ rm_rule o = 2 /\ rm_start o = 2.
Proof. eexists _, _. split; [vm_compute; reflexivity|]. split; [right; left; reflexivity|]. repeat split. Qed.

(* C08.  A scanner without mutating rules returns the event as it was. *)
Theorem C08_detect_only_scanner :
  forall srt sc e fuel,
  sorter_ok srt -> distinct_keys e -> regex_scanner sc (simple_strings e) ->
  enough_fuel fuel (simple_strings e) ->
  (forall r, In r (sc_rules sc) -> rule_action r = ActNone) ->
  forall h blocked e' outs, scan simple_event_impl fuel h srt sc blocked e = Ret (e', outs) -> e' = e.
Proof. exact c08_detect_only_scanner_lemma. Qed.
Print Assumptions C08_detect_only_scanner.

Definition ex_detect : scanner := {|
  sc_rules := [regex_compiled ActNone everywhere None (plain_rule 0 (digits 1))];
  sc_kw_paths := false; sc_wild := false; sc_multipass := false; sc_return_matches := false
|}.
Example C08_detect_nonvacuous :
  regex_scanner ex_detect (simple_strings ex_event) /\
  (forall r, In r (sc_rules ex_detect) -> rule_action r = ActNone) /\
  exists outs, scan simple_event_impl 100 ex_hash isort ex_detect [] ex_event = Ret (ex_event, outs) /\
    length outs = 7.
Proof.
  split; [|split].
  - intros [|i] r Hr; [|destruct i; discriminate Hr]. injection Hr as <-.
    exists (plain_rule 0 (digits 1)), (match_at (digits 1)), (fun _ _ _ => False). split.
    + exists ActNone, everywhere, None. split; [reflexivity|]. split; [reflexivity|]. split; [reflexivity|apply plain_ok].
    + intros. apply plain_scannable.
  - intros r [<-|[]]. reflexivity.
  - eexists. split; vm_compute; reflexivity.
Qed.

(* C09.  Redacting n >= 1 characters replaces a part of the match on character
   boundaries by n stars: the first (last) n characters if there are more, else
   everything. *)
Theorem C09_partial_redaction :
  forall h d n m, 1 <= n ->
  exists before gone after,
    m = before ++ gone ++ after /\
    get_replacement h (ActPartialRedact d n) m =
      Ret (Some {| rep_start := nbytes before; rep_end := nbytes (before ++ gone);
                   rep_text := repeat 42%N n |}) /\
    (length m <= n -> gone = m) /\
    (n < length m -> length gone = n /\
       match d with FirstCharacters => before = [] | LastCharacters => after = [] end).
Proof. exact c09_partial_redaction_lemma. Qed.
Print Assumptions C09_partial_redaction.

(* characters of one, two and four bytes *)
Example C09_nonvacuous :
  get_replacement ex_hash (ActPartialRedact LastCharacters 2) [97; 233; 128512; 98]%N =
    Ret (Some {| rep_start := 3; rep_end := 8; rep_text := text "**" |}).
Proof. vm_compute. reflexivity. Qed.

(* C10.  The scan of a SimpleEvent by regex rules terminates and does not panic.
   Missing: strings on which the excluded-keyword window of some rule is reversed
   ([scannable], part of [regex_scanner]); see C22. *)
Theorem C10_scan_returns_partial :
  forall srt sc e fuel,
  sorter_ok srt -> distinct_keys e -> regex_scanner sc (simple_strings e) ->
  enough_fuel fuel (simple_strings e) ->
  forall h blocked, exists e' outs, scan simple_event_impl fuel h srt sc blocked e = Ret (e', outs).
Proof. exact c10_scan_returns_partial_lemma. Qed.
Print Assumptions C10_scan_returns_partial.

Example C10_nonvacuous :
  sorter_ok isort /\ distinct_keys ex_event /\ regex_scanner ex_scanner (simple_strings ex_event) /\
  enough_fuel 100 (simple_strings ex_event).
Proof. exact C01_simple_nonvacuous. Qed.

(* C62.  Every match of a mutating rule (not suppressed by multi-pass) shares a byte
   with a piece that was replaced as the action of a mutating rule says. *)
Theorem C62_no_mutating_candidate_survives :
  forall I w srt sc fs e strs holds fuel,
  scan_setting I w srt sc fs e strs holds fuel ->
  forall h blocked e' outs, scan I fuel h srt sc blocked e = Ret (e', outs) ->
  scan_result I strs holds e' outs (fun p c c' os =>
    exists g0 cs, cut_by sc fs blocked h p c c' os g0 cs /\
      forall i a b, candidate sc fs blocked p c (i, a, b) -> ~ suppressed sc fs blocked strs c (i, a, b) ->
        mutating_rule sc i ->
        exists k o u r, nth_error os k = Some o /\ nth_error cs k = Some u /\ rule_of sc o r /\
          rule_action r <> ActNone /\ cut_new u = redacted h (rule_action r) (cut_old u) /\
          exists n, a <= n < b /\
            nbytes (original g0 (firstn k cs)) <= n < nbytes (original g0 (firstn k cs) ++ cut_old u)).
Proof. exact c62_no_mutating_candidate_survives_lemma. Qed.
Print Assumptions C62_no_mutating_candidate_survives.

Example C62_nonvacuous :
  let c := 233%N :: text "12cd345" in let p := [Field (text "list"); Index 0] in
  candidate ex_scanner (finders ex_scanner) [] p c (0, 6, 8) /\ mutating_rule ex_scanner 0.
Proof.
  split; [|exact (proj1 C06_mutating_nonvacuous)].
  eexists. split; [reflexivity|]. split; [intros []|]. split; [exact I|].
  split; [intros (sp & [] & _)|]. vm_compute. auto.
Qed.

(* C64.  Every report names its rule, its path, the replacement type of the action and,
   as initial status, whether the rule has a third-party validator. *)
Theorem C64_reported_metadata :
  forall I w srt sc fs e strs holds fuel,
  scan_setting I w srt sc fs e strs holds fuel ->
  forall h blocked e' outs, scan I fuel h srt sc blocked e = Ret (e', outs) ->
  scan_result I strs holds e' outs (fun p c c' os =>
    forall o, In o os -> exists r, rule_of sc o r /\ rm_path o = p /\ announced (rule_action r) (rm_kind o) /\
      (rm_status o = NotChecked <-> rule_validation r <> None) /\
      (rm_status o = NotAvailable <-> rule_validation r = None)).
Proof. exact c64_reported_metadata_lemma. Qed.
Print Assumptions C64_reported_metadata.

Example C64_nonvacuous :
  exists outs, scan simple_event_impl 100 ex_hash isort ex_scanner [] ex_event = Ret (ex_redacted, outs) /\
    map rm_kind outs = [RKNone; RKNone; RKPlaceholder; RKPlaceholder; RKNone; RKHash].
Proof. eexists. split; vm_compute; reflexivity. Qed.

