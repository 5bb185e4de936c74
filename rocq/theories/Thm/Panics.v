(* Exactly when a scan panics (C10, C40) *)
From Coq Require Import Lia Permutation.
From Verif Require Import Proofs.PanicsClaims Proofs.Search Proofs.Events Proofs.RegexScan Thm.EndToEnd Examples.Codec.

(* C10, exactly.  A scan of a SimpleEvent by regex rules panics iff some rule that is not
   blocked trips over some string in its scope: the rule has excluded keywords and no
   included ones, and the search of the string comes to a candidate whose window is
   reversed (see C22).  In all other cases the scan returns. *)
Theorem C10_exact :
  forall srt sc rrs ats occs e fuel h blocked,
  sorter_ok srt -> distinct_keys e -> made_of sc rrs ats occs -> enough_fuel fuel (simple_strings e) ->
  (scan simple_event_impl fuel h srt sc blocked e = Panic <-> scan_trips sc rrs ats blocked (simple_strings e)) /\
  (~ scan_trips sc rrs ats blocked (simple_strings e) ->
   exists e' outs, scan simple_event_impl fuel h srt sc blocked e = Ret (e', outs)).
Proof. exact c10_exact_lemma. Qed.
Print Assumptions C10_exact.

(* "----é1" makes the scan panic, unless the rule is blocked or not in scope; "x----é1"
   does not, although its window is reversed as well: a match covers it. *)
Example C10_exact_applies :
  sorter_ok isort /\ distinct_keys (late_event dashed) /\
  made_of (late_scanner everywhere) (fun _ => late_rule) (fun _ => match_at late) (fun _ _ _ _ => False) /\
  enough_fuel 100 (simple_strings (late_event (120%N :: dashed))) /\
  scan simple_event_impl 100 ex_hash isort (late_scanner everywhere) [] (late_event dashed) = Panic /\
  option_map fst (on_ret (scan simple_event_impl 100 ex_hash isort (late_scanner everywhere) [0] (late_event dashed))) = Some (late_event dashed) /\
  option_map fst (on_ret (scan simple_event_impl 100 ex_hash isort (late_scanner (ScopeInclude [[Field (chars "a")]] [])) [] (late_event dashed))) = Some (late_event dashed) /\
  option_map fst (on_ret (scan simple_event_impl 100 ex_hash isort (late_scanner everywhere) [] (late_event (120%N :: dashed)))) = Some (late_event (chars "*")) /\
  (exists a b, match_at late (120%N :: dashed) a = Some b /\ window_reversed late_rule (120%N :: dashed) a) /\
  scan_trips (late_scanner everywhere) (fun _ => late_rule) (fun _ => match_at late) [] (simple_strings (late_event dashed)) /\
  ~ scan_trips (late_scanner everywhere) (fun _ => late_rule) (fun _ => match_at late) [] (simple_strings (late_event (120%N :: dashed))).
Proof.
  assert (F : forall s, nbytes s <= 20 -> enough_fuel 100 (simple_strings (late_event s))).
  { intros s Hs p c [E|[E|[]]]; injection E as <- <-; [vm_compute|]; lia. }
  assert (F1 : nbytes dashed <= 20) by (vm_compute; lia).
  assert (F2 : nbytes (120%N :: dashed) <= 20) by (vm_compute; lia).
  split; [exact isort_ok|]. split; [apply late_distinct|]. split; [apply late_made|]. split; [apply F, F2|].
  assert (P : scan simple_event_impl 100 ex_hash isort (late_scanner everywhere) [] (late_event dashed) = Panic) by (vm_compute; reflexivity).
  assert (R : option_map fst (on_ret (scan simple_event_impl 100 ex_hash isort (late_scanner everywhere) [] (late_event (120%N :: dashed)))) = Some (late_event (chars "*")))
    by (vm_compute; reflexivity).
  split; [exact P|]. split; [vm_compute; reflexivity|]. split; [vm_compute; reflexivity|]. split; [exact R|]. split.
  { exists 5, 8. split; [reflexivity|]. exists (excluded_engine 3 (map word_pattern [chars "no"])). split; [reflexivity|]. exact (late_reversed [120%N]). }
  split.
  - apply (C10_exact isort _ _ _ _ (late_event dashed) 100 ex_hash [] isort_ok (late_distinct _) (late_made _) (F _ F1)). exact P.
  - intros T. apply (C10_exact isort _ _ _ _ (late_event (120%N :: dashed)) 100 ex_hash [] isort_ok (late_distinct _) (late_made _) (F _ F2)) in T. rewrite T in R. discriminate R.
Qed.

(* What is known about the result of a scan is known whenever the scan returns, also if some
   windows are reversed: every string is scanned as C01 and the claims after it say. *)
Theorem C10_result :
  forall I w srt sc rrs ats occs e strs holds fuel h blocked,
  shifts_additive (ev_enc I) w -> indices_additive (ev_enc I) w -> sorter_ok srt -> event_laws I e strs holds ->
  enough_fuel fuel strs -> made_of sc rrs ats occs ->
  forall e' outs, scan I fuel h srt sc blocked e = Ret (e', outs) ->
  scan_result I strs holds e' outs (string_scanned sc (finders sc) blocked (ev_enc I) w h strs).
Proof. exact c10_result_lemma. Qed.
Print Assumptions C10_result.

Example C10_result_applies :
  shifts_additive (ev_enc simple_event_impl) clen /\ indices_additive (ev_enc simple_event_impl) clen /\ sorter_ok isort /\
  (let e := late_event (120%N :: dashed) in event_laws simple_event_impl e (simple_strings e) (simple_holds e) /\ enough_fuel 100 (simple_strings e) /\
   ~ scannable late_rule (match_at late) (120%N :: dashed) /\
   exists outs, scan simple_event_impl 100 ex_hash isort (late_scanner everywhere) [] e = Ret (late_event (chars "*"), outs)) /\
  made_of (late_scanner everywhere) (fun _ => late_rule) (fun _ => match_at late) (fun _ _ _ _ => False).
Proof.
  split; [exact utf8_shifts|]. split; [exact utf8_indices|]. split; [exact isort_ok|]. split; [|apply late_made].
  intros e. split; [|split; [|split]].
  - apply simple_laws, late_distinct.
  - intros p c [E|[E|[]]]; injection E as <- <-; vm_compute; lia.
  - intros H. apply (H eq_refl (excluded_engine 3 (map word_pattern [chars "no"])) 5 8 eq_refl eq_refl). exact (late_reversed [120%N]).
  - eexists. vm_compute. reflexivity.
Qed.

(* Strings of one-byte characters never make a scan panic. *)
Theorem C10_ascii :
  forall srt sc rrs ats occs e fuel h blocked,
  sorter_ok srt -> distinct_keys e -> made_of sc rrs ats occs -> enough_fuel fuel (simple_strings e) ->
  (forall p c, In (p, c) (simple_strings e) -> Forall (fun ch => (ch < 128)%N) c) ->
  exists e' outs, scan simple_event_impl fuel h srt sc blocked e = Ret (e', outs).
Proof. exact c10_ascii_lemma. Qed.
Print Assumptions C10_ascii.

Example C10_ascii_applies :
  sorter_ok isort /\ distinct_keys (late_event (chars "no x------ 1")) /\
  made_of (late_scanner everywhere) (fun _ => late_rule) (fun _ => match_at late) (fun _ _ _ _ => False) /\
  (let e := late_event (chars "no x------ 1") in enough_fuel 100 (simple_strings e) /\
   forall p c, In (p, c) (simple_strings e) -> Forall (fun ch => (ch < 128)%N) c).
Proof.
  split; [exact isort_ok|]. split; [|split; [apply late_made|split]].
  - apply late_distinct.
  - intros p c [E|[E|[]]]; injection E as <- <-; vm_compute; lia.
  - intros p c [E|[E|[]]]; injection E as <- <-; repeat constructor.
Qed.

(* For scanners that can be built: the scan panics iff a rule that is not blocked trips over
   a string in its scope; otherwise it returns.  The rules are those compiled from the
   configurations, and only those with excluded keywords and no included ones trip. *)
Theorem C10_built :
  forall en fold b at_ t, build en b = Ret (Ok t) -> behaves en fold b at_ ->
  exists rrs, (forall i c, nth_error (bu_rules b) i = Some c -> compiled_from en c i (rrs i)) /\
  forall srt e fuel h blocked, sorter_ok srt -> distinct_keys e -> enough_fuel fuel (simple_strings e) ->
  let tripping := exists i c p s, nth_error (bu_rules b) i = Some c /\ ~ In i blocked /\ In (p, s) (simple_strings e) /\
    included (bu_wild b) (cf_scope c) p /\ rr_included (rrs i) = None /\ trips (rrs i) (at_ i) s 0 in
  (scan simple_event_impl fuel h srt (bt_scanner t) blocked e = Panic <-> tripping) /\
  (~ tripping -> exists e' outs, scan simple_event_impl fuel h srt (bt_scanner t) blocked e = Ret (e', outs)).
Proof. exact c10_built_lemma. Qed.
Print Assumptions C10_built.

Example C10_built_applies :
  let rules := [ex_plain; ex_keyed; ex_barred] in
  (exists t, build literal_engines (ex_builder rules) = Ret (Ok t)) /\ behaves literal_engines (fun c => c) (ex_builder rules) (ex_at rules) /\
  sorter_ok isort /\ distinct_keys ex_mixed /\ enough_fuel 100 (simple_strings ex_mixed).
Proof.
  intros rules. split.
  { destruct (on_built_spec _ (fun _ => tt) (build literal_engines (ex_builder rules)) tt) as (t & E & _); [vm_compute; reflexivity|eauto]. }
  split; [apply ex_behaves, incl_refl|]. split; [exact isort_ok|]. destruct ex_mixed_ok as (A & B & _). auto.
Qed.

(* Scans that panic.  The native library panics on a map event exactly if the direct scan
   does; Go then gets an error and its event stays as it was. *)
Theorem C40_error :
  forall srt sc rrs ats occs m gm fuel h,
  sorter_ok srt -> made_of sc rrs ats occs -> distinct_keys (SMap m) -> enough_fuel fuel (simple_strings (SMap m)) ->
  go_image (SMap m) (GMap gm) -> go_fits (GMap gm) ->
  exists data, go_encode (GMap gm) = Ok data /\
    (native_scan fuel h srt sc data = Panic <-> scan simple_event_impl fuel h srt sc [] (SMap m) = Panic) /\
    native_scan fuel h srt sc data <> Diverge /\
    (scan simple_event_impl fuel h srt sc [] (SMap m) = Panic ->
     go_scan_events_map (native_scan fuel h srt sc) gm = Ret (Err tt, GMap gm)).
Proof. exact c40_error_lemma. Qed.
Print Assumptions C40_error.

Example C40_error_applies :
  let gm := go_entries_of (to_go (late_event dashed)) in
  sorter_ok isort /\ made_of (late_scanner everywhere) (fun _ => late_rule) (fun _ => match_at late) (fun _ _ _ _ => False) /\
  distinct_keys (late_event dashed) /\ enough_fuel 100 (simple_strings (late_event dashed)) /\
  go_image (late_event dashed) (GMap gm) /\ go_fits (GMap gm) /\
  go_scan_events_map (native_scan 100 ex_hash isort (late_scanner everywhere)) gm = Ret (Err tt, GMap gm).
Proof.
  intros gm. split; [exact isort_ok|]. split; [apply late_made|]. split; [apply late_distinct|].
  split; [intros p c [E|[E|[]]]; injection E as <- <-; vm_compute; lia|].
  split; [apply (to_go_image (late_event dashed)); reflexivity|]. split; [apply (small_fits (to_go (late_event dashed))); reflexivity|].
  vm_compute. reflexivity.
Qed.

(* The same for a single string of arbitrary bytes. *)
Theorem C40_string_error :
  forall srt sc rrs ats occs b fuel h,
  sorter_ok srt -> made_of sc rrs ats occs -> (N.of_nat (length b) < two32)%N ->
  let s := from_utf8_lossy b in
  nbytes s + 2 <= fuel ->
  (native_scan fuel h srt sc (go_encode_string b) = Panic <-> scan string_event fuel h srt sc [] s = Panic) /\
  native_scan fuel h srt sc (go_encode_string b) <> Diverge /\
  (scan string_event fuel h srt sc [] s = Panic -> go_scan (native_scan fuel h srt sc) b = Ret (Err tt)).
Proof. exact c40_string_error_lemma. Qed.
Print Assumptions C40_string_error.

(* the first byte is no UTF-8, the dashes are *)
Example C40_string_error_applies :
  let b := (255 :: chars "----" ++ [195; 169; 49])%N in
  sorter_ok isort /\ made_of (late_scanner everywhere) (fun _ => late_rule) (fun _ => match_at late) (fun _ _ _ _ => False) /\
  (N.of_nat (length b) < two32)%N /\ nbytes (from_utf8_lossy b) + 2 <= 100 /\
  go_scan (native_scan 100 ex_hash isort (late_scanner everywhere)) b = Ret (Err tt).
Proof.
  intros b. split; [exact isort_ok|]. split; [apply late_made|]. split; [reflexivity|]. split; [vm_compute; lia|]. vm_compute. reflexivity.
Qed.

(* All scans of map events.  Whatever the direct scan does, the binding does: if it returns,
   Go gets the same event and the same matches; if it panics, Go gets an error and keeps its
   event. *)
Theorem C40_equal :
  forall srt sc rrs ats occs m gm fuel h,
  sorter_ok srt -> made_of sc rrs ats occs -> distinct_keys (SMap m) -> enough_fuel fuel (simple_strings (SMap m)) ->
  go_image (SMap m) (GMap gm) -> go_fits (GMap gm) -> go_short (GMap gm) ->
  text_stays h sc -> (N.of_nat (length (sc_rules sc)) <= two32)%N ->
  (forall data, go_encode (GMap gm) = Ok data -> response_fits (native_scan fuel h srt sc) data) ->
  match scan simple_event_impl fuel h srt sc [] (SMap m) with
  | Ret (e', outs) => exists v' o outs', go_image e' v' /\
      go_scan_events_map (native_scan fuel h srt sc) gm = Ret (Ok o, v') /\
      Permutation outs outs' /\ Forall2 match_image outs' (so_matches o) /\ (so_mutated o = false -> v' = GMap gm)
  | Panic => go_scan_events_map (native_scan fuel h srt sc) gm = Ret (Err tt, GMap gm)
  | Diverge => False
  end.
Proof. exact c40_equal_lemma. Qed.
Print Assumptions C40_equal.

(* the window of a match is reversed, but an earlier match covers it *)
Lemma late_text : text_stays ex_hash (late_scanner everywhere).
Proof.
  intros r t Hr Ht. destruct Hr as [<-|[]]. cbn [regex_compiled rule_action redacted]. exists (as_bytes (chars "*")). apply utf8_text. reflexivity.
Qed.
Example C40_equal_applies :
  let e := late_event (120%N :: dashed) in let gm := go_entries_of (to_go e) in
  sorter_ok isort /\ made_of (late_scanner everywhere) (fun _ => late_rule) (fun _ => match_at late) (fun _ _ _ _ => False) /\
  distinct_keys e /\ enough_fuel 100 (simple_strings e) /\ go_image e (GMap gm) /\ go_fits (GMap gm) /\ go_short (GMap gm) /\
  text_stays ex_hash (late_scanner everywhere) /\ (N.of_nat (length (sc_rules (late_scanner everywhere))) <= two32)%N /\
  (forall data, go_encode (GMap gm) = Ok data -> response_fits (native_scan 100 ex_hash isort (late_scanner everywhere)) data) /\
  (exists o, go_scan_events_map (native_scan 100 ex_hash isort (late_scanner everywhere)) gm = Ret (Ok o, to_go (late_event (chars "*"))) /\
     length (so_matches o) = 1) /\
  ~ scannable late_rule (match_at late) (120%N :: dashed).
Proof.
  intros e gm. split; [exact isort_ok|]. split; [apply late_made|]. split; [apply late_distinct|].
  split; [intros p c [E|[E|[]]]; injection E as <- <-; vm_compute; lia|].
  split; [apply (to_go_image e); reflexivity|]. split; [apply (small_fits (to_go e)); reflexivity|]. split; [apply (small_short (to_go e)); reflexivity|].
  split; [exact late_text|]. split; [vm_compute; discriminate|]. split; [|split].
  - intros data E. injection E as <-. intros r R. vm_compute in R. injection R as <-. reflexivity.
  - eexists. split; [vm_compute; reflexivity|reflexivity].
  - intros H. apply (H eq_refl (excluded_engine 3 (map word_pattern [chars "no"])) 5 8 eq_refl eq_refl). exact (late_reversed [120%N]).
Qed.

(* The same for single strings. *)
Theorem C40_string_equal :
  forall srt sc rrs ats occs s b fuel h,
  sorter_ok srt -> made_of sc rrs ats occs -> nbytes s + 2 <= fuel -> utf8_of s b -> (N.of_nat (length b) < 2147483648)%N ->
  text_stays h sc -> (N.of_nat (length (sc_rules sc)) <= two32)%N -> response_fits (native_scan fuel h srt sc) (go_encode_string b) ->
  match scan string_event fuel h srt sc [] s with
  | Ret (s', outs) => exists b' o, utf8_of s' b' /\ go_scan (native_scan fuel h srt sc) b = Ret (Ok o) /\ so_event o = b' /\
      Forall2 match_image outs (so_matches o) /\ (so_mutated o = false -> b' = b)
  | Panic => go_scan (native_scan fuel h srt sc) b = Ret (Err tt)
  | Diverge => False
  end.
Proof. exact c40_string_equal_lemma. Qed.
Print Assumptions C40_string_equal.

Example C40_string_equal_applies :
  let s := 120%N :: dashed in let b := as_bytes s in
  sorter_ok isort /\ made_of (late_scanner everywhere) (fun _ => late_rule) (fun _ => match_at late) (fun _ _ _ _ => False) /\
  nbytes s + 2 <= 100 /\ utf8_of s b /\ (N.of_nat (length b) < 2147483648)%N /\ text_stays ex_hash (late_scanner everywhere) /\
  response_fits (native_scan 100 ex_hash isort (late_scanner everywhere)) (go_encode_string b) /\
  exists o, go_scan (native_scan 100 ex_hash isort (late_scanner everywhere)) b = Ret (Ok o) /\ so_event o = chars "*".
Proof.
  intros s b. split; [exact isort_ok|]. split; [apply late_made|]. split; [vm_compute; lia|]. split; [apply utf8_text; reflexivity|].
  split; [reflexivity|]. split; [exact late_text|]. split.
  - intros r R. vm_compute in R. injection R as <-. reflexivity.
  - eexists. split; [vm_compute; reflexivity|reflexivity].
Qed.

