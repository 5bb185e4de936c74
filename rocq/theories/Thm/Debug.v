(* Builds with debug assertions (C97) *)
From Verif Require Import Proofs.DebugClaims Examples.Keywords Examples.GroupData.

(* C97, refuted.  A scan that succeeds in a release build can panic in a build with debug
   assertions: target > prefix_start fails for a match that begins with its keyword. *)
Theorem C97_refuted :
  exists qs sc scd s,
  debug_build qs sc scd /\ regex_scanner sc [([], s)] /\
  (exists e' o, scan string_event 100 ex_hash isort sc [] s = Ret (e', [o])) /\
  scan_debug string_event 100 ex_hash isort scd [] s = Panic.
Proof. exact c97_refuted_lemma. Qed.
Print Assumptions C97_refuted.



(* C97.  So it is always: where the first keyword of the string begins a match of the
   rule, the search of the rule in a debug build panics. *)
Theorem C97_panics :
  forall rr at_ occ ik, regex_ok rr at_ occ -> rr_included rr = Some ik ->
  forall c k ke b, ik_find ik c 0 = Some (k, ke) -> true_positive rr at_ false c k b ->
  forall fuel p kw x, nbytes c + 2 <= fuel ->
  regex_string_matches_debug fuel rr c p false [] kw x = Panic.
Proof. exact c97_panics_lemma. Qed.
Print Assumptions C97_panics.

Example C97_panics_nonvacuous :
  let rr := snd (dbg_rule (text "key")) in
  let at_ := match_at (fun p q => if str_eqb (firstn 3 q) (text "key") then Some 6 else None) in
  let c := text "my key123 " in
  regex_ok rr at_ (occurrence [text "key"]) /\
  (exists ik, rr_included rr = Some ik /\ ik_find ik c 0 = Some (3, 6)) /\
  true_positive rr at_ false c 3 9 /\
  regex_string_matches 50 rr c [] false [] false [] = Ret ([(3, 9)], []).
Proof.
  cbv zeta. split; [apply keyword_ok; repeat constructor|]. split; [eexists; split; reflexivity|].
  split; [|vm_compute; reflexivity].
  split; [vm_compute; reflexivity|]. split; [intros valid t H; discriminate H|discriminate].
Qed.

(* C97.  If no match begins where a keyword of its rule begins, the build with debug
   assertions scans as the release build does: it returns, with the same matches and an
   event holding the same strings. *)
Theorem C97_apart :
  forall qs sc scd, debug_build qs sc scd ->
  forall I w srt e strs holds fuel, keywords_apart qs strs ->
  scan_setting I w srt sc (finders sc) e strs holds fuel ->
  forall h blocked, exists e1 e2 outs,
    scan I fuel h srt sc blocked e = Ret (e1, outs) /\
    scan_debug I fuel h srt scd blocked e = Ret (e2, outs) /\
    exists l, holds e1 l /\ holds e2 l.
Proof. exact c97_apart_lemma. Qed.
Print Assumptions C97_apart.

Lemma dbg_apart : keywords_apart [dbg_rule (text "my")] [([], text "my key123 key456")].
Proof.
  intros i a s v rr H. destruct i as [|[|i]]; try discriminate. injection H as <- <- <- <-.
  split; [reflexivity|]. split; [reflexivity|].
  eexists _, _. split; [apply keyword_ok; repeat constructor|].
  intros p c [E|[]]. injection E as _ <-. split; [discriminate|].
  intros (_ & k & ke & b & Ho & (Ht & _)). unfold occurrence, Engine.holds_at, occurs in Ho.
  apply andb_prop in Ho as [_ Ho].
  do 17 (destruct k as [|k]; [try (vm_compute in Ht; discriminate Ht);
    do 20 (destruct ke as [|ke]; [vm_compute in Ho; discriminate Ho|]); vm_compute in Ho; discriminate Ho|]).
  vm_compute in Ht. discriminate Ht.
Qed.
Example C97_apart_nonvacuous :
  debug_build [dbg_rule (text "my")] (dbg_scanner (release_rule (dbg_rule (text "my"))))
    (dbg_scanner (debug_rule (dbg_rule (text "my")))) /\
  keywords_apart [dbg_rule (text "my")] [([], text "my key123 key456")] /\
  exists outs, scan_debug string_event 100 ex_hash isort (dbg_scanner (debug_rule (dbg_rule (text "my")))) []
    (text "my key123 key456") = Ret (text "my [R] [R]", outs) /\ length outs = 2.
Proof.
  split; [split; reflexivity|]. split; [exact dbg_apart|]. eexists. split; [vm_compute; reflexivity|reflexivity].
Qed.

(* C97.  The assertions of scanner/mod.rs 482-496 never make a difference: whatever the
   rules and the event, they hold whenever the following slice does not panic anyway. *)
Theorem C97_scanner_assertions :
  forall I fuel h srt sc blocked e,
  scan_debug I fuel h srt sc blocked e = scan I fuel h srt sc blocked e.
Proof. exact c97_scanner_assertions_lemma. Qed.
Print Assumptions C97_scanner_assertions.

Example C97_scanner_assertions_nonvacuous :
  exists outs, scan_debug simple_event_impl 100 ex_hash isort ex_scanner [] ex_event = Ret (ex_redacted, outs) /\
    length outs = 6.
Proof. eexists. split; [vm_compute; reflexivity|reflexivity]. Qed.

(* C97.  Whatever the engines, the rules and the event: a build with debug assertions does
   exactly what the release build does, or it panics. *)
Theorem C97_refines :
  forall qs sc scd, debug_build qs sc scd ->
  forall I fuel h srt blocked e, extensional_sort srt ->
  scan_debug I fuel h srt scd blocked e = scan I fuel h srt sc blocked e \/
  scan_debug I fuel h srt scd blocked e = Panic.
Proof. exact c97_refines_lemma. Qed.
Print Assumptions C97_refines.

(* both occur *)
Example C97_refines_nonvacuous :
  let scd := dbg_scanner (debug_rule (dbg_rule (text "key"))) in let sc := dbg_scanner (release_rule (dbg_rule (text "key"))) in
  debug_build [dbg_rule (text "key")] sc scd /\ extensional_sort isort /\
  scan_debug string_event 100 ex_hash isort scd [] (text "no secret") = Ret (text "no secret", []) /\
  scan_debug string_event 100 ex_hash isort scd [] (text "my key123 ") = Panic /\
  scan_debug string_event 100 ex_hash isort scd [0] (text "my key123 ") = Ret (text "my key123 ", []).
Proof.
  cbv zeta. split; [split; reflexivity|]. split; [exact isort_extensional|]. vm_compute. auto.
Qed.

(* C97.  If the two builds differ, then some match of a rule that is not blocked begins, in
   some string of the event, where one of its included keywords begins.  Also scans that
   panic in both builds are covered, and events of every kind. *)
Theorem C97_cause :
  forall qs sc scd, debug_build qs sc scd ->
  forall ats occs, (forall i a s v rr, nth_error qs i = Some (a, s, v, rr) -> regex_ok rr (ats i) (occs i)) ->
  forall I fuel h srt blocked e, extensional_sort srt -> (forall c, In (OpString c) (ev_ops I e) -> nbytes c + 2 <= fuel) ->
  scan_debug I fuel h srt scd blocked e = scan I fuel h srt sc blocked e \/
  (scan_debug I fuel h srt scd blocked e = Panic /\
   exists i a s v rr c, nth_error qs i = Some (a, s, v, rr) /\ ~ In i blocked /\ In (OpString c) (ev_ops I e) /\
     keyword_begins_match rr (ats i) (occs i) c).
Proof. exact c97_cause_lemma. Qed.
Print Assumptions C97_cause.

Example C97_cause_nonvacuous :
  let q := dbg_rule (text "key") in
  let at_ := match_at (fun p q => if str_eqb (firstn 3 q) (text "key") then Some 6 else None) in
  debug_build [q] (dbg_scanner (release_rule q)) (dbg_scanner (debug_rule q)) /\
  (forall i a s v rr, nth_error [q] i = Some (a, s, v, rr) -> regex_ok rr at_ (occurrence [text "key"])) /\
  extensional_sort isort /\
  (forall c, In (OpString c) (ev_ops string_event (text "my key123 ")) -> nbytes c + 2 <= 100) /\
  scan_debug string_event 100 ex_hash isort (dbg_scanner (debug_rule q)) [] (text "my key123 ") <>
  scan string_event 100 ex_hash isort (dbg_scanner (release_rule q)) [] (text "my key123 ").
Proof.
  intros q at_. split; [split; reflexivity|]. split; [|split; [exact isort_extensional|split]].
  - intros i a s v rr H. destruct i as [|[|i]]; try discriminate. injection H as <- <- <- <-. apply keyword_ok. repeat constructor.
  - intros c [E|[]]. injection E as <-. vm_compute. repeat constructor.
  - vm_compute. discriminate.
Qed.

