(* Numbers and booleans of JSON events (C42) *)
From Coq Require Import Lia.
From Verif Require Import Proofs.JsonScalarsClaims Examples.Setting.

(* What a scan of a JSON value does, for all scanners: exactly what it does on the value with
   numbers and booleans written as strings, or it panics.  If it does not panic, numbers
   and booleans are as before. *)
Theorem C42_json_panics :
  forall fuel h srt sc blocked e,
  scan json_event_impl fuel h srt sc blocked e = Panic \/
  match scan json_event_impl fuel h srt sc blocked (as_strings e) with
  | Ret (e1, outs) => exists e', scan json_event_impl fuel h srt sc blocked e = Ret (e', outs) /\ as_strings e' = e1 /\ scalars_kept e e'
  | other => scan json_event_impl fuel h srt sc blocked e = other
  end.
Proof. exact c42_json_panics_lemma. Qed.
Print Assumptions C42_json_panics.

Example C42_json_panics_applies :
  let e := JObject [(text "a", JArray [JNumber (text "5.x"); JString (text "key 12")])] in
  exists outs, scan json_event_impl 100 ex_hash isort ex_scanner [2] e = Ret (JObject [(text "a", JArray [JNumber (text "5.x"); JString (text "#hash [R]")])], outs) /\
    scan json_event_impl 100 ex_hash isort ex_scanner [2] (as_strings e) = Ret (JObject [(text "a", JArray [JString (text "5.x"); JString (text "#hash [R]")])], outs) /\
  scan json_event_impl 100 ex_hash isort ex_scanner [] e = Panic.
Proof. eexists. split; [vm_compute; reflexivity|]. split; vm_compute; reflexivity. Qed.

(* It panics whenever there is something to report about a number or a boolean, also if
   nothing is to be redacted. *)
Theorem C42_json_reported :
  forall fuel h srt sc blocked e e1 outs o s, json_distinct e ->
  scan json_event_impl fuel h srt sc blocked (as_strings e) = Ret (e1, outs) -> In o outs -> json_shown e (rm_path o) s false ->
  scan json_event_impl fuel h srt sc blocked e = Panic.
Proof. exact c42_json_reported_lemma. Qed.
Print Assumptions C42_json_reported.

Example C42_json_reported_applies :
  let e := JObject [(text "a", JArray [JNumber (text "15")])] in
  json_shown e [Field (text "a"); Index 0] (text "15") false /\ json_distinct e /\
  exists e1 o outs, scan json_event_impl 100 ex_hash isort digit_reporter [] (as_strings e) = Ret (e1, o :: outs) /\ rm_path o = [Field (text "a"); Index 0] /\
    e1 = as_strings e.
Proof.
  intros e. split; [|split].
  - econstructor; [left; reflexivity|]. econstructor; [reflexivity|]. constructor.
  - constructor; [repeat constructor; simpl; tauto|]. intros k c [E|[]]. injection E as _ <-. constructor. intros c [<-|[]]; constructor.
  - subst e. do 3 eexists. split; [vm_compute; reflexivity|]. split; reflexivity.
Qed.

(* And only then: if the two scans differ, an unblocked rule finds something in the text of
   a number or a boolean. *)
Theorem C42_json_cause :
  forall fuel h srt sc blocked e, sorter_ok srt -> json_distinct e ->
  scan json_event_impl fuel h srt sc blocked e = Panic -> scan json_event_impl fuel h srt sc blocked (as_strings e) <> Panic ->
  exists p s i r excl x m ms x', json_shown e p s false /\ nth_error (sc_rules sc) i = Some r /\ ~ In i blocked /\
    rule_string_matches r fuel s p excl [] (sc_kw_paths sc) x = Ret (m :: ms, x').
Proof. exact c42_json_cause_lemma. Qed.
Print Assumptions C42_json_cause.

Example C42_json_cause_applies :
  let e := JArray [JBool true; JNumber (text "15")] in
  json_distinct e /\ scan json_event_impl 100 ex_hash isort digit_reporter [] e = Panic /\
  scan json_event_impl 100 ex_hash isort digit_reporter [] (as_strings e) <> Panic /\ sorter_ok isort.
Proof.
  intros e. split; [constructor; intros c [<-|[<-|[]]]; constructor|]. split; [vm_compute; reflexivity|]. split; [vm_compute; discriminate|exact isort_ok].
Qed.

