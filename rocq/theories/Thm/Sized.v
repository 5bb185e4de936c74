(* The sizes of replacements (C105) *)
From Coq Require Import Lia.
From Verif Require Import Proofs.SizedClaims Examples.Setting Examples.Build.

(* "Every action that is accepted can be carried out" is false: character_count is a usize,
   and any number but zero is accepted.  More than isize::MAX asterisks fit in no string:
   the scanner is built, and every scan with a match panics. *)
Theorem C105_refuted :
  exists en n t, (Z.of_nat n < 2 ^ 64)%Z /\
  build en (builder_new [sized_config FirstCharacters n]) = Ret (Ok t) /\
  scan_sized string_event 100 ex_hash isort (bt_scanner t) [] (chars "no match") = Ret (chars "no match", []) /\
  scan_sized string_event 100 ex_hash isort (bt_scanner t) [] (chars "an ab") = Panic.
Proof. exact c105_refuted_lemma. Qed.
Print Assumptions C105_refuted.



(* C105.  Exactly that goes wrong.  If the scan without limits returns, the scan returns the
   same as long as the actions of all reported matches fit, and panics otherwise. *)
Theorem C105_exact :
  forall I fuel h srt sc blocked e e' outs, scan I fuel h srt sc blocked e = Ret (e', outs) ->
  ((forall o r, In o outs -> nth_error (sc_rules sc) (rm_rule o) = Some r -> action_fits (rule_action r)) ->
   scan_sized I fuel h srt sc blocked e = Ret (e', outs)) /\
  ((exists o r, In o outs /\ nth_error (sc_rules sc) (rm_rule o) = Some r /\ ~ action_fits (rule_action r)) ->
   scan_sized I fuel h srt sc blocked e = Panic).
Proof. exact c105_exact_lemma. Qed.
Print Assumptions C105_exact.

Example C105_exact_nonvacuous :
  (exists outs, scan simple_event_impl 100 ex_hash isort ex_scanner [] ex_event = Ret (ex_redacted, outs) /\ length outs = 6 /\
    scan_sized simple_event_impl 100 ex_hash isort ex_scanner [] ex_event = Ret (ex_redacted, outs)) /\
  action_fits (ActPartialRedact FirstCharacters 3) /\ exists n, (Z.of_nat n < 2 ^ 64)%Z /\ ~ action_fits (ActPartialRedact FirstCharacters n).
Proof.
  split; [eexists; split; [vm_compute; reflexivity|split; vm_compute; reflexivity]|]. split.
  - intros d n H. injection H as <- <-. reflexivity.
  - destruct huge as (k & K). exists (S (S (S k))). split; [exact (proj2 K)|]. intros H. specialize (H _ _ eq_refl). unfold isize_max in K. lia.
Qed.

(* C105.  If the actions of all rules fit, the limit never matters. *)
Theorem C105_fits :
  forall I fuel h srt sc blocked e, (forall r, In r (sc_rules sc) -> action_fits (rule_action r)) ->
  scan_sized I fuel h srt sc blocked e = scan I fuel h srt sc blocked e.
Proof. exact c105_fits_lemma. Qed.
Print Assumptions C105_fits.

Example C105_fits_nonvacuous : exists t,
  build literal_engines (builder_new [sized_config LastCharacters 1; sized_config FirstCharacters 2]) = Ret (Ok t) /\
  (forall r, In r (sc_rules (bt_scanner t)) -> action_fits (rule_action r)) /\
  exists outs, scan_sized string_event 100 ex_hash isort (bt_scanner t) [] (chars "an ab") = Ret (chars "an a*", outs).
Proof.
  destruct (on_built_spec _ (fun t => (map rule_action (sc_rules (bt_scanner t)),
      match scan_sized string_event 100 ex_hash isort (bt_scanner t) [] (chars "an ab") with Ret (s, outs) => Some (s, length outs) | _ => None end))
    (build literal_engines (builder_new [sized_config LastCharacters 1; sized_config FirstCharacters 2]))
    ([ActPartialRedact LastCharacters 1; ActPartialRedact FirstCharacters 2], Some (chars "an a*", 1))) as (t & B & V); [vm_compute; reflexivity|].
  exists t. split; [exact B|]. injection V as V1 V2. split.
  - intros r Hr d n E. apply (in_map rule_action) in Hr. rewrite V1, E in Hr. destruct Hr as [H|[H|[]]]; injection H as <- <-; reflexivity.
  - destruct (scan_sized _ _ _ _ _ _ _) as [[s outs]| |]; try discriminate V2. injection V2 as -> _. eauto.
Qed.

(* C105.  The numbers of Go are of type uint32, so the limit never matters for a scanner
   built from rules of Go. *)
Theorem C105_go :
  forall en gs configs b t, Forall2 go_rule_means gs configs -> Forall go_rule_fits gs -> bu_rules b = configs -> build en b = Ret (Ok t) ->
  forall I fuel h srt blocked e,
  scan_sized I fuel h srt (bt_scanner t) blocked e = scan I fuel h srt (bt_scanner t) blocked e.
Proof. exact c105_go_lemma. Qed.
Print Assumptions C105_go.

Example C105_go_nonvacuous :
  let g := {| gr_id := []; gr_pattern := chars "ab";
    gr_action := {| ga_type := chars "PartialRedact"; ga_redaction := []; ga_count := 4294967295; ga_direction := chars "LastCharacters" |};
    gr_keywords := None; gr_validator := [] |} in
  let n := N.to_nat 4294967295 in
  go_rule_means g (sized_config LastCharacters n) /\ go_rule_fits g /\
  exists t, build literal_engines (builder_new [sized_config LastCharacters n]) = Ret (Ok t).
Proof.
  intros g n. split; [|split].
  - constructor; try reflexivity; [|constructor]. apply gm_last; reflexivity.
  - split; [reflexivity|discriminate].
  - assert (K : exists k, n = S k) by (exists (N.to_nat 4294967294); unfold n; lia). destruct K as (k & ->).
    destruct (on_built_spec _ (fun _ => tt) (build literal_engines (builder_new [sized_config LastCharacters (S k)])) tt) as (t & B & _); [vm_compute; reflexivity|]. eauto.
Qed.

