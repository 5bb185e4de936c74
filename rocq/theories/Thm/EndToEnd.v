(* From configurations to reports, and prefixes of paths (C69, C70) *)
From Coq Require Import Lia.
From Verif Require Import Proofs.Text Proofs.EndToEndClaims Examples.Setting Examples.Build.

(* The check that the configuration of a rule names is the one that is made, and accepts
   the texts it should; for NHS numbers and tokens see C34 and C36. *)
Theorem C69_checks :
  forall env v s, sane_env env -> (v = LuhnChecksum -> short s) -> (is_valid_match env v s = true <-> passes env v s).
Proof. exact c69_checks_lemma. Qed.
Print Assumptions C69_checks.

Definition ex_env : validator_env := {|
  env_alphanumeric := fun _ => true; env_iban := fun _ => false;
  env_decode_segment := fun _ => None; env_number := fun _ => None; env_now := 0%Z |}.
Example C69_checks_applies : sane_env ex_env /\ short (chars "18") /\ passes ex_env LuhnChecksum (chars "18") /\ ~ passes ex_env NirChecksum (chars "18").
Proof.
  assert (A : sane_env ex_env) by (intros x m K; discriminate K). assert (B : short (chars "18")) by reflexivity.
  split; [exact A|]. split; [exact B|]. split.
  - apply C69_checks; [exact A|intros _; exact B|reflexivity].
  - intros K. apply C69_checks in K; [discriminate K|exact A|intros J; discriminate J].
Qed.

(* From the configurations to the result: if the scanner can be built and the scan of an
   event returns (see C69_returns, and C10_built for exactly when).  Every string is cut at its reports into gaps and pieces; every piece is a match
   that the configuration of the reported rule justifies, and it is replaced as that
   configuration says.  Conversely, every justified match of a rule that redacts and has no
   included keywords starts in a justified match of the same rule that shares a byte with a
   piece replaced for a rule that redacts; unless multi-pass takes it back, because the same
   text was passed over somewhere. *)
Theorem C69_scan :
  forall en fold b at_ t e srt fuel, build en b = Ret (Ok t) -> behaves en fold b at_ -> sane_env (en_validators en) ->
  sorter_ok srt -> distinct_keys e -> enough_fuel fuel (simple_strings e) ->
  (forall p s, In (p, s) (simple_strings e) -> short s) ->
  forall h blocked e' outs, scan simple_event_impl fuel h srt (bt_scanner t) blocked e = Ret (e', outs) ->
  scan_result simple_event_impl (simple_strings e) (simple_holds e) e' outs (fun p s s' os => exists g0 cs,
    s = original g0 cs /\ s' = rewritten g0 cs /\ length cs = length os /\
    (forall k o u, nth_error os k = Some o -> nth_error cs k = Some u -> ~ In (rm_rule o) blocked /\
      exists c, nth_error (bu_rules b) (rm_rule o) = Some c /\ cut_new u = redacted h (cf_action c) (cut_old u) /\
        justified en fold b c (at_ (rm_rule o)) p s (nbytes (original g0 (firstn k cs)))
          (nbytes (original g0 (firstn k cs) ++ cut_old u)) (cut_old u)) /\
    (forall i c x y text, nth_error (bu_rules b) i = Some c -> ~ In i blocked ->
      cf_action c <> ActNone -> no_included c -> justified en fold b c (at_ i) p s x y text ->
      exists x' y' text', x' <= x < y' /\ justified en fold b c (at_ i) p s x' y' text' /\
        (touched b os g0 cs x' y' \/ taken_back en fold b at_ blocked (simple_strings e) text'))).
Proof. exact c69_scan_lemma. Qed.
Print Assumptions C69_scan.

(* "ab" is redacted everywhere, "d" unless "no" stands before it; "c" is hashed after the
   keyword "key", but not in the field "raw" *)
Definition ex_plain : rule_config := {|
  cf_pattern := chars "ab"; cf_action := ActRedact (chars "[R]"); cf_scope := ScopeExclude []; cf_keywords := None;
  cf_validator := None; cf_labels := []; cf_validation := None
|}.
Definition ex_keyed : rule_config := {|
  cf_pattern := chars "c"; cf_action := ActHash; cf_scope := ScopeExclude [[Field (chars "raw")]];
  cf_keywords := Some {| kc_look_ahead := 6; kc_included := [chars "key"]; kc_excluded := [] |};
  cf_validator := None; cf_labels := []; cf_validation := None
|}.
Definition ex_barred : rule_config := {|
  cf_pattern := chars "d"; cf_action := ActRedact (chars "[D]"); cf_scope := ScopeExclude [];
  cf_keywords := Some {| kc_look_ahead := 6; kc_included := []; kc_excluded := [chars "no"] |};
  cf_validator := None; cf_labels := []; cf_validation := None
|}.
Definition ex_builder (rules : list rule_config) : builder :=
  {| bu_rules := rules; bu_labels := []; bu_kw_paths := true; bu_wild := false; bu_multipass := false |}.
Definition ex_at (rules : list rule_config) (i : nat) : str -> nat -> option nat :=
  match_at (Engine.literal (match nth_error rules i with Some c => cf_pattern c | None => [] end)).
Definition ex_mixed : simple_event := SMap [
  (chars "m", SList [SString (233%N :: chars "ab key c ab"); SString (chars "c key")]);
  (chars "raw", SString (chars "key c ab no d; not d"))
].
Definition ex_done : simple_event := SMap [
  (chars "m", SList [SString (233%N :: chars "[R] key #hash [R]"); SString (chars "c key")]);
  (chars "raw", SString (chars "key c [R] no d; not [D]"))
].
Lemma ex_behaves : forall rules, incl rules [ex_plain; ex_keyed; ex_barred] ->
  behaves literal_engines (fun c => c) (ex_builder rules) (ex_at rules).
Proof.
  intros rules Hr.
  assert (P : forall c k inc pinc exc, In c rules -> cf_keywords c = Some k ->
    compile_keywords_proximity_config k = Ret (Ok (Some (inc, pinc), exc)) ->
    earliest (kw_search inc) (kw_occurs (fun c => c) inc) /\ earliest (kw_search pinc) (kw_occurs (fun c => c) pinc)).
  { intros c k inc pinc exc Hc K1 K2. apply Hr in Hc as [<-|[<-|[<-|[]]]]; [discriminate K1| |]; injection K1 as <-; vm_compute in K2; [|discriminate K2]. injection K2 as <- <- _.
    split; apply kw_search_earliest; intros s a b (pat & before & x & after & [<-|[]] & _ & <- & <- & K); rewrite !nbytes_blen, blen_app;
      (destruct x as [|x xs]; [cbn in K; rewrite andb_false_r in K; discriminate K|]); cbn [blen]; pose proof (clen_pos x); lia. }
  constructor.
  - intros i c Hc. exists (engine (Engine.literal (cf_pattern c))). unfold ex_at. cbn [bu_rules ex_builder] in Hc. rewrite Hc.
    split; [|apply Engine.engine_leftmost]. apply nth_error_In, Hr in Hc. exists (cf_pattern c).
    destruct Hc as [<-|[<-|[<-|[]]]]; split; reflexivity.
  - intros c k inc pinc exc Hc K1 K2. exact (proj1 (P c k inc pinc exc Hc K1 K2)).
  - intros c k inc pinc exc Hc K1 K2 s. destruct (proj2 (P c k inc pinc exc Hc K1 K2)) as [A B C]. cbn [en_path literal_engines].
    assert (Z : boundary s 0) by (exists [], s; auto). destruct (kw_search pinc s 0) as [[u v]|] eqn:E.
    + split; [|reflexivity]. intros _. destruct (B s 0 u v Z E) as (_ & K & _). eauto.
    + split; [discriminate|]. intros (u & v & K). pose proof (C s 0 Z E u v K). lia.
  - intros c k inc exc pexc _ _ _. exact (excluded_engine_ok 0 exc).
Qed.
Lemma ex_fine : forall rules, incl rules [ex_plain; ex_keyed; ex_barred] -> windows_fine (ex_builder rules) (ex_at rules) (simple_strings ex_mixed).
Proof.
  intros rules Hr i c k Hc K1 K2 K3 p s x y Hps Hat (before & d & after & z & E1 & E2 & L & T & N). pose proof (nth_error_In _ _ Hc) as HI.
  apply Hr in HI as [<-|[<-|[<-|[]]]]; [discriminate K1|injection K1 as <-; discriminate K2|]. injection K1 as <-. cbn [kc_look_ahead] in *.
  unfold ex_at in Hat. cbn [bu_rules ex_builder] in Hc. rewrite Hc in Hat.
  assert (D : d = 100%N).
  { unfold match_at in Hat. destruct (split_at s x) as [[q r]|] eqn:S; [|discriminate Hat]. apply split_at_spec in S as [S1 S2].
    assert (q = before /\ r = d :: after) as [-> ->].
    { apply app_inj_blen; [congruence|]. rewrite S2, <- nbytes_blen. symmetry. exact E2. }
    cbn [cf_pattern ex_barred] in Hat. unfold Engine.literal in Hat. cbn [chars length firstn] in Hat.
    destruct (str_eqb _ _) eqn:Q in Hat; [|discriminate Hat]. apply str_eqb_eq in Q. injection Q as Q. symmetry. exact Q. }
  unfold excluded_text in T. subst d. rewrite filter_app in T. change (filter not_dash [100%N]) with [100%N] in T.
  assert (z = 100%N) as ->; [|cbn in N; lia].
  destruct (filter not_dash (lastn (6 + 1) before)) as [|q l]; [injection T as <-; reflexivity|]. destruct l; discriminate T.
Qed.
Lemma ex_mixed_ok : distinct_keys ex_mixed /\ enough_fuel 100 (simple_strings ex_mixed) /\
  (forall p s, In (p, s) (simple_strings ex_mixed) -> short s).
Proof.
  split; [|split].
  - constructor.
    + repeat (constructor; [simpl; intros H; repeat (destruct H as [H|H]; [discriminate H|]); exact H|]). constructor.
    + intros k c [E|[E|[]]]; injection E as _ <-; constructor. intros c' [<-|[<-|[]]]; constructor.
  - intros p s [E|[E|[E|[]]]]; injection E as _ <-; vm_compute; lia.
  - intros p s [E|[E|[E|[]]]]; injection E as _ <-; reflexivity.
Qed.
Definition on_ret {A} (o : outcome A) : option A := match o with Ret x => Some x | _ => None end.
Example C69_scan_applies :
  let rules := [ex_plain; ex_keyed; ex_barred] in
  (exists t, build literal_engines (ex_builder rules) = Ret (Ok t) /\
  option_map fst (on_ret (scan simple_event_impl 100 ex_hash isort (bt_scanner t) [] ex_mixed)) = Some ex_done) /\
  behaves literal_engines (fun c => c) (ex_builder rules) (ex_at rules) /\ sane_env (en_validators literal_engines) /\ sorter_ok isort /\
  distinct_keys ex_mixed /\ enough_fuel 100 (simple_strings ex_mixed) /\
  (forall p s, In (p, s) (simple_strings ex_mixed) -> short s).
Proof.
  intros rules. split.
  { apply (on_built_spec _ (fun t => option_map fst (on_ret (scan simple_event_impl 100 ex_hash isort (bt_scanner t) [] ex_mixed)))). vm_compute. reflexivity. }
  split; [apply ex_behaves, incl_refl|]. split; [intros x m K; discriminate K|]. split; [exact isort_ok|].
  destruct ex_mixed_ok as (A & B & C). split; [exact A|]. split; [exact B|exact C].
Qed.
(* the window before the second "é" is reversed, but a match covers it: the scan returns *)
Definition ex_late : rule_config := {|
  cf_pattern := 233%N :: chars "----" ++ [233%N]; cf_action := ActRedact (chars "[E]"); cf_scope := ScopeExclude [];
  cf_keywords := Some {| kc_look_ahead := 3; kc_included := []; kc_excluded := [chars "no"] |};
  cf_validator := None; cf_labels := []; cf_validation := None
|}.
Definition late_engines : engines := {|
  en_build := fun _ _ => Ok (engine (Engine.literal (cf_pattern ex_late)));
  en_earliest := en_earliest literal_engines; en_path := en_path literal_engines;
  en_span := en_span literal_engines; en_validators := en_validators literal_engines |}.
Definition ex_dashes : str := 233%N :: chars "----" ++ 233%N :: chars "----" ++ [233%N].
Example C69_scan_reversed :
  (exists t, build late_engines (ex_builder [ex_late]) = Ret (Ok t) /\
   option_map fst (on_ret (scan simple_event_impl 100 ex_hash isort (bt_scanner t) [] (SString ex_dashes))) = Some (SString (chars "[E]----" ++ [233%N]))) /\
  behaves late_engines (fun c => c) (ex_builder [ex_late]) (ex_at [ex_late]) /\
  ~ windows_fine (ex_builder [ex_late]) (ex_at [ex_late]) (simple_strings (SString ex_dashes)).
Proof.
  split; [|split].
  - apply (on_built_spec _ (fun t => option_map fst (on_ret (scan simple_event_impl 100 ex_hash isort (bt_scanner t) [] (SString ex_dashes))))). vm_compute. reflexivity.
  - constructor.
    + intros [|[|i]] c Hc; [|discriminate Hc|discriminate Hc]. injection Hc as <-. exists (engine (Engine.literal (cf_pattern ex_late))).
      split; [|apply Engine.engine_leftmost]. eexists. split; vm_compute; reflexivity.
    + intros c k inc pinc exc [<-|[]] K1 K2. injection K1 as <-. vm_compute in K2. discriminate K2.
    + intros c k inc pinc exc [<-|[]] K1 K2. injection K1 as <-. vm_compute in K2. discriminate K2.
    + intros c k inc exc pexc _ _ _. exact (excluded_engine_ok 0 exc).
  - intros W. apply (W 0 ex_late {| kc_look_ahead := 3; kc_included := []; kc_excluded := [chars "no"] |} eq_refl eq_refl eq_refl) with (p := []) (s := ex_dashes) (x := 6) (y := 14).
    + discriminate.
    + left. reflexivity.
    + reflexivity.
    + exists (233%N :: chars "----"), 233%N, (chars "----" ++ [233%N]), 233%N. repeat split; vm_compute; lia.
Qed.

(* The scan returns if no window of excluded keywords is reversed, see C22. *)
Theorem C69_returns :
  forall en fold b at_ t e srt fuel, build en b = Ret (Ok t) -> behaves en fold b at_ ->
  sorter_ok srt -> distinct_keys e -> enough_fuel fuel (simple_strings e) -> windows_fine b at_ (simple_strings e) ->
  forall h blocked, exists e' outs, scan simple_event_impl fuel h srt (bt_scanner t) blocked e = Ret (e', outs).
Proof. exact c69_returns_lemma. Qed.
Print Assumptions C69_returns.

Example C69_returns_applies :
  let rules := [ex_plain; ex_keyed; ex_barred] in
  (exists t, build literal_engines (ex_builder rules) = Ret (Ok t)) /\
  behaves literal_engines (fun c => c) (ex_builder rules) (ex_at rules) /\ sorter_ok isort /\
  distinct_keys ex_mixed /\ enough_fuel 100 (simple_strings ex_mixed) /\
  windows_fine (ex_builder rules) (ex_at rules) (simple_strings ex_mixed).
Proof.
  intros rules. destruct (C69_scan_applies) as ((t & A & _) & B & _ & C & D & E & _).
  split; [exists t; exact A|]. split; [exact B|]. split; [exact C|]. split; [exact D|]. split; [exact E|]. apply ex_fine, incl_refl.
Qed.

(* Rules with included keywords.  A justified match behind a keyword, near enough: the rule
   has found a match that covers its start, or one that begins between the keyword and it
   (see C25).  If the path contains a keyword, one that covers its start.  What was found is
   justified and is touched by a piece replaced for a rule that redacts, unless multi-pass
   takes it back.  The pieces are those of C69_scan. *)
Theorem C69_included :
  forall en fold b at_ t e srt fuel, build en b = Ret (Ok t) -> behaves en fold b at_ -> sane_env (en_validators en) ->
  sorter_ok srt -> distinct_keys e -> enough_fuel fuel (simple_strings e) ->
  (forall p s, In (p, s) (simple_strings e) -> short s) ->
  forall h blocked e' outs, scan simple_event_impl fuel h srt (bt_scanner t) blocked e = Ret (e', outs) ->
  scan_result simple_event_impl (simple_strings e) (simple_holds e) e' outs (fun p s s' os => exists g0 cs,
    s = original g0 cs /\ s' = rewritten g0 cs /\ length cs = length os /\
    (forall k o u, nth_error os k = Some o -> nth_error cs k = Some u -> ~ In (rm_rule o) blocked /\
      exists c, nth_error (bu_rules b) (rm_rule o) = Some c /\ cut_new u = redacted h (cf_action c) (cut_old u) /\
        justified en fold b c (at_ (rm_rule o)) p s (nbytes (original g0 (firstn k cs)))
          (nbytes (original g0 (firstn k cs) ++ cut_old u)) (cut_old u)) /\
    (forall i c k, nth_error (bu_rules b) i = Some c -> ~ In i blocked -> cf_action c <> ActNone ->
      cf_keywords c = Some k -> kc_included k <> [] -> forall x y text, justified en fold b c (at_ i) p s x y text ->
      (bu_kw_paths b = true -> keyword_in_path_of fold k p -> exists x' y' text',
        x' <= x < y' /\ justified en fold b c (at_ i) p s x' y' text' /\
        (touched b os g0 cs x' y' \/ taken_back en fold b at_ blocked (simple_strings e) text')) /\
      (forall kw w u v between, In kw (kc_included k) -> effective false kw w -> occurs_as_word fold w w s u v ->
        v <= x -> part_at s u x between -> length between <= kc_look_ahead k -> exists x' y' text',
        x' <= x /\ (x < y' \/ u < x') /\ justified en fold b c (at_ i) p s x' y' text' /\
        (touched b os g0 cs x' y' \/ taken_back en fold b at_ blocked (simple_strings e) text')))).
Proof. exact c69_included_lemma. Qed.
Print Assumptions C69_included.

(* the "c" behind "key" in the first string of C69_scan_applies *)
Example C69_included_applies :
  behaves literal_engines (fun c => c) (ex_builder [ex_plain; ex_keyed; ex_barred]) (ex_at [ex_plain; ex_keyed; ex_barred]) /\
  (let s := 233%N :: chars "ab key c ab" in
   justified literal_engines (fun c => c) (ex_builder [ex_plain; ex_keyed; ex_barred]) ex_keyed (ex_at [ex_plain; ex_keyed; ex_barred] 1)
     [Field (chars "m"); Index 0] s 9 10 (chars "c") /\
   occurs_as_word (fun c => c) (chars "key") (chars "key") s 5 8 /\ part_at s 5 9 (chars "key ")).
Proof.
  split; [apply ex_behaves, incl_refl|]. intros s.
  assert (O : occurs_as_word (fun c => c) (chars "key") (chars "key") s 5 8).
  { exists (233%N :: chars "ab "), (chars "key"), (chars " c ab"). repeat split; try reflexivity; vm_compute; congruence. }
  assert (P : part_at s 5 9 (chars "key ")) by (exists (233%N :: chars "ab "), (chars "c ab"); repeat split).
  split; [|split; [exact O|exact P]]. constructor.
  - exists (233%N :: chars "ab key "), (chars " ab"). repeat split.
  - reflexivity.
  - split; [exact Logic.I|]. intros (sp & [<-|[]] & rest & Q). discriminate Q.
  - discriminate.
  - intros k K _. injection K as <-. left. exists (chars "key"), (chars "key"), 5, 8, (chars "key "). split; [left; reflexivity|].
    split; [|split; [exact O|split; [exact P|vm_compute; lia]]].
    exists (chars "key"). split; [|reflexivity]. exists [], []. split; [reflexivity|]. split; [intros c []|]. split; [intros c []|].
    split; intros c Q; injection Q as <-; intros Z; cbn in Z; repeat (destruct Z as [Z|Z]; [discriminate Z|]); exact Z.
  - intros k K. injection K as <-. discriminate.
Qed.

(* If only one rule redacts and it has no included keywords, every justified match of it starts
   in a piece that was replaced as its configuration says, or in a match that multi-pass takes
   back. *)
Theorem C69_alone :
  forall en fold b at_ t e srt fuel, build en b = Ret (Ok t) -> behaves en fold b at_ -> sane_env (en_validators en) ->
  sorter_ok srt -> distinct_keys e -> enough_fuel fuel (simple_strings e) ->
  (forall p s, In (p, s) (simple_strings e) -> short s) ->
  forall h blocked e' outs, scan simple_event_impl fuel h srt (bt_scanner t) blocked e = Ret (e', outs) ->
  scan_result simple_event_impl (simple_strings e) (simple_holds e) e' outs (fun p s s' os =>
    forall i c, nth_error (bu_rules b) i = Some c -> ~ In i blocked -> cf_action c <> ActNone -> no_included c ->
    (forall j c', nth_error (bu_rules b) j = Some c' -> cf_action c' <> ActNone -> j = i) ->
    forall x y text, justified en fold b c (at_ i) p s x y text ->
    exists before old after, s = before ++ old ++ after /\ nbytes before <= x < nbytes before + nbytes old /\
      ((exists before' after', s' = before' ++ redacted h (cf_action c) old ++ after') \/
       taken_back en fold b at_ blocked (simple_strings e) old)).
Proof. exact c69_alone_lemma. Qed.
Print Assumptions C69_alone.

(* here the other rule redacts as well; alone, the rule for "ab" redacts all of them *)
Example C69_alone_applies :
  (exists t, build literal_engines (ex_builder [ex_plain]) = Ret (Ok t)) /\
  behaves literal_engines (fun c => c) (ex_builder [ex_plain]) (ex_at [ex_plain]) /\
  windows_fine (ex_builder [ex_plain]) (ex_at [ex_plain]) (simple_strings ex_mixed) /\
  justified literal_engines (fun c => c) (ex_builder [ex_plain]) ex_plain (ex_at [ex_plain] 0) [Field (chars "raw")] (chars "key c ab no d; not d") 6 8 (chars "ab").
Proof.
  assert (I : incl [ex_plain] [ex_plain; ex_keyed; ex_barred]) by (intros c [<-|[]]; left; reflexivity).
  split; [|split; [apply ex_behaves, I|split; [apply ex_fine, I|]]].
  - destruct (on_built_spec _ (fun _ => tt) (build literal_engines (ex_builder [ex_plain])) tt) as (t & E & _); [vm_compute; reflexivity|eauto].
  - constructor.
    + exists (chars "key c "), (chars " no d; not d"). repeat split.
    + reflexivity.
    + split; [exact Logic.I|]. intros (sp & [] & _).
    + discriminate.
    + discriminate.
    + discriminate.
Qed.

(* What multi-pass takes back.  Take something that was passed over; if its rule asks for
   keywords, let one of them stand in front.  Then a match of the rule covers its start of which
   the text is reported nowhere in the event. *)
Theorem C69_multipass :
  forall en fold b at_ t e srt fuel, build en b = Ret (Ok t) -> behaves en fold b at_ -> sane_env (en_validators en) ->
  sorter_ok srt -> distinct_keys e -> enough_fuel fuel (simple_strings e) ->
  (forall p s, In (p, s) (simple_strings e) -> short s) -> bu_multipass b = true ->
  forall blocked i p s x y text, In (p, s) (simple_strings e) -> passed_over en fold b at_ blocked i p s x y text ->
  (forall c k, nth_error (bu_rules b) i = Some c -> cf_keywords c = Some k -> kc_included k <> [] ->
     exists kw w u v, In kw (kc_included k) /\ effective false kw w /\ occurs_as_word fold w w s u v /\ v <= x) ->
  exists x' y' text', x' <= x < y' /\ part_at s x' y' text' /\ at_ i s x' = Some y' /\
  forall h e' outs, scan simple_event_impl fuel h srt (bt_scanner t) blocked e = Ret (e', outs) ->
  scan_result simple_event_impl (simple_strings e) (simple_holds e) e' outs (fun p s s' os => exists g0 cs,
    s = original g0 cs /\ s' = rewritten g0 cs /\ length cs = length os /\ forall u, In u cs -> cut_old u <> text').
Proof. exact c69_multipass_lemma. Qed.
Print Assumptions C69_multipass.

(* with multi-pass, the "c" after "key" in the field "raw", which is out of scope, keeps the other one from being hashed *)
Definition ex_multipass (rules : list rule_config) : builder :=
  {| bu_rules := rules; bu_labels := []; bu_kw_paths := true; bu_wild := false; bu_multipass := true |}.
Example C69_multipass_applies :
  let rules := [ex_plain; ex_keyed; ex_barred] in
  (exists t, build literal_engines (ex_multipass rules) = Ret (Ok t) /\
  option_map fst (on_ret (scan simple_event_impl 100 ex_hash isort (bt_scanner t) [] ex_mixed)) = Some (SMap [
    (chars "m", SList [SString (233%N :: chars "[R] key c [R]"); SString (chars "c key")]);
    (chars "raw", SString (chars "key c [R] no d; not [D]"))])) /\
  behaves literal_engines (fun c => c) (ex_multipass rules) (ex_at rules) /\
  windows_fine (ex_multipass rules) (ex_at rules) (simple_strings ex_mixed) /\
  let s := chars "key c ab no d; not d" in
  passed_over literal_engines (fun c => c) (ex_multipass rules) (ex_at rules) [] 1 [Field (chars "raw")] s 4 5 (chars "c") /\
  occurs_as_word (fun c => c) (chars "key") (chars "key") s 0 3.
Proof.
  intros rules. split.
  { apply (on_built_spec _ (fun t => option_map fst (on_ret (scan simple_event_impl 100 ex_hash isort (bt_scanner t) [] ex_mixed)))). vm_compute. reflexivity. }
  split. { destruct (ex_behaves rules (incl_refl _)) as [A B C D]. constructor; assumption. }
  split; [exact (ex_fine rules (incl_refl _))|]. intros s.
  assert (O : occurs_as_word (fun c => c) (chars "key") (chars "key") s 0 3).
  { exists [], (chars "key"), (chars " c ab no d; not d"). repeat split; try reflexivity; vm_compute; congruence. }
  split; [|exact O]. exists ex_keyed. split; [reflexivity|]. split; [intros []|]. split; [exact I|].
  split; [exists [Field (chars "raw")]; split; [left; reflexivity|exists []; reflexivity]|]. constructor.
  - exists (chars "key "), (chars " ab no d; not d"). repeat split.
  - reflexivity.
  - split; [exact I|]. intros (sp & [] & _).
  - discriminate.
  - intros k K _. injection K as <-. left. exists (chars "key"), (chars "key"), 0, 3, (chars "key "). split; [left; reflexivity|].
    split; [|split; [exact O|split; [exists [], (chars "c ab no d; not d"); repeat split|vm_compute; lia]]].
    exists (chars "key"). split; [|reflexivity]. exists [], []. split; [reflexivity|]. split; [intros c []|]. split; [intros c []|].
    split; intros c Q; injection Q as <-; intros Z; cbn in Z; repeat (destruct Z as [Z|Z]; [discriminate Z|]); exact Z.
  - intros k K. injection K as <-. discriminate.
Qed.

(* starts_with holds exactly for the paths that go on after the prefix. *)
Theorem C70_prefix :
  forall p prefix, starts_with p prefix = true <-> exists rest, p = prefix ++ rest.
Proof. exact c70_prefix_lemma. Qed.
Print Assumptions C70_prefix.

Example C70_prefix_applies : starts_with [Field (chars "a"); Index 0] [Field (chars "a")] = true /\
  starts_with [Field (chars "a")] [Field (chars "a"); Index 0] = false /\ starts_with [Index 0] [Index 1] = false.
Proof. repeat split. Qed.

