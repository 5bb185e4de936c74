(* From the texts of patterns and keywords to the result (C79) *)
From Coq Require Import Lia.
From Verif Require Import Proofs.Text Proofs.ConversionClaims Proofs.AsWrittenClaims Examples.Setting Examples.Build Examples.RegexEngine.

(* From the texts of the patterns and keywords to the result, if the scan returns (see
   C79_returns, and C10_built for exactly when).  The only assumption about
   regexes is that the regex crate reads the texts it is given as its syntax says and finds
   leftmost matches.  Every string is cut at its reports into gaps and pieces.  Every piece is
   a match of the pattern of the reported rule, as the pattern is written, the preferred one
   at its start; it is in the scope of the rule, passes its check, keywords stand where they
   should, and it is replaced as the rule says.  Conversely, take a match in a pattern of a
   rule that redacts and asks for no keywords, in scope and with no excluded keyword in front.
   If the rule has a check let it be the preferred match at its start, and pass.  Then it
   starts in a match of the rule of which a piece was replaced, or that multi-pass takes back
   because the same text was passed over somewhere. *)
Theorem C79_scan :
  forall E fold en b t e srt fuel, build en b = Ret (Ok t) -> crate_ok E en -> plain_env E ->
  (forall c d, same_letter E c d <-> fold c = fold d) -> (forall c, In c (bu_rules b) -> good_pattern E c) ->
  sane_env (en_validators en) -> sorter_ok srt -> distinct_keys e -> enough_fuel fuel (simple_strings e) ->
  (forall p s, In (p, s) (simple_strings e) -> short s) ->
  forall h blocked e' outs, scan simple_event_impl fuel h srt (bt_scanner t) blocked e = Ret (e', outs) ->
  scan_result simple_event_impl (simple_strings e) (simple_holds e) e' outs (fun p s s' os => exists g0 cs,
    s = original g0 cs /\ s' = rewritten g0 cs /\ length cs = length os /\
    (forall k o u, nth_error os k = Some o -> nth_error cs k = Some u -> ~ In (rm_rule o) blocked /\
      exists c, nth_error (bu_rules b) (rm_rule o) = Some c /\ cut_new u = redacted h (cf_action c) (cut_old u) /\
        let i := length (original g0 (firstn k cs)) in let j := i + length (cut_old u) in
        accounted E en fold b c p s i j (cut_old u) /\ forall j', preferred (as_written E c s) i j' -> j' = j) /\
    (forall r c i j text, nth_error (bu_rules b) r = Some c -> ~ In r blocked ->
      cf_action c <> ActNone -> no_included c -> accounted E en fold b c p s i j text ->
      cf_validator c = None \/ preferred (as_written E c s) i j ->
      exists i' j' text', i' <= i < j' /\ accounted E en fold b c p s i' j' text' /\
        ((exists k o u c', nth_error os k = Some o /\ nth_error cs k = Some u /\
           nth_error (bu_rules b) (rm_rule o) = Some c' /\ cf_action c' <> ActNone /\
           i' < length (original g0 (firstn k cs)) + length (cut_old u) /\ length (original g0 (firstn k cs)) < j') \/
         taken_as_written E en fold b blocked (simple_strings e) text'))).
Proof. exact c79_scan_lemma. Qed.
Print Assumptions C79_scan.

(* three digits, a dash and "ab" in any case, some times: redacted everywhere; "cat" or "cats" is
   hashed after the keyword "key", but not in the field "raw"; "d" is redacted unless "no" is in front *)
Definition aw_plain : rule_config := {|
  cf_pattern := chars "\d{3}-((?i)ab)+?"; cf_action := ActRedact (chars "[R]"); cf_scope := ScopeExclude []; cf_keywords := None;
  cf_validator := None; cf_labels := []; cf_validation := None
|}.
Definition aw_keyed : rule_config := {|
  cf_pattern := chars "\bcats?"; cf_action := ActHash; cf_scope := ScopeExclude [[Field (chars "raw")]];
  cf_keywords := Some {| kc_look_ahead := 8; kc_included := [chars "key"]; kc_excluded := [] |};
  cf_validator := None; cf_labels := []; cf_validation := None
|}.
Definition aw_barred : rule_config := {|
  cf_pattern := chars "[d]{1,2}"; cf_action := ActRedact (chars "[D]"); cf_scope := ScopeExclude [];
  cf_keywords := Some {| kc_look_ahead := 6; kc_included := []; kc_excluded := [chars "no"] |};
  cf_validator := None; cf_labels := []; cf_validation := None
|}.
Definition aw_rules := [aw_plain; aw_keyed; aw_barred].
Definition aw_builder (rules : list rule_config) : builder :=
  {| bu_rules := rules; bu_labels := []; bu_kw_paths := true; bu_wild := false; bu_multipass := false |}.
Definition aw_engines : engines := regex_engines (en_validators literal_engines).
Definition aw_event : simple_event := SMap [
  (chars "m", SList [SString (233%N :: chars "12345-aBAb KEY: cats cat"); SString (chars "bobcat key")]);
  (chars "raw", SString (chars "key cat 123-ab no d; so ddd"))
].
Definition aw_done : simple_event := SMap [
  (chars "m", SList [SString (233%N :: chars "12[R]Ab KEY: #hash cat"); SString (chars "bobcat key")]);
  (chars "raw", SString (chars "key cat [R] no d; so [D][D]"))
].
Lemma good_if : forall c a text r, parse_regex_pattern 51 (cf_pattern c) = Ret (Ok a) -> convert_to_rust_regex 51 (cf_pattern c) = Ret (Ok text) ->
  faithful mode0 a -> NoDup (group_names a) -> reread text = Some r -> consumes r = true -> good_pattern ascii_env c.
Proof.
  intros c a text r P C F N R K. split; [exists a; auto|]. intros s i L (t & a' & P' & M). rewrite P in P'. injection P' as <-.
  destruct (c57_faithful_lemma _ a text P C F N) as (r' & R' & S). rewrite R in R'. injection R' as <-.
  apply (S ascii_env s ascii_env_plain i t i) in M. apply (consumes_spec s r rmode0 K) in M. lia.
Qed.
Lemma aw_good : forall c, In c aw_rules -> good_pattern ascii_env c.
Proof.
  intros c [<-|[<-|[<-|[]]]]; (eapply good_if; [vm_compute; reflexivity|vm_compute; reflexivity| |cbn; constructor|vm_compute; reflexivity|reflexivity]).
  all: cbn; repeat split; try discriminate; try lia; try (left; discriminate).
  intros it [<-|[]]. exact Logic.I.
Qed.
Lemma aw_starts : forall s i j, matched (as_written ascii_env aw_barred s) i j -> nth_error s i = Some 100%N.
Proof.
  intros s i j (t & a & P & M). vm_compute in P. injection P as <-. cbn [means q_lazy q_kind least most negb] in M.
  change (N.to_nat 1) with 1 in M. inversion M as [lo hi i' t1 k t2 j' K1 K2| | |]; subst. destruct K1 as (_ & _ & c & N & K).
  destruct K as (it & [<-|[]] & [K|[K _]]); [|discriminate K]. rewrite K. exact N.
Qed.
Lemma aw_fine : forall strs, windows_as_written ascii_env (aw_builder aw_rules) strs.
Proof.
  intros strs.
  intros c k HI K1 K2 K3 p s i j Hps L M (before & d & after & z & E1 & E2 & Lb & T & N).
  destruct HI as [<-|[<-|[<-|[]]]]; [discriminate K1|injection K1 as <-; discriminate K2|]. injection K1 as <-. cbn [kc_look_ahead] in *.
  apply aw_starts in M. assert (Z : length before = i).
  { apply (off_inj s); [rewrite E1, app_length; lia|exact L|]. rewrite <- E2. rewrite E1 at 1. apply off_app. }
  rewrite E1, nth_error_app2, Z, Nat.sub_diag in M by lia. cbn in M. injection M as ->.
  unfold excluded_text in T. rewrite filter_app in T. change (filter not_dash [100%N]) with [100%N] in T.
  assert (z = 100%N) as ->; [|cbn in N; lia].
  destruct (filter not_dash (lastn (6 + 1) before)) as [|q l]; [injection T as <-; reflexivity|]. destruct l; discriminate T.
Qed.
Lemma aw_event_ok : distinct_keys aw_event /\ enough_fuel 100 (simple_strings aw_event) /\
  (forall p s, In (p, s) (simple_strings aw_event) -> short s).
Proof.
  split; [|split].
  - constructor.
    + repeat (constructor; [simpl; intros H; repeat (destruct H as [H|H]; [discriminate H|]); exact H|]). constructor.
    + intros k c [E|[E|[]]]; injection E as _ <-; constructor. intros c' [<-|[<-|[]]]; constructor.
  - intros p s [E|[E|[E|[]]]]; injection E as _ <-; vm_compute; lia.
  - intros p s [E|[E|[E|[]]]]; injection E as _ <-; reflexivity.
Qed.
Definition on_ret {A} (o : outcome A) : option A := match o with Ret x => Some x | _ => None end.
Example C79_scan_applies :
  (exists t, build aw_engines (aw_builder aw_rules) = Ret (Ok t) /\
  option_map fst (on_ret (scan simple_event_impl 100 ex_hash isort (bt_scanner t) [] aw_event)) = Some aw_done) /\
  crate_ok ascii_env aw_engines /\ plain_env ascii_env /\ (forall c d, same_letter ascii_env c d <-> lower c = lower d) /\
  (forall c, In c (bu_rules (aw_builder aw_rules)) -> good_pattern ascii_env c) /\
  sane_env (en_validators aw_engines) /\ sorter_ok isort /\
  distinct_keys aw_event /\ enough_fuel 100 (simple_strings aw_event) /\
  (forall p s, In (p, s) (simple_strings aw_event) -> short s).
Proof.
  split.
  { apply (on_built_spec _ (fun t => option_map fst (on_ret (scan simple_event_impl 100 ex_hash isort (bt_scanner t) [] aw_event)))). vm_compute. reflexivity. }
  split; [apply regex_engines_ok|]. split; [exact ascii_env_plain|]. split; [reflexivity|]. split; [exact aw_good|].
  split; [intros x m K; discriminate K|]. split; [exact isort_ok|].
  destruct aw_event_ok as (A & B & C). split; [exact A|]. split; [exact B|exact C].
Qed.

(* The scan returns if no window of excluded keywords before a match is reversed, see C22. *)
Theorem C79_returns :
  forall E (fold : char -> char) en b t e srt fuel, build en b = Ret (Ok t) -> crate_ok E en -> plain_env E ->
  (forall c d, same_letter E c d <-> fold c = fold d) -> (forall c, In c (bu_rules b) -> good_pattern E c) ->
  sorter_ok srt -> distinct_keys e -> enough_fuel fuel (simple_strings e) ->
  windows_as_written E b (simple_strings e) ->
  forall h blocked, exists e' outs, scan simple_event_impl fuel h srt (bt_scanner t) blocked e = Ret (e', outs).
Proof. exact c79_returns_lemma. Qed.
Print Assumptions C79_returns.

Example C79_returns_applies :
  (exists t, build aw_engines (aw_builder aw_rules) = Ret (Ok t)) /\
  crate_ok ascii_env aw_engines /\ (forall c, In c (bu_rules (aw_builder aw_rules)) -> good_pattern ascii_env c) /\
  distinct_keys aw_event /\ enough_fuel 100 (simple_strings aw_event) /\
  windows_as_written ascii_env (aw_builder aw_rules) (simple_strings aw_event).
Proof.
  destruct C79_scan_applies as ((t & A & _) & B & _ & _ & C & _ & _ & D & E & _).
  split; [exists t; exact A|]. split; [exact B|]. split; [exact C|]. split; [exact D|]. split; [exact E|]. apply aw_fine.
Qed.

(* Rules with included keywords.  Take a match of the pattern as written
   behind a keyword, near enough: the rule has found a match that covers its start, or one that
   begins between the keyword and it (C25).  If the path contains a keyword, one that covers
   its start.  A piece of what was found is replaced, unless multi-pass takes it back.  The
   pieces are those of C79_scan. *)
Theorem C79_included :
  forall E fold en b t e srt fuel, build en b = Ret (Ok t) -> crate_ok E en -> plain_env E ->
  (forall c d, same_letter E c d <-> fold c = fold d) -> (forall c, In c (bu_rules b) -> good_pattern E c) ->
  sane_env (en_validators en) -> sorter_ok srt -> distinct_keys e -> enough_fuel fuel (simple_strings e) ->
  (forall p s, In (p, s) (simple_strings e) -> short s) ->
  forall h blocked e' outs, scan simple_event_impl fuel h srt (bt_scanner t) blocked e = Ret (e', outs) ->
  scan_result simple_event_impl (simple_strings e) (simple_holds e) e' outs (fun p s s' os => exists g0 cs,
    s = original g0 cs /\ s' = rewritten g0 cs /\ length cs = length os /\
    (forall k o u, nth_error os k = Some o -> nth_error cs k = Some u -> ~ In (rm_rule o) blocked /\
      exists c, nth_error (bu_rules b) (rm_rule o) = Some c /\ cut_new u = redacted h (cf_action c) (cut_old u) /\
        let i := length (original g0 (firstn k cs)) in let j := i + length (cut_old u) in
        accounted E en fold b c p s i j (cut_old u) /\ forall j', preferred (as_written E c s) i j' -> j' = j) /\
    (forall r c k, nth_error (bu_rules b) r = Some c -> ~ In r blocked -> cf_action c <> ActNone ->
      cf_keywords c = Some k -> kc_included k <> [] -> forall i j text, accounted E en fold b c p s i j text ->
      cf_validator c = None \/ preferred (as_written E c s) i j ->
      (bu_kw_paths b = true -> keyword_in_path_of fold k p -> exists i' j' text',
        i' <= i < j' /\ accounted E en fold b c p s i' j' text' /\
        (touched b os g0 cs (off s i') (off s j') \/ taken_as_written E en fold b blocked (simple_strings e) text')) /\
      (forall kw w u v between, In kw (kc_included k) -> effective false kw w -> occurs_as_word fold w w s u v ->
        v <= off s i -> part_at s u (off s i) between -> length between <= kc_look_ahead k -> exists i' j' text',
        i' <= i /\ (i < j' \/ u < off s i') /\ accounted E en fold b c p s i' j' text' /\
        (touched b os g0 cs (off s i') (off s j') \/ taken_as_written E en fold b blocked (simple_strings e) text')))).
Proof. exact c79_included_lemma. Qed.
Print Assumptions C79_included.

Example C79_included_applies :
  crate_ok ascii_env aw_engines /\ (forall c, In c (bu_rules (aw_builder aw_rules)) -> good_pattern ascii_env c) /\
  (let s := 233%N :: chars "12345-aBAb KEY: cats cat" in
   accounted ascii_env aw_engines lower (aw_builder aw_rules) aw_keyed [Field (chars "m"); Index 0] s 17 20 (chars "cat") /\
   occurs_as_word lower (chars "key") (chars "key") s 13 16 /\ part_at s 13 (off s 17) (chars "KEY: ")).
Proof.
  split; [apply regex_engines_ok|]. split; [exact aw_good|]. intros s.
  assert (O : occurs_as_word lower (chars "key") (chars "key") s 13 16).
  { exists (233%N :: chars "12345-aBAb "), (chars "KEY"), (chars ": cats cat"). repeat split; try reflexivity; vm_compute; congruence. }
  assert (P : part_at s 13 (off s 17) (chars "KEY: ")) by (exists (233%N :: chars "12345-aBAb "), (chars "cats cat"); repeat split).
  split; [|split; [exact O|exact P]]. constructor.
  - exists (233%N :: chars "12345-aBAb KEY: "), (chars "s cat"). repeat split.
  - destruct (aw_good aw_keyed) as ((a & Q & F & N) & _); [right; left; reflexivity|].
    assert (C : exists text, convert_to_rust_regex 51 (cf_pattern aw_keyed) = Ret (Ok text)) by (eexists; vm_compute; reflexivity).
    destruct C as (text & C). destruct (c57_faithful_lemma _ a text Q C F N) as (r & R & S). vm_compute in C. injection C as <-. vm_compute in R. injection R as <-.
    exists [1]. exists a. split; [exact Q|]. apply (S ascii_env _ ascii_env_plain 17 [1] 20). apply ends_spec; [reflexivity|]. vm_compute. tauto.
  - split; [exact Logic.I|]. intros (sp & [<-|[]] & rest & Q). discriminate Q.
  - discriminate.
  - intros k K _. injection K as <-. left. exists (chars "key"), (chars "key"), 13, 16, (chars "KEY: "). split; [left; reflexivity|].
    split; [|split; [exact O|split; [exact P|vm_compute; lia]]].
    exists (chars "key"). split; [|reflexivity]. exists [], []. split; [reflexivity|]. split; [intros c []|]. split; [intros c []|].
    split; intros c Q; injection Q as <-; intros Z; cbn in Z; repeat (destruct Z as [Z|Z]; [discriminate Z|]); exact Z.
  - intros k K. injection K as <-. discriminate.
Qed.

(* If only one rule redacts and it asks for no keywords, each of its matches as written, in
   scope and with no excluded keyword in front, starts in a piece that was replaced as the
   configuration says, or that multi-pass takes back.  With a check: each preferred match
   that passes. *)
Theorem C79_alone :
  forall E fold en b t e srt fuel, build en b = Ret (Ok t) -> crate_ok E en -> plain_env E ->
  (forall c d, same_letter E c d <-> fold c = fold d) -> (forall c, In c (bu_rules b) -> good_pattern E c) ->
  sane_env (en_validators en) -> sorter_ok srt -> distinct_keys e -> enough_fuel fuel (simple_strings e) ->
  (forall p s, In (p, s) (simple_strings e) -> short s) ->
  forall h blocked e' outs, scan simple_event_impl fuel h srt (bt_scanner t) blocked e = Ret (e', outs) ->
  scan_result simple_event_impl (simple_strings e) (simple_holds e) e' outs (fun p s s' os =>
    forall r c, nth_error (bu_rules b) r = Some c -> ~ In r blocked -> cf_action c <> ActNone -> no_included c ->
    (forall r' c', nth_error (bu_rules b) r' = Some c' -> cf_action c' <> ActNone -> r' = r) ->
    forall i j text, accounted E en fold b c p s i j text -> cf_validator c = None \/ preferred (as_written E c s) i j ->
    exists before old after, s = before ++ old ++ after /\ length before <= i < length before + length old /\
      ((exists before' after', s' = before' ++ redacted h (cf_action c) old ++ after') \/
       taken_as_written E en fold b blocked (simple_strings e) old)).
Proof. exact c79_alone_lemma. Qed.
Print Assumptions C79_alone.

(* the second match of the rule in "12345-aBAb", not found by a search from the left, is the one asked for *)
Example C79_alone_applies :
  (exists t, build aw_engines (aw_builder [aw_plain]) = Ret (Ok t)) /\ crate_ok ascii_env aw_engines /\
  (forall c, In c (bu_rules (aw_builder [aw_plain])) -> good_pattern ascii_env c) /\
  windows_as_written ascii_env (aw_builder [aw_plain]) (simple_strings aw_event) /\
  accounted ascii_env aw_engines lower (aw_builder [aw_plain]) aw_plain [Field (chars "m"); Index 0]
    (233%N :: chars "12345-aBAb KEY: cats cat") 3 11 (chars "345-aBAb").
Proof.
  split; [destruct (on_built_spec _ (fun _ => tt) (build aw_engines (aw_builder [aw_plain])) tt) as (t & E & _); [vm_compute; reflexivity|eauto]|].
  split; [apply regex_engines_ok|]. split; [intros c [<-|[]]; apply aw_good; left; reflexivity|].
  split; [intros c k [<-|[]] K; discriminate K|]. constructor.
  - exists (233%N :: chars "12"), (chars " KEY: cats cat"). repeat split.
  - destruct (aw_good aw_plain) as ((a & P & F & N) & _); [left; reflexivity|]. 
    assert (C : exists text, convert_to_rust_regex 51 (cf_pattern aw_plain) = Ret (Ok text)) by (eexists; vm_compute; reflexivity).
    destruct C as (text & C). destruct (c57_faithful_lemma _ a text P C F N) as (r & R & S). vm_compute in C. injection C as <-. vm_compute in R. injection R as <-.
    exists [1; 0]. exists a. split; [exact P|]. apply (S ascii_env _ ascii_env_plain 3 [1; 0] 11). apply ends_spec; [reflexivity|]. vm_compute. tauto.
  - split; [exact Logic.I|]. intros (sp & [] & _).
  - discriminate.
  - discriminate.
  - discriminate.
Qed.

(* Multi-pass, for the patterns as written.  Take something that was passed over; if its rule
   has a check let it be the preferred match at its start, and if it asks for keywords let one
   of them stand in front.  Then a match of the pattern covers its start of which the text is
   reported nowhere in the event. *)
Theorem C79_multipass :
  forall E fold en b t e srt fuel, build en b = Ret (Ok t) -> crate_ok E en -> plain_env E ->
  (forall c d, same_letter E c d <-> fold c = fold d) -> (forall c, In c (bu_rules b) -> good_pattern E c) ->
  sane_env (en_validators en) -> sorter_ok srt -> distinct_keys e -> enough_fuel fuel (simple_strings e) ->
  (forall p s, In (p, s) (simple_strings e) -> short s) -> bu_multipass b = true ->
  forall blocked r c p s i j text, nth_error (bu_rules b) r = Some c -> In (p, s) (simple_strings e) ->
  passed_as_written E en fold b blocked r p s i j text -> cf_validator c = None \/ preferred (as_written E c s) i j ->
  (forall k, cf_keywords c = Some k -> kc_included k <> [] ->
     exists kw w u v, In kw (kc_included k) /\ effective false kw w /\ occurs_as_word fold w w s u v /\ v <= off s i) ->
  exists i' j' before text' after, i' <= i < j' /\ matched (as_written E c s) i' j' /\
    s = before ++ text' ++ after /\ length before = i' /\ length (before ++ text') = j' /\
  forall h e' outs, scan simple_event_impl fuel h srt (bt_scanner t) blocked e = Ret (e', outs) ->
  scan_result simple_event_impl (simple_strings e) (simple_holds e) e' outs (fun p s s' os => exists g0 cs,
    s = original g0 cs /\ s' = rewritten g0 cs /\ length cs = length os /\ forall u, In u cs -> cut_old u <> text').
Proof. exact c79_multipass_lemma. Qed.
Print Assumptions C79_multipass.

(* with multi-pass: the "cats" in the field "raw", which is out of scope, keeps the other "cats" from being hashed *)
Definition aw_multipass : builder :=
  {| bu_rules := aw_rules; bu_labels := []; bu_kw_paths := true; bu_wild := false; bu_multipass := true |}.
Definition aw_passed : simple_event := SMap [
  (chars "m", SList [SString (chars "12345-aBAb KEY: cats"); SString (chars "key: cat")]);
  (chars "raw", SString (chars "key cats"))
].
Example C79_multipass_applies :
  (exists t, build aw_engines aw_multipass = Ret (Ok t) /\
  option_map fst (on_ret (scan simple_event_impl 100 ex_hash isort (bt_scanner t) [] aw_passed)) = Some (SMap [
    (chars "m", SList [SString (chars "12[R]Ab KEY: cats"); SString (chars "key: #hash")]);
    (chars "raw", SString (chars "key cats"))])) /\
  windows_as_written ascii_env aw_multipass (simple_strings aw_passed) /\
  distinct_keys aw_passed /\ enough_fuel 100 (simple_strings aw_passed) /\ (forall p s, In (p, s) (simple_strings aw_passed) -> short s) /\
  passed_as_written ascii_env aw_engines lower aw_multipass [] 1 [Field (chars "raw")] (chars "key cats") 4 8 (chars "cats") /\
  occurs_as_word lower (chars "key") (chars "key") (chars "key cats") 0 3.
Proof.
  split.
  { apply (on_built_spec _ (fun t => option_map fst (on_ret (scan simple_event_impl 100 ex_hash isort (bt_scanner t) [] aw_passed)))). vm_compute. reflexivity. }
  split; [exact (aw_fine _)|]. split.
  { constructor.
    + repeat (constructor; [simpl; intros H; repeat (destruct H as [H|H]; [discriminate H|]); exact H|]). constructor.
    + intros k c [E|[E|[]]]; injection E as _ <-; constructor. intros c' [<-|[<-|[]]]; constructor. }
  split; [intros p s [E|[E|[E|[]]]]; injection E as _ <-; vm_compute; lia|].
  split; [intros p s [E|[E|[E|[]]]]; injection E as _ <-; reflexivity|].
  assert (O : occurs_as_word lower (chars "key") (chars "key") (chars "key cats") 0 3).
  { exists [], (chars "key"), (chars " cats"). repeat split; try reflexivity; vm_compute; congruence. }
  split; [|exact O]. exists aw_keyed. split; [reflexivity|]. split; [intros []|]. split; [exact Logic.I|].
  split; [exists [Field (chars "raw")]; split; [left; reflexivity|exists []; reflexivity]|]. constructor.
  - exists (chars "key "), []. repeat split.
  - destruct (aw_good aw_keyed) as ((a & Q & F & N) & _); [right; left; reflexivity|].
    assert (C : exists text, convert_to_rust_regex 51 (cf_pattern aw_keyed) = Ret (Ok text)) by (eexists; vm_compute; reflexivity).
    destruct C as (text & C). destruct (c57_faithful_lemma _ a text Q C F N) as (r & R & S). vm_compute in C. injection C as <-. vm_compute in R. injection R as <-.
    exists [0]. exists a. split; [exact Q|]. apply (S ascii_env _ ascii_env_plain 4 [0] 8). apply ends_spec; [reflexivity|]. vm_compute. tauto.
  - split; [exact Logic.I|]. intros (sp & [] & _).
  - discriminate.
  - intros k K _. injection K as <-. left. exists (chars "key"), (chars "key"), 0, 3, (chars "key "). split; [left; reflexivity|].
    split; [|split; [exact O|split; [exists [], (chars "cats"); repeat split|vm_compute; lia]]].
    exists (chars "key"). split; [|reflexivity]. exists [], []. split; [reflexivity|]. split; [intros c []|]. split; [intros c []|].
    split; intros c Q; injection Q as <-; intros Z; cbn in Z; repeat (destruct Z as [Z|Z]; [discriminate Z|]); exact Z.
  - intros k K. injection K as <-. discriminate.
Qed.

