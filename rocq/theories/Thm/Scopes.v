(* Scopes, traversal, exclusion, blocked rules, independence (C12-C18, C61) *)
From Verif Require Import Proofs.ScopesClaims Examples.Setting.

(* C12.  Without implicit wildcards: each string of the event is shown once, in order,
   and the rules run on it are those with an exclude-scope and those with an include
   path that is a prefix of its path. *)
Theorem C12_rules_by_include_path :
  forall scopes ops strs, strings_of ops = Some strs ->
  exists rec log,
    visit_string_rule_combinations (build_tree scopes) (length scopes) false ops recorder [] = Ret (rec, log) /\
    map (fun x => fst (fst x)) rec = strs /\
    forall p c rules excl, In (p, c, rules, excl) rec -> forall i,
      In i rules <->
      exists s, nth_error scopes i = Some s /\
        match s with
        | ScopeInclude include _ => exists sp rest, In sp include /\ p = sp ++ rest
        | ScopeExclude _ => True
        end.
Proof. exact c12_rules_by_include_path_lemma. Qed.
Print Assumptions C12_rules_by_include_path.

(* an include-scope with two paths and an exclude-scope; three strings *)
Definition ex_scopes : list scope := [
  ScopeInclude [[Field (text "a")]; [Field (text "b"); Index 0]] [[Field (text "a"); Field (text "x")]];
  ScopeExclude [[Field (text "b")]]
].
Definition ex_ops : list visit_op := [
  OpPush (Field (text "a")); OpString (text "one"); OpPush (Field (text "x")); OpString (text "two"); OpPop; OpPop;
  OpPush (Field (text "b")); OpPush (Index 1); OpString (text "three"); OpPop; OpPop
].
Example C12_nonvacuous :
  strings_of ex_ops = Some [([Field (text "a")], text "one"); ([Field (text "a"); Field (text "x")], text "two");
                            ([Field (text "b"); Index 1], text "three")] /\
  match visit_string_rule_combinations (build_tree ex_scopes) (length ex_scopes) false ex_ops recorder [] with
  | Ret (rec, _) => map (fun x => (snd (fst x), map (snd x) [0; 1])) rec =
      [([1; 0], [false; false]); ([1; 0], [true; false]); ([1], [false; true])]
  | _ => False
  end.
Proof. vm_compute. split; reflexivity. Qed.

(* C13.  With and without wildcards, a rule is visited at most once per string. *)
Theorem C13_each_rule_once :
  forall wild scopes ops strs, strings_of ops = Some strs ->
  exists rec log,
    visit_string_rule_combinations (build_tree scopes) (length scopes) wild ops recorder [] = Ret (rec, log) /\
    map (fun x => fst (fst x)) rec = strs /\
    forall p c rules excl, In (p, c, rules, excl) rec -> NoDup rules.
Proof. exact c13_each_rule_once_lemma. Qed.
Print Assumptions C13_each_rule_once.

(* nested and duplicated include paths, also reached through a wildcard *)
Example C13_nonvacuous :
  let a := Field (text "a") in
  match visit_string_rule_combinations (build_tree [ScopeInclude [[a; a]; [a]; [a; Index 3]; [a]] []]) 1 true
          [OpPush a; OpPush (Index 3); OpString (text "s"); OpPop; OpPop] recorder [] with
  | Ret (rec, _) => map (fun x => snd (fst x)) rec = [[0]]
  | _ => False
  end.
Proof. vm_compute. reflexivity. Qed.

(* C14.  Without implicit wildcards: the exclusion test for a rule is true exactly on
   strings below one of the exclude paths of its scope. *)
Theorem C14_excluded_by_prefix :
  forall scopes ops strs, strings_of ops = Some strs ->
  exists rec log,
    visit_string_rule_combinations (build_tree scopes) (length scopes) false ops recorder [] = Ret (rec, log) /\
    map (fun x => fst (fst x)) rec = strs /\
    forall p c rules excl, In (p, c, rules, excl) rec -> forall i s, nth_error scopes i = Some s ->
      (excl i = true <->
       exists sp rest, In sp (match s with ScopeInclude _ exclude => exclude | ScopeExclude paths => paths end) /\
                       p = sp ++ rest).
Proof. exact c14_excluded_by_prefix_lemma. Qed.
Print Assumptions C14_excluded_by_prefix.

(* see C12_nonvacuous: rule 0 is excluded on "two", rule 1 on "three" *)
Example C14_nonvacuous : nth_error ex_scopes 1 = Some (ScopeExclude [[Field (text "b")]]).
Proof. reflexivity. Qed.

(* C15.  With implicit index wildcards, a scope path covers what is left of a prefix
   of the string's path after deleting index segments, where no index is kept directly
   behind a deleted one ([skips]). *)
Theorem C15_implicit_wildcards :
  forall scopes ops strs, strings_of ops = Some strs ->
  exists rec log,
    visit_string_rule_combinations (build_tree scopes) (length scopes) true ops recorder [] = Ret (rec, log) /\
    map (fun x => fst (fst x)) rec = strs /\
    forall p c rules excl, In (p, c, rules, excl) rec -> forall i,
      let covered sp := exists p1 rest, p = p1 ++ rest /\ skips false p1 sp in
      (In i rules <->
       exists s, nth_error scopes i = Some s /\
         match s with
         | ScopeInclude include _ => exists sp, In sp include /\ covered sp
         | ScopeExclude _ => True
         end) /\
      forall s, nth_error scopes i = Some s ->
        (excl i = true <->
         exists sp, In sp (match s with ScopeInclude _ exclude => exclude | ScopeExclude paths => paths end) /\
                    covered sp).
Proof. exact c15_implicit_wildcards_lemma. Qed.
Print Assumptions C15_implicit_wildcards.

Example C15_nonvacuous :
  let a := Field (text "a") in let b := Field (text "b") in
  skips false [a; Index 1; Index 2; b; Index 3] [a; Index 1; b] /\
  ~ skips false [a; Index 1; Index 2; b] [a; Index 2; b] /\
  match visit_string_rule_combinations (build_tree [ScopeInclude [[a; b]] [[a; Index 2; b]]]) 1 true
          [OpPush a; OpPush (Index 2); OpPush b; OpString (text "s"); OpPop; OpPop;
           OpPush (Index 3); OpPush (Index 2); OpPush b; OpString (text "t")] recorder [] with
  | Ret (rec, _) => map (fun x => (snd (fst x), snd x 0)) rec = [([0], true); ([0], false)]
  | _ => False
  end.
Proof.
  cbv zeta. split; [|split].
  - repeat constructor.
  - intros H. repeat match goal with
    | H : skips _ _ _ |- _ => inversion H; clear H; subst; try discriminate
    end.
  - vm_compute. reflexivity.
Qed.

(* C16.  Whatever was visited before, a balanced sequence of operations leaves the
   visitor in the state it found it in. *)
Theorem C16_balanced_restores_state :
  forall S wild scopes (cv : content_visitor S) before ops s0 v s log v' s' log',
  foldM (run_op wild cv) before (vstate_init (build_tree scopes) (length scopes) wild, s0, []) = Ret (v, s, log) ->
  balanced ops ->
  foldM (run_op wild cv) ops (v, s, log) = Ret (v', s', log') ->
  v' = v.
Proof. exact c16_balanced_restores_state_lemma. Qed.
Print Assumptions C16_balanced_restores_state.

Example C16_nonvacuous :
  balanced (tl (removelast (firstn 6 ex_ops))) /\
  exists x y, foldM (run_op true recorder) (firstn 2 ex_ops) (vstate_init (build_tree ex_scopes) 2 true, [], []) = Ret x /\
    vs_path (fst (fst x)) = [Field (text "a")] /\
    foldM (run_op true recorder) [OpPush (Index 4); OpString (text "t"); OpPop] x = Ret y /\
    fst (fst y) = fst (fst x).
Proof.
  split.
  - simpl. constructor. apply (bal_under _ [OpString (text "two")] []); repeat constructor.
  - eexists _, _. split; [reflexivity|]. split; [reflexivity|]. split; [reflexivity|]. reflexivity.
Qed.

(* C16.  Two strings at the same path, in whatever events, are given the same rules
   and the same exclusions. *)
Theorem C16_only_the_path_matters :
  forall wild scopes ops1 ops2 strs1 strs2,
  strings_of ops1 = Some strs1 -> strings_of ops2 = Some strs2 ->
  exists rec1 log1 rec2 log2,
    visit_string_rule_combinations (build_tree scopes) (length scopes) wild ops1 recorder [] = Ret (rec1, log1) /\
    visit_string_rule_combinations (build_tree scopes) (length scopes) wild ops2 recorder [] = Ret (rec2, log2) /\
    forall p c1 c2 rules1 rules2 excl1 excl2,
      In (p, c1, rules1, excl1) rec1 -> In (p, c2, rules2, excl2) rec2 ->
      rules1 = rules2 /\ forall i, excl1 i = excl2 i.
Proof. exact c16_only_the_path_matters_lemma. Qed.
Print Assumptions C16_only_the_path_matters.

Example C16_path_nonvacuous :
  strings_of ex_ops <> None /\
  strings_of (ex_ops ++ [OpPush (Field (text "a")); OpString (text "four"); OpPop]) <> None.
Proof. split; discriminate. Qed.

(* C17.  No report is made at a path excluded for its rule; with multi-pass no report
   (of a rule taking part) has the text of something found in an excluded path. *)
Theorem C17_excluded_paths :
  forall I w srt sc fs e strs holds fuel,
  scan_setting I w srt sc fs e strs holds fuel ->
  forall h blocked e' outs, scan I fuel h srt sc blocked e = Ret (e', outs) ->
  scan_result I strs holds e' outs (fun p c c' os =>
    exists ranges, reports_from sc fs blocked p c os ranges /\
      forall k o a b, nth_error os k = Some o -> nth_error ranges k = Some (a, b) ->
        exists r, rule_of sc o r /\ ~ excluded (sc_wild sc) (rule_scope r) p /\
          (sc_multipass sc = true -> rule_multipass r = true ->
           forall t, part_at c a b t -> ~ found_excluded sc fs blocked strs t)).
Proof. exact c17_excluded_paths_lemma. Qed.
Print Assumptions C17_excluded_paths.

(* "abc" under "skip" is excluded for rule 3, and suppresses "abc" elsewhere *)
Example C17_nonvacuous :
  let e := SMap [(text "skip", SString (text "abc")); (text "x", SString (text "abc abd abc"))] in
  let one := {| sc_rules := ex_rules; sc_kw_paths := false; sc_wild := false; sc_multipass := false;
                sc_return_matches := true |} in
  scan simple_event_impl 100 ex_hash isort ex_scanner [] e = Ret (e, []) /\
  exists outs, scan simple_event_impl 100 ex_hash isort one [] e =
    Ret (SMap [(text "skip", SString (text "abc")); (text "x", SString (text "a** abd a**"))], outs) /\
    map rm_value outs = [Some (text "abc"); Some (text "abc")].
Proof. split; [vm_compute; reflexivity|]. eexists. split; vm_compute; reflexivity. Qed.

(* C17 for regex rules without keywords: the texts that suppress are those of the
   leftmost true positives in the strings at paths excluded for the rule. *)
Theorem C17_excluded_texts_of_regex_rules :
  forall sc blocked strs j rr at_ occ r q d,
  regex_rule_at sc j rr at_ occ -> rr_included rr = None -> ~ In j blocked ->
  nth_error (sc_rules sc) j = Some r -> In (q, d) strs ->
  included (sc_wild sc) (rule_scope r) q -> excluded (sc_wild sc) (rule_scope r) q -> checkable rr at_ d ->
  exists ms, scan_chain rr at_ true d 0 ms /\
    forall a b t, In (a, b) ms -> part_at d a b t -> found_excluded sc (finders sc) blocked strs t.
Proof. exact c17_excluded_texts_of_regex_rules_lemma. Qed.
Print Assumptions C17_excluded_texts_of_regex_rules.

Example C17_texts_nonvacuous :
  exists r, nth_error (sc_rules ex_scanner) 3 = Some r /\ excluded false (rule_scope r) [Field (text "skip"); Index 1] /\
    regex_rule_at ex_scanner 3 (plain_rule 3 (literal (text "abc"))) (match_at (literal (text "abc"))) (fun _ _ _ => False).
Proof.
  eexists. split; [reflexivity|]. split.
  - eexists. split; [left; reflexivity|]. exists [Index 1]. reflexivity.
  - eexists _, _, _. split; [reflexivity|]. split; [reflexivity|]. split; [reflexivity|apply plain_ok].
Qed.

(* C18.  Blocking rules is the same as using a scanner whose blocked rules never find
   anything. *)
Theorem C18_blocked_rules_find_nothing :
  forall I w srt sc fs e strs holds fuel,
  scan_setting I w srt sc fs e strs holds fuel ->
  forall h blocked e1 outs1, scan I fuel h srt sc blocked e = Ret (e1, outs1) ->
  exists e2, scan I fuel h srt (silence blocked sc) [] e = Ret (e2, outs1) /\
    exists l, holds e1 l /\ holds e2 l.
Proof. exact c18_blocked_rules_find_nothing_lemma. Qed.
Print Assumptions C18_blocked_rules_find_nothing.

Example C18_nonvacuous :
  exists e' outs, scan simple_event_impl 100 ex_hash isort ex_scanner [0] ex_event = Ret (e', outs) /\
    scan simple_event_impl 100 ex_hash isort (silence [0] ex_scanner) [] ex_event = Ret (e', outs) /\
    map rm_rule outs = [2; 2; 2; 2; 2; 2; 2; 1] /\ e' <> ex_redacted.
Proof.
  eexists _, _. split; [vm_compute; reflexivity|]. split; [vm_compute; reflexivity|].
  split; [reflexivity|discriminate].
Qed.

(* C18 for SimpleEvent: the two scans give the same event and the same reports. *)
Theorem C18_simple_event :
  forall srt sc e fuel,
  sorter_ok srt -> distinct_keys e -> regex_scanner sc (simple_strings e) ->
  enough_fuel fuel (simple_strings e) ->
  forall h blocked,
    scan simple_event_impl fuel h srt sc blocked e = scan simple_event_impl fuel h srt (silence blocked sc) [] e.
Proof. exact c18_simple_event_lemma. Qed.
Print Assumptions C18_simple_event.

Example C18_simple_nonvacuous :
  scan simple_event_impl 100 ex_hash isort ex_scanner [0] ex_event <>
  scan simple_event_impl 100 ex_hash isort ex_scanner [] ex_event.
Proof. vm_compute. discriminate. Qed.

(* C61.  With multi-pass off, what becomes of a string and what is reported for it
   depends only on its path and content: it is the same in any two scans. *)
Theorem C61_strings_are_independent :
  forall I w srt sc fs e1 strs1 holds1 fuel1 e2 strs2 holds2 fuel2,
  scan_setting I w srt sc fs e1 strs1 holds1 fuel1 ->
  scan_setting I w srt sc fs e2 strs2 holds2 fuel2 ->
  sc_multipass sc = false ->
  forall h blocked e1' outs1 e2' outs2,
  scan I fuel1 h srt sc blocked e1 = Ret (e1', outs1) ->
  scan I fuel2 h srt sc blocked e2 = Ret (e2', outs2) ->
  exists res1 res2,
    scan_results I strs1 holds1 e1' outs1 res1 /\ scan_results I strs2 holds2 e2' outs2 res2 /\
    forall p c x1 x2, In ((p, c), x1) (combine strs1 res1) -> In ((p, c), x2) (combine strs2 res2) -> x1 = x2.
Proof. exact c61_strings_are_independent_lemma. Qed.
Print Assumptions C61_strings_are_independent.

(* the string "a key" at the same path in two events; with multi-pass it could be
   suppressed in one of them (C17_nonvacuous) *)
Example C61_nonvacuous :
  let sc := {| sc_rules := ex_rules; sc_kw_paths := false; sc_wild := false; sc_multipass := false;
               sc_return_matches := true |} in
  let e2 := SMap [(text "skip", SString (text "abc")); (text "x", SString (text "abc"))] in
  let e1 := SMap [(text "x", SString (text "abc"))] in
  exists o1 o2, scan simple_event_impl 100 ex_hash isort sc [] e1 = Ret (SMap [(text "x", SString (text "a**"))], o1) /\
    scan simple_event_impl 100 ex_hash isort sc [] e2 =
      Ret (SMap [(text "skip", SString (text "abc")); (text "x", SString (text "a**"))], o2) /\ o1 = o2.
Proof. eexists _, _. split; [vm_compute; reflexivity|]. split; [vm_compute; reflexivity|reflexivity]. Qed.

