(* Scopes, traversal, exclusion, blocked rules, independence (C12-C18, C61): proofs of the statements of Thm/Scopes.v *)
From Coq Require Import Lia.
From Verif Require Import Proofs.Text Proofs.Apply Proofs.Overlap Proofs.Visitor.
From Verif Require Export Proofs.RegexScan Proofs.RedactionClaims.

Lemma recorded : forall wild scopes ops strs, strings_of ops = Some strs ->
  exists rec log,
    visit_string_rule_combinations (build_tree scopes) (length scopes) wild ops recorder [] = Ret (rec, log) /\
    map (fun x => fst (fst x)) rec = strs /\
    forall p c rules excl, In (p, c, rules, excl) rec ->
      rules = rules_at wild (build_tree scopes) (length scopes) p /\
      excl = excluded_at wild (build_tree scopes) p.
Proof.
  intros wild scopes ops strs Hs. rewrite (visit_scopes _ wild scopes recorder ops [] strs Hs), recorder_fold.
  eexists _, _. split; [reflexivity|]. split.
  - simpl. rewrite map_map. simpl. rewrite <- (map_id strs) at 2. apply map_ext. intros [p c]. reflexivity.
  - intros p c rules excl Hin. simpl in Hin. apply in_map_iff in Hin as ([q d] & E & _). simpl in E.
    injection E as <- _ <- <-. auto.
Qed.

Lemma c12_rules_by_include_path_lemma :
  forall scopes ops strs, strings_of ops = Some strs ->
  exists rec log,
    visit_string_rule_combinations (build_tree scopes) (length scopes) false ops recorder [] = Ret (rec, log) /\
    map (fun x => fst (fst x)) rec = strs /\
    forall p c rules excl, In (p, c, rules, excl) rec -> forall i,
      In i rules <->
      exists s, nth_error scopes i = Some s /\
        match s with
        | ScopeInclude include _ => exists sp rest, In sp include /\ p = sp ++ rest
        | ScopeExclude _ => True
        end.
Proof.
  intros scopes ops strs Hs. destruct (recorded false scopes ops strs Hs) as (rec & log & H & Hm & Hall).
  exists rec, log. split; [exact H|]. split; [exact Hm|]. intros p c rules excl Hin i.
  destruct (Hall _ _ _ _ Hin) as [-> _]. destruct (rules_at_spec false scopes p) as [_ Hi]. rewrite Hi.
  split; intros (s & Es & Hsc); exists s; (split; [exact Es|]); destruct s as [inc exc|ps]; simpl in *; auto.
  - destruct Hsc as (sp & H1 & rest & H2). eauto.
  - destruct Hsc as (sp & rest & H1 & H2). exists sp. split; [exact H1|]. exists rest. exact H2.
Qed.

Lemma c13_each_rule_once_lemma :
  forall wild scopes ops strs, strings_of ops = Some strs ->
  exists rec log,
    visit_string_rule_combinations (build_tree scopes) (length scopes) wild ops recorder [] = Ret (rec, log) /\
    map (fun x => fst (fst x)) rec = strs /\
    forall p c rules excl, In (p, c, rules, excl) rec -> NoDup rules.
Proof.
  intros wild scopes ops strs Hs. destruct (recorded wild scopes ops strs Hs) as (rec & log & H & Hm & Hall).
  exists rec, log. split; [exact H|]. split; [exact Hm|]. intros p c rules excl Hin.
  destruct (Hall _ _ _ _ Hin) as [-> _]. apply rules_at_spec.
Qed.

Lemma c14_excluded_by_prefix_lemma :
  forall scopes ops strs, strings_of ops = Some strs ->
  exists rec log,
    visit_string_rule_combinations (build_tree scopes) (length scopes) false ops recorder [] = Ret (rec, log) /\
    map (fun x => fst (fst x)) rec = strs /\
    forall p c rules excl, In (p, c, rules, excl) rec -> forall i s, nth_error scopes i = Some s ->
      (excl i = true <->
       exists sp rest, In sp (match s with ScopeInclude _ exclude => exclude | ScopeExclude paths => paths end) /\
                       p = sp ++ rest).
Proof.
  intros scopes ops strs Hs. destruct (recorded false scopes ops strs Hs) as (rec & log & H & Hm & Hall).
  exists rec, log. split; [exact H|]. split; [exact Hm|]. intros p c rules excl Hin i s Es.
  destruct (Hall _ _ _ _ Hin) as [_ ->]. rewrite (excluded_at_spec false scopes p i s Es).
  destruct s; simpl; split.
  - intros (sp & H1 & rest & H2). eauto.
  - intros (sp & rest & H1 & H2). exists sp. split; [exact H1|]. exists rest. exact H2.
  - intros (sp & H1 & rest & H2). eauto.
  - intros (sp & rest & H1 & H2). exists sp. split; [exact H1|]. exists rest. exact H2.
Qed.

Lemma c15_implicit_wildcards_lemma :
  forall scopes ops strs, strings_of ops = Some strs ->
  exists rec log,
    visit_string_rule_combinations (build_tree scopes) (length scopes) true ops recorder [] = Ret (rec, log) /\
    map (fun x => fst (fst x)) rec = strs /\
    forall p c rules excl, In (p, c, rules, excl) rec -> forall i,
      let covered sp := exists p1 rest, p = p1 ++ rest /\ skips false p1 sp in
      (In i rules <->
       exists s, nth_error scopes i = Some s /\
         match s with
         | ScopeInclude include _ => exists sp, In sp include /\ covered sp
         | ScopeExclude _ => True
         end) /\
      forall s, nth_error scopes i = Some s ->
        (excl i = true <->
         exists sp, In sp (match s with ScopeInclude _ exclude => exclude | ScopeExclude paths => paths end) /\
                    covered sp).
Proof.
  intros scopes ops strs Hs. destruct (recorded true scopes ops strs Hs) as (rec & log & H & Hm & Hall).
  exists rec, log. split; [exact H|]. split; [exact Hm|]. intros p c rules excl Hin i covered.
  destruct (Hall _ _ _ _ Hin) as [-> ->]. split.
  - destruct (rules_at_spec true scopes p) as [_ Hi]. rewrite Hi.
    split; intros (s & Es & Hsc); exists s; (split; [exact Es|]); destruct s as [inc exc|ps]; simpl in *; auto.
  - intros s Es. rewrite (excluded_at_spec true scopes p i s Es). destruct s; simpl; reflexivity.
Qed.

Section Balanced.
Variable wild : bool.
Variable scopes : list scope.
Let root := build_tree scopes.
Let n := length scopes.

(* the visitor after one pop too many *)
Definition overpopped : vstate := {| vs_nodes := []; vs_counts := []; vs_path := []; vs_bools := bools0 wild n |}.

Lemma reset_bools0 : option_map bool_set_reset (bools0 wild n) = bools0 wild n.
Proof.
  unfold bools0. destruct wild; [|reflexivity]. simpl. f_equal. unfold bool_set_new, bool_set_reset.
  induction n as [|k IH]; simpl; congruence.
Qed.

Definition reachable_state (v : vstate) : Prop := (exists p, v = state_at wild root n p) \/ v = overpopped.

Lemma string_keeps : forall S (cv : content_visitor S) v c s v' s' mm, reachable_state v ->
  visit_string cv c v s = Ret (v', s', mm) -> v' = v.
Proof.
  intros S cv v c s v' s' mm Hv H. unfold visit_string in H. destruct Hv as [(p & ->)| ->].
  - cbn [vs_nodes vs_bools vs_path vs_counts state_at] in H.
    destruct (visit_rules_spec wild root n p) as (rules & b & Er & Eb & _);
      [apply (build_tree_spec scopes)|apply scopes_carry|].
    rewrite Er in H. cbn [bind] in H.
    destruct (cv p c rules (is_excluded (nodes wild root (rev p))) s) as [[s1 m1]| |]; cbn [bind] in H; try discriminate.
    injection H as <- _ _. unfold state_at. rewrite Eb. reflexivity.
  - cbn [vs_nodes vs_bools vs_path vs_counts overpopped visit_rule_indices foldM bind] in H.
    destruct (cv [] c [] (is_excluded []) s) as [[s1 m1]| |]; cbn [bind] in H; try discriminate.
    injection H as <- _ _. unfold overpopped. rewrite reset_bools0. reflexivity.
Qed.

Lemma op_reachable : forall S (cv : content_visitor S) op v s log v' s' log', reachable_state v ->
  run_op wild cv (v, s, log) op = Ret (v', s', log') -> reachable_state v'.
Proof.
  intros S cv op v s log v' s' log' Hv H. destruct op as [seg| |c]; cbn [run_op] in H.
  - destruct Hv as [(p & ->)| ->].
    + rewrite push_state in H. cbn [bind] in H. injection H as <- _ _. left. eauto.
    + discriminate H.
  - destruct Hv as [(p & ->)| ->].
    + destruct p as [|x p].
      * cbn in H. injection H as <- _ _. right. reflexivity.
      * destruct (exists_last (l := x :: p)) as (q & y & Eq); [discriminate|]. rewrite Eq, pop_state in H.
        cbn [bind] in H. injection H as <- _ _. left. eauto.
    + discriminate H.
  - destruct (visit_string cv c v s) as [[[v1 s1] m1]| |] eqn:E; cbn [bind] in H; try discriminate.
    injection H as <- _ _. rewrite (string_keeps _ _ _ _ _ _ _ _ Hv E). exact Hv.
Qed.

Lemma ops_reachable : forall S (cv : content_visitor S) ops v s log v' s' log', reachable_state v ->
  foldM (run_op wild cv) ops (v, s, log) = Ret (v', s', log') -> reachable_state v'.
Proof.
  intros S cv. induction ops as [|op ops IH]; intros v s log v' s' log' Hv H.
  - cbn in H. injection H as <- _ _. exact Hv.
  - cbn [foldM] in H. destruct (run_op wild cv (v, s, log) op) as [[[v1 s1] l1]| |] eqn:E; cbn [bind] in H; try discriminate.
    eapply IH; [eapply op_reachable; eauto|exact H].
Qed.

Lemma balanced_keeps : forall S (cv : content_visitor S) ops, balanced ops ->
  forall v s log v' s' log', reachable_state v ->
  foldM (run_op wild cv) ops (v, s, log) = Ret (v', s', log') -> v' = v.
Proof.
  intros S cv ops Hb. induction Hb as [|c ops Hb IH|seg inner ops Hi IHi Ho IHo]; intros v s log v' s' log' Hv H.
  - cbn in H. injection H as <- _ _. reflexivity.
  - cbn [foldM] in H. destruct (run_op wild cv (v, s, log) (OpString c)) as [[[v1 s1] l1]| |] eqn:E; cbn [bind] in H; try discriminate.
    cbn [run_op] in E. destruct (visit_string cv c v s) as [[[v2 s2] m2]| |] eqn:E2; cbn [bind] in E; try discriminate.
    injection E as -> _ _. rewrite (string_keeps _ _ _ _ _ _ _ _ Hv E2) in H. eapply IH; eauto.
  - cbn [foldM] in H. destruct Hv as [(p & ->)| ->]; [|discriminate H].
    cbn [run_op] in H. rewrite push_state in H. cbn [bind] in H.
    rewrite foldM_app in H.
    destruct (foldM (run_op wild cv) inner (state_at wild root n (p ++ [seg]), s, log)) as [[[v1 s1] l1]| |] eqn:E; cbn [bind] in H; try discriminate.
    apply IHi in E; [|left; eauto]. subst v1. cbn [foldM run_op] in H. rewrite pop_state in H. cbn [bind] in H.
    eapply IHo; [left; eauto|exact H].
Qed.
End Balanced.

Lemma c16_balanced_restores_state_lemma :
  forall S wild scopes (cv : content_visitor S) before ops s0 v s log v' s' log',
  foldM (run_op wild cv) before (vstate_init (build_tree scopes) (length scopes) wild, s0, []) = Ret (v, s, log) ->
  balanced ops ->
  foldM (run_op wild cv) ops (v, s, log) = Ret (v', s', log') ->
  v' = v.
Proof.
  intros S wild scopes cv before ops s0 v s log v' s' log' H0 Hb H.
  eapply balanced_keeps; [exact Hb| |exact H].
  eapply ops_reachable; [|exact H0]. left. exists []. reflexivity.
Qed.

Lemma c16_only_the_path_matters_lemma :
  forall wild scopes ops1 ops2 strs1 strs2,
  strings_of ops1 = Some strs1 -> strings_of ops2 = Some strs2 ->
  exists rec1 log1 rec2 log2,
    visit_string_rule_combinations (build_tree scopes) (length scopes) wild ops1 recorder [] = Ret (rec1, log1) /\
    visit_string_rule_combinations (build_tree scopes) (length scopes) wild ops2 recorder [] = Ret (rec2, log2) /\
    forall p c1 c2 rules1 rules2 excl1 excl2,
      In (p, c1, rules1, excl1) rec1 -> In (p, c2, rules2, excl2) rec2 ->
      rules1 = rules2 /\ forall i, excl1 i = excl2 i.
Proof.
  intros wild scopes ops1 ops2 strs1 strs2 H1 H2.
  destruct (recorded wild scopes ops1 strs1 H1) as (rec1 & log1 & E1 & _ & A1).
  destruct (recorded wild scopes ops2 strs2 H2) as (rec2 & log2 & E2 & _ & A2).
  exists rec1, log1, rec2, log2. split; [exact E1|]. split; [exact E2|].
  intros p c1 c2 rules1 rules2 excl1 excl2 I1 I2.
  destruct (A1 _ _ _ _ I1) as [-> ->]. destruct (A2 _ _ _ _ I2) as [-> ->]. auto.
Qed.

Lemma reported_nth : forall os ranges k o a b, nth_error os k = Some o -> nth_error ranges k = Some (a, b) ->
  In (rm_rule o, a, b) (reported os ranges).
Proof.
  induction os as [|x os IH]; intros [|y ranges] [|k] o a b H1 H2; try discriminate; simpl.
  - injection H1 as ->. injection H2 as ->. left. reflexivity.
  - right. eapply IH; eauto.
Qed.

Lemma c17_excluded_paths_lemma :
  forall I w srt sc fs e strs holds fuel,
  scan_setting I w srt sc fs e strs holds fuel ->
  forall h blocked e' outs, scan I fuel h srt sc blocked e = Ret (e', outs) ->
  scan_result I strs holds e' outs (fun p c c' os =>
    exists ranges, reports_from sc fs blocked p c os ranges /\
      forall k o a b, nth_error os k = Some o -> nth_error ranges k = Some (a, b) ->
        exists r, rule_of sc o r /\ ~ excluded (sc_wild sc) (rule_scope r) p /\
          (sc_multipass sc = true -> rule_multipass r = true ->
           forall t, part_at c a b t -> ~ found_excluded sc fs blocked strs t)).
Proof.
  intros I w srt sc fs e strs holds fuel Hset h blocked e' outs Hs.
  eapply result_weaken; [|eapply c06_greedy_by_priority_lemma; eauto]. intros p c c' os _ (ranges & Hfrom & Hrep & _).
  exists ranges. split; [exact Hfrom|]. intros k o a b Ho Hr.
  destruct (Hrep _ (reported_nth _ _ _ _ _ _ Ho Hr)) as [(r & Hrr & _ & _ & Hx & _) Hns].
  exists r. split; [exact Hrr|]. split; [exact Hx|]. intros Hm Hrm t Ht Hf. apply Hns.
  split; [exact Hm|]. split; [eauto|]. exists t. auto.
Qed.

Lemma c17_excluded_texts_of_regex_rules_lemma :
  forall sc blocked strs j rr at_ occ r q d,
  regex_rule_at sc j rr at_ occ -> rr_included rr = None -> ~ In j blocked ->
  nth_error (sc_rules sc) j = Some r -> In (q, d) strs ->
  included (sc_wild sc) (rule_scope r) q -> excluded (sc_wild sc) (rule_scope r) q -> checkable rr at_ d ->
  exists ms, scan_chain rr at_ true d 0 ms /\
    forall a b t, In (a, b) ms -> part_at d a b t -> found_excluded sc (finders sc) blocked strs t.
Proof.
  intros sc blocked strs j rr at_ occ r q d Hat Hinc Hb Hr Hin Hi Hx Hck.
  destruct (rf_plain_excluded _ _ _ _ (regex_rule_finds _ _ _ _ _ Hat) d q (sc_kw_paths sc) Hinc Hck) as (ms & Hms & Ht).
  exists ms. split; [exact Hms|]. intros a b t Hab Hp. exists j, r, q, d.
  split; [exact Hin|]. split; [exact Hr|]. split; [exact Hb|]. split; [exact Hi|]. split; [exact Hx|].
  apply Ht. eauto.
Qed.

Definition silent_finder (blocked : list nat) (fs : nat -> finder) (i : nat) : finder :=
  if existsb (Nat.eqb i) blocked then fun _ _ _ _ => ([], []) else fs i.

Lemma silence_from_nth : forall blocked rs i k,
  nth_error (silence_from i blocked rs) k =
  option_map (fun r => if existsb (Nat.eqb (i + k)) blocked then silent r else r) (nth_error rs k).
Proof.
  intros blocked. induction rs as [|r rs IH]; intros i [|k]; simpl; try reflexivity.
  - rewrite Nat.add_0_r. reflexivity.
  - rewrite IH. replace (S i + k) with (i + S k) by lia. reflexivity.
Qed.

Lemma silence_similar : forall blocked sc, similar sc (silence blocked sc).
Proof.
  intros blocked sc. split; try reflexivity. unfold silence, same_rules. cbn [sc_rules].
  generalize (sc_rules sc) as l. generalize 0 as i. intros i l. revert i.
  induction l as [|r l IH]; intros i; simpl; constructor; [|apply IH].
  destruct (existsb (Nat.eqb i) blocked); auto.
Qed.

Lemma silence_meets : forall blocked sc fs strs, scanner_meets sc fs strs ->
  scanner_meets (silence blocked sc) (silent_finder blocked fs) strs.
Proof.
  intros blocked sc fs strs H i r Hr. unfold silence in Hr. cbn [sc_rules] in Hr.
  rewrite silence_from_nth in Hr. destruct (nth_error (sc_rules sc) i) as [r0|] eqn:E; [|discriminate Hr].
  cbn [option_map] in Hr. simpl in Hr. unfold silent_finder. destruct (existsb (Nat.eqb i) blocked).
  - injection Hr as <-. split; cbn; auto.
    + exact (mt_action _ _ _ _ (H i r0 E)).
    + intros c p x kw a b _ [].
  - injection Hr as <-. exact (H i r0 E).
Qed.

Lemma silence_candidate : forall blocked sc fs p c k,
  candidate sc fs blocked p c k <-> candidate (silence blocked sc) (silent_finder blocked fs) [] p c k.
Proof.
  intros blocked sc fs p c [[i a] b]. unfold candidate, silence, silent_finder. cbn [sc_rules sc_wild sc_kw_paths].
  rewrite silence_from_nth. simpl (0 + i). split.
  - intros (r & Hr & Hb & Hi & Hx & Hin). exists r.
    destruct (existsb (Nat.eqb i) blocked) eqn:E; [exfalso; apply Hb; apply existsb_eqb_in; exact E|].
    rewrite Hr. cbn [option_map]. split; [reflexivity|]. split; [intros []|]. auto.
  - intros (r & Hr & _ & Hi & Hx & Hin).
    destruct (existsb (Nat.eqb i) blocked) eqn:E; [simpl in Hin; destruct Hin|].
    destruct (nth_error (sc_rules sc) i) as [r0|] eqn:Hr0; [|discriminate Hr]. injection Hr as ->.
    exists r. split; [reflexivity|]. split; [|auto].
    intros Hb. apply existsb_eqb_in in Hb. congruence.
Qed.

Lemma silence_found : forall blocked sc fs strs t,
  found_excluded sc fs blocked strs t <-> found_excluded (silence blocked sc) (silent_finder blocked fs) [] strs t.
Proof.
  intros blocked sc fs strs t. unfold found_excluded, silence, silent_finder. cbn [sc_rules sc_wild sc_kw_paths].
  split.
  - intros (i & r & p & c & Hp & Hr & Hb & Hi & Hx & Hin). exists i, r, p, c.
    rewrite silence_from_nth. simpl (0 + i).
    destruct (existsb (Nat.eqb i) blocked) eqn:E; [exfalso; apply Hb; apply existsb_eqb_in; exact E|].
    rewrite Hr. cbn [option_map]. split; [exact Hp|]. split; [reflexivity|]. split; [intros []|]. auto.
  - intros (i & r & p & c & Hp & Hr & _ & Hi & Hx & Hin). rewrite silence_from_nth in Hr. simpl (0 + i) in Hr.
    destruct (existsb (Nat.eqb i) blocked) eqn:E; [simpl in Hin; destruct Hin|].
    destruct (nth_error (sc_rules sc) i) as [r0|] eqn:Hr0; [|discriminate Hr]. injection Hr as ->.
    exists i, r, p, c. split; [exact Hp|]. split; [exact Hr0|]. split; [|auto].
    intros Hb. apply existsb_eqb_in in Hb. congruence.
Qed.

Lemma silence_suppressed : forall blocked sc fs strs c k,
  suppressed sc fs blocked strs c k <-> suppressed (silence blocked sc) (silent_finder blocked fs) [] strs c k.
Proof.
  intros blocked sc fs strs c [[i a] b]. unfold suppressed.
  assert (Hmp : (exists r, nth_error (sc_rules sc) i = Some r /\ rule_multipass r = true) <->
                (exists r, nth_error (sc_rules (silence blocked sc)) i = Some r /\ rule_multipass r = true)).
  { unfold silence. cbn [sc_rules]. rewrite silence_from_nth. simpl (0 + i).
    destruct (nth_error (sc_rules sc) i) as [r0|]; cbn [option_map]; [|tauto].
    destruct (existsb (Nat.eqb i) blocked); [|tauto].
    split; intros (r & Hr & Hm); injection Hr as <-; eexists; split; try reflexivity; exact Hm. }
  rewrite Hmp. cbn [silence sc_multipass].
  split; intros (H1 & H2 & t & H3 & H4); (split; [exact H1|]); (split; [exact H2|]); exists t; (split; [exact H3|]);
    first [exact (proj1 (silence_found blocked sc fs strs t) H4)|exact (proj2 (silence_found blocked sc fs strs t) H4)].
Qed.

Lemma c18_blocked_rules_find_nothing_lemma :
  forall I w srt sc fs e strs holds fuel,
  scan_setting I w srt sc fs e strs holds fuel ->
  forall h blocked e1 outs1, scan I fuel h srt sc blocked e = Ret (e1, outs1) ->
  exists e2, scan I fuel h srt (silence blocked sc) [] e = Ret (e2, outs1) /\
    exists l, holds e1 l /\ holds e2 l.
Proof.
  intros I w srt sc fs e strs holds fuel Hset h blocked e1 outs1 H1.
  assert (Hset2 : scan_setting I w srt (silence blocked sc) (silent_finder blocked fs) e strs holds fuel).
  { destruct Hset as [A B C D F G]. split; auto. apply silence_meets. exact D. }
  destruct (scan_returns _ _ _ _ _ _ _ _ _ Hset2 h []) as (e2 & outs2 & H2).
  destruct (scan_scanned _ _ _ _ _ _ _ _ _ Hset _ _ _ _ H1) as (r1 & L1 & E1 & Hh1 & Hall1).
  destruct (scan_scanned _ _ _ _ _ _ _ _ _ Hset2 _ _ _ _ H2) as (r2 & L2 & E2 & Hh2 & Hall2).
  assert (r1 = r2).
  { apply (same_results strs); auto. intros p c c1 o1 c2 o2 Hin.
    destruct (in_combine3 _ _ _ _ _ _ L1 L2 Hin) as [Hi1 Hi2].
    eapply (string_scanned_unique sc (silence blocked sc) fs (silent_finder blocked fs) blocked [] (silence_similar blocked sc));
      [| |exact (Hall1 _ _ _ _ Hi1)|exact (Hall2 _ _ _ _ Hi2)].
    - intros k. rewrite <- silence_candidate, <- silence_suppressed. reflexivity.
    - intros i a b Hc. eapply (candidate_part _ _ _ _ _ _ _ _ _ Hset); [|exact Hc]. eapply in_combine_l; exact Hi1. }
  subst r2. exists e2. split; [congruence|eauto].
Qed.

Lemma c18_simple_event_lemma :
  forall srt sc e fuel,
  sorter_ok srt -> distinct_keys e -> regex_scanner sc (simple_strings e) ->
  enough_fuel fuel (simple_strings e) ->
  forall h blocked,
    scan simple_event_impl fuel h srt sc blocked e = scan simple_event_impl fuel h srt (silence blocked sc) [] e.
Proof.
  intros srt sc e fuel H1 H2 H3 H4 h blocked.
  pose proof (simple_setting srt sc e fuel H1 H2 H3 H4) as Hset.
  destruct (scan_returns _ _ _ _ _ _ _ _ _ Hset h blocked) as (e1 & o1 & Hs).
  destruct (c18_blocked_rules_find_nothing_lemma _ _ _ _ _ _ _ _ _ Hset h blocked e1 o1 Hs) as (e2 & Hs2 & l & L1 & L2).
  rewrite Hs, Hs2. f_equal. f_equal. eapply simple_holds_fun; [apply simple_distinct; exact H2|exact L1|exact L2|reflexivity].
Qed.

Lemma c61_strings_are_independent_lemma :
  forall I w srt sc fs e1 strs1 holds1 fuel1 e2 strs2 holds2 fuel2,
  scan_setting I w srt sc fs e1 strs1 holds1 fuel1 ->
  scan_setting I w srt sc fs e2 strs2 holds2 fuel2 ->
  sc_multipass sc = false ->
  forall h blocked e1' outs1 e2' outs2,
  scan I fuel1 h srt sc blocked e1 = Ret (e1', outs1) ->
  scan I fuel2 h srt sc blocked e2 = Ret (e2', outs2) ->
  exists res1 res2,
    scan_results I strs1 holds1 e1' outs1 res1 /\ scan_results I strs2 holds2 e2' outs2 res2 /\
    forall p c x1 x2, In ((p, c), x1) (combine strs1 res1) -> In ((p, c), x2) (combine strs2 res2) -> x1 = x2.
Proof.
  intros I w srt sc fs e1 strs1 holds1 fuel1 e2 strs2 holds2 fuel2 S1 S2 Hmp h blocked e1' outs1 e2' outs2 H1 H2.
  destruct (scan_scanned _ _ _ _ _ _ _ _ _ S1 _ _ _ _ H1) as (r1 & L1 & E1 & Hh1 & Hall1).
  destruct (scan_scanned _ _ _ _ _ _ _ _ _ S2 _ _ _ _ H2) as (r2 & L2 & E2 & Hh2 & Hall2).
  exists r1, r2. split; [split; auto|]. split; [split; auto|].
  intros p c [c1 o1] [c2 o2] I1 I2.
  assert (Hsim : similar sc sc).
  { split; try reflexivity. unfold same_rules. generalize (sc_rules sc). induction l; constructor; auto. }
  destruct (string_scanned_unique sc sc fs fs blocked blocked Hsim (ev_enc I) w h strs1 strs2 p c c1 c2 o1 o2) as [-> ->].
  - assert (Hns : forall strs k, ~ suppressed sc fs blocked strs c k).
    { intros strs [[i a] b] (Hm & _). congruence. }
    intros k. split; intros [Hc _]; (split; [exact Hc|apply Hns]).
  - intros i a b Hc. eapply (candidate_part _ _ _ _ _ _ _ _ _ S1); [|exact Hc]. eapply in_combine_l; exact I1.
  - exact (Hall1 _ _ _ _ I1).
  - exact (Hall2 _ _ _ _ I2).
  - reflexivity.
Qed.

