(* Regex rules and keywords (C11, C19-C27): proofs of the statements of Thm/Search.v *)
From Coq Require Import Lia.
From Coq Require Import Sorting.Sorted.
From Verif Require Import Proofs.Text Proofs.TruePos Proofs.Search Proofs.Regex.
From Verif Require Export Proofs.RegexScan Proofs.RedactionClaims Examples.Keywords.

(* a run of the rule is its finder *)
Lemma rule_runs : forall r at_ occ c p kw, regex_ok r at_ occ -> scannable r at_ c ->
  forall fuel x, nbytes c + 2 <= fuel ->
  regex_string_matches fuel r c p false [] kw x = Ret (fst (regex_finder r c p false kw), x).
Proof.
  intros r at_ occ c p kw Hok Hs fuel x Hf.
  pose proof (regex_meets r at_ occ Hok ActNone (ScopeExclude []) None eq_refl) as M.
  pose proof (mt_runs _ _ _ _ M fuel c p (fun _ => false) kw x Hs Hf) as R.
  cbv beta in R. rewrite (mt_included _ _ _ _ M c p kw Hs) in R. exact R.
Qed.

Lemma chain_sorted : forall r at_ chk c start ms, leftmost (rr_find r) at_ -> scan_chain r at_ chk c start ms ->
  (forall a b, In (a, b) ms -> start <= a) /\
  StronglySorted (fun m1 m2 => snd m1 <= fst m2) ms /\
  (forall a b, In (a, b) ms -> true_positive r at_ chk c a b) /\
  (forall a b, start <= a -> true_positive r at_ chk c a b -> exists a' b', In (a', b') ms /\ a' <= a < b').
Proof.
  intros r at_ chk c start ms Hlm. revert start. induction ms as [|[a b] ms IH]; intros start H.
  - split; [intros a b []|]. split; [constructor|]. split; [intros a b []|].
    intros a b Hs Ht. exfalso. exact (H a b Hs Ht).
  - destruct H as (H1 & H2 & H3 & H4). destruct (IH _ H4) as (I0 & I1 & I2 & I3).
    assert (Hab : a < b) by (destruct H2 as (H2 & _); apply (lm_range _ _ Hlm) in H2; lia).
    split; [|split; [|split]].
    + intros a' b' [E|Hin]; [injection E as <- <-; exact H1|]. specialize (I0 _ _ Hin). lia.
    + constructor; [exact I1|]. apply Forall_forall. intros [a' b'] Hin. simpl. exact (I0 _ _ Hin).
    + intros a' b' [E|Hin]; [injection E as <- <-; exact H2|]. exact (I2 _ _ Hin).
    + intros a' b' Hs Ht. destruct (le_lt_dec a a') as [Hle|Hlt].
      * destruct (le_lt_dec b a') as [Hle'|Hlt'].
        -- destruct (I3 a' b' Hle' Ht) as (x & y & Hin & Hxy). exists x, y. split; [right; exact Hin|exact Hxy].
        -- exists a, b. split; [left; reflexivity|lia].
      * exfalso. apply (H3 a' b'); [lia|exact Ht].
Qed.

(* the search loop of a plain rule, for any search function *)
Lemma plain_step : forall i find c start fuel x,
  let r := {| rr_index := i; rr_find := find; rr_included := None; rr_excluded := None; rr_validator := None |} in
  tp_all (S fuel) r c true false start x =
  match find c start with
  | None => Ret ([], x)
  | Some m => let* rest := tp_all fuel r c true false (snd m) x in Ret (m :: fst rest, snd rest)
  end.
Proof.
  intros i find c start fuel x r. cbn [tp_all tp_next r rr_find].
  destruct (find c start) as [[a b]|]; cbn [bind]; [|reflexivity].
  unfold is_false_positive_match. cbn [r rr_excluded rr_validator bind]. reflexivity.
Qed.

Lemma diverging : forall fuel h srt r s wild mp rm,
  rule_scope r = ScopeExclude [] ->
  (forall p excl x, rule_string_matches r fuel s p excl [] false x = Diverge) ->
  scan string_event fuel h srt {| sc_rules := [r]; sc_kw_paths := false; sc_wild := wild; sc_multipass := mp;
                                  sc_return_matches := rm |} [] s = Diverge.
Proof.
  intros fuel h srt r s wild mp rm Hsc H. unfold scan, sc_tree. cbn [sc_rules map]. rewrite Hsc.
  unfold visit_string_rule_combinations. cbn [build_tree]. cbn -[visit_content].
  unfold visit_string. destruct wild; cbn -[visit_content]; unfold visit_content; cbn [foldM]; unfold visit_content_rule;
  cbn [existsb]; cbn [sc_rules nth_error unwrap bind sc_kw_paths]; rewrite H; reflexivity.
Qed.

Lemma c11_accepted_pattern_loops_refuted_lemma :
  forall convert build input pattern,
  convert input = Ok pattern -> build pattern regex_complexity_limit = Ok boundary_engine ->
  leftmost_any boundary_engine boundary_at /\
  validate_and_create_regex convert build input = Ok boundary_engine /\
  forall fuel h srt,
    let rule := {| rr_index := 0; rr_find := boundary_engine; rr_included := None; rr_excluded := None;
                   rr_validator := None |} in
    let sc := {| sc_rules := [regex_compiled (ActRedact (text "*")) everywhere None rule]; sc_kw_paths := false;
                 sc_wild := false; sc_multipass := false; sc_return_matches := false |} in
    scan string_event fuel h srt sc [] (text "a") = Diverge.
Proof.
  intros convert build input pattern Hc Hb. split; [exact boundary_engine_leftmost|]. split.
  - unfold validate_and_create_regex, build_regex. rewrite Hc, Hb. reflexivity.
  - intros fuel h srt rule sc.
    assert (H : forall fuel x, tp_all fuel rule (text "a") true false 0 x = Diverge).
    { clear. induction fuel as [|f IH]; intros x; [reflexivity|]. unfold rule. rewrite plain_step.
      change (boundary_engine (text "a") 0) with (Some (0, 0)). cbn [snd]. fold rule. rewrite IH. reflexivity. }
    assert (H' : forall fuel x, tp_next fuel rule (text "a") true true 0 x = Diverge).
    { clear. induction fuel as [|f IH]; intros x; [reflexivity|]. cbn [tp_next rule rr_find].
      change (boundary_engine (text "a") 0) with (Some (0, 0)). cbv iota beta.
      change (is_false_positive_match _ _ (0, 0) true) with (@Ret bool false). cbn [bind].
      change (slice (text "a") (fst (0, 0)) (snd (0, 0))) with (@Ret str []). cbn [bind]. apply IH. }
    apply diverging; [reflexivity|]. intros p excl x. cbn [rule_string_matches regex_compiled].
    unfold regex_string_matches. cbn [rr_included rule]. fold rule.
    destruct (excl (rr_index rule)); [|exact (H fuel x)]. destruct fuel as [|f]; [reflexivity|].
    unfold tp_all. rewrite H'. reflexivity.
Qed.

Lemma c11_terminates_iff_nonempty_matches_lemma :
  forall i find at_ c p kw, leftmost_any find at_ ->
  let r := {| rr_index := i; rr_find := find; rr_included := None; rr_excluded := None; rr_validator := None |} in
  (exists fuel y, regex_string_matches fuel r c p false [] kw [] = Ret y) <->
  (forall j a, reached find c j -> find c j <> Some (a, a)).
Proof.
  intros i find at_ c p kw Hla r. unfold regex_string_matches. cbn [r rr_included]. fold r.
  assert (Hb : forall j, reached find c j -> boundary c j).
  { intros j H. induction H as [|j a b _ IH E _]; [exists [], c; auto|].
    destruct (la_some _ _ Hla _ _ _ _ IH E) as (_ & Hat & _). apply (la_range _ _ Hla) in Hat. tauto. }
  split.
  - intros (fuel & y & H) j a Hj E.
    assert (Hdiv : forall j a, reached find c j -> find c j = Some (a, a) -> forall fuel x, tp_all fuel r c true false j x = Diverge).
    { clear j a Hj E. intros j a Hj E.
      assert (Ha : find c a = Some (a, a)).
      { pose proof (Hb _ Hj) as Hbj. destruct (la_some _ _ Hla _ _ _ _ Hbj E) as (H1 & H2 & H3).
        destruct (la_range _ _ Hla _ _ _ H2) as (_ & Hba & _).
        destruct (find c a) as [[a' b']|] eqn:E'.
        - destruct (la_some _ _ Hla _ _ _ _ Hba E') as (G1 & G2 & G3).
          destruct (Nat.eq_dec a a') as [<-|Hne]; [congruence|]. rewrite G3 in H2 by lia. discriminate.
        - rewrite (la_none _ _ Hla _ _ Hba E' a) in H2 by lia. discriminate. }
      assert (Hd : forall fuel x, tp_all fuel r c true false a x = Diverge).
      { induction fuel0 as [|f IH]; intros x; [reflexivity|]. unfold r. rewrite plain_step, Ha. cbn [snd]. fold r. rewrite IH. reflexivity. }
      intros [|f] x; [reflexivity|]. unfold r. rewrite plain_step, E. cbn [snd]. fold r. rewrite Hd. reflexivity. }
    assert (Hstart : forall j, reached find c j -> forall fuel x y, tp_all fuel r c true false 0 x = Ret y ->
              exists fuel' y', tp_all fuel' r c true false j x = Ret y').
    { clear j a Hj E. intros j Hj. induction Hj as [|j a b Hj IH E Hlt]; intros f x y0 Hr; [eauto|].
      destruct (IH f x y0 Hr) as (f' & y' & Hr'). destruct f' as [|f']; [discriminate Hr'|].
      unfold r in Hr'. rewrite plain_step, E in Hr'. cbn [snd] in Hr'. fold r in Hr'.
      destruct (tp_all f' r c true false b x) as [y1| |] eqn:E1; try discriminate Hr'. eauto. }
    destruct (Hstart j Hj _ _ _ H) as (f' & y' & Hr'). rewrite (Hdiv j a Hj E) in Hr'. discriminate.
  - intros Hno.
    assert (Hgo : forall n j, nbytes c - j <= n -> reached find c j -> exists y, tp_all (S n) r c true false j [] = Ret y).
    { induction n as [|n IH]; intros j Hn Hj; unfold r; rewrite plain_step; fold r;
        (destruct (find c j) as [[a b]|] eqn:E; [|eauto]);
        destruct (la_some _ _ Hla _ _ _ _ (Hb _ Hj) E) as (H1 & H2 & _);
        destruct (la_range _ _ Hla _ _ _ H2) as (H3 & _ & H4);
        assert (a <> b) by (intros ->; exact (Hno _ _ Hj E));
        pose proof (boundary_le _ _ H4).
      - exfalso. lia.
      - destruct (IH b) as (y & Hy); [lia|econstructor; eauto; lia|]. cbn [snd]. rewrite Hy. cbn [bind]. eauto. }
    destruct (Hgo (nbytes c) 0) as (y & Hy); [lia|constructor|]. eauto.
Qed.

Lemma c19_plain_search_lemma :
  forall r at_ occ c p kw fuel x,
  regex_ok r at_ occ -> rr_included r = None -> checkable r at_ c -> nbytes c + 2 <= fuel ->
  exists ms, regex_string_matches fuel r c p false [] kw x = Ret (ms, x) /\
    StronglySorted (fun m1 m2 => snd m1 <= fst m2) ms /\
    forall a b, In (a, b) ms ->
      a < b /\ at_ c a = Some b /\
      (forall valid t, rr_validator r = Some valid -> part_at c a b t -> valid t = true) /\
      (forall xk, rr_excluded r = Some xk -> ~ excluded_keyword_before xk c a).
Proof.
  intros r at_ occ c p kw fuel x Hok Hi Hc Hf. eexists. split; [eapply rule_runs; eauto; intros _; exact Hc|].
  pose proof (rf_plain _ _ _ _ (regex_finder_finds r at_ occ Hok) c p kw Hi Hc) as Hch.
  destruct (chain_sorted _ _ _ _ _ _ (ro_find _ _ _ Hok) Hch) as (_ & Hs & Htp & _). split; [exact Hs|].
  intros a b Hin. destruct (Htp _ _ Hin) as (H1 & H2 & H3). split; [|split; [exact H1|split; [exact H2|auto]]].
  apply (lm_range _ _ (ro_find _ _ _ Hok)) in H1. lia.
Qed.

Lemma reports_nth : forall sc fs blocked p c os ranges k o a b, reports_from sc fs blocked p c os ranges ->
  nth_error os k = Some o -> nth_error ranges k = Some (a, b) -> candidate sc fs blocked p c (rm_rule o, a, b).
Proof.
  intros sc fs blocked p c os ranges k o a b H. revert k.
  induction H as [|o' [a' b'] os ranges Hc H IH]; intros [|k] Ho Hr; try discriminate.
  - injection Ho as ->. injection Hr as -> ->. exact Hc.
  - eapply IH; eauto.
Qed.

(* whatever holds for what the rules find, holds for what is reported *)
Lemma reported_found : forall I w srt sc e strs holds fuel,
  scan_setting I w srt sc (finders sc) e strs holds fuel ->
  forall h blocked e' outs, scan I fuel h srt sc blocked e = Ret (e', outs) ->
  scan_result I strs holds e' outs (fun p c c' os =>
    exists ranges, reports_from sc (finders sc) blocked p c os ranges /\
      forall k o a b, nth_error os k = Some o -> nth_error ranges k = Some (a, b) ->
        In (a, b) (fst (finders sc (rm_rule o) c p false (sc_kw_paths sc)))).
Proof.
  intros I w srt sc e strs holds fuel Hset h blocked e' outs Hs.
  eapply result_weaken; [|eapply c06_greedy_by_priority_lemma; eauto]. intros p c c' os _ (ranges & Hfrom & _).
  exists ranges. split; [exact Hfrom|]. intros k o a b Ho Hr.
  destruct (reports_nth _ _ _ _ _ _ _ _ _ _ _ Hfrom Ho Hr) as (r & _ & _ & _ & _ & Hin). exact Hin.
Qed.

Lemma c19_reported_matches_lemma :
  forall I w srt sc e strs holds fuel,
  scan_setting I w srt sc (finders sc) e strs holds fuel -> regex_scanner sc strs ->
  forall h blocked e' outs, scan I fuel h srt sc blocked e = Ret (e', outs) ->
  scan_result I strs holds e' outs (fun p c c' os =>
    exists ranges, reports_from sc (finders sc) blocked p c os ranges /\
      forall k o a b, nth_error os k = Some o -> nth_error ranges k = Some (a, b) ->
        exists rr at_ occ, regex_rule_at sc (rm_rule o) rr at_ occ /\ at_ c a = Some b /\
          (forall valid t, rr_validator rr = Some valid -> part_at c a b t -> valid t = true) /\
          (rr_included rr = None ->
           forall xk, rr_excluded rr = Some xk -> ~ excluded_keyword_before xk c a)).
Proof.
  intros I w srt sc e strs holds fuel Hset Hreg h blocked e' outs Hs.
  eapply result_weaken; [|eapply reported_found; eauto]. intros p c c' os Hpc (ranges & Hfrom & Hfound).
  exists ranges. split; [exact Hfrom|]. intros k o a b Ho Hr.
  destruct (reports_nth _ _ _ _ _ _ _ _ _ _ _ Hfrom Ho Hr) as (r & Hrule & _).
  destruct (Hreg _ _ Hrule) as (rr & at_ & occ & Hat & Hsc). exists rr, at_, occ. split; [exact Hat|].
  pose proof (regex_rule_finds _ _ _ _ _ Hat) as F. pose proof (Hfound _ _ _ _ Ho Hr) as Hin.
  destruct Hat as (act & sco & v & _ & _ & _ & Hok).
  destruct (rr_included rr) as [ik|] eqn:E.
  - destruct (rf_sound _ _ _ _ F ik c p _ a b E Hin) as ((H1 & H2 & _) & _). split; [exact H1|]. split; [exact H2|].
    intros HH. discriminate HH.
  - assert (Hck : checkable rr at_ c) by (apply (Hsc p c Hpc); exact E).
    pose proof (rf_plain _ _ _ _ F c p (sc_kw_paths sc) E Hck) as Hch.
    destruct (chain_sorted _ _ _ _ _ _ (ro_find _ _ _ Hok) Hch) as (_ & _ & Htp & _).
    destruct (Htp _ _ Hin) as (H1 & H2 & H3). split; [exact H1|]. split; [exact H2|]. auto.
Qed.

Lemma c20_no_true_positive_is_skipped_lemma :
  forall r at_ occ c p kw fuel x,
  regex_ok r at_ occ -> rr_included r = None -> checkable r at_ c -> nbytes c + 2 <= fuel ->
  exists ms, regex_string_matches fuel r c p false [] kw x = Ret (ms, x) /\
    forall a b, at_ c a = Some b ->
      (forall valid t, rr_validator r = Some valid -> part_at c a b t -> valid t = true) ->
      (forall xk, rr_excluded r = Some xk -> ~ excluded_keyword_before xk c a) ->
      exists a' b', In (a', b') ms /\ a' <= a < b'.
Proof.
  intros r at_ occ c p kw fuel x Hok Hi Hc Hf. eexists. split; [eapply rule_runs; eauto; intros _; exact Hc|].
  pose proof (rf_plain _ _ _ _ (regex_finder_finds r at_ occ Hok) c p kw Hi Hc) as Hch.
  destruct (chain_sorted _ _ _ _ _ _ (ro_find _ _ _ Hok) Hch) as (_ & _ & _ & H).
  intros a b H1 H2 H3. apply (H a b); [lia|]. split; [exact H1|]. split; [exact H2|auto].
Qed.

Lemma c21_ignored_with_included_keywords_refuted_lemma :
  let r := both_rule 0 (digits 2) 10 [text "kw"] [text "no"] in
let c := text "kw no 11" in
regex_ok r (match_at (digits 2)) (occurrence [text "kw"]) /\
(exists xk, rr_excluded r = Some xk /\ excluded_keyword_before xk c 6) /\
forall fuel x, 10 <= fuel -> regex_string_matches fuel r c [] false [] false x = Ret ([(6, 8)], x).
Proof.
  intros r c. assert (Hok : regex_ok r (match_at (digits 2)) (occurrence [text "kw"])) by (apply both_ok; lia).
  split; [exact Hok|]. split.
  - eexists. split; [reflexivity|]. exists (text "kw no "), 49%N, (text "1"). vm_compute. auto.
  - intros fuel x Hf. rewrite (rule_runs r _ _ c [] false Hok) with (x := x); [vm_compute; reflexivity| |exact Hf].
    intros E. discriminate E.
Qed.

Lemma c21_without_included_keywords_lemma :
  forall r at_ occ c p kw fuel x xk a b,
  regex_ok r at_ occ -> rr_included r = None -> rr_excluded r = Some xk -> checkable r at_ c ->
  nbytes c + 2 <= fuel -> excluded_keyword_before xk c a ->
  exists ms, regex_string_matches fuel r c p false [] kw x = Ret (ms, x) /\ ~ In (a, b) ms.
Proof.
  intros r at_ occ c p kw fuel x xk a b Hok Hi Hx Hc Hf Hex.
  destruct (c19_plain_search_lemma r at_ occ c p kw fuel x Hok Hi Hc Hf) as (ms & Hr & _ & H).
  exists ms. split; [exact Hr|]. intros Hin. destruct (H _ _ Hin) as (_ & _ & _ & Hno). exact (Hno xk Hx Hex).
Qed.

Lemma c22_panics_iff_span_reversed_lemma :
  forall xk s a, boundary s a -> a < nbytes s ->
  contains_excluded_keyword_match xk s a = Panic <->
  exists before c after x,
    s = before ++ c :: after /\ nbytes before = a /\ xk_look_ahead xk + 1 <= length before /\
    filter not_dash (lastn (xk_look_ahead xk + 1) before ++ [c]) = [x] /\ 2 <= nbytes [x].
Proof.
  exact excluded_check_panic.
Qed.

Lemma c22_excluded_window_panics_refuted_lemma :
  let rule := excluding_rule 0 (literal [233%N; 49%N]) 3 [text "no"] in
let sc := {| sc_rules := [regex_compiled (ActRedact (text "*")) everywhere None rule]; sc_kw_paths := false;
             sc_wild := false; sc_multipass := false; sc_return_matches := false |} in
let s := text "----" ++ [233%N; 49%N] in
regex_ok rule (match_at (literal [233%N; 49%N])) (fun _ _ _ => False) /\
(exists xk, rr_excluded rule = Some xk /\ contains_excluded_keyword_match xk s 4 = Panic) /\
forall h, scan string_event 100 h isort sc [] s = Panic.
Proof.
  intros rule sc s. split; [apply excluding_ok|]. split.
  - eexists. split; [reflexivity|]. vm_compute. reflexivity.
  - intros h. vm_compute. reflexivity.
Qed.

Lemma hd_app : forall (a b : str), hd_error (a ++ b) = match a with [] => hd_error b | x :: _ => Some x end.
Proof. intros [|x a] b; reflexivity. Qed.

Lemma nbytes_prefix : forall (p q p' q' : str), p ++ q = p' ++ q' -> nbytes p <= nbytes p' -> exists m, p' = p ++ m /\ q = m ++ q'.
Proof. intros p q p' q' E H. rewrite !nbytes_blen in H. exact (app_prefix_le p q p' q' E H). Qed.

(* occurrences inside the middle part depend only on the characters next to it *)
Lemma kw_occurs_local : forall fold pats l m r l' r' k e, hd_error (rev l) = hd_error (rev l') ->
  hd_error r = hd_error r' ->
  (kw_occurs fold pats (l ++ m ++ r) k e /\ nbytes l <= k /\ e <= nbytes l + nbytes m) ->
  kw_occurs fold pats (l' ++ m ++ r') (k - nbytes l + nbytes l') (e - nbytes l + nbytes l') /\
  nbytes l' <= k - nbytes l + nbytes l' /\ e - nbytes l + nbytes l' <= nbytes l' + nbytes m.
Proof.
  intros fold pats l m r l' r' k e Hl Hr ((pat & before & t & after & Hin & E & Hk & He & Hread) & H1 & H2).
  destruct (nbytes_prefix l (m ++ r) before (t ++ after) E) as (u & -> & E2); [lia|].
  rewrite nbytes_app in Hk. rewrite !nbytes_app in He.
  rewrite app_assoc in E2.
  destruct (nbytes_prefix (u ++ t) after m r (eq_sym E2)) as (v & -> & ->); [rewrite nbytes_app; lia|].
  rewrite !nbytes_app in *. split; [|lia].
  exists pat, (l' ++ u), t, (v ++ r'). split; [exact Hin|]. split; [rewrite <- !app_assoc; reflexivity|].
  rewrite !nbytes_app. split; [lia|]. split; [lia|].
  rewrite !rev_app_distr, !hd_app in Hread. rewrite !rev_app_distr, !hd_app.
  rewrite <- Hl, <- Hr. exact Hread.
Qed.

Lemma filter_dash_one : forall c, not_dash c = true -> filter not_dash [c] = [c].
Proof. intros c H. simpl. rewrite H. reflexivity. Qed.

Lemma c23_window_lemma :
  forall fold pats xk s a,
  span_search (xk_match_in xk) (kw_occurs fold pats) -> 1 <= xk_look_ahead xk ->
  boundary s a -> a < nbytes s -> context_kept (xk_look_ahead xk) s a ->
  exists v, contains_excluded_keyword_match xk s a = Ret v /\
    (v = true <-> excluded_as_documented fold pats (xk_look_ahead xk) s a).
Proof.
  intros fold pats xk s a Hspan HL Hb Ha Hctx.
  destruct Hb as (before & q & -> & Hba). destruct q as [|c after]; [rewrite app_nil_r in Ha; lia|].
  destruct (Hctx before c after eq_refl Hba) as [Hc Hx].
  set (L := xk_look_ahead xk) in *.
  (* the text before the match: far part, context character, window *)
  assert (Hsplit : (length before <= L /\ excluded_text L before c = filter not_dash before ++ [c] /\
                    excluded_from L before c = 0 /\ excluded_to L before c = nbytes (filter not_dash before)) \/
                   exists b0 x w, before = b0 ++ x :: w /\ length w = L /\ not_dash x = true /\
                    excluded_text L before c = [x] ++ filter not_dash w ++ [c] /\
                    excluded_from L before c = nbytes [x] /\
                    excluded_to L before c = nbytes [x] + nbytes (filter not_dash w)).
  { destruct (le_lt_dec (length before) L) as [Hle|Hlt].
    - left. split; [exact Hle|].
      assert (Et : excluded_text L before c = filter not_dash before ++ [c]).
      { unfold excluded_text, lastn. replace (length before - (L + 1)) with 0 by lia. cbn [skipn].
        rewrite filter_app, filter_dash_one by exact Hc. reflexivity. }
      split; [exact Et|]. unfold excluded_from, excluded_to. rewrite Et, removelast_last.
      split; [|reflexivity]. replace (length before <? L + 1) with true; [reflexivity|].
      symmetry. apply Nat.ltb_lt. lia.
    - right. set (w0 := lastn (L + 1) before).
      assert (Ew0 : before = firstn (length before - (L + 1)) before ++ w0) by apply split_lastn.
      assert (Lw0 : length w0 = S L) by (unfold w0, lastn; rewrite skipn_length; lia).
      destruct w0 as [|x w] eqn:Ew; [discriminate Lw0|]. simpl in Lw0.
      exists (firstn (length before - (L + 1)) before), x, w.
      split; [exact Ew0|]. split; [lia|].
      assert (Hxd : not_dash x = true).
      { apply Hx. rewrite Ew0, rev_app_distr. simpl. rewrite <- app_assoc. rewrite nth_error_app2; rewrite rev_length; [|lia].
        replace (L - length w) with 0 by lia. reflexivity. }
      split; [exact Hxd|].
      assert (Et : excluded_text L before c = [x] ++ filter not_dash w ++ [c]).
      { unfold excluded_text. fold w0. rewrite Ew. rewrite filter_app, filter_dash_one by exact Hc.
        simpl. rewrite Hxd. reflexivity. }
      split; [exact Et|]. unfold excluded_from, excluded_to. rewrite Et.
      replace (length before <? L + 1) with false by (symmetry; apply Nat.ltb_ge; lia).
      split; [reflexivity|]. rewrite app_assoc, removelast_last, nbytes_app. reflexivity. }
  assert (Hns : ~ span_reversed L (before ++ c :: after) a).
  { intros (b' & c' & after' & y & E & Hb' & Hlen & Et & Hy).
    assert (before = b' /\ c :: after = c' :: after') as [<- E2].
    { rewrite nbytes_blen in Hba, Hb'. apply (app_inj_blen before (c :: after) b' (c' :: after') E). lia. }
    injection E2 as <- <-. destruct Hsplit as [(Hle & _)|(b0 & x & w & _ & _ & _ & Et' & _)]; [lia|].
    rewrite Et in Et'. apply (f_equal (@length _)) in Et'. rewrite !app_length in Et'. simpl in Et'. lia. }
  destruct (excluded_check_ok xk (before ++ c :: after) a) as (v & Hv & Hiff);
    [exists before, (c :: after); auto|exact Ha|exact Hns|].
  exists v. split; [exact Hv|]. rewrite Hiff. clear v Hv Hiff Hns. fold L.
  assert (Hex : excluded_keyword_before xk (before ++ c :: after) a <->
                exists k e, kw_occurs fold pats (excluded_text L before c) k e /\
                  excluded_from L before c <= k /\ e <= excluded_to L before c).
  { unfold excluded_keyword_before. fold L. split.
    - intros (b' & c' & after' & E & Hb' & Hm).
      assert (before = b' /\ c :: after = c' :: after') as [<- E2].
      { rewrite nbytes_blen in Hba, Hb'. apply (app_inj_blen before (c :: after) b' (c' :: after') E). lia. }
      injection E2 as <- <-. apply Hspan in Hm as (k & e & H1 & H2 & H3). eauto.
    - intros (k & e & H3 & H1 & H2). exists before, c, after. split; [reflexivity|]. split; [exact Hba|].
      apply Hspan. eauto. }
  rewrite Hex. clear Hex.
  assert (Hdoc : excluded_as_documented fold pats L (before ++ c :: after) a <->
                 exists k e, kw_occurs fold pats (filter not_dash (before ++ c :: after)) k e /\
                   nbytes (filter not_dash (firstn (length before - L) before)) <= k /\ e <= nbytes (filter not_dash before)).
  { unfold excluded_as_documented. split.
    - intros (b' & c' & after' & E & Hb' & k & e & Hm).
      assert (before = b' /\ c :: after = c' :: after') as [<- E2].
      { rewrite nbytes_blen in Hba, Hb'. apply (app_inj_blen before (c :: after) b' (c' :: after') E). lia. }
      exists k, e. exact Hm.
    - intros (k & e & Hm). exists before, c, after. split; [reflexivity|]. split; [exact Hba|]. exists k, e. exact Hm. }
  rewrite Hdoc. clear Hdoc.
  assert (Hfs : filter not_dash (c :: after) = [c] ++ filter not_dash after) by (simpl; rewrite Hc; reflexivity).
  destruct Hsplit as [(Hle & Et & Ef & Eto)|(b0 & x & w & -> & Lw & Hxd & Et & Ef & Eto)]; rewrite Et, Ef, Eto.
  - replace (length before - L) with 0 by lia. cbn [firstn filter]. rewrite filter_app, Hfs.
    split; intros (k & e & H).
    + destruct (kw_occurs_local fold pats [] (filter not_dash before) [c] [] ([c] ++ filter not_dash after) k e eq_refl eq_refl H) as (G1 & G2 & G3).
      eexists _, _. split; [exact G1|]. split; [exact G2|exact G3].
    + destruct (kw_occurs_local fold pats [] (filter not_dash before) ([c] ++ filter not_dash after) [] [c] k e eq_refl eq_refl H) as (G1 & G2 & G3).
      eexists _, _. split; [exact G1|]. split; [exact G2|exact G3].
  - assert (Efar : firstn (length (b0 ++ x :: w) - L) (b0 ++ x :: w) = b0 ++ [x]).
    { rewrite app_length. simpl. replace (length b0 + S (length w) - L) with (length b0 + 1) by lia.
      rewrite firstn_app. rewrite firstn_all2 by lia. replace (length b0 + 1 - length b0) with 1 by lia. reflexivity. }
    rewrite Efar.
    assert (E1 : filter not_dash (b0 ++ [x]) = filter not_dash b0 ++ [x]) by (rewrite filter_app, filter_dash_one by exact Hxd; reflexivity).
    assert (E2 : filter not_dash (b0 ++ x :: w) = (filter not_dash b0 ++ [x]) ++ filter not_dash w).
    { rewrite filter_app. simpl. rewrite Hxd. rewrite <- app_assoc. reflexivity. }
    assert (E3 : filter not_dash ((b0 ++ x :: w) ++ c :: after) = (filter not_dash b0 ++ [x]) ++ filter not_dash w ++ [c] ++ filter not_dash after).
    { rewrite filter_app, Hfs, E2, <- !app_assoc. reflexivity. }
    rewrite E1, E2, E3, (nbytes_app (filter not_dash b0 ++ [x])).
    assert (Ehd : hd_error (rev [x]) = hd_error (rev (filter not_dash b0 ++ [x]))) by (rewrite rev_app_distr; reflexivity).
    split; intros (k & e & H).
    + destruct (kw_occurs_local fold pats [x] (filter not_dash w) [c] (filter not_dash b0 ++ [x]) ([c] ++ filter not_dash after) k e Ehd eq_refl H) as (G1 & G2 & G3).
      eexists _, _. split; [exact G1|]. split; [exact G2|exact G3].
    + destruct (kw_occurs_local fold pats (filter not_dash b0 ++ [x]) (filter not_dash w) ([c] ++ filter not_dash after) [x] [c] k e (eq_sym Ehd) eq_refl H) as (G1 & G2 & G3).
      eexists _, _. split; [exact G1|]. split; [exact G2|exact G3].
Qed.

Lemma c23_window_shifted_refuted_lemma :
  (let xk := excluded_engine 4 [word_pattern (text "foo")] in
 let s := text "-foo 11" in
 excluded_as_documented (fun c => c) [word_pattern (text "foo")] 4 s 5 /\
 contains_excluded_keyword_match xk s 5 = Ret false) /\
(let xk := excluded_engine 9 [word_pattern (text "foo")] in
 let s := text "foo- 11" in
 excluded_as_documented (fun c => c) [word_pattern (text "foo")] 9 s 3 /\
 contains_excluded_keyword_match xk s 3 = Ret false).
Proof.
  split; intros xk s; (split; [|vm_compute; reflexivity]).
  - exists (text "-foo "), 49%N, (text "1"). split; [reflexivity|]. split; [reflexivity|]. exists 0, 3.
    split; [|vm_compute; auto]. exists (word_pattern (text "foo")), [], (text "foo"), (text " 11").
    split; [left; reflexivity|]. vm_compute. auto.
  - exists (text "foo"), 45%N, (text " 11"). split; [reflexivity|]. split; [reflexivity|]. exists 0, 3.
    split; [|vm_compute; auto]. exists (word_pattern (text "foo")), [], (text "foo"), (text " 11").
    split; [left; reflexivity|]. vm_compute. auto.
Qed.

Lemma c24_only_after_a_keyword_lemma :
  forall r at_ occ ik c p fuel x,
  regex_ok r at_ occ -> rr_included r = Some ik -> nbytes c + 2 <= fuel ->
  exists ms, regex_string_matches fuel r c p false [] false x = Ret (ms, x) /\
    forall a b, In (a, b) ms -> at_ c a = Some b /\
      exists k ke between, occ c k ke /\ part_at c k a between /\ length between <= ik_look_ahead ik.
Proof.
  intros r at_ occ ik c p fuel x Hok Hi Hf. eexists. split; [eapply rule_runs; eauto; intros E; congruence|].
  intros a b Hin. destruct (rf_sound _ _ _ _ (regex_finder_finds r at_ occ Hok) ik c p false a b Hi Hin) as ((H1 & _) & [H|[H _]]); [|discriminate H].
  split; [exact H1|]. destruct H as (k & ke & Ho & n & (t & Ht & <-) & Hn). eauto 6.
Qed.

Lemma c24_reported_after_a_keyword_lemma :
  forall I w srt sc e strs holds fuel,
  scan_setting I w srt sc (finders sc) e strs holds fuel -> sc_kw_paths sc = false ->
  forall h blocked e' outs, scan I fuel h srt sc blocked e = Ret (e', outs) ->
  scan_result I strs holds e' outs (fun p c c' os =>
    exists ranges, reports_from sc (finders sc) blocked p c os ranges /\
      forall k o a b, nth_error os k = Some o -> nth_error ranges k = Some (a, b) ->
        forall rr at_ occ ik, regex_rule_at sc (rm_rule o) rr at_ occ -> rr_included rr = Some ik ->
          exists k ke between, occ c k ke /\ part_at c k a between /\ length between <= ik_look_ahead ik).
Proof.
  intros I w srt sc e strs holds fuel Hset Hkw h blocked e' outs Hs.
  eapply result_weaken; [|eapply reported_found; eauto]. intros p c c' os Hpc (ranges & Hfrom & Hfound).
  exists ranges. split; [exact Hfrom|]. intros k o a b Ho Hr rr at_ occ ik Hat Hi.
  pose proof (regex_rule_finds _ _ _ _ _ Hat) as F. pose proof (Hfound _ _ _ _ Ho Hr) as Hin. rewrite Hkw in Hin.
  destruct (rf_sound _ _ _ _ F ik c p false a b Hi Hin) as (_ & [H|[H _]]); [|discriminate H].
  destruct H as (k' & ke & Hocc & n & (t & Ht & <-) & Hn). eauto 6.
Qed.

Lemma c25_missed_near_a_keyword_refuted_lemma :
  let r := keyword_rule 0 (digits 2) [text "kw"] 10 in
let c := text "kw    kw 11  22" in
regex_ok r (match_at (digits 2)) (occurrence [text "kw"]) /\
match_at (digits 2) c 13 = Some 15 /\ occurrence [text "kw"] c 6 8 /\ part_at c 6 13 (text "kw 11  ") /\
forall fuel x, 17 <= fuel -> regex_string_matches fuel r c [] false [] false x = Ret ([(9, 11)], x).
Proof.
  intros r c. assert (Hok : regex_ok r (match_at (digits 2)) (occurrence [text "kw"])) by (apply keyword_ok; lia).
  split; [exact Hok|]. split; [reflexivity|]. split; [reflexivity|]. split.
  - exists (text "kw    "), (text "22"). split; [reflexivity|]. split; reflexivity.
  - intros fuel x Hf. rewrite (rule_runs r _ _ c [] false Hok) with (x := x); [vm_compute; reflexivity| |exact Hf].
    intros E. discriminate E.
Qed.

Lemma c25_near_a_keyword_lemma :
  forall r at_ occ ik c p kw fuel x,
  regex_ok r at_ occ -> rr_included r = Some ik -> nbytes c + 2 <= fuel ->
  exists ms, regex_string_matches fuel r c p false [] kw x = Ret (ms, x) /\
    forall a b k ke between, at_ c a = Some b ->
      (forall valid t, rr_validator r = Some valid -> part_at c a b t -> valid t = true) ->
      occ c k ke -> ke <= a -> part_at c k a between -> length between <= ik_look_ahead ik ->
      exists a' b', In (a', b') ms /\ a' <= a /\ (a < b' \/ k < a').
Proof.
  intros r at_ occ ik c p kw fuel x Hok Hi Hf. eexists. split; [eapply rule_runs; eauto; intros E; congruence|].
  intros a b k ke t H1 H2 Ho Hle Ht Hn.
  apply (rf_complete _ _ _ _ (regex_finder_finds r at_ occ Hok) ik c p kw a b k ke Hi); auto.
  - split; [exact H1|]. split; [exact H2|]. intros E. discriminate E.
  - exists (length t). split; [exists t; auto|exact Hn].
Qed.

Lemma c26_keyword_in_path_lemma :
  forall r at_ occ ik c p fuel x,
  regex_ok r at_ occ -> rr_included r = Some ik -> nbytes c + 2 <= fuel ->
  exists ms, regex_string_matches fuel r c p false [] true x = Ret (ms, x) /\
    (ik_path_match ik (sanitize p) = true -> forall a b, at_ c a = Some b ->
       (forall valid t, rr_validator r = Some valid -> part_at c a b t -> valid t = true) ->
       exists a' b', In (a', b') ms /\ a' <= a < b') /\
    (ik_path_match ik (sanitize p) = false ->
       forall q, regex_string_matches fuel r c q false [] false x = Ret (ms, x)).
Proof.
  intros r at_ occ ik c p fuel x Hok Hi Hf.
  assert (Hs : scannable r at_ c) by (intros E; congruence).
  eexists. split; [eapply rule_runs; eauto|]. split.
  - intros Hp a b H1 H2. apply (rf_path _ _ _ _ (regex_finder_finds r at_ occ Hok) ik c p true a b Hi).
    + split; [reflexivity|exact Hp].
    + split; [exact H1|]. split; [exact H2|]. intros E. discriminate E.
  - intros Hp q. rewrite (rule_runs r at_ occ c q false Hok Hs fuel x Hf).
    rewrite (rf_no_path _ _ _ _ (regex_finder_finds r at_ occ Hok) ik c p q false true Hi); [reflexivity|].
    intros [_ E]. congruence.
Qed.

Lemma c27_proximity_in_characters_lemma :
  forall s k a between size, part_at s k a between ->
  is_index_within_prefix s k a size = Ret (length between <=? size).
Proof.
  intros s k a t size Ht. apply within_prefix_spec. exists t. auto.
Qed.

