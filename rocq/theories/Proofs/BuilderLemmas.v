(* Building scanners *)
From Verif Require Export Proofs.ConfigLemmas Proofs.PatternsClaims Proofs.KeywordsClaims Proofs.MatchValidationClaims.
From Coq Require Import Lia.

(* ---- the error of a keyword configuration is determined ---- *)
Lemma problem_fun : forall n x kw e e', keyword_problem n x kw e -> keyword_problem n x kw e' -> e = e'.
Proof. intros n x kw e e' H K. inversion H; inversion K; subst; try reflexivity; lia. Qed.
Lemma first_problem_fun : forall n x kws e e', first_problem n x kws e -> first_problem n x kws e' -> e = e'.
Proof.
  intros n x kws e e' (pre & kw & post & E & P & N) (pre' & kw' & post' & E' & P' & N').
  rewrite E in E'. clear E. revert pre' E' N'. induction pre as [|a pre IH]; intros [|a' pre'] E' N'; cbn [app] in E'.
  - injection E' as -> _. exact (problem_fun _ _ _ _ _ P P').
  - injection E' as -> _. exfalso. exact (N' _ _ (or_introl eq_refl) P).
  - injection E' as -> _. exfalso. exact (N _ _ (or_introl eq_refl) P').
  - injection E' as -> E'. apply (IH (fun k e0 H => N k e0 (or_intror H)) pre' E'). intros k e0 H. exact (N' k e0 (or_intror H)).
Qed.
Lemma first_not_none : forall n x kws e, first_problem n x kws e -> ~ no_problem n x kws.
Proof. intros n x kws e (pre & kw & post & E & P & _) N. apply (N kw e); [|exact P]. rewrite E. apply in_or_app. right. left. reflexivity. Qed.
Lemma config_error_fun : forall c e e', config_error c e -> config_error c e' -> e = e'.
Proof.
  intros c e e' H K. inversion H as [A|A B|e0 A B C D|e0 A B C D F]; inversion K as [A'|A' B'|e1 A' B' C' D'|e1 A' B' C' D' F']; subst;
    try reflexivity; try contradiction; try (exfalso; apply B; split; assumption); try (exfalso; apply B'; split; assumption).
  - exact (first_problem_fun _ _ _ _ _ D D').
  - exfalso. exact (first_not_none _ _ _ _ D D').
  - exfalso. exact (first_not_none _ _ _ _ D' D).
  - exact (first_problem_fun _ _ _ _ _ F F').
Qed.
Lemma accepted_no_error : forall c e, config_accepted c -> ~ config_error c e.
Proof.
  intros c e (A & B & C & D & E) H. inversion H as [A'|A' B'|e0 A' B' C' D'|e0 A' B' C' D' F']; subst.
  - contradiction.
  - apply B'. split; assumption.
  - exact (first_not_none _ _ _ _ D' D).
  - exact (first_not_none _ _ _ _ F' E).
Qed.
Lemma compile_error_iff : forall c e, compile_keywords_proximity_config c = Ret (Err e) <-> config_error c e.
Proof.
  intros c e. destruct (c28_accepted_configurations_lemma c) as (res & E & A & H). rewrite E. split.
  - intros K. injection K as ->. exact (H e eq_refl).
  - intros K. destruct res as [x|e'].
    + exfalso. exact (accepted_no_error c e (proj1 A (ex_intro _ x eq_refl)) K).
    + rewrite (config_error_fun c e' e (H e' eq_refl) K). reflexivity.
Qed.

(* ---- patterns ---- *)
Lemma convert_total : forall s, exists r, convert_to_rust_regex 51 s = Ret r.
Proof.
  intros s. destruct (c54_total_lemma s) as (r & H). unfold convert_to_rust_regex. rewrite (H 51 (le_n _)). eexists. reflexivity.
Qed.
Lemma pattern_error_iff : forall en s r e, convert_to_rust_regex 51 s = Ret r ->
  validate_and_create_regex (fun _ => r) (en_build en) s = Err e <-> pattern_error en s e.
Proof.
  intros en s r e H. unfold validate_and_create_regex, build_regex, matches_empty, regex_complexity_limit. split.
  - destruct r as [p|pe].
    + destruct (en_build en p 1000000) as [re|be] eqn:B.
      * destruct (re [] 0) eqn:M; [|discriminate]. intros K. injection K as <-. eapply pe_empty; eauto.
      * destruct be; intros K; injection K as <-; [eapply pe_size|eapply pe_engine]; eauto.
    + destruct pe; intros K; injection K as <-; constructor; exact H.
  - intros K. inversion K as [C|C|C|p C B|p C B|p re m C B M]; subst; rewrite H in C; injection C as ->; try reflexivity;
      rewrite B; try reflexivity. rewrite M. reflexivity.
Qed.
Lemma pattern_ok : forall en s r re, convert_to_rust_regex 51 s = Ret r ->
  validate_and_create_regex (fun _ => r) (en_build en) s = Ok re -> pattern_regex en s re.
Proof.
  intros en s r re H. unfold validate_and_create_regex, build_regex, matches_empty, regex_complexity_limit.
  destruct r as [p|pe]; [|discriminate]. destruct (en_build en p 1000000) as [re'|be] eqn:B; [|destruct be; discriminate].
  destruct (re' [] 0); [discriminate|]. intros K. injection K as ->. exists p. auto.
Qed.
Lemma action_invalid_iff : forall a, action_validate a = false <-> exists d, a = ActPartialRedact d 0.
Proof.
  intros a. split.
  - destruct a as [|s| | |d n]; try discriminate. cbn [action_validate]. destruct n; [|discriminate]. intros _. exists d. reflexivity.
  - intros [d ->]. reflexivity.
Qed.

(* ---- one rule ---- *)
Lemma convert_rule_spec : forall en c i l, exists r, convert_to_compiled_rule en c i l = Ret r /\
  (forall e, r = Err e <-> rule_error en c e) /\
  (forall x rl, r = Ok (x, rl) -> rl = l ++ cf_labels c /\ action_validate (cf_action c) = true /\
     exists rr, x = regex_compiled (cf_action c) (cf_scope c) (cf_validation c) rr /\ compiled_from en c i rr).
Proof.
  intros en c i l. destruct (convert_total (cf_pattern c)) as [cr C]. unfold convert_to_compiled_rule, pattern_fuel.
  rewrite C. cbn [bind]. pose proof (fun e => pattern_error_iff en (cf_pattern c) cr e C) as PE.
  destruct (validate_and_create_regex (fun _ => cr) (en_build en) (cf_pattern c)) as [re|pe] eqn:V.
  2: { exists (Err (EInvalidRegex pe)). split; [reflexivity|]. split; [|discriminate]. intros e. split.
       - intros K. injection K as <-. constructor. apply PE. reflexivity.
       - intros K. inversion K as [e' P|d N A|k e' N A K1 K2]; subst.
         + apply PE in P. injection P as ->. reflexivity.
         + exfalso. apply (N pe). apply PE. reflexivity.
         + exfalso. apply (N pe). apply PE. reflexivity. }
  assert (NP : forall e, ~ pattern_error en (cf_pattern c) e) by (intros e K; apply PE in K; discriminate K).
  pose proof (pattern_ok _ _ _ _ C V) as PR.
  destruct (action_validate (cf_action c)) eqn:AV.
  2: { exists (Err EInvalidMatchAction). split; [reflexivity|]. split; [|discriminate]. apply action_invalid_iff in AV. destruct AV as [d AV].
       intros e. split.
       - intros K. injection K as <-. exact (re_action en c d NP AV).
       - intros K. inversion K as [e' P|d' N A|k e' N A K1 K2]; subst.
         + exfalso. exact (NP _ P).
         + reflexivity.
         + exfalso. exact (A d AV). }
  assert (NA : forall d, cf_action c <> ActPartialRedact d 0).
  { intros d K. rewrite (proj2 (action_invalid_iff _) (ex_intro _ d K)) in AV. discriminate AV. }
  destruct (cf_keywords c) as [kc|] eqn:KC.
  - destruct (c28_accepted_configurations_lemma kc) as (res & R & _ & _). rewrite R. cbn [bind].
    destruct res as [[inc exc]|ke].
    + cbn [bind]. eexists. split; [reflexivity|]. split.
      * intros e. split; [discriminate|]. intros K. inversion K as [e' P|d' N A|k e' N A K1 K2]; subst.
        -- exfalso. exact (NP _ P).
        -- exfalso. exact (NA _ A).
        -- rewrite KC in K1. injection K1 as <-. apply compile_error_iff in K2. rewrite R in K2. discriminate K2.
      * intros x rl K. injection K as <- <-. split; [reflexivity|]. split; [reflexivity|]. eexists. split; [reflexivity|].
        constructor; cbn [rr_index rr_find rr_validator rr_included rr_excluded].
        -- reflexivity.
        -- exact PR.
        -- destruct (cf_validator c); reflexivity.
        -- intros ik. split.
           ++ destruct inc as [[inc pinc]|]; [|discriminate]. cbn [option_map fst snd]. intros K. injection K as <-.
              exists kc, inc, pinc, exc. repeat split; assumption.
           ++ intros (k & inc' & pinc' & exc' & K1 & K2 & ->). rewrite KC in K1. injection K1 as <-. rewrite R in K2. injection K2 as -> ->. reflexivity.
        -- intros xk. split.
           ++ destruct exc as [[exc pexc]|]; [|discriminate]. cbn [option_map fst snd]. intros K. injection K as <-.
              exists kc, inc, exc, pexc. repeat split; assumption.
           ++ intros (k & inc' & exc' & pexc' & K1 & K2 & ->). rewrite KC in K1. injection K1 as <-. rewrite R in K2. injection K2 as -> ->. reflexivity.
    + cbn [bind]. eexists. split; [reflexivity|]. split; [|discriminate]. intros e. split.
      * intros K. injection K as <-. exact (re_keywords en c kc ke NP NA KC (proj1 (compile_error_iff _ _) R)).
      * intros K. inversion K as [e' P|d' N A|k e' N A K1 K2]; subst.
        -- exfalso. exact (NP _ P).
        -- exfalso. exact (NA _ A).
        -- rewrite KC in K1. injection K1 as <-. apply compile_error_iff in K2. rewrite R in K2. injection K2 as ->. reflexivity.
  - cbn [bind]. eexists. split; [reflexivity|]. split.
    + intros e. split; [discriminate|]. intros K. inversion K as [e' P|d' N A|k e' N A K1 K2]; subst.
      * exfalso. exact (NP _ P).
      * exfalso. exact (NA _ A).
      * rewrite KC in K1. discriminate K1.
    + intros x rl K. injection K as <- <-. split; [reflexivity|]. split; [reflexivity|]. eexists. split; [reflexivity|].
      constructor; cbn [rr_index rr_find rr_validator rr_included rr_excluded].
      * reflexivity.
      * exact PR.
      * destruct (cf_validator c); reflexivity.
      * intros ik. split; [discriminate|]. intros (k & inc' & pinc' & exc' & K1 & _). rewrite KC in K1. discriminate K1.
      * intros ik. split; [discriminate|]. intros (k & inc' & pinc' & exc' & K1 & _). rewrite KC in K1. discriminate K1.
Qed.
Lemma rule_error_fun : forall en c e e', rule_error en c e -> rule_error en c e' -> e = e'.
Proof.
  intros en c e e' H K. destruct (convert_rule_spec en c 0 []) as (r & _ & E & _). apply E in H. apply E in K. rewrite H in K. injection K as ->. reflexivity.
Qed.

(* ---- all rules ---- *)
Lemma convert_rules_spec : forall en l cs i, exists r, convert_rules en cs i l = Ret r /\
  (forall e, r = Err e <-> first_rule_error en cs e) /\
  (forall xs, r = Ok xs -> length xs = length cs /\ (forall c e, In c cs -> ~ rule_error en c e) /\
    forall j c, nth_error cs j = Some c -> exists rr, action_validate (cf_action c) = true /\
      nth_error xs j = Some (regex_compiled (cf_action c) (cf_scope c) (cf_validation c) rr, l ++ cf_labels c) /\ compiled_from en c (i + j) rr).
Proof.
  intros en l. induction cs as [|c cs IH]; intros i; cbn [convert_rules].
  - exists (Ok []). split; [reflexivity|]. split.
    + intros e. split; [discriminate|]. intros (j & c & E & _). destruct j; discriminate E.
    + intros xs K. injection K as <-. split; [reflexivity|]. split; [intros c e []|]. intros [|j] c K; discriminate K.
  - destruct (convert_rule_spec en c i l) as (r & R & RE & RO). rewrite R. cbn [bind]. destruct r as [[x rl]|e0].
    + destruct (RO x rl eq_refl) as (Hl & AV & rr & Hx & CF). subst x rl.
      assert (NE : forall e, ~ rule_error en c e) by (intros e K; apply RE in K; discriminate K).
      destruct (IH (S i)) as (rs & RS & SE & SO). rewrite RS. cbn [bind].
      assert (FE : forall e, first_rule_error en (c :: cs) e <-> first_rule_error en cs e).
      { intros e. split.
        - intros ([|j] & c1 & E1 & E2 & E3); cbn [nth_error] in E1.
          + injection E1 as ->. exfalso. exact (NE _ E2).
          + exists j, c1. split; [exact E1|]. split; [exact E2|]. intros j' c' e' L N. apply (E3 (S j') c' e'); [lia|exact N].
        - intros (j & c1 & E1 & E2 & E3). exists (S j), c1. split; [exact E1|]. split; [exact E2|]. intros [|j'] c' e' L N; cbn [nth_error] in N.
          + injection N as <-. apply NE.
          + apply (E3 j' c' e'); [lia|exact N]. }
      destruct rs as [xs|e1].
      * eexists. split; [reflexivity|]. split.
        -- intros e. split; [discriminate|]. intros K. apply FE in K. apply SE in K. discriminate K.
        -- intros ys K. injection K as <-. destruct (SO xs eq_refl) as (SL & SN & SR). split; [cbn [length]; rewrite SL; reflexivity|]. split.
           ++ intros c' e' [<-|K]; [apply NE|exact (SN c' e' K)].
           ++ intros [|j] c' K; cbn [nth_error] in *.
              ** injection K as <-. exists rr. rewrite Nat.add_0_r. auto.
              ** destruct (SR j c' K) as (rr' & A & B & D). exists rr'. rewrite Nat.add_succ_r. auto.
      * eexists. split; [reflexivity|]. split; [|discriminate]. intros e. rewrite FE. rewrite <- SE. split; intros K; injection K as ->; reflexivity.
    + eexists. split; [reflexivity|]. split; [|discriminate]. intros e. split.
      * intros K. injection K as <-. exists 0, c. split; [reflexivity|]. split; [apply RE; reflexivity|]. intros j c' e' L. lia.
      * intros ([|j] & c1 & E1 & E2 & E3); cbn [nth_error] in E1.
        -- injection E1 as <-. apply RE in E2. injection E2 as ->. reflexivity.
        -- exfalso. apply (E3 0 c e0); [lia|reflexivity|]. apply RE. reflexivity.
Qed.
Lemma no_first_error : forall en cs, (forall e, ~ first_rule_error en cs e) -> forall c e, In c cs -> ~ rule_error en c e.
Proof.
  intros en cs H. destruct (convert_rules_spec en [] cs 0) as (r & _ & E & O). destruct r as [xs|e].
  - exact (proj1 (proj2 (O xs eq_refl))).
  - exfalso. apply (H e). apply E. reflexivity.
Qed.
Lemma validators_ok : forall types, exists vs, build_validators types [] false =
  Ok (vs, existsb (fun o => match o with Some t => can_create_match_validator t | None => false end) types).
Proof.
  intros types. destruct (build_validators_spec types [] false) as (vs & E & _). exists vs. rewrite E. cbn [orb assoc].
  f_equal. f_equal. clear E. induction types as [|[t|] types IH]; cbn [existsb]; [reflexivity| |exact IH].
  rewrite andb_true_r, IH. reflexivity.
Qed.
