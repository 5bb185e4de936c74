(* What the texts of errors say (C103): proofs of the statements of Thm/Messages.v *)
From Coq Require Import Lia.
From Verif Require Export Spec.Messages.
From Verif Require Import Proofs.Binary Proofs.BuildClaims Proofs.ReadingClaims Proofs.PatternsClaims Proofs.KeywordsClaims Examples.Build.

Lemma unread : forall s e, parse_regex_pattern 51 s = Ret (Err e) -> forall a, ~ pattern_read a s.
Proof. intros s e H a K. apply (parse_reads 51) in K; [|lia]. congruence. Qed.
Lemma refused_by : forall s e, convert_to_rust_regex 51 s = Ret (Err e) ->
  parse_regex_pattern 51 s = Ret (Err e) \/ exists a, pattern_read a s /\ convert_ast a = Err e.
Proof.
  intros s e H. unfold convert_to_rust_regex in H. destruct (parse_regex_pattern 51 s) as [[a|e']| |] eqn:P; try discriminate H; cbn [bind] in H.
  - right. exists a. split; [apply (parse_reads 51); [lia|exact P]|]. destruct (convert_ast a) as [x|e']; [discriminate H|]. injection H as ->. reflexivity.
  - left. injection H as ->. reflexivity.
Qed.
Lemma single : forall en c e, build en (builder_new [c]) = Ret (Err e) <-> rule_error en c e.
Proof.
  intros en c e. destruct (c60_result_lemma en (builder_new [c])) as (r & R & _ & E). rewrite R. split.
  - intros H. injection H as ->. destruct (proj1 (E e) eq_refl) as ([|i] & c' & I & K & _); [injection I as <-; exact K|destruct i; discriminate I].
  - intros K. f_equal. apply E. exists 0, c. split; [reflexivity|]. split; [exact K|]. intros j c' e' L. lia.
Qed.
Lemma reads_value : forall t n m, reads_as t n -> reads_as t m -> n = m.
Proof. intros t n m (_ & _ & A & _) (_ & _ & B & _). rewrite A in B. lia. Qed.
Lemma decimal_is : forall n m t, reads_as t m -> in_decimal n = t -> n = m.
Proof. intros n m t H <-. exact (reads_value _ _ _ (decimal_reads n) H). Qed.

Lemma c103_truthful_lemma :
  forall en b e, build en b = Ret (Err e) -> exists c, In c (bu_rules b) /\ truthful en c (create_message e).
Proof.
  intros en b e H. destruct (c60_result_lemma en b) as (r & R & _ & E). rewrite H in R. injection R as <-.
  destruct (proj1 (E e) eq_refl) as (i & c & I & K & _). exists c. split; [exact (nth_error_In _ _ I)|]. clear E H I.
  destruct K as [e P|d P A|k e P A K C].
  - destruct P as [P|P|P|p P B|p P B|p re m P B M]; cbn [create_message regex_message].
    + apply tr_syntax. left. destruct (refused_by _ _ P) as [Q|(a & Q & S)]; [exact (unread _ _ Q)|].
      apply c55_converted_lemma in S as (S & _). discriminate S.
    + destruct (refused_by _ _ P) as [Q|(a & Q & S)].
      * apply tr_depth; [exact (unread _ _ Q)|]. exact (c54_depth_error_lemma 51 _ (le_n _) Q).
      * apply c55_converted_lemma in S as (S & _). discriminate S.
    + apply (c55_pattern_lemma 51 _ (le_n _)) in P as (a & q & n & P1 & P2 & P3 & P4).
      apply (tr_quantifier en c _ 3000 a q n); [exact (decimal_reads 3000)|apply (parse_reads 51); [lia|exact P1]|exact P2|exact P3|exact P4].
    + eapply tr_complex; eauto.
    + apply tr_syntax. right. eauto.
    + apply (tr_empty_match en c re m); [exists p; auto|exact M].
  - apply (tr_action en c d A).
  - destruct C as [L|L M|e L N1 N2 (pre & kw & post & E1 & E2 & _)|e L N1 N2 _ (pre & kw & post & E1 & E2 & _)]; cbn [create_message keyword_message].
    + apply (tr_look_ahead en c _ 50 k); [exact (decimal_reads 50)|exact K|lia].
    + apply (tr_many en c _ 50 k); [exact (decimal_reads 50)|exact K|lia].
    + assert (I : In kw (kc_included k)) by (rewrite E1; apply in_elt).
      destruct E2 as [E2|E2 E3]; [apply (tr_long en c _ k kw); auto; apply decimal_reads|]. apply (tr_empty en c k kw); auto.
    + assert (I : In kw (kc_excluded k)) by (rewrite E1; apply in_elt).
      destruct E2 as [E2|E2 E3]; [apply (tr_long en c _ k kw); auto; apply decimal_reads|]. apply (tr_empty en c k kw); auto.
Qed.

Lemma c103_limits_lemma :
  forall en c t n, reads_as t n ->
  (create_message (EInvalidRegex ExceededQuantifierLimit) = chars "Regex quantifier is too high. Max is " ++ t ->
   (build en (builder_new [c]) = Ret (Err (EInvalidRegex ExceededQuantifierLimit)) <->
    exists a q m, pattern_read a (cf_pattern c) /\ repeats q a /\ counts (q_kind q) m /\ (N.of_nat n < m)%N)) /\
  forall k, cf_keywords c = Some k -> (forall e, ~ pattern_error en (cf_pattern c) e) -> (forall d, cf_action c <> ActPartialRedact d 0) ->
  (create_message (EInvalidKeywords InvalidLookAheadCharacterCount) =
     chars "Look ahead character count should be bigger than 0 and cannot be longer than " ++ t ->
   (build en (builder_new [c]) = Ret (Err (EInvalidKeywords InvalidLookAheadCharacterCount)) <->
    kc_look_ahead k = 0 \/ n < kc_look_ahead k)) /\
  (create_message (EInvalidKeywords TooManyKeywords) = chars "No more than " ++ t ++ chars " keywords are allowed" ->
   (build en (builder_new [c]) = Ret (Err (EInvalidKeywords TooManyKeywords)) <->
    build en (builder_new [c]) <> Ret (Err (EInvalidKeywords InvalidLookAheadCharacterCount)) /\
    (n < length (kc_included k) \/ n < length (kc_excluded k)))) /\
  (create_message (EInvalidKeywords (KeywordTooLong (kc_look_ahead k))) =
     chars "Keywords cannot be longer than the look ahead character count (" ++ t ++ chars ")" -> n = kc_look_ahead k).
Proof.
  intros en c t n Ht.
  assert (Hno : forall la x kws e, first_problem la x kws e -> e <> InvalidLookAheadCharacterCount /\ e <> TooManyKeywords).
  { intros la x kws e (pre & kw & post & _ & [L|L M] & _); split; discriminate. }
  split; [|intros k K P A; split; [|split]].
  - intros E. cbn [create_message regex_message] in E. apply app_inv_head in E. assert (n = 3000) as -> by (symmetry; exact (decimal_is _ _ _ Ht E)).
    rewrite single. split.
    + intros H. inversion H as [e Q| |]; subst. inversion Q as [| |Q'| | |]; subst. apply (c55_pattern_lemma 51 _ (le_n _)) in Q' as (a & q & m & Q1 & Q2 & Q3 & Q4).
      exists a, q, m. split; [apply (parse_reads 51); [lia|exact Q1]|auto].
    + intros (a & q & m & Q1 & Q2 & Q3 & Q4). apply re_pattern, pe_quantifier. apply (c55_pattern_lemma 51 _ (le_n _)).
      exists a, q, m. split; [apply (parse_reads 51); [lia|exact Q1]|auto].
  - intros E. cbn [create_message keyword_message] in E. apply app_inv_head in E. assert (n = 50) as -> by (symmetry; exact (decimal_is _ _ _ Ht E)).
    rewrite single. split.
    + intros H. inversion H as [| |k' e _ _ K' C]; subst. rewrite K in K'. injection K' as <-.
      inversion C as [L|L M|e L N1 N2 F|e L N1 N2 _ F]; subst; [lia| |]; destruct (Hno _ _ _ _ F) as [X _]; congruence.
    + intros L. eapply re_keywords; eauto. apply ce_look_ahead. lia.
  - intros E. cbn [create_message keyword_message] in E. apply app_inv_head in E. apply app_inv_tail in E. assert (n = 50) as -> by (symmetry; exact (decimal_is _ _ _ Ht E)).
    rewrite !single. split.
    + intros H. split.
      * intros H'. pose proof (proj1 (c60_one_error_lemma en) _ _ _ H H') as X. discriminate X.
      * inversion H as [| |k' e _ _ K' C]; subst. rewrite K in K'. injection K' as <-.
        inversion C as [L|L M|e L N1 N2 F|e L N1 N2 _ F]; subst; [lia| |]; destruct (Hno _ _ _ _ F) as [_ X]; congruence.
    + intros (L & M). eapply re_keywords; eauto. apply ce_too_many; [|lia].
      destruct (Nat.eq_dec (kc_look_ahead k) 0) as [Z|Z]; [|destruct (Nat.le_gt_cases (kc_look_ahead k) 50) as [Y|Y]; [lia|]];
        exfalso; apply L; eapply re_keywords; eauto; apply ce_look_ahead; lia.
  - intros E. cbn [create_message keyword_message] in E. apply app_inv_head in E. apply app_inv_tail in E. symmetry. exact (decimal_is _ _ _ Ht E).
Qed.

Lemma c103_distinct_lemma :
  forall e e', create_message e = create_message e' -> e = e'.
Proof.
  intros e e' H. pose proof (f_equal (firstn 13) H) as K.
  destruct e as [[]|[]| |], e' as [[]|[]| |]; try reflexivity; try (vm_compute in K; discriminate K).
  cbn [create_message keyword_message] in H. apply app_inv_head in H. apply app_inv_tail in H. do 2 f_equal.
  unfold in_decimal in H. pose proof (decimal_reads n0) as R. rewrite <- H in R. exact (reads_value _ _ _ (decimal_reads n) R).
Qed.

Lemma c103_empty_refuted_lemma :
  ~ (forall en b, build en b = Ret (Err (EInvalidKeywords EmptyKeyword)) ->
   exists c k kw, In c (bu_rules b) /\ cf_keywords c = Some k /\ (In kw (kc_included k) \/ In kw (kc_excluded k)) /\
     forall x, In x kw -> In x white_space).
Proof.
  intros H. set (c := {| cf_pattern := chars "ab"; cf_action := ActNone; cf_scope := ScopeExclude [];
    cf_keywords := Some {| kc_look_ahead := 4; kc_included := []; kc_excluded := [chars "-_-"] |};
    cf_validator := None; cf_labels := []; cf_validation := None |}).
  destruct (H literal_engines (builder_new [c])) as (c' & k & kw & [<-|[]] & K & I & W); [vm_compute; reflexivity|].
  injection K as <-. destruct I as [[]|[<-|[]]]. specialize (W 45%N (or_introl eq_refl)). vm_compute in W. intuition discriminate.
Qed.

