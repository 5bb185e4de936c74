(* The pattern parser, the conversion of patterns and the complexity estimate (C54-C58): proofs of the statements of Thm/Patterns.v *)
From Coq Require Import Lia ZifyN.
From Verif Require Import Proofs.Pattern.
From Verif Require Export Spec.Pattern.

Lemma parse_fuel : forall fuel s, 51 <= fuel -> parse_regex_pattern fuel s = parse_regex_pattern 51 s.
Proof.
  intros fuel s H. unfold parse_regex_pattern. rewrite (expression_fuel fuel 51 0) by lia. reflexivity.
Qed.
Lemma parse_returns : forall s, exists r, parse_regex_pattern 51 s = Ret r.
Proof.
  intros s. unfold parse_regex_pattern. pose proof (quiet_expression 51 0 ltac:(lia) ltac:(lia) s) as H.
  destruct (expression 51 0 s) as [a [|c rest]| |e|]; try (eexists; reflexivity). destruct H.
Qed.

(* [n] opening parentheses, a letter and [n] closing parentheses *)
Definition nested (n : nat) : str := repeat 40%N n ++ 97%N :: repeat 41%N n.

Lemma c54_total_lemma :
  forall s, exists r, forall fuel, 51 <= fuel -> parse_regex_pattern fuel s = Ret r.
Proof.
  intros s. destruct (parse_returns s) as (r & Hr). exists r. intros fuel Hf. rewrite parse_fuel by exact Hf. exact Hr.
Qed.

Lemma c54_nesting_lemma :
  forall fuel s a, parse_regex_pattern fuel s = Ret (Ok a) -> nesting a < 50.
Proof.
  intros fuel s a H. unfold parse_regex_pattern in H. destruct (expression fuel 0 s) as [b [|c rest]| |e|] eqn:E; try discriminate.
  injection H as ->. pose proof (expression_low _ _ _ _ _ E). lia.
Qed.

Lemma c54_limit_lemma :
  forall n, (n < 50 -> exists a, parse_regex_pattern 51 (nested n) = Ret (Ok a) /\ nesting a = n) /\
  (50 <= n -> parse_regex_pattern 51 (nested n) = Ret (Err PExceededDepthLimit)).
Proof.
  intros n. split.
  - intros Hn.
    assert (K : forallb (fun n => match parse_regex_pattern 51 (nested n) with Ret (Ok a) => nesting a =? n | _ => false end)
      (seq 0 50) = true) by (vm_compute; reflexivity).
    rewrite forallb_forall in K. specialize (K n ltac:(apply in_seq; lia)).
    destruct (parse_regex_pattern 51 (nested n)) as [[a|e]| |]; try discriminate. exists a. split; [reflexivity|].
    apply Nat.eqb_eq. exact K.
  - intros Hn. unfold parse_regex_pattern. unfold nested. rewrite deep_refused by lia. reflexivity.
Qed.

Lemma c54_depth_error_lemma :
  forall fuel s, 51 <= fuel -> parse_regex_pattern fuel s = Ret (Err PExceededDepthLimit) ->
  50 <= count_occ N.eq_dec s 40%N.
Proof.
  intros fuel s Hf H. rewrite parse_fuel in H by exact Hf. unfold parse_regex_pattern in H.
  pose proof (quiet_expression 51 0 ltac:(lia) ltac:(lia) s) as K.
  destruct (expression 51 0 s) as [b [|c rest]| |e|] eqn:E; try discriminate.
  injection H as ->. destruct K as [K|[_ K]]; [discriminate|exact K].
Qed.

Lemma c54_grammar_lemma :
  forall fuel s a, parse_regex_pattern fuel s = Ret (Ok a) -> expression_text a s.
Proof.
  intros fuel s a H. unfold parse_regex_pattern in H. destruct (expression fuel 0 s) as [b [|c rest]| |e|] eqn:E; try discriminate.
  injection H as ->. destruct (psound_expression _ _ _ _ _ E) as (t & -> & Ht). rewrite app_nil_r. exact Ht.
Qed.

Lemma c55_converted_lemma :
  forall a e, convert_ast a = Err e <->
  e = PExceededQuantifierLimit /\ exists q n, repeats q a /\ counts (q_kind q) n /\ (3000 < n)%N.
Proof.
  exact convert_ast_err.
Qed.

Lemma c55_pattern_lemma :
  forall fuel s, 51 <= fuel ->
  convert_to_rust_regex fuel s = Ret (Err PExceededQuantifierLimit) <->
  exists a q n, parse_regex_pattern fuel s = Ret (Ok a) /\ repeats q a /\ counts (q_kind q) n /\ (3000 < n)%N.
Proof.
  intros fuel s Hf. unfold convert_to_rust_regex. pose proof (parse_fuel fuel s Hf) as Hp. rewrite Hp.
  pose proof (quiet_expression 51 0 ltac:(lia) ltac:(lia) s) as K. unfold parse_regex_pattern.
  destruct (expression 51 0 s) as [b [|c rest]| |e|] eqn:E; simpl.
  - split.
    + intros H. injection H as H. apply rmap_err in H. apply convert_ast_err in H as [_ (q & n & H)]. exists b, q, n. auto.
    + intros (a & q & n & Ha & H). injection Ha as <-. f_equal. apply rmap_err, convert_ast_err. split; [reflexivity|]. exists q, n. exact H.
  - split; [discriminate|]. intros (a & q & n & Ha & _). discriminate.
  - split; [discriminate|]. intros (a & q & n & Ha & _). discriminate.
  - split; [|intros (a & q & n & Ha & _); discriminate]. intros H. injection H as ->. simpl in K. destruct K as [K|[K _]]; discriminate.
  - destruct K.
Qed.

Lemma c55_text_refuted_lemma :
  ~ (forall fuel d n r, 51 <= fuel -> d <> [] -> (forall c, In c d -> is_digit c) -> decimal_value d = n ->
     (3000 < n)%N ->
     convert_to_rust_regex fuel (chars "x{" ++ d ++ chars "}") = Ret r -> r = Err PExceededQuantifierLimit).
Proof.
  intros H. specialize (H 51 (chars "4294967296") 4294967296%N).
  assert (K : forall c, In c (chars "4294967296") -> is_digit c).
  { intros c Hc. cbv [chars] in Hc. simpl in Hc. unfold is_digit. repeat (destruct Hc as [<-|Hc]; [lia|]). destruct Hc. }
  specialize (H (Ok (chars "x\{4294967296\}")) ltac:(lia) ltac:(discriminate) K eq_refl ltac:(lia) ltac:(vm_compute; reflexivity)).
  discriminate.
Qed.

Lemma c56_printed_lemma :
  forall f, exists before after,
  print_flags (convert_flags f) = before ++ match after with [] => [] | _ => chars "-" ++ after end /\
  NoDup (before ++ after) /\ (forall c, In c (before ++ after) -> exists x, flag_char x c) /\
  (forall x c, flag_char x c -> (In c before <-> In x (fl_add f) /\ ~ In x (fl_remove f))) /\
  (forall x c, flag_char x c -> (In c after <-> In x (fl_remove f))).
Proof.
  intros f. destruct (convert_flags_parts f) as (add & remove & H1 & H2 & H3 & H4).
  exists (map flag_letter add), (map flag_letter remove). split; [|split; [|split; [|split]]].
  - rewrite H1. destruct remove; reflexivity.
  - rewrite <- map_app. apply NoDup_nth_error. intros i j Hi E. rewrite !nth_error_map in E.
    rewrite map_length in Hi. rewrite NoDup_nth_error in H2. apply H2; auto.
    destruct (nth_error (add ++ remove) i) as [x|] eqn:Ei; [|apply nth_error_None in Ei; lia].
    destruct (nth_error (add ++ remove) j) as [y|]; [|discriminate]. simpl in E. injection E as E.
    apply flag_letter_inj in E. congruence.
  - intros c Hc. rewrite <- map_app in Hc. apply in_map_iff in Hc as (x & <- & _). exists x. apply flag_letter_char. reflexivity.
  - intros x c Hc. apply flag_letter_char in Hc. subst c. rewrite flag_letters_in. apply H3.
  - intros x c Hc. apply flag_letter_char in Hc. subst c. rewrite flag_letters_in. apply H4.
Qed.

Lemma c56_meaning_lemma :
  forall f x, flag_set (match x with CaseInsensitive => RfCaseInsensitive | MultiLine => RfMultiLine
                      | DotMatchesNewLine => RfDotMatchesNewLine | IgnoreWhitespace => RfIgnoreWhitespace end) (convert_flags f)
    <-> In x (fl_add f) /\ ~ In x (fl_remove f).
Proof.
  intros f x. set (g := match x with CaseInsensitive => _ | _ => _ end).
  assert (Hg : g = convert_flag x) by (destruct x; reflexivity). rewrite Hg. clear g Hg.
  unfold convert_flags.
  set (rm := dedup_flags (sort_flags (fl_remove f))). set (ad := dedup_flags (sort_flags (fl_add f))).
  set (both := filter _ rm). set (add := fold_left _ both ad).
  assert (Ha : In x add <-> In x (fl_add f) /\ ~ In x (fl_remove f)).
  { unfold add. rewrite remove_flags_in. unfold both. rewrite filter_In. unfold rm, ad. rewrite !dedup_flags_in, !sort_flags_in.
    assert (K : existsb (flag_eqb x) (dedup_flags (sort_flags (fl_add f))) = true <-> In x (fl_add f)).
    { rewrite existsb_exists. split.
      - intros (y & Hy & E). apply flag_eqb_eq in E. subst y. rewrite dedup_flags_in, sort_flags_in in Hy. exact Hy.
      - intros Hx. exists x. rewrite dedup_flags_in, sort_flags_in. split; auto. apply flag_eqb_eq. reflexivity. }
    rewrite K. tauto. }
  rewrite <- Ha. clear Ha. clearbody add. induction add as [|y add IH].
  - simpl. split; [|intros []]. destruct rm; intros H; inversion H.
  - simpl. split.
    + intros H. inversion H; subst; [left; destruct x, y; try reflexivity; discriminate|right; apply IH; assumption].
    + intros [->|H]; [constructor|]. apply fs_later. apply IH. exact H.
Qed.

Lemma c56_cleared_lemma :
  forall f x, flag_cleared (match x with CaseInsensitive => RfCaseInsensitive | MultiLine => RfMultiLine
                      | DotMatchesNewLine => RfDotMatchesNewLine | IgnoreWhitespace => RfIgnoreWhitespace end) (convert_flags f)
    <-> In x (fl_remove f).
Proof.
  intros f x. set (g := match x with CaseInsensitive => _ | _ => _ end).
  assert (Hg : g = convert_flag x) by (destruct x; reflexivity). rewrite Hg. clear g Hg.
  unfold convert_flags.
  set (ad := dedup_flags (sort_flags (fl_add f))).
  rewrite <- (sort_flags_in (fl_remove f)), <- dedup_flags_in. set (rm := dedup_flags (sort_flags (fl_remove f))).
  set (both := filter _ rm). set (add := fold_left _ both ad). clearbody add. clear both. clearbody rm.
  assert (K : forall l, In (RFlag (convert_flag x)) (map (fun y => RFlag (convert_flag y)) l) <-> In x l).
  { intros l. rewrite in_map_iff. split.
    - intros (y & E & Hy). injection E as E. assert (y = x) by (destruct x, y; try reflexivity; discriminate). subst y. exact Hy.
    - intros Hx. eauto. }
  induction add as [|y add IH].
  - simpl. destruct rm as [|r rm]; [split; [intros H; inversion H|intros []]|]. rewrite <- K. split.
    + intros H. inversion H; subst. assumption.
    + intros H. apply fcl_dash. exact H.
  - simpl. rewrite <- IH. split.
    + intros H. inversion H; subst. assumption.
    + intros H. apply fcl_later. exact H.
Qed.

Lemma c58_least_lemma :
  forall convert build input p fuel n,
  convert input = Ok p ->
  (forall l l' re, build p l = Ok re -> (l <= l')%N -> exists re', build p l' = Ok re') ->
  24 < fuel -> get_regex_complexity_estimate_very_slow convert build fuel input = Ret (Ok n) ->
  (exists l re, (1 <= l <= 10000000)%N /\ build p l = Ok re) ->
  (exists re, build p n = Ok re) /\ (1 <= n <= 10000000)%N /\
  forall l re, (1 <= l)%N -> build p l = Ok re -> (n <= l)%N.
Proof.
  intros convert build input p fuel n Hc Hm Hf H (l0 & re0 & Hl0 & E0).
  unfold get_regex_complexity_estimate_very_slow in H. rewrite Hc in H.
  assert (Hm' : forall l l', fits build p l -> (l <= l')%N -> fits build p l') by (intros l l' (re & E) Hl; eapply Hm; eauto).
  destruct (search_least build p Hm' 24 1 (10 * regex_complexity_limit)) as (r & Hr & K).
  - vm_compute. discriminate.
  - vm_compute. reflexivity.
  - intros l Hl. lia.
  - rewrite (search_fuel build p Hm' 25) in H by (try lia; rewrite Hr; discriminate). rewrite Hr in H. injection H as ->.
    change (10 * regex_complexity_limit)%N with 10000000%N in K. destruct K as (K1 & K2 & K3).
    assert (Hn : fits build p n).
    { destruct (N.eq_dec n 10000000) as [->|]; [|apply K2; lia].
      apply (Hm' l0); [exists re0; exact E0|lia]. }
    split; [exact Hn|]. split; [exact K1|]. intros l re Hl E.
    destruct (N.le_gt_cases n l) as [|Hlt]; auto. exfalso. apply (K3 l); [lia|]. exists re. exact E.
Qed.

Lemma c58_outcome_lemma :
  forall convert build input fuel,
  (forall p l l' re, build p l = Ok re -> (l <= l')%N -> exists re', build p l' = Ok re') ->
  24 < fuel ->
  match convert input with
  | Err e => get_regex_complexity_estimate_very_slow convert build fuel input =
      Ret (Err (match e with PInvalidSyntax => InvalidSyntax | PExceededDepthLimit => ExceededDepthLimit
                | PExceededQuantifierLimit => ExceededQuantifierLimit end))
  | Ok p =>
    (exists n, get_regex_complexity_estimate_very_slow convert build fuel input = Ret (Ok n) /\
       ((exists re, build p n = Ok re) \/
        n = 10000000%N /\ forall l re, (1 <= l < 10000000)%N -> build p l <> Ok re)) \/
    (get_regex_complexity_estimate_very_slow convert build fuel input = Ret (Err InvalidSyntax) /\
       exists l, build p l = Err OtherBuildError)
  end.
Proof.
  intros convert build input fuel Hm Hf. unfold get_regex_complexity_estimate_very_slow.
  destruct (convert input) as [p|e]; [|destruct e; reflexivity].
  assert (Hm' : forall l l', fits build p l -> (l <= l')%N -> fits build p l') by (intros l l' (re & E) Hl; eapply Hm; eauto).
  destruct (search_least build p Hm' 24 1 (10 * regex_complexity_limit)) as (r & Hr & K).
  - vm_compute. discriminate.
  - vm_compute. reflexivity.
  - intros l Hl. lia.
  - rewrite (search_fuel build p Hm' 25) by (try lia; rewrite Hr; discriminate). rewrite Hr.
    change (10 * regex_complexity_limit)%N with 10000000%N in K. destruct r as [n|e].
    + left. exists n. split; [reflexivity|]. destruct K as (K1 & K2 & K3).
      destruct (N.eq_dec n 10000000) as [->|]; [right|left; apply K2; lia].
      split; [reflexivity|]. intros l re Hl E. apply (K3 l Hl). exists re. exact E.
    + right. destruct K as [-> (l & _ & E)]. split; [reflexivity|]. eauto.
Qed.

