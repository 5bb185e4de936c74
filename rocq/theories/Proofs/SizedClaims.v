(* The sizes of replacements (C105): proofs of the statements of Thm/Sized.v *)
From Coq Require Import Lia.
From Verif Require Import Proofs.Text Proofs.BuildClaims Proofs.EndToEndClaims.
From Verif Require Export Spec.Sized Spec.Builder Examples.Build Examples.Setting.

Lemma fits_dec : forall a, action_fits a \/ exists d n, a = ActPartialRedact d n /\ (isize_max < Z.of_nat n)%Z.
Proof.
  intros a. destruct a as [|r| | |d n]; try (left; intros d' n' H; discriminate H).
  destruct (Z_lt_le_dec isize_max (Z.of_nat n)) as [H|H]; [right; eauto|left].
  intros d' n' E. injection E as <- <-. unfold isize_max in H. lia.
Qed.
Lemma stars : forall n, concat (repeat [partial_redact_character] n) = repeat partial_redact_character n.
Proof. induction n as [|n IH]; [reflexivity|]. cbn [repeat concat app]. rewrite IH. reflexivity. Qed.
Lemma repeat_fits : forall n, (Z.of_nat n < 2 ^ 63)%Z -> string_repeat [partial_redact_character] n = Ret (repeat partial_redact_character n).
Proof.
  intros n H. unfold string_repeat. replace (Z.of_nat (blen [partial_redact_character]) * Z.of_nat n)%Z with (Z.of_nat n) by (change (blen [partial_redact_character]) with 1; lia).
  replace (Z.of_nat n <=? isize_max)%Z with true by (symmetry; apply Z.leb_le; unfold isize_max; lia). rewrite stars. reflexivity.
Qed.
Lemma repeat_overflows : forall n, (isize_max < Z.of_nat n)%Z -> string_repeat [partial_redact_character] n = Panic.
Proof.
  intros n H. unfold string_repeat. replace (Z.of_nat (blen [partial_redact_character]) * Z.of_nat n)%Z with (Z.of_nat n) by (change (blen [partial_redact_character]) with 1; lia).
  replace (Z.of_nat n <=? isize_max)%Z with false by (symmetry; apply Z.leb_gt; exact H). reflexivity.
Qed.
Lemma replacement_fits : forall h a m, action_fits a -> get_replacement_sized h a m = get_replacement h a m.
Proof.
  intros h a m H. destruct a as [|r| | |[|] n]; try reflexivity; specialize (H _ n eq_refl); cbn [get_replacement_sized get_replacement];
    unfold partial_redaction_first_sized, partial_redaction_first, partial_redaction_last_sized, partial_redaction_last; rewrite repeat_fits by exact H; reflexivity.
Qed.
Lemma replacement_overflows : forall h d n m, (isize_max < Z.of_nat n)%Z -> get_replacement_sized h (ActPartialRedact d n) m = Panic.
Proof.
  intros h d n m H. destruct d; cbn [get_replacement_sized].
  - unfold partial_redaction_first_sized. rewrite (repeat_overflows n H).
    destruct (if n <? length m then _ else _) as [x| |] eqn:E; cbn [bind]; try reflexivity.
    exfalso. destruct (n <? length m); [|discriminate E]. destruct (iter_nth (char_indices m) n); discriminate E.
  - unfold partial_redaction_last_sized. rewrite (repeat_overflows n H).
    destruct (if n <? length m then _ else _) as [x| |] eqn:E; cbn [bind]; try reflexivity.
    exfalso. destruct (n <? length m); [|discriminate E]. destruct n as [|n]; [discriminate E|]. destruct (iter_nth_back (char_indices m) n); discriminate E.
Qed.

(* -- one match -- *)
Lemma one_fits : forall E h sc p c d (cd : enc_shift E) m,
  (forall r, nth_error (sc_rules sc) (im_rule m) = Some r -> action_fits (rule_action r)) ->
  apply_match_actions_for_string_sized h sc p c d cd m = apply_match_actions_for_string h sc p c d cd m.
Proof.
  intros E h sc p c d cd m H. unfold apply_match_actions_for_string_sized, apply_match_actions_for_string.
  destruct (nth_error (sc_rules sc) (im_rule m)) as [r|]; cbn [unwrap bind]; [|reflexivity]. specialize (H r eq_refl).
  destruct (as_usize (Z.of_nat (enc_get_index E (im_cstart m) (im_start m)) + enc_get_shift E cd d)) as [cs| |]; cbn [bind]; try reflexivity.
  destruct (as_usize (Z.of_nat (im_start m) + d)) as [a| |]; cbn [bind]; [destruct (as_usize (Z.of_nat (im_end m) + d)) as [b| |]; cbn [bind]|..]; try reflexivity.
  destruct (slice c a b) as [t| |]; cbn [bind]; try reflexivity. rewrite (replacement_fits h _ t H). reflexivity.
Qed.
Lemma one_overflows : forall E h sc p c d (cd : enc_shift E) m r dir n,
  nth_error (sc_rules sc) (im_rule m) = Some r -> rule_action r = ActPartialRedact dir n -> (isize_max < Z.of_nat n)%Z ->
  forall x, apply_match_actions_for_string h sc p c d cd m = Ret x ->
  apply_match_actions_for_string_sized h sc p c d cd m = Panic.
Proof.
  intros E h sc p c d cd m r dir n Hr Ha Hn x. unfold apply_match_actions_for_string_sized, apply_match_actions_for_string.
  rewrite Hr. cbn [unwrap bind]. rewrite Ha. cbn [is_mutating].
  destruct (as_usize (Z.of_nat (enc_get_index E (im_cstart m) (im_start m)) + enc_get_shift E cd d)) as [cs| |]; cbn [bind]; try discriminate.
  match goal with |- (let* v := ?a in _) = _ -> _ => destruct a as [v| |]; cbn [bind]; try discriminate end.
  destruct (as_usize (Z.of_nat (im_start m) + d)) as [a| |]; cbn [bind]; [destruct (as_usize (Z.of_nat (im_end m) + d)) as [b| |]; cbn [bind]|..]; try discriminate.
  destruct (slice c a b) as [t| |]; cbn [bind]; try discriminate. intros _. rewrite (replacement_overflows h dir n t Hn). reflexivity.
Qed.
Lemma bind_assoc : forall {A B C} (o : outcome A) (f : A -> outcome B) (g : B -> outcome C), bind (bind o f) g = bind o (fun x => bind (f x) g).
Proof. intros A B C [x| |] f g; reflexivity. Qed.
Lemma one_panics : forall E h sc p c d (cd : enc_shift E) m r dir n,
  nth_error (sc_rules sc) (im_rule m) = Some r -> rule_action r = ActPartialRedact dir n -> (isize_max < Z.of_nat n)%Z ->
  apply_match_actions_for_string_sized h sc p c d cd m = Panic.
Proof.
  intros E h sc p c d cd m r dir n Hr Ha Hn. unfold apply_match_actions_for_string_sized.
  rewrite Hr. cbn [unwrap bind]. rewrite Ha. cbn [is_mutating].
  assert (U : forall z A (f : nat -> outcome A), (forall x, f x = Panic) -> bind (as_usize z) f = Panic).
  { intros z A f K. unfold as_usize. destruct (z <? 0)%Z; [reflexivity|apply K]. }
  assert (S : forall s i j A (f : str -> outcome A), (forall x, f x = Panic) -> bind (slice s i j) f = Panic).
  { intros s i j A f K. destruct (slice s i j) as [t| |] eqn:K'; [apply K|reflexivity|]. exfalso. revert K'. unfold slice.
    destruct (i <=? j); [|discriminate]. unfold slice_to. destruct (split_at s j) as [[x y]|]; cbn [bind]; [|discriminate].
    unfold slice_from. destruct (split_at x i) as [[x' y']|]; discriminate. }
  apply U. intros cs.
  assert (L : forall A (f : option str -> outcome A), (forall x, f x = Panic) ->
    bind (if sc_return_matches sc then let* a := as_usize (Z.of_nat (im_start m) + d) in let* b := as_usize (Z.of_nat (im_end m) + d) in
       let* t := slice c a b in Ret (Some t) else Ret None) f = Panic).
  { intros A f K. destruct (sc_return_matches sc); [|apply K]. rewrite bind_assoc. apply U. intros a. rewrite bind_assoc. apply U. intros b.
    rewrite bind_assoc. apply S. intros t. apply K. }
  apply L. intros v. rewrite bind_assoc. apply U. intros a. rewrite bind_assoc. apply U. intros b. rewrite bind_assoc. apply S. intros t.
  rewrite (replacement_overflows h dir n t Hn). reflexivity.
Qed.
Lemma string_panics : forall E h srt sc x p (ms : list (internal_match E)) c m ms' r dir n,
  (let* ms1 := (if sc_multipass sc then multipass_retain (sc_rules sc) x c ms else Ret ms) in
   sort_and_remove_overlapping_rules srt (sc_rules sc) ms1) = Ret (m :: ms') ->
  nth_error (sc_rules sc) (im_rule m) = Some r -> rule_action r = ActPartialRedact dir n -> (isize_max < Z.of_nat n)%Z ->
  process_string_sized h srt sc x p ms c = Panic.
Proof.
  intros E h srt sc x p ms c m ms' r dir n H Hr Ha Hn. unfold process_string_sized.
  destruct (if sc_multipass sc then _ else _) as [ms1| |]; try discriminate H. cbn [bind] in *. rewrite H. cbn [bind apply_match_actions_loop_sized].
  rewrite (one_panics _ _ _ _ _ _ _ _ _ _ _ Hr Ha Hn). reflexivity.
Qed.
Lemma one_rule : forall E h sc p c d (cd : enc_shift E) m c' d' cd' o, apply_match_actions_for_string h sc p c d cd m = Ret (c', d', cd', o) -> rm_rule o = im_rule m.
Proof.
  intros E h sc p c d cd m c' d' cd' o. unfold apply_match_actions_for_string.
  repeat match goal with |- (let* v := ?a in _) = _ -> _ => destruct a; cbn [bind]; try discriminate end.
  match goal with q : (str * Z * enc_shift E)%type |- _ => destruct q as [[x y] z] end. destruct (as_usize (Z.of_nat (enc_get_index E (im_cend m) (im_end m)) + enc_get_shift E z y)); cbn [bind]; try discriminate.
  intros H. injection H as <- <- <- <-. reflexivity.
Qed.

Section Overflow.
Variable sc : scanner.
Definition fine (o : rule_match) : Prop := forall r, nth_error (sc_rules sc) (rm_rule o) = Some r -> action_fits (rule_action r).
Definition too_large (o : rule_match) : Prop := exists r, nth_error (sc_rules sc) (rm_rule o) = Some r /\ ~ action_fits (rule_action r).
Lemma too_large_dec : forall o, fine o \/ too_large o.
Proof.
  intros o. unfold fine, too_large. destruct (nth_error (sc_rules sc) (rm_rule o)) as [r|]; [|left; discriminate].
  destruct (fits_dec (rule_action r)) as [H|(d & n & E & H)].
  - left. intros r' K. injection K as <-. exact H.
  - right. exists r. split; [reflexivity|]. intros F. specialize (F d n E). unfold isize_max in H. lia.
Qed.
(* what the two do, given the result without limits *)
Definition told {A} (outs : list rule_match) (plain sized : outcome A) : Prop :=
  (Forall fine outs -> sized = plain) /\ (Exists too_large outs -> sized = Panic).
Lemma told_one : forall E h p c d (cd : enc_shift E) m c' d' cd' o, apply_match_actions_for_string h sc p c d cd m = Ret (c', d', cd', o) ->
  (fine o -> apply_match_actions_for_string_sized h sc p c d cd m = Ret (c', d', cd', o)) /\
  (too_large o -> apply_match_actions_for_string_sized h sc p c d cd m = Panic).
Proof.
  intros E h p c d cd m c' d' cd' o H. pose proof (one_rule _ _ _ _ _ _ _ _ _ _ _ _ H) as R. split.
  - intros F. rewrite <- H. apply one_fits. intros r Hr. apply F. rewrite R. exact Hr.
  - intros (r & Hr & N). rewrite R in Hr. destruct (fits_dec (rule_action r)) as [K|(dir & n & Ea & K)]; [contradiction|].
    exact (one_overflows _ _ _ _ _ _ _ _ _ _ _ Hr Ea K _ H).
Qed.
Lemma told_loop : forall E h p ms c d (cd : enc_shift E) c' outs, apply_match_actions_loop h sc p c d cd ms = Ret (c', outs) ->
  told outs (Ret (c', outs)) (apply_match_actions_loop_sized h sc p c d cd ms).
Proof.
  intros E h p ms. induction ms as [|m ms IH]; intros c d cd c' outs H; cbn [apply_match_actions_loop apply_match_actions_loop_sized] in *.
  { injection H as <- <-. split; [reflexivity|]. intros K. inversion K. }
  destruct (apply_match_actions_for_string h sc p c d cd m) as [[[[c1 d1] cd1] o]| |] eqn:E1; try discriminate H. cbn [bind] in H.
  destruct (apply_match_actions_loop h sc p c1 d1 cd1 ms) as [[c2 outs2]| |] eqn:E2; try discriminate H. cbn [bind fst snd] in H. injection H as <- <-.
  destruct (told_one _ _ _ _ _ _ _ _ _ _ _ E1) as (A & B). destruct (IH _ _ _ _ _ E2) as (C & D). split.
  - intros F. inversion F as [|? ? F1 F2]; subst. rewrite (A F1). cbn [bind]. rewrite (C F2). reflexivity.
  - intros F. destruct (too_large_dec o) as [K|K].
    + inversion F as [? ? F1|? ? F2]; subst.
      * rewrite (B F1). reflexivity.
      * rewrite (A K). cbn [bind]. rewrite (D F2). reflexivity.
    + rewrite (B K). reflexivity.
Qed.
Lemma told_string : forall E h srt x p (ms : list (internal_match E)) c c' mu outs, process_string h srt sc x p ms c = Ret (c', mu, outs) ->
  told outs (Ret (c', mu, outs)) (process_string_sized h srt sc x p ms c).
Proof.
  intros E h srt x p ms c c' mu outs. unfold process_string, process_string_sized, apply_match_actions.
  destruct (if sc_multipass sc then multipass_retain (sc_rules sc) x c ms else Ret ms) as [ms1| |]; cbn [bind]; try discriminate.
  destruct (sort_and_remove_overlapping_rules srt (sc_rules sc) ms1) as [ms2| |]; cbn [bind]; try discriminate.
  destruct (apply_match_actions_loop h sc p c 0 (enc_zero_shift E) ms2) as [[c2 outs2]| |] eqn:E2; cbn [bind fst snd]; try discriminate.
  intros H. injection H as <- <- <-. destruct (told_loop _ _ _ _ _ _ _ _ _ E2) as (C & D). split; intros F.
  - rewrite (C F). reflexivity.
  - rewrite (D F). reflexivity.
Qed.
Lemma told_all : forall I h srt x l e e' outs, process_all I h srt sc x e l = Ret (e', outs) ->
  told outs (Ret (e', outs)) (process_all_sized I h srt sc x e l).
Proof.
  intros I h srt x l. induction l as [|[p ms] l IH]; intros e e' outs H; cbn [process_all process_all_sized] in *.
  { injection H as <- <-. split; [reflexivity|]. intros K. inversion K. }
  destruct (ev_get I e p) as [c| |]; cbn [bind] in *; try discriminate H.
  destruct (process_string h srt sc x p ms c) as [[[c1 mu] out]| |] eqn:E1; cbn [bind] in *; try discriminate H.
  destruct (process_all I h srt sc x (ev_set I e p c1 mu) l) as [[e2 outs2]| |] eqn:E2; cbn [bind fst snd] in *; try discriminate H. injection H as <- <-.
  destruct (told_string _ _ _ _ _ _ _ _ _ _ E1) as (A & B). destruct (IH _ _ _ E2) as (C & D). split; intros F.
  - apply Forall_app in F as (F1 & F2). rewrite (A F1). cbn [bind]. rewrite (C F2). reflexivity.
  - assert (K : Forall fine out \/ Exists too_large out).
    { clear. induction out as [|o out IH]; [left; constructor|]. destruct (too_large_dec o) as [H|H]; [|right; left; exact H].
      destruct IH as [K|K]; [left; constructor; assumption|right; right; exact K]. }
    destruct K as [K|K]; [|rewrite (B K); reflexivity]. rewrite (A K). cbn [bind].
    apply Exists_app in F as [F|F]; [|rewrite (D F); reflexivity].
    exfalso. rewrite Exists_exists in F. destruct F as (o & Ho & r & Hr & N). rewrite Forall_forall in K. exact (N (K o Ho r Hr)).
Qed.
End Overflow.

(* -- all actions fit -- *)
Lemma loop_fits : forall sc, (forall r, In r (sc_rules sc) -> action_fits (rule_action r)) ->
  forall E h p ms c d (cd : enc_shift E), apply_match_actions_loop_sized h sc p c d cd ms = apply_match_actions_loop h sc p c d cd ms.
Proof.
  intros sc H E h p ms. induction ms as [|m ms IH]; intros c d cd; cbn [apply_match_actions_loop apply_match_actions_loop_sized]; [reflexivity|].
  rewrite one_fits by (intros r Hr; apply H; eapply nth_error_In; exact Hr).
  destruct (apply_match_actions_for_string h sc p c d cd m) as [[[[c1 d1] cd1] o]| |]; cbn [bind]; try reflexivity. rewrite IH. reflexivity.
Qed.
Lemma all_fit : forall sc, (forall r, In r (sc_rules sc) -> action_fits (rule_action r)) ->
  forall I h srt x l e, process_all_sized I h srt sc x e l = process_all I h srt sc x e l.
Proof.
  intros sc H I h srt x l. induction l as [|[p ms] l IH]; intros e; cbn [process_all process_all_sized]; [reflexivity|].
  destruct (ev_get I e p) as [c| |]; cbn [bind]; try reflexivity.
  assert (K : process_string_sized h srt sc x p ms c = process_string h srt sc x p ms c).
  { unfold process_string, process_string_sized, apply_match_actions.
    destruct (if sc_multipass sc then multipass_retain (sc_rules sc) x c ms else Ret ms) as [ms1| |]; cbn [bind]; try reflexivity.
    destruct (sort_and_remove_overlapping_rules srt (sc_rules sc) ms1) as [ms2| |]; cbn [bind]; try reflexivity.
    rewrite loop_fits by exact H. reflexivity. }
  rewrite K. destruct (process_string h srt sc x p ms c) as [[[c' mu] out]| |]; cbn [bind]; try reflexivity. rewrite IH. reflexivity.
Qed.
Definition sized_config (d : direction) (n : nat) : rule_config := {|
  cf_pattern := chars "ab"; cf_action := ActPartialRedact d n; cf_scope := ScopeExclude []; cf_keywords := None;
  cf_validator := None; cf_labels := []; cf_validation := None |}.
(* a built scanner looked at: its actions, a scan without a match, what it finds in "an ab",
   and what is left of that before the actions *)
Definition overflow_view (t : built) :=
  let sc := bt_scanner t in
  let v := visit_string_rule_combinations (sc_tree sc) (length (sc_rules sc)) (sc_wild sc)
    (ev_ops string_event (chars "an ab")) (@visit_content (ev_enc string_event) 100 isort sc []) ([], []) in
  (map rule_action (sc_rules sc), scan_sized string_event 100 ex_hash isort sc [] (chars "no match"), v,
   let* r := v in
   match fst (fst r) with
   | [] => Panic
   | (p, ms) :: _ =>
     let* ms1 := (if sc_multipass sc then multipass_retain (sc_rules sc) (snd (fst r)) (chars "an ab") ms else Ret ms) in
     sort_and_remove_overlapping_rules isort (sc_rules sc) ms1
   end).
Lemma huge : exists k, (isize_max < Z.of_nat (S (S (S k))) < 2 ^ 64)%Z.
Proof.
  assert (K : exists k, Z.of_nat k = isize_max) by (exists (Z.to_nat isize_max); apply Z2Nat.id; discriminate).
  destruct K as (k & K). exists k. rewrite !Nat2Z.inj_succ, K. split; reflexivity.
Qed.

Lemma c105_refuted_lemma :
  exists en n t, (Z.of_nat n < 2 ^ 64)%Z /\
  build en (builder_new [sized_config FirstCharacters n]) = Ret (Ok t) /\
  scan_sized string_event 100 ex_hash isort (bt_scanner t) [] (chars "no match") = Ret (chars "no match", []) /\
  scan_sized string_event 100 ex_hash isort (bt_scanner t) [] (chars "an ab") = Panic.
Proof.
  destruct huge as (k & H). exists literal_engines, (S (S (S k))).
  pose (m := @Build_internal_match (ev_enc string_event) 0 3 5 tt tt).
  pose (v := ([([], [m])], [], [([], chars "an ab", true)]) : scan_state (ev_enc string_event) * list (path * str * bool)).
  pose (w := ([ActPartialRedact FirstCharacters (S (S (S k)))], Ret (chars "no match", []) : outcome (ev_t string_event * list rule_match), Ret v, Ret [m])).
  assert (V : on_built overflow_view (build literal_engines (builder_new [sized_config FirstCharacters (S (S (S k)))])) = Some w)
    by (vm_cast_no_check (eq_refl (Some w))).
  apply on_built_spec in V as (t & B & V). exists t. split; [exact (proj2 H)|]. split; [exact B|].
  unfold overflow_view, w in V. injection V as A1 A2 A3 A4. split; [exact A2|].
  unfold scan_sized. change (ev_enc string_event) with utf8_encoding in *. change (ev_ops string_event (chars "an ab")) with [OpString (chars "an ab")] in *. rewrite A3 in *. subst v. cbn [bind fst snd] in *.
  destruct (sc_rules (bt_scanner t)) as [|r rs] eqn:Er; [discriminate A1|]. injection A1 as A1 _. rewrite <- Er in A4.
  cbn [process_all_sized string_event ev_get ev_visited bind].
  match goal with |- bind ?a _ = _ => replace a with (@Panic (str * bool * list rule_match)); [reflexivity|symmetry] end.
  apply (string_panics (ev_enc string_event) ex_hash isort (bt_scanner t) _ _ _ _ _ _ r FirstCharacters (S (S (S k))) A4);
    [rewrite Er; reflexivity|exact A1|exact (proj1 H)].
Qed.

Lemma c105_exact_lemma :
  forall I fuel h srt sc blocked e e' outs, scan I fuel h srt sc blocked e = Ret (e', outs) ->
  ((forall o r, In o outs -> nth_error (sc_rules sc) (rm_rule o) = Some r -> action_fits (rule_action r)) ->
   scan_sized I fuel h srt sc blocked e = Ret (e', outs)) /\
  ((exists o r, In o outs /\ nth_error (sc_rules sc) (rm_rule o) = Some r /\ ~ action_fits (rule_action r)) ->
   scan_sized I fuel h srt sc blocked e = Panic).
Proof.
  intros I fuel h srt sc blocked e e' outs. unfold scan, scan_sized.
  destruct (visit_string_rule_combinations (sc_tree sc) (length (sc_rules sc)) (sc_wild sc) (ev_ops I e) (visit_content fuel srt sc blocked) ([], []))
    as [[[found x] log]| |]; cbn [bind]; try discriminate.
  intros H. destruct (told_all sc I h srt x found _ _ _ H) as (A & B). split.
  - intros F. apply A. apply Forall_forall. intros o Ho r Hr. exact (F o r Ho Hr).
  - intros (o & r & Ho & Hr & N). apply B. apply Exists_exists. exists o. split; [exact Ho|]. exists r. auto.
Qed.

Lemma c105_fits_lemma :
  forall I fuel h srt sc blocked e, (forall r, In r (sc_rules sc) -> action_fits (rule_action r)) ->
  scan_sized I fuel h srt sc blocked e = scan I fuel h srt sc blocked e.
Proof.
  intros I fuel h srt sc blocked e H. unfold scan, scan_sized.
  destruct (visit_string_rule_combinations (sc_tree sc) (length (sc_rules sc)) (sc_wild sc) (ev_ops I e) (visit_content fuel srt sc blocked) ([], []))
    as [[[found x] log]| |]; cbn [bind]; try reflexivity. apply all_fit, H.
Qed.

Lemma c105_go_lemma :
  forall en gs configs b t, Forall2 go_rule_means gs configs -> Forall go_rule_fits gs -> bu_rules b = configs -> build en b = Ret (Ok t) ->
  forall I fuel h srt blocked e,
  scan_sized I fuel h srt (bt_scanner t) blocked e = scan I fuel h srt (bt_scanner t) blocked e.
Proof.
  intros en gs configs b t M F Eb B I fuel h srt blocked e. apply c105_fits_lemma. intros r Hr.
  apply In_nth_error in Hr as (i & Hr). destruct (built_config en b t B i r Hr) as (c & Hc).
  destruct (built_spec en _ t B) as (_ & vs & xs & _ & L & X & E). destruct (X i c Hc) as (rr & _ & Hx & _).
  rewrite E in Hr. cbn [bt_scanner sc_rules] in Hr. rewrite nth_error_map, Hx in Hr. injection Hr as <-.
  rewrite Eb in Hc. assert (K : exists g, go_rule_means g c /\ go_rule_fits g).
  { clear -M F Hc. revert i Hc. induction M as [|g c' gs configs H M IH]; intros [|i] Hc; try discriminate Hc; inversion F; subst.
    - injection Hc as <-. eauto.
    - eapply IH; eauto. }
  destruct K as (g & K & (N & _)). intros d n E'. change (cf_action c = ActPartialRedact d n) in E'.
  pose proof (gr_means_action _ _ K) as A. rewrite E' in A. unfold u32_limit in N. inversion A; subst; lia.
Qed.

