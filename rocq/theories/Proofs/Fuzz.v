(* The fuzz harness *)
From Coq Require Import Lia ZifyN ZifyBool.
From Verif Require Import Proofs.Text Proofs.Codec Proofs.Jwt Proofs.Events Proofs.Pattern Proofs.Meaning Proofs.Search Proofs.RedactionClaims Proofs.SearchClaims Proofs.ConversionClaims.
From Verif Require Export Proofs.AsWrittenClaims Spec.Fuzz.

(* -- something is reported exactly if something is found -- *)
Lemma resolved_some : forall E rules (cands kept : list (internal_match E)), resolved rules cands kept -> kept = [] -> cands = [].
Proof.
  intros E rules cands kept R ->. destruct cands as [|m cands]; [reflexivity|exfalso].
  assert (K : exists o : internal_match E, In o [] /\ key o = key m); [|destruct K as (o & [] & _)].
  apply (rs_iff _ _ _ R m); [left; reflexivity|]. intros (o & [] & _).
Qed.
Lemma reported_iff : forall E (fold : char -> char) en b t enc w h strs p s s' os, build en b = Ret (Ok t) -> crate_ok E en -> plain_env E ->
  (forall x y, same_letter E x y <-> fold x = fold y) ->
  (forall c, In c (bu_rules b) -> good_pattern E c /\ pattern_rule c) -> nothing_taken_back b -> In (p, s) strs ->
  string_scanned (bt_scanner t) (finders (bt_scanner t)) [] enc w h strs p s s' os ->
  os <> [] <-> exists c, In c (bu_rules b) /\ in_scope b c p /\ somewhere (as_written E c s) s.
Proof.
  intros E fold en b t enc w h strs p s s' os H CK PE HE HA Hm Hps Hsc.
  assert (HG : forall x, In x (bu_rules b) -> good_pattern E x) by (intros x K; apply HA; exact K).
  pose proof (crate_behaves E fold en b t H CK PE HE HG) as HB.
  assert (HW : windows_fine b (rule_at en b) strs).
  { intros i x k Hx K. destruct (proj2 (HA x (nth_error_In _ _ Hx))) as [Hk _]. congruence. }
  assert (Hno : forall c, In c (bu_rules b) -> no_included c) by (intros c K k K'; destruct (proj2 (HA c K)) as [Hk _]; congruence).
  destruct (built_options _ _ _ H) as (O1 & O2 & O3).
  destruct (scanned_cuts _ _ _ _ _ _ _ _ _ _ _ Hsc) as (cands & kept & g0 & cs & Hc & Hr & _ & Hl & _).
  assert (Hos : os <> [] <-> cands <> []).
  { split; intros N K.
    - apply N. destruct kept as [|m kept]; [destruct os; [reflexivity|discriminate Hl]|].
      pose proof (rs_genuine _ _ _ Hr m (or_introl eq_refl)) as G. rewrite K in G. destruct G.
    - apply N. apply (resolved_some _ _ _ _ Hr). subst os. destruct kept; [reflexivity|discriminate Hl]. }
  rewrite Hos. split.
  - intros N. destruct cands as [|m cands]; [congruence|]. destruct (proj1 (Hc (key m)) (or_introl eq_refl)) as [Hcand _].
    unfold key in Hcand. destruct Hcand as (r & R & _ & I1 & I2 & I3).
    destruct (built_config _ _ _ H (im_rule m) r R) as (c & Hcf). pose proof (nth_error_In _ _ Hcf) as HcI.
    destruct (built_rule _ _ _ _ _ H HB _ c Hcf) as (rr & occ & R1 & _). rewrite R1 in R. injection R as <-.
    cbn [rule_scope regex_compiled] in I1, I2. rewrite O2 in I1, I2. rewrite O1 in I3.
    exists c. split; [exact HcI|]. split; [split; [exact I1|exact I2]|].
    destruct (plain_matches _ _ _ _ _ _ _ _ _ _ H HB HW Hps Hcf (Hno c HcI)) as (rr2 & CF2 & Lm & Hch).
    destruct (chain_sorted _ _ _ _ _ _ Lm Hch) as (_ & _ & Htp & _). destruct (Htp _ _ I3) as (A & _). unfold rule_at in A. rewrite Hcf in A.
    pose proof (rule_searches E en c _ CK PE (HG c HcI) (built_regex _ _ _ _ _ H Hcf)) as Sr.
    destruct (at_some _ _ _ _ _ Sr A) as (i & j & L & Ei & Ej & M & _). exists i, j. split; [lia|exact M].
  - intros (c & HcI & [I1 I2] & i & j & Li & M). apply In_nth_error in HcI as (r & Hcf). pose proof (nth_error_In _ _ Hcf) as HcI.
    destruct (proj2 (HA c HcI)) as [Hk Hv].
    destruct (built_rule _ _ _ _ _ H HB _ c Hcf) as (rr & occ & R1 & CF & _ & R4 & _).
    destruct (plain_matches _ _ _ _ _ _ _ _ _ _ H HB HW Hps Hcf (Hno c HcI)) as (rr2 & CF2 & Lm & Hch).
    destruct (chain_sorted _ _ _ _ _ _ Lm Hch) as (_ & _ & _ & Hall).
    pose proof (rule_searches E en c _ CK PE (HG c HcI) (built_regex _ _ _ _ _ H Hcf)) as Sr.
    destruct (at_any _ _ s i j Sr Li M) as (y & A).
    destruct (Hall (off s i) y (Nat.le_0_l _)) as (x' & y' & Hin & Hx).
    { split; [unfold rule_at; rewrite Hcf; exact A|]. split.
      - intros valid v V. rewrite (cp_validator _ _ _ _ CF2), Hv in V. discriminate V.
      - intros _ xk K. apply (cp_excluded _ _ _ _ CF2) in K as (k & _ & _ & _ & K & _). congruence. }
    assert (Hcand : candidate (bt_scanner t) (finders (bt_scanner t)) [] p s (r, x', y')).
    { eexists. split; [exact R1|]. split; [intros []|]. cbn [rule_scope regex_compiled]. rewrite O1, O2. auto. }
    assert (Hns : ~ suppressed (bt_scanner t) (finders (bt_scanner t)) [] strs s (r, x', y')).
    { eapply nothing_suppressed; eauto. }
    pose proof (proj2 (Hc _) (conj Hcand Hns)) as K. intros ->. destruct K.
Qed.
Lemma pattern_windows : forall en b strs, (forall c, In c (bu_rules b) -> pattern_rule c) -> windows_fine b (rule_at en b) strs.
Proof. intros en b strs HA i x k Hx K. destruct (HA x (nth_error_In _ _ Hx)) as [Hk _]. congruence. Qed.
Lemma reported_simple : forall E (fold : char -> char) en b t e srt fuel, build en b = Ret (Ok t) -> crate_ok E en -> plain_env E ->
  (forall x y, same_letter E x y <-> fold x = fold y) ->
  (forall c, In c (bu_rules b) -> good_pattern E c /\ pattern_rule c) -> nothing_taken_back b ->
  sorter_ok srt -> distinct_keys e -> enough_fuel fuel (simple_strings e) ->
  forall h, exists e' outs, scan simple_event_impl fuel h srt (bt_scanner t) [] e = Ret (e', outs) /\
  scan_result simple_event_impl (simple_strings e) (simple_holds e) e' outs (fun p s s' os =>
    os <> [] <-> exists c, In c (bu_rules b) /\ in_scope b c p /\ somewhere (as_written E c s) s).
Proof.
  intros E fold en b t e srt fuel H CK PE HE HA Hm Hs Hd Hf h.
  pose proof (crate_behaves E fold en b t H CK PE HE (fun c K => proj1 (HA c K))) as HB.
  pose proof (built_regex_scanner _ _ _ _ _ _ H HB (pattern_windows en b (simple_strings e) (fun c K => proj2 (HA c K)))) as HR.
  pose proof (simple_setting srt (bt_scanner t) e fuel Hs Hd HR Hf) as Hset.
  destruct (scan_returns _ _ _ _ _ _ _ _ _ Hset h []) as (e' & outs & Hscan). exists e', outs. split; [exact Hscan|].
  eapply result_weaken; [|eapply scan_scanned; eauto]. intros p s s' os Hps K. eapply reported_iff; eauto.
Qed.
Lemma reported_string : forall E (fold : char -> char) en b t s srt fuel, build en b = Ret (Ok t) -> crate_ok E en -> plain_env E ->
  (forall x y, same_letter E x y <-> fold x = fold y) ->
  (forall c, In c (bu_rules b) -> good_pattern E c /\ pattern_rule c) -> nothing_taken_back b ->
  sorter_ok srt -> nbytes s + 2 <= fuel ->
  forall h, exists s' outs, scan string_event fuel h srt (bt_scanner t) [] s = Ret (s', outs) /\
    (outs <> [] <-> exists c, In c (bu_rules b) /\ in_scope b c [] /\ somewhere (as_written E c s) s).
Proof.
  intros E fold en b t s srt fuel H CK PE HE HA Hm Hs Hf h.
  pose proof (crate_behaves E fold en b t H CK PE HE (fun c K => proj1 (HA c K))) as HB.
  pose proof (built_regex_scanner _ _ _ _ _ _ H HB (pattern_windows en b [([], s)] (fun c K => proj2 (HA c K)))) as HR.
  pose proof (string_setting srt (bt_scanner t) s fuel Hs HR Hf) as Hset.
  destruct (scan_returns _ _ _ _ _ _ _ _ _ Hset h []) as (s' & outs & Hscan). exists s', outs. split; [exact Hscan|].
  destruct (scan_scanned _ _ _ _ _ _ _ _ _ Hset h [] s' outs Hscan) as (res & Hl & Ho & _ & Hall).
  destruct res as [|[c' os] [|? ?]]; try discriminate Hl. cbn in Ho. rewrite app_nil_r in Ho. subst outs.
  eapply (reported_iff E fold en b t _ _ _ [([], s)]); eauto; [left; reflexivity|]. apply (Hall [] s c' os). left. reflexivity.
Qed.

(* -- patterns without "." mean the same with dot_all -- *)
Definition alike_mode (m m' : mode) : Prop := mi m = mi m' /\ mm m = mm m' /\ mx m = mx m'.
Lemma alike_flags : forall f m m', alike_mode m m' -> alike_mode (set_flags f m) (set_flags f m').
Proof. intros f m m' (A & B & C). unfold alike_mode, set_flags. cbn. rewrite A, B, C. auto. Qed.
Lemma alike_after : forall a m m', alike_mode m m' -> alike_mode (after m a) (after m' a).
Proof.
  intros a. assert (F : forall l, Forall (fun a => forall m m', alike_mode m m' -> alike_mode (after m a) (after m' a)) l ->
    forall m m', alike_mode m m' -> alike_mode (fold_left after l m) (fold_left after l m')).
  { intros l H. induction H as [|x l Hx _ IH]; intros m m' K; cbn [fold_left]; auto. }
  induction a as [|l|l IH|a IH|f a IH|n a IH|c|l IH|q a IH|t|f] using ast_induction; intros m m' K; cbn [after]; auto. apply alike_flags, K.
Qed.
Lemma no_dots_all : forall l, no_dots (AConcat l) <-> Forall no_dots l.
Proof.
  induction l as [|a l IH]; [cbn; split; auto|]. change (no_dots (AConcat (a :: l))) with (no_dots a /\ no_dots (AConcat l)).
  rewrite IH. split; [intros []; auto|intros H; inversion H; auto].
Qed.
Lemma no_dots_meaning : forall E e text a, no_dots a -> forall m m', alike_mode m m' -> same_meaning (means E e text m a) (means E e text m' a).
Proof.
  intros E e text a. induction a as [|l|l IH|a IH|f a IH|n a IH|c|l IH|q a [IH IHl]|t|f] using ast_induction_parts; intros H m m' K.
  - apply same_refl.
  - destruct K as (A & B & C). cbn [means]. rewrite A, C. apply same_refl.
  - rewrite !means_concat. apply no_dots_all in H. revert m m' K. induction H as [|a l Ha Hl IHl]; intros m m' K; [apply same_refl|].
    inversion IH as [|? ? IH1 IH2]; subst. cbn [all_mean]. apply andthen_ext; [apply IH1; assumption|apply IHl; [exact IH2|apply alike_after, K]].
  - apply (IH H m m' K).
  - cbn [means]. apply (IH H). apply alike_flags, K.
  - apply (IH H m m' K).
  - destruct K as (A & B & C). cbn [means]. apply one_ext. intros x. destruct c; cbn [in_class]; rewrite ?A; try reflexivity. destruct H.
  - rewrite !means_alternation. change (no_dots (AConcat l)) in H. apply no_dots_all in H. generalize 0 as k. revert m m' K.
    induction H as [|a l Ha Hl IHl]; intros m m' K k i t j; [reflexivity|]. inversion IH as [|? ? IH1 IH2]; subst. cbn [any_mean].
    rewrite (IHl IH2 _ _ (alike_after a m m' K) (S k) i t j).
    split; (intros [(u & -> & Q)|Q]; [left; exists u; split; [reflexivity|apply (IH1 Ha m m' K); exact Q]|right; exact Q]).
  - destruct (concat_dec a) as [[l ->]|Na]; [|rewrite !means_repetition by exact Na; apply times_ext, IH; assumption].
    rewrite !means_quoted. specialize (IHl l eq_refl). clear IH. change (no_dots (AConcat l)) in H. apply no_dots_all in H.
    revert m m' K. induction H as [|a l Ha Hl IH]; intros m m' K; [apply same_refl|]. inversion IHl as [|? ? IH1 IH2]; subst.
    destruct l; [apply times_ext, IH1; assumption|]. rewrite !last_mean_more. apply andthen_ext; [apply IH1; assumption|]. apply IH; [exact IH2|apply alike_after, K].
  - destruct K as (A & B & C). cbn [means]. destruct t; cbn [asserted]; rewrite ?B; apply same_refl.
  - apply same_refl.
Qed.
Lemma plain_means_same : forall E c a s, parse_regex_pattern 51 (cf_pattern c) = Ret (Ok a) -> no_dots a -> no_ends a ->
  somewhere (pcre_dot_all E (cf_pattern c) s) s <-> somewhere (as_written E c s) s.
Proof.
  intros E c a s P D N. unfold somewhere, matched, pcre_dot_all, as_written.
  assert (S : same_meaning (means E (end_before s) s dot_all_mode a) (means E (end_with s) s mode0 a)).
  { eapply same_trans; [apply no_dots_meaning; [exact D|]|apply no_ends_meaning; exact N]. split; [reflexivity|split; reflexivity]. }
  split; intros (i & j & L & t & a' & P' & M); exists i, j; (split; [exact L|]); exists t, a'; (split; [exact P'|]);
    rewrite P in P'; injection P' as <-; apply S; exact M.
Qed.

(* -- one run of the harness -- *)
Lemma run_fuzz_spec : forall E (fold : char -> char) en fuel h srt hyperscan pattern input d,
  crate_ok E en -> plain_env E -> (forall x y, same_letter E x y <-> fold x = fold y) -> sorter_ok srt -> nbytes input + 2 <= fuel ->
  good_pattern E (regex_rule_config_new pattern) -> forall t, build en (fuzz_builder pattern (gen_match_action d)) = Ret (Ok t) ->
  exists s' outs, scan string_event fuel h srt (bt_scanner t) [] input = Ret (s', outs) /\
  (outs <> [] <-> somewhere (as_written E (regex_rule_config_new pattern) input) input) /\
  run_fuzz en fuel h srt hyperscan pattern input d =
    match hyperscan pattern with
    | None => Ret tt
    | Some find => match outs, find input with [], [] | _ :: _, _ :: _ => Ret tt | _, _ => Panic end
    end.
Proof.
  intros E fold en fuel h srt hyperscan pattern input d CK PE HE Hs Hf HG t B.
  set (c := with_match_action (gen_match_action d) (regex_rule_config_new pattern)).
  assert (HA : forall x, In x (bu_rules (fuzz_builder pattern (gen_match_action d))) -> good_pattern E x /\ pattern_rule x).
  { intros x [<-|[]]. split; [exact HG|]. split; reflexivity. }
  assert (Hx : forall p, ~ excluded (bu_wild (fuzz_builder pattern (gen_match_action d))) (cf_scope c) p) by (intros p (sp & [] & _)).
  assert (Hm : nothing_taken_back (fuzz_builder pattern (gen_match_action d))) by (right; intros x p [<-|[]]; exact (Hx p)).
  destruct (reported_string E fold en _ t input srt fuel B CK PE HE HA Hm Hs Hf h) as (s' & outs & Hscan & Hiff).
  exists s', outs. split; [exact Hscan|]. split.
  - rewrite Hiff. split.
    + intros (x & [<-|[]] & _ & K). exact K.
    + intros K. exists c. split; [left; reflexivity|]. split; [split; [exact Logic.I|apply Hx]|exact K].
  - unfold run_fuzz. rewrite B. cbn [bind]. rewrite Hscan. cbn [bind snd]. destruct (hyperscan pattern) as [find|]; [|reflexivity].
    destruct outs, (find input); reflexivity.
Qed.

(* -- the bytes of the harness -- *)
Lemma split_spec : forall b x y, split_bytes_once b = Some (x, y) <-> b = x ++ 44%N :: y /\ no_comma x.
Proof.
  unfold no_comma. induction b as [|a b IH]; intros x y; cbn [split_bytes_once].
  - split; [discriminate|]. intros [E _]. destruct x; discriminate E.
  - destruct (N.eqb_spec a 44) as [->|N].
    + split.
      * intros H. injection H as <- <-. split; [reflexivity|intros []].
      * intros [E K]. destruct x as [|z x]; [injection E as <-; reflexivity|]. injection E as <- _. destruct K. left. reflexivity.
    + destruct (split_bytes_once b) as [[x' y']|] eqn:S; cbn [obind fst snd].
      * destruct (proj1 (IH x' y') eq_refl) as [-> K]. split.
        -- intros H. injection H as <- <-. split; [reflexivity|]. intros [Q|Q]; [congruence|auto].
        -- intros [E K']. destruct x as [|z x]; [injection E as ? _; congruence|]. injection E as <- E.
           assert (Q : Some (x', y') = Some (x, y)) by (apply IH; split; [exact E|intros Q; apply K'; right; exact Q]). injection Q as <- <-. reflexivity.
      * split; [discriminate|]. intros [E K']. destruct x as [|z x]; [injection E as ? _; congruence|]. injection E as <- E.
        assert (Q : None = Some (x, y)) by (apply IH; split; [exact E|intros Q; apply K'; right; exact Q]). discriminate Q.
Qed.
Lemma char_comma : forall c b, char_utf8 c b -> (In 44%N b <-> c = 44%N).
Proof. intros c b H. inversion H; subst; cbn [In]; lia. Qed.
Lemma utf8_comma : forall s b, utf8_of s b -> (no_comma b <-> no_comma s).
Proof.
  unfold no_comma. intros s b H. induction H as [|c b s bs Hc Hs IH]; [reflexivity|]. rewrite in_app_iff, (char_comma c b Hc). cbn [In]. tauto.
Qed.
Lemma be_bound : forall b, all_bytes b -> (big_endian b < 256 ^ N.of_nat (length b))%N.
Proof.
  intros b H. induction H as [|x b Hx Hb IH]; [cbn; lia|]. cbn [big_endian length]. rewrite Nat2N.inj_succ, N.pow_succ_r'. nia.
Qed.
Lemma be_app : forall b x, big_endian (b ++ [x]) = (big_endian b * 256 + x)%N.
Proof.
  induction b as [|y b IH]; intros x; [cbn; lia|]. cbn [app big_endian]. rewrite IH, app_length. cbn [length].
  rewrite Nat.add_1_r, Nat2N.inj_succ, N.pow_succ_r'. nia.
Qed.
Lemma all_bytes_app : forall a b, all_bytes (a ++ b) <-> all_bytes a /\ all_bytes b.
Proof. intros a b. apply Forall_app. Qed.
Lemma pow_256_8 : forall n, n <= 8 -> (256 ^ N.of_nat n <= 2 ^ 64)%N.
Proof.
  intros n H. change 256%N with (2 ^ 8)%N. rewrite <- N.pow_mul_r. apply N.pow_le_mono_r; lia.
Qed.
Lemma shifts_spec : forall rest done, all_bytes (done ++ rest) -> length (done ++ rest) <= 8 ->
  fold_left shift_in rest (big_endian done) = big_endian (done ++ rest).
Proof.
  induction rest as [|x rest IH]; intros done H L; [rewrite app_nil_r; reflexivity|]. cbn [fold_left].
  replace (shift_in (big_endian done) x) with (big_endian (done ++ [x])).
  - replace (done ++ x :: rest) with ((done ++ [x]) ++ rest) in * by (rewrite <- app_assoc; reflexivity). apply IH; assumption.
  - rewrite be_app. unfold shift_in. apply all_bytes_app in H as [H _]. pose proof (be_bound done H) as B.
    rewrite app_length in L. cbn [length] in L. rewrite N.mod_small; [reflexivity|].
    pose proof (pow_256_8 (S (length done)) ltac:(lia)) as Q. rewrite Nat2N.inj_succ, N.pow_succ_r' in Q. lia.
Qed.
Lemma all_bytes_firstn : forall n b, all_bytes b -> all_bytes (firstn n b).
Proof. intros n b H. rewrite <- (firstn_skipn n b) in H. apply all_bytes_app in H. apply H. Qed.
Lemma seed_spec : forall b, all_bytes b -> read_seed b = big_endian (firstn 8 b).
Proof.
  intros b H. unfold read_seed. apply (shifts_spec (firstn 8 b) []); [apply all_bytes_firstn, H|]. cbn [app]. apply firstn_le_length.
Qed.
Lemma raw_spec : forall b pattern input seed, raw_parts b = Some (pattern, input, seed) <->
  exists x y rest, b = x ++ 44%N :: y ++ 44%N :: rest /\ utf8_of pattern x /\ utf8_of input y /\ no_comma x /\ no_comma y /\ seed = read_seed rest.
Proof.
  intros b pattern input seed. unfold raw_parts. split.
  - destruct (split_bytes_once b) as [[x q]|] eqn:S1; [|discriminate]. cbn [obind fst snd].
    destruct (split_bytes_once q) as [[y rest]|] eqn:S2; [|discriminate]. cbn [obind fst snd].
    destruct (from_utf8 x) as [p|] eqn:F1; [|discriminate]. cbn [obind]. destruct (from_utf8 y) as [i|] eqn:F2; [|discriminate]. cbn [obind].
    intros H. injection H as <- <- <-. apply split_spec in S1 as [-> N1]. apply split_spec in S2 as [-> N2].
    apply from_utf8_spec in F1, F2. exists x, y, rest. auto 8.
  - intros (x & y & rest & -> & U1 & U2 & N1 & N2 & ->).
    rewrite (proj2 (split_spec _ x (y ++ 44%N :: rest)) (conj eq_refl N1)). cbn [obind fst snd].
    rewrite (proj2 (split_spec _ y rest) (conj eq_refl N2)). cbn [obind fst snd].
    rewrite (proj2 (from_utf8_spec _ _) U1), (proj2 (from_utf8_spec _ _) U2). reflexivity.
Qed.
(* every number below 2^64 is the value of eight bytes *)
Fixpoint to_bytes (k : nat) (n : N) : octets :=
  match k with 0 => [] | S k' => to_bytes k' (n / 256) ++ [n mod 256]%N end.
Lemma to_bytes_spec : forall k n, (n < 256 ^ N.of_nat k)%N -> length (to_bytes k n) = k /\ all_bytes (to_bytes k n) /\ big_endian (to_bytes k n) = n.
Proof.
  induction k as [|k IH]; intros n H; [cbn in *; split; [reflexivity|split; [constructor|lia]]|].
  rewrite Nat2N.inj_succ, N.pow_succ_r' in H. destruct (IH (n / 256)%N) as (L & A & B); [apply N.div_lt_upper_bound; lia|].
  cbn [to_bytes]. rewrite app_length, L, be_app, B. cbn [length]. split; [lia|]. split.
  - apply all_bytes_app. split; [exact A|]. constructor; [apply N.mod_lt; lia|constructor].
  - pose proof (N.div_mod' n 256). lia.
Qed.
Lemma utf8_all_bytes : forall s b, utf8_of s b -> all_bytes b.
Proof.
  intros s b H. induction H as [|c b s bs Hc Hs IH]; [constructor|]. apply all_bytes_app. split; [|exact IH].
  inversion Hc; subst; repeat constructor; lia.
Qed.
Lemma reach_spec : forall pattern input seed, (exists b, all_bytes b /\ raw_parts b = Some (pattern, input, seed)) <->
  is_text pattern /\ is_text input /\ no_comma pattern /\ no_comma input /\ (seed < 2 ^ 64)%N.
Proof.
  intros pattern input seed. split.
  - intros (b & A & H). apply raw_spec in H as (x & y & rest & -> & U1 & U2 & N1 & N2 & ->).
    split; [exists x; exact U1|]. split; [exists y; exact U2|]. split; [apply (utf8_comma _ _ U1), N1|]. split; [apply (utf8_comma _ _ U2), N2|].
    apply all_bytes_app in A as [_ A]. inversion A as [|? ? _ A']; subst. apply all_bytes_app in A' as [_ A']. inversion A' as [|? ? _ A2]; subst.
    rewrite (seed_spec _ A2). eapply N.lt_le_trans; [apply be_bound, all_bytes_firstn, A2|]. apply pow_256_8. apply firstn_le_length.
  - intros ((x & U1) & (y & U2) & N1 & N2 & L). destruct (to_bytes_spec 8 seed) as (L8 & A & B); [exact L|].
    exists (x ++ 44%N :: y ++ 44%N :: to_bytes 8 seed). split.
    + apply all_bytes_app. split; [eapply utf8_all_bytes; eauto|]. constructor; [lia|]. apply all_bytes_app. split; [eapply utf8_all_bytes; eauto|].
      constructor; [lia|exact A].
    + apply raw_spec. exists x, y, (to_bytes 8 seed). split; [reflexivity|]. split; [exact U1|]. split; [exact U2|].
      split; [apply (utf8_comma _ _ U1), N1|]. split; [apply (utf8_comma _ _ U2), N2|].
      rewrite (seed_spec _ A), firstn_all2 by lia. auto.
Qed.

(* -- the actions -- *)
Lemma action_spec : forall a, (exists d, drawable d /\ gen_match_action d = a) <->
  a = ActNone \/ a = ActHash \/ a = ActRedact (chars "[REDACT]") \/ exists dir n, a = ActPartialRedact dir n /\ 1 <= n < 20.
Proof.
  intros a. split.
  - intros ([k f n] & [K C] & <-). cbn in K, C. unfold gen_match_action. cbn [dr_kind dr_count].
    destruct k as [|[[|[]|]|[|[]|]|]]; auto; right; right; right; eexists; exists n; (split; [reflexivity|exact C]).
  - intros [->|[->|[->|(dir & n & -> & C)]]].
    + exists {| dr_kind := 0; dr_first := true; dr_count := 1 |}. split; [split; cbn; lia|reflexivity].
    + exists {| dr_kind := 1; dr_first := true; dr_count := 1 |}. split; [split; cbn; lia|reflexivity].
    + exists {| dr_kind := 2; dr_first := true; dr_count := 1 |}. split; [split; cbn; lia|reflexivity].
    + exists {| dr_kind := 3; dr_first := match dir with FirstCharacters => true | _ => false end; dr_count := n |}.
      split; [split; cbn; lia|]. destruct dir; reflexivity.
Qed.
