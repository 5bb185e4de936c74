(* Scanning the result of a scan *)
From Coq Require Import Lia.
From Verif Require Import Proofs.Text Proofs.Events Proofs.Pattern Proofs.Meaning Proofs.Search Proofs.RedactionClaims Proofs.SearchClaims Proofs.ConversionClaims.
From Verif Require Export Proofs.AsWrittenClaims Spec.Rescan.

(* -- what a pattern without assertions matches depends on that text only -- *)
Definition same_at (s s' : str) (i i' n : nat) : Prop := forall k, k < n -> nth_error s' (i' + k) = nth_error s (i + k).
Definition local (M M' : meaning) (s s' : str) : Prop :=
  forall i t j, M i t j -> i <= j /\ forall i', same_at s s' i i' (j - i) -> M' i' t (i' + (j - i)).
Lemma same_at_less : forall s s' i i' n m, same_at s s' i i' n -> m <= n -> same_at s s' i i' m.
Proof. intros s s' i i' n m H L k K. apply H. lia. Qed.
Lemma same_at_more : forall s s' i i' n m, same_at s s' i i' n -> same_at s s' (i + m) (i' + m) (n - m).
Proof. intros s s' i i' n m H k K. rewrite <- !Nat.add_assoc. apply H. lia. Qed.
Lemma one_local : forall s s' P, local (one s P) (one s' P) s s'.
Proof.
  intros s s' P i t j (-> & -> & c & N & K). split; [lia|]. intros i' H. replace (S i - i) with 1 in * by lia. split; [reflexivity|]. split; [lia|].
  exists c. split; [|exact K]. specialize (H 0). rewrite !Nat.add_0_r in H. rewrite H by lia. exact N.
Qed.
Lemma nothing_local : forall s s', local nothing nothing s s'.
Proof. intros s s' i t j (-> & -> & _). split; [lia|]. intros i' _. split; [reflexivity|]. split; [lia|exact Logic.I]. Qed.
Lemma andthen_local : forall s s' A A' B B', local A A' s s' -> local B B' s s' -> local (andthen A B) (andthen A' B') s s'.
Proof.
  intros s s' A A' B B' HA HB i t j (k & t1 & t2 & H1 & H2 & ->). destruct (HA _ _ _ H1) as [L1 K1], (HB _ _ _ H2) as [L2 K2].
  split; [lia|]. intros i' H. exists (i' + (k - i)), t1, t2. split; [|split; [|reflexivity]].
  - apply K1. eapply same_at_less; [exact H|lia].
  - replace (i' + (j - i)) with (i' + (k - i) + (j - k)) by lia. apply K2.
    pose proof (same_at_more _ _ _ _ _ (k - i) H) as Q. replace (i + (k - i)) with k in Q by lia. eapply same_at_less; [exact Q|lia].
Qed.
Lemma times_local : forall s s' A A' g lo hi, local A A' s s' -> local (times A g lo hi) (times A' g lo hi) s s'.
Proof.
  intros s s' A A' g lo hi HA i t j H. induction H as [lo hi i t k u j H1 H2 [L IH]|i|hi i N|hi i t k u j N H1 H2 [L IH]].
  - destruct (HA _ _ _ H1) as [L1 K1]. split; [lia|]. intros i' H. apply tm_must with (k := i' + (k - i)).
    + apply K1. eapply same_at_less; [exact H|lia].
    + replace (i' + (j - i)) with (i' + (k - i) + (j - k)) by lia. apply IH.
      pose proof (same_at_more _ _ _ _ _ (k - i) H) as Q. replace (i + (k - i)) with k in Q by lia. eapply same_at_less; [exact Q|lia].
  - split; [lia|]. intros i' _. rewrite Nat.sub_diag, Nat.add_0_r. constructor.
  - split; [lia|]. intros i' _. rewrite Nat.sub_diag, Nat.add_0_r. constructor. exact N.
  - destruct (HA _ _ _ H1) as [L1 K1]. split; [lia|]. intros i' H. apply tm_again with (k := i' + (k - i)); [exact N| |].
    + apply K1. eapply same_at_less; [exact H|lia].
    + replace (i' + (j - i)) with (i' + (k - i) + (j - k)) by lia. apply IH.
      pose proof (same_at_more _ _ _ _ _ (k - i) H) as Q. replace (i + (k - i)) with k in Q by lia. eapply same_at_less; [exact Q|lia].
Qed.
Lemma no_assertions_all : forall l, no_assertions (AConcat l) <-> Forall no_assertions l.
Proof.
  induction l as [|a l IH]; [cbn; split; auto|]. change (no_assertions (AConcat (a :: l))) with (no_assertions a /\ no_assertions (AConcat l)).
  rewrite IH. split; [intros []; auto|intros H; inversion H; auto].
Qed.
Lemma means_local : forall E e e' s s' a, no_assertions a -> forall m, local (means E e s m a) (means E e' s' m a) s s'.
Proof.
  intros E e e' s s' a. induction a as [|l|l IH|a IH|f a IH|n a IH|c|l IH|q a [IH IHl]|t|f] using ast_induction_parts; intros H m.
  - apply nothing_local.
  - cbn [means]. destruct (mx m && negb (lit_escaped l) && blank (lit_c l)); [apply nothing_local|apply one_local].
  - rewrite !means_concat. apply no_assertions_all in H. revert m. induction H as [|a l Ha Hl IHl]; intros m; [apply nothing_local|].
    inversion IH as [|? ? IH1 IH2]; subst. cbn [all_mean]. apply andthen_local; [apply IH1; exact Ha|apply IHl; exact IH2].
  - apply (IH H).
  - apply (IH H).
  - apply (IH H).
  - apply one_local.
  - rewrite !means_alternation. change (no_assertions (AConcat l)) in H. apply no_assertions_all in H.
    generalize 0 as k. revert m. induction H as [|a l Ha Hl IHl]; intros m k i t j K; [destruct K|].
    inversion IH as [|? ? IH1 IH2]; subst. cbn [any_mean] in K |- *. destruct K as [(u & -> & K)|K].
    + destruct (IH1 Ha m i u j K) as [L1 K1]. split; [exact L1|]. intros i' Q. left. exists u. auto.
    + destruct (IHl IH2 _ _ i t j K) as [L1 K1]. split; [exact L1|]. intros i' Q. right. auto.
  - destruct (concat_dec a) as [[l ->]|Na]; [|rewrite !means_repetition by exact Na; apply times_local, IH, H].
    rewrite !means_quoted. specialize (IHl l eq_refl). clear IH. change (no_assertions (AConcat l)) in H. apply no_assertions_all in H.
    revert m. induction H as [|a l Ha Hl IH]; intros m; [apply nothing_local|]. inversion IHl as [|? ? IH1 IH2]; subst.
    destruct l; [apply times_local, IH1; exact Ha|]. rewrite !last_mean_more. apply andthen_local; [apply IH1; exact Ha|]. apply IH; exact IH2.
  - destruct H.
  - apply nothing_local.
Qed.

(* a match in a string is a text that the rule looks for, and the other way round *)
Lemma written_local : forall E c s s' i i' j, self_contained c -> matched (as_written E c s) i j -> same_at s s' i i' (j - i) ->
  i <= j /\ matched (as_written E c s') i' (i' + (j - i)).
Proof.
  intros E c s s' i i' j (a & P & N) (t & M) H. apply (written_unique E c s a P) in M.
  destruct (means_local E (end_with s) (end_with s') s s' a N mode0 i t j M) as [L K]. split; [exact L|].
  exists t. apply (written_unique E c s' a P). apply K. exact H.
Qed.
Lemma match_is_secret : forall E c before t after, self_contained c ->
  matched (as_written E c (before ++ t ++ after)) (length before) (length before + length t) <-> is_secret E c t.
Proof.
  intros E c before t after SC. assert (Q : same_at (before ++ t ++ after) t (length before) 0 (length t)).
  { intros k K. cbn [Nat.add]. rewrite nth_error_app2 by lia. replace (length before + k - length before) with k by lia.
    rewrite nth_error_app1 by lia. reflexivity. }
  split; intros H.
  - destruct (written_local E c _ t _ 0 _ SC H) as [_ K]; [replace (length before + length t - length before) with (length t) by lia; exact Q|].
    unfold is_secret. replace (0 + (length before + length t - length before)) with (length t) in K by lia. exact K.
  - destruct (written_local E c t (before ++ t ++ after) 0 (length before) (length t) SC H) as [_ K].
    + rewrite Nat.sub_0_r. intros k L. symmetry. apply (Q k L).
    + rewrite Nat.sub_0_r in K. exact K.
Qed.

(* -- where a text is that occurs in a rewritten string -- *)
Lemma app_cases : forall A (a b c d : list A), a ++ b = c ++ d -> exists l, a = c ++ l /\ d = l ++ b \/ c = a ++ l /\ b = l ++ d.
Proof. intros A a b c d H. apply app_eq_app in H. exact H. Qed.
Lemma occurs_rewritten : forall cs g0 a t b, rewritten g0 cs = a ++ t ++ b -> t <> [] -> (forall u, In u cs -> cut_new u <> []) ->
  (exists g, In g (left_alone g0 cs) /\ occurs_in t g) \/ exists u x, In u cs /\ In x (cut_new u) /\ In x t.
Proof.
  induction cs as [|u cs IH]; intros g0 a t b H N NE.
  - left. exists g0. split; [left; reflexivity|]. unfold rewritten in H. cbn in H. rewrite app_nil_r in H. exists a, b. exact H.
  - rewrite rewritten_cons, <- app_assoc in H. apply app_cases in H as (l & [[-> H]|[-> H]]).
    + (* a ends in the gap *)
      symmetry in H. apply app_cases in H as (l' & [[-> H]|[-> H]]).
      * left. exists (a ++ t ++ l'). split; [left; reflexivity|]. exists a, l'. reflexivity.
      * destruct l' as [|x l'].
        -- left. exists (a ++ l). split; [left; reflexivity|]. exists a, []. rewrite !app_nil_r. reflexivity.
        -- right. destruct (cut_new u) as [|y new] eqn:Eu; [exfalso; exact (NE u (or_introl eq_refl) Eu)|].
           cbn [app] in H. injection H as -> _. exists u, x. split; [left; reflexivity|]. split; [rewrite Eu; left; reflexivity|].
           apply in_or_app. right. left. reflexivity.
    + (* a goes on after the gap *)
      apply app_cases in H as (l' & [[E1 H]|[-> H]]).
      * (* t starts in the new piece *)
        destruct t as [|x t]; [congruence|]. destruct l' as [|y l'].
        -- (* or right behind it *)
           cbn [app] in H. destruct (IH (cut_gap u) [] (x :: t) b) as [(g & G1 & G2)|(v & z & Z1 & Z2 & Z3)].
           ++ rewrite <- H. reflexivity.
           ++ exact N.
           ++ intros v Hv. apply NE. right. exact Hv.
           ++ left. exists g. split; [right; exact G1|exact G2].
           ++ right. exists v, z. split; [right; exact Z1|auto].
        -- cbn [app] in H. injection H as <- H. right. exists u, x. split; [left; reflexivity|]. split; [rewrite E1; apply in_or_app; right; left; reflexivity|left; reflexivity].
      * destruct (IH (cut_gap u) l' t b) as [(g & G1 & G2)|(v & z & Z1 & Z2 & Z3)].
        -- exact H.
        -- exact N.
        -- intros v Hv. apply NE. right. exact Hv.
        -- left. exists g. split; [right; exact G1|exact G2].
        -- right. exists v, z. split; [right; exact Z1|auto].
Qed.
Lemma rewritten_whole : forall cs g0, (forall u, In u cs -> False) -> original g0 cs = g0 /\ rewritten g0 cs = g0.
Proof. intros [|u cs] g0 H; [|destruct (H u); left; reflexivity]. unfold original, rewritten. cbn. rewrite app_nil_r. auto. Qed.
Lemma gap_place : forall cs g0 g, In g (left_alone g0 cs) -> exists a b, original g0 cs = a ++ g ++ b /\
  forall k u, nth_error cs k = Some u ->
    length (original g0 (firstn k cs)) + length (cut_old u) <= length a \/ length a + length g <= length (original g0 (firstn k cs)).
Proof.
  induction cs as [|u cs IH]; intros g0 g [<-|H].
  - exists [], []. unfold original. cbn. split; [reflexivity|]. intros [|k] u K; discriminate K.
  - destruct H.
  - exists [], (flat_map (fun c => cut_old c ++ cut_gap c) (u :: cs)). split; [reflexivity|]. intros k v K. right. unfold original. rewrite app_length. cbn. lia.
  - destruct (IH (cut_gap u) g H) as (a & b & E & D). exists ((g0 ++ cut_old u) ++ a), b. split.
    + rewrite original_cons, E, <- !app_assoc. reflexivity.
    + intros [|k] v K.
      * cbn in K. injection K as <-. left. unfold original. cbn. rewrite app_nil_r, !app_length. lia.
      * cbn [nth_error] in K. cbn [firstn]. rewrite original_cons. specialize (D k v K). rewrite !app_length in *. lia.
Qed.

(* -- the strings of a rewritten event -- *)
Lemma pre_map : forall s f l, pre s (map (fun pc => (fst pc, f (s :: fst pc) (snd pc))) l) =
  map (fun pc => (fst pc, f (fst pc) (snd pc))) (pre s l).
Proof. intros s f l. unfold pre. rewrite !map_map. apply map_ext. intros [p c]. reflexivity. Qed.
Lemma simple_strings_map : forall e (f : path -> str -> str),
  simple_strings (simple_map f e) = map (fun pc => (fst pc, f (fst pc) (snd pc))) (simple_strings e).
Proof.
  fix IH 1. intros [s|l|m] f.
  - reflexivity.
  - rewrite simple_map_list. cbn [simple_strings]. generalize 0 as i. induction l as [|d l IHl]; intros i; [reflexivity|].
    cbn [list_map_at list_strs]. rewrite map_app, IHl, IH, <- pre_map. reflexivity.
  - rewrite simple_map_map. cbn [simple_strings]. rewrite map_app. f_equal.
    + induction m as [|[k d] m IHm]; [reflexivity|]. cbn [map_map_at first_strs]. rewrite map_app, IHm. f_equal.
      destruct (str_eqb k first_visit_key); [|reflexivity]. rewrite IH, <- pre_map. reflexivity.
    + induction m as [|[k d] m IHm]; [reflexivity|]. cbn [map_map_at others_strs]. rewrite map_app, IHm. f_equal.
      destruct (str_eqb k first_visit_key); [reflexivity|]. rewrite IH, <- pre_map. reflexivity.
Qed.
Lemma distinct_map : forall e (f : path -> str -> str), distinct_keys e -> distinct_keys (simple_map f e).
Proof.
  intros e. induction e as [s|l IHl|m IHm] using simple_ind'; intros f H.
  - constructor.
  - rewrite simple_map_list. inversion H as [|? Hl|]; subst. constructor. intros c K. clear H. revert K. generalize 0 as i.
    induction IHl as [|d l Hd Hr IH]; intros i K; [destruct K|]. cbn [list_map_at] in K. destruct K as [<-|K].
    + apply Hd. apply Hl. left. reflexivity.
    + apply (IH (fun c Hc => Hl c (or_intror Hc)) (S i) K).
  - rewrite simple_map_map. inversion H as [| |? Hn Hm]; subst. constructor.
    + replace (map fst (map_map_at simple_map f m)) with (map fst m); [exact Hn|].
      clear. induction m as [|[k d] m IH]; [reflexivity|]. cbn [map_map_at map fst]. f_equal. exact IH.
    + clear H Hn. induction IHm as [|[k d] m Hd Hr IH]; intros k' c K; [destruct K|]. cbn [map_map_at] in K. destruct K as [K|K].
      * injection K as <- <-. apply Hd. apply (Hm k). left. reflexivity.
      * apply (IH (fun k c Hc => Hm k c (or_intror Hc)) k' c K).
Qed.

(* -- the pieces are matches of the rules, and every match starts in one -- *)
Lemma rules_apart : forall E (fold : char -> char) en b t e srt fuel, build en b = Ret (Ok t) -> crate_ok E en -> plain_env E ->
  (forall x y, same_letter E x y <-> fold x = fold y) ->
  (forall c, In c (bu_rules b) -> good_pattern E c /\ simple_rule c) -> nothing_taken_back b ->
  sorter_ok srt -> distinct_keys e -> enough_fuel fuel (simple_strings e) ->
  forall h, exists e' outs, scan simple_event_impl fuel h srt (bt_scanner t) [] e = Ret (e', outs) /\
  scan_result simple_event_impl (simple_strings e) (simple_holds e) e' outs (fun p s s' os => exists g0 cs,
    s = original g0 cs /\ s' = rewritten g0 cs /\ length cs = length os /\
    (forall k u, nth_error cs k = Some u -> exists o c, nth_error os k = Some o /\ nth_error (bu_rules b) (rm_rule o) = Some c /\
      cut_new u = redacted h (cf_action c) (cut_old u) /\ in_scope b c p /\
      matched (as_written E c s) (length (original g0 (firstn k cs))) (length (original g0 (firstn k cs)) + length (cut_old u))) /\
    (apart E (bu_rules b) s -> forall c, In c (bu_rules b) -> in_scope b c p ->
      forall i j, i <= length s -> matched (as_written E c s) i j -> exists k u, nth_error cs k = Some u /\
      length (original g0 (firstn k cs)) <= i < length (original g0 (firstn k cs)) + length (cut_old u))).
Proof.
  intros E fold en b t e srt fuel H CK PE HE HA Hm Hs Hd Hf h.
  assert (HG : forall x, In x (bu_rules b) -> good_pattern E x) by (intros x K; apply HA; exact K).
  pose proof (crate_behaves E fold en b t H CK PE HE HG) as HB.
  assert (HW : windows_fine b (rule_at en b) (simple_strings e)).
  { intros i x k Hx K. destruct (proj2 (HA x (nth_error_In _ _ Hx))) as [_ Hk _]. congruence. }
  assert (Hno : forall c, In c (bu_rules b) -> no_included c) by (intros c K k K'; destruct (proj2 (HA c K)) as [_ Hk _]; congruence).
  pose proof (built_regex_scanner _ _ _ _ _ _ H HB HW) as HR.
  pose proof (simple_setting srt (bt_scanner t) e fuel Hs Hd HR Hf) as Hset.
  destruct (scan_returns _ _ _ _ _ _ _ _ _ Hset h []) as (e' & outs & Hscan). exists e', outs. split; [exact Hscan|].
  eapply result_weaken; [|eapply c62_no_mutating_candidate_survives_lemma; eauto].
  intros p s s' os Hps (g0 & cs & (S1 & S2 & S3 & S4) & Hcomp). exists g0, cs.
  split; [exact S1|]. split; [exact S2|]. split; [exact S3|].
  destruct (built_options _ _ _ H) as (O1 & O2 & O3).
  assert (Hfound : forall r c x y, nth_error (bu_rules b) r = Some c -> In (x, y) (fst (finders (bt_scanner t) r s p false (bu_kw_paths b))) ->
    exists i j, i <= j <= length s /\ x = off s i /\ y = off s j /\ matched (as_written E c s) i j).
  { intros r c x y Hc Hin. destruct (plain_matches _ _ _ _ _ _ _ _ _ _ H HB HW Hps Hc (Hno c (nth_error_In _ _ Hc))) as (rr2 & CF2 & Lm & Hch).
    destruct (chain_sorted _ _ _ _ _ _ Lm Hch) as (_ & _ & Htp & _). destruct (Htp _ _ Hin) as (A & _). unfold rule_at in A. rewrite Hc in A.
    pose proof (rule_searches E en c _ CK PE (HG c (nth_error_In _ _ Hc)) (built_regex _ _ _ _ _ H Hc)) as Sr.
    destruct (at_some _ _ _ _ _ Sr A) as (i & j & L & Ei & Ej & M & _). exists i, j. auto. }
  assert (Hpiece : forall k u, nth_error cs k = Some u -> exists o c, nth_error os k = Some o /\ nth_error (bu_rules b) (rm_rule o) = Some c /\
      cut_new u = redacted h (cf_action c) (cut_old u) /\ in_scope b c p /\
      matched (as_written E c s) (length (original g0 (firstn k cs))) (length (original g0 (firstn k cs)) + length (cut_old u))).
  { intros k u Hu. destruct (nth_error os k) as [o|] eqn:Ho.
    2:{ apply nth_error_None in Ho. assert (k < length cs) by (apply nth_error_Some; congruence). lia. }
    destruct (S4 k o u Ho Hu) as (r & Hr & Hcand & Hn). destruct (built_config _ _ _ H (rm_rule o) r Hr) as (c & Hc).
    destruct (built_rule _ _ _ _ _ H HB _ c Hc) as (rr & occ & R1 & _). unfold rule_of in Hr. rewrite R1 in Hr. injection Hr as <-.
    exists o, c. split; [reflexivity|]. split; [exact Hc|]. split; [exact Hn|].
    destruct Hcand as (r & Hr & _ & I1 & I2 & I3). rewrite R1 in Hr. injection Hr as <-. cbn [rule_scope regex_compiled] in I1, I2.
    rewrite O2 in I1, I2. split; [split; [exact I1|exact I2]|]. rewrite O1 in I3. destruct (Hfound _ _ _ _ Hc I3) as (i & j & L & Ei & Ej & M).
    destruct (cut_offs g0 cs k u s Hu S1) as (A1 & A2 & A3).
    rewrite A1 in Ei. rewrite A2 in Ej. apply (off_inj s) in Ei; [|lia|lia]. apply (off_inj s) in Ej; [|lia|lia]. subst i j. exact M. }
  split; [exact Hpiece|].
  intros Hap c Hin' [I1 I2] i j Li M. apply In_nth_error in Hin' as (r & Hc). pose proof (nth_error_In _ _ Hc) as HcI.
  destruct (proj2 (HA c HcI)) as [Ha Hk Hv].
  destruct (built_rule _ _ _ _ _ H HB _ c Hc) as (rr & occ & R1 & CF & _ & R4 & _).
  destruct (plain_matches _ _ _ _ _ _ _ _ _ _ H HB HW Hps Hc (Hno c HcI)) as (rr2 & CF2 & Lm & Hch).
  destruct (chain_sorted _ _ _ _ _ _ Lm Hch) as (_ & _ & Htp & Hall).
  pose proof (rule_searches E en c _ CK PE (HG c HcI) (built_regex _ _ _ _ _ H Hc)) as Sr.
  destruct (at_any _ _ s i j Sr Li M) as (y & A).
  destruct (Hall (off s i) y (Nat.le_0_l _)) as (x' & y' & Hin & Hx).
  { split; [unfold rule_at; rewrite Hc; exact A|]. split.
    - intros valid w V. rewrite (cp_validator _ _ _ _ CF2), Hv in V. discriminate V.
    - intros _ xk K. apply (cp_excluded _ _ _ _ CF2) in K as (k & _ & _ & _ & K & _). congruence. }
  assert (Hcand : candidate (bt_scanner t) (finders (bt_scanner t)) [] p s (r, x', y')).
  { eexists. split; [exact R1|]. split; [intros []|]. cbn [rule_scope regex_compiled]. rewrite O1, O2. auto. }
  assert (Hns : ~ suppressed (bt_scanner t) (finders (bt_scanner t)) [] (simple_strings e) s (r, x', y')).
  { eapply nothing_suppressed; eauto. }
  assert (Hmut : mutating_rule (bt_scanner t) r) by (eexists; split; [exact R1|exact Ha]).
  destruct (Hcomp r x' y' Hcand Hns Hmut) as (k & o & u & ru & Ho & Hu & Hr & _ & _ & n & N1 & N2).
  destruct (cut_offs g0 cs k u s Hu S1) as (A1 & A2 & A3).
  destruct (Nat.eq_dec (rm_rule o) r) as [Er|Nr].
  - destruct (S4 k o u Ho Hu) as (r2 & _ & Hcand2 & _). rewrite Er in Hcand2.
    destruct (EndToEndClaims.same_match en fold b (rule_at en b) t (simple_strings e) p s r c [] _ _ _ _ n H HB (fine_searchable en b (rule_at en b) (bt_scanner t) [] (simple_strings e) HW) Hps Hc (Hno c HcI) Hcand Hcand2 N1 N2) as [E1 E2].
    exists k, u. split; [exact Hu|]. rewrite E1, E2, A1, A2 in Hx.
    split; [apply (off_le s); lia|apply (off_lt_inv s); lia].
  - exfalso. destruct (Hpiece k u Hu) as (o' & c' & Ho' & Hc' & _ & _ & M'). rewrite Ho in Ho'. injection Ho' as <-.
    destruct (Hfound r c x' y' Hc Hin) as (i' & j' & L & -> & -> & M2). rewrite A1, A2 in N2.
    pose proof (off_lt_inv s i' (length (original g0 (firstn k cs)) + length (cut_old u))). pose proof (off_lt_inv s (length (original g0 (firstn k cs))) j').
    destruct (Hap _ _ _ _ _ _ _ _ Hc' Hc Nr M' M2); lia.
Qed.
Lemma secret_matched : forall E c before t after, self_contained c -> is_secret E c t ->
  matched (as_written E c (before ++ t ++ after)) (length before) (length before + length t).
Proof. intros E c before t after SC H. apply match_is_secret; assumption. Qed.

(* no part that is left alone contains a text that the rule looks for *)
Lemma gap_clean : forall E c s g0 cs, s = original g0 cs -> good_pattern E c -> self_contained c ->
  (forall i j, i <= length s -> matched (as_written E c s) i j -> exists k u, nth_error cs k = Some u /\
    length (original g0 (firstn k cs)) <= i < length (original g0 (firstn k cs)) + length (cut_old u)) ->
  forall g t, In g (left_alone g0 cs) -> is_secret E c t -> ~ occurs_in t g.
Proof.
  intros E c s g0 cs Hs HG SC Hall g t Hg Ht (x & y & ->). destruct (gap_place cs g0 _ Hg) as (a & b & Ho & D).
  assert (Es : s = (a ++ x) ++ t ++ (y ++ b)) by (rewrite Hs, Ho, <- !app_assoc; reflexivity).
  assert (N : 0 < length t).
  { destruct t as [|z t]; [|cbn; lia]. exfalso. apply (proj2 HG [] 0); [cbn; lia|exact Ht]. }
  destruct (Hall (length (a ++ x)) (length (a ++ x) + length t)) as (k & u & Hu & L).
  - rewrite Es, !app_length. lia.
  - rewrite Es. apply secret_matched; assumption.
  - specialize (D k u Hu). rewrite !app_length in *. lia.
Qed.

Lemma left_parts_clean :
  forall E (fold : char -> char) en b t e srt fuel, build en b = Ret (Ok t) -> crate_ok E en -> plain_env E ->
  (forall x y, same_letter E x y <-> fold x = fold y) ->
  (forall c, In c (bu_rules b) -> good_pattern E c /\ self_contained c /\ simple_rule c) -> nothing_taken_back b ->
  sorter_ok srt -> distinct_keys e -> enough_fuel fuel (simple_strings e) ->
  forall h, exists e' outs, scan simple_event_impl fuel h srt (bt_scanner t) [] e = Ret (e', outs) /\
  scan_result simple_event_impl (simple_strings e) (simple_holds e) e' outs (fun p s s' os => exists g0 cs,
    s = original g0 cs /\ s' = rewritten g0 cs /\ length cs = length os /\
    (forall u, In u cs -> exists c, In c (bu_rules b) /\ in_scope b c p /\ is_secret E c (cut_old u) /\
      cut_new u = redacted h (cf_action c) (cut_old u)) /\
    (apart E (bu_rules b) s -> forall c g t, In c (bu_rules b) -> in_scope b c p -> In g (left_alone g0 cs) ->
      is_secret E c t -> ~ occurs_in t g)).
Proof.
  intros E fold en b t e srt fuel H CK PE HE HA Hm Hs Hd Hf h.
  destruct (rules_apart E fold en b t e srt fuel H CK PE HE) with (h := h) as (e' & outs & Hscan & R); auto.
  { intros c Hc. destruct (HA c Hc) as (A & _ & C). auto. }
  exists e', outs. split; [exact Hscan|]. eapply result_weaken; [|exact R].
  intros p s s' os Hps (g0 & cs & S1 & S2 & S3 & S4 & S5). exists g0, cs. split; [exact S1|]. split; [exact S2|]. split; [exact S3|]. split.
  - intros u Hu. apply In_nth_error in Hu as (k & Hu). destruct (S4 k u Hu) as (o & c & _ & Hc & N & I & M). exists c.
    split; [exact (nth_error_In _ _ Hc)|]. split; [exact I|]. split; [|exact N].
    destruct (cut_split g0 cs k u Hu) as (after & _ & A & _). rewrite S1, A in M. apply match_is_secret in M; [exact M|]. apply (HA c (nth_error_In _ _ Hc)).
  - intros Hap c g x Hc Hsc. destruct (HA c Hc) as (HG & SC & _). intros Hg. eapply gap_clean; eauto.
Qed.

Lemma unchanged_results : forall (f : path -> str -> str) (l : list (path * str)) (res : list (str * list rule_match)),
  length res = length l -> map (fun x => (fst (fst x), fst (snd x))) (combine l res) = map (fun pc => (fst pc, f (fst pc) (snd pc))) l ->
  (forall p s s' os, In ((p, s), (s', os)) (combine l res) -> s' = s) -> forall p s, In (p, s) l -> f p s = s.
Proof.
  induction l as [|[q d] l IH]; intros [|[s' os] res] Hl Hmap Hres p s Hp; try discriminate Hl; [destruct Hp|]. cbn in Hmap. injection Hmap as E1 E2.
  destruct Hp as [Hp|Hp].
  - injection Hp as <- <-. rewrite <- E1. apply (Hres q d s' os). left. reflexivity.
  - apply (IH res); [injection Hl; auto|exact E2| |exact Hp]. intros p0 s0 s0' os0 Hin. apply (Hres p0 s0 s0' os0). right. exact Hin.
Qed.

Lemma scan_again :
  forall E (fold : char -> char) en b t e srt fuel, build en b = Ret (Ok t) -> crate_ok E en -> plain_env E ->
  (forall x y, same_letter E x y <-> fold x = fold y) ->
  (forall c, In c (bu_rules b) -> good_pattern E c /\ self_contained c /\ simple_rule c) -> nothing_taken_back b ->
  sorter_ok srt -> distinct_keys e -> enough_fuel fuel (simple_strings e) ->
  (forall p s, In (p, s) (simple_strings e) -> apart E (bu_rules b) s) ->
  forall h, inert E h (bu_rules b) -> exists e' outs, scan simple_event_impl fuel h srt (bt_scanner t) [] e = Ret (e', outs) /\
  (forall c p s t, In c (bu_rules b) -> In (p, s) (simple_strings e') -> in_scope b c p -> is_secret E c t -> ~ occurs_in t s) /\
  forall h' srt' fuel', sorter_ok srt' -> enough_fuel fuel' (simple_strings e') ->
    scan simple_event_impl fuel' h' srt' (bt_scanner t) [] e' = Ret (e', []).
Proof.
  intros E fold en b t e srt fuel H CK PE HE HA Hm Hs Hd Hf Hap h HI.
  destruct (left_parts_clean E fold en b t e srt fuel H CK PE HE HA Hm Hs Hd Hf h) as (e' & outs & Hscan & R).
  exists e', outs. split; [exact Hscan|].
  assert (Hne : forall c, In c (bu_rules b) -> ~ is_secret E c []).
  { intros c Hc K. destruct (HA c Hc) as (HG & _). apply (proj2 HG [] 0); [cbn; lia|exact K]. }
  assert (Hnone : forall c p s t, In c (bu_rules b) -> In (p, s) (simple_strings e') -> in_scope b c p -> is_secret E c t -> ~ occurs_in t s).
  { intros c p s' u Hc Hp' Hsc Hu Hocc. destruct R as (res & Hl & _ & (f & -> & Hmap) & Hclaim).
    rewrite simple_strings_map, <- Hmap, map_map in Hp'. apply in_map_iff in Hp' as ([[q s] [s2 os]] & Eq & Hin). cbn in Eq. injection Eq as -> ->.
    destruct (Hclaim p s s' os Hin) as (g0 & cs & S1 & S2 & _ & S4 & S5). destruct Hocc as (x & y & Hocc). rewrite S2 in Hocc.
    destruct (occurs_rewritten cs g0 x u y Hocc) as [(g & G1 & G2)|(v & z & Z1 & Z2 & Z3)].
    - intros ->. exact (Hne c Hc Hu).
    - intros v Hv. destruct (S4 v Hv) as (c' & C1 & _ & C2 & ->). apply (HI c' _ C1 C2).
    - exact (S5 (Hap p s (in_combine_l _ _ _ _ Hin)) c g u Hc Hsc G1 Hu G2).
    - destruct (S4 v Z1) as (c' & C1 & _ & C2 & Q2). rewrite Q2 in Z2. exact (proj2 (HI c' _ C1 C2) c u z Hc Hu Z2 Z3). }
  split; [exact Hnone|]. intros h' srt' fuel' Hs' Hf'.
  assert (Hd' : distinct_keys e') by (destruct R as (_ & _ & _ & (f & -> & _) & _); apply distinct_map; exact Hd).
  destruct (rules_apart E fold en b t e' srt' fuel' H CK PE HE) with (h := h') as (e2 & outs2 & Hscan2 & R2); auto.
  { intros c Hc. destruct (HA c Hc) as (A & _ & C). auto. }
  rewrite Hscan2. cut (e2 = e' /\ outs2 = []); [intros [-> ->]; reflexivity|]. destruct R2 as (res & Hl & Ho & Hh & Hclaim).
  assert (Hres : forall p s s' os, In ((p, s), (s', os)) (combine (simple_strings e') res) -> s' = s /\ os = []).
  { intros p s s' os Hin. destruct (Hclaim p s s' os Hin) as (g0 & cs & S1 & S2 & S3 & S4 & _).
    destruct cs as [|u cs].
    - destruct os; [|discriminate S3]. split; [|reflexivity]. rewrite S1, S2. unfold original, rewritten. reflexivity.
    - exfalso. destruct (S4 0 u eq_refl) as (o & c & _ & Hc & _ & Hsc & M). apply nth_error_In in Hc.
      destruct (cut_split g0 (u :: cs) 0 u eq_refl) as (after & _ & A & _).
      rewrite S1, A in M. apply match_is_secret in M; [|apply (HA c Hc)].
      apply (Hnone c p s (cut_old u) Hc); [exact (in_combine_l _ _ _ _ Hin)|exact Hsc|exact M|].
      rewrite S1, A. eexists _, _. reflexivity. }
  assert (outs2 = []) as ->.
  { rewrite Ho. clear - Hres Hl. revert Hl Hres. generalize (simple_strings e') as l. revert res.
    induction res as [|[s' os] res IH]; intros [|[p s] l] Hl Hres; try discriminate Hl; [reflexivity|].
    cbn [flat_map snd]. destruct (Hres p s s' os) as [_ ->]; [left; reflexivity|]. apply (IH l); [injection Hl; auto|].
    intros p0 s0 s0' os0 Hin. apply (Hres p0). right. exact Hin. }
  split; [|reflexivity]. destruct Hh as (f & -> & Hmap). apply simple_map_id. intros p s Hp.
  rewrite map_map in Hmap. cbn [fst] in Hmap. exact (unchanged_results f _ res Hl Hmap (fun p s s' os Hin => proj1 (Hres p s s' os Hin)) p s Hp).
Qed.

(* -- alphabets -- *)
Definition inside (A : char -> Prop) (s : str) (i j : nat) : Prop := i <= j /\ forall k, i <= k < j -> exists x, nth_error s k = Some x /\ A x.
Lemma inside_join : forall A s i j k, inside A s i j -> inside A s j k -> inside A s i k.
Proof.
  intros A s i j k [L1 H1] [L2 H2]. split; [lia|]. intros n N. destruct (Nat.lt_ge_cases n j); [apply H1|apply H2]; lia.
Qed.
Lemma inside_none : forall A s i, inside A s i i.
Proof. intros A s i. split; [lia|]. intros k K. lia. Qed.
Lemma inside_one : forall (A P : char -> Prop) s i t j, (forall x, P x -> A x) -> one s P i t j -> inside A s i j.
Proof.
  intros A P s i t j H (-> & -> & x & N & K). split; [lia|]. intros k L. replace k with i by lia. exists x. auto.
Qed.
Lemma inside_times : forall A s (M : meaning) g lo hi i t j, (forall i t j, M i t j -> inside A s i j) -> times M g lo hi i t j -> inside A s i j.
Proof.
  intros A s M g lo hi i t j H T. induction T; [|apply inside_none|apply inside_none|]; eapply inside_join; eauto.
Qed.
Lemma drawn_all : forall E A l, drawn_from E A (AConcat l) <-> Forall (drawn_from E A) l.
Proof.
  intros E A. induction l as [|a l IH]; [cbn; split; auto|]. change (drawn_from E A (AConcat (a :: l))) with (drawn_from E A a /\ drawn_from E A (AConcat l)).
  rewrite IH. split; [intros []; auto|intros H; inversion H; auto].
Qed.
Lemma means_inside : forall E A e s a, no_assertions a -> drawn_from E A a -> forall m i t j, means E e s m a i t j -> inside A s i j.
Proof.
  intros E A e s a. induction a as [|l|l IH|a IH|f a IH|n a IH|c|l IH|q a [IH IHl]|t|f] using ast_induction_parts; intros H D m i u j M.
  - destruct M as (_ & -> & _). apply inside_none.
  - cbn [means] in M. destruct (mx m && negb (lit_escaped l) && blank (lit_c l)).
    + destruct M as (_ & -> & _). apply inside_none.
    + eapply inside_one; [|exact M]. intros x. apply D.
  - rewrite means_concat in M. apply no_assertions_all in H. apply drawn_all in D. revert m i u j M D IH.
    induction H as [|a l Ha Hl IHl]; intros m i u j M D IH; [destruct M as (_ & -> & _); apply inside_none|].
    inversion IH as [|? ? IH1 IH2]; inversion D as [|? ? D1 D2]; subst. destruct M as (k & t1 & t2 & M1 & M2 & _).
    eapply inside_join; [eapply IH1; eauto|eapply IHl; eauto].
  - apply (IH H D m i u j M).
  - apply (IH H D (set_flags f m) i u j M).
  - apply (IH H D m i u j M).
  - eapply inside_one; [|exact M]. intros x. apply D.
  - rewrite means_alternation in M. change (no_assertions (AConcat l)) in H. change (drawn_from E A (AConcat l)) in D.
    apply no_assertions_all in H. apply drawn_all in D. revert M. generalize 0 as n. revert m u D IH.
    induction H as [|a l Ha Hl IHl]; intros m u D IH n M; [destruct M|].
    inversion IH as [|? ? IH1 IH2]; inversion D as [|? ? D1 D2]; subst. destruct M as [(v & -> & M)|M]; [eapply IH1; eauto|eapply IHl; eauto].
  - destruct (concat_dec a) as [[l ->]|Na]; [|rewrite means_repetition in M by exact Na; eapply inside_times; [|exact M]; intros i' t' j'; apply (IH H D)].
    rewrite means_quoted in M. specialize (IHl l eq_refl). clear IH. change (no_assertions (AConcat l)) in H. change (drawn_from E A (AConcat l)) in D.
    apply no_assertions_all in H. apply drawn_all in D. revert m i u j M D IHl.
    induction H as [|a l Ha Hl IH]; intros m i u j M D IHl; [destruct M as (_ & -> & _); apply inside_none|].
    inversion IHl as [|? ? IH1 IH2]; inversion D as [|? ? D1 D2]; subst.
    destruct l; [eapply inside_times; [|exact M]; intros i' t' j'; apply (IH1 Ha D1)|].
    destruct M as (k & t1 & t2 & M1 & M2 & _). eapply inside_join; [eapply IH1; eauto|eapply IH; eauto].
  - destruct H.
  - destruct M as (_ & -> & _). apply inside_none.
Qed.
Lemma written_inside : forall E A c s i j, self_contained c -> uses_only E A c -> matched (as_written E c s) i j -> inside A s i j.
Proof.
  intros E A c s i j (a & P & N) (a' & P' & D) (t & M). rewrite P in P'. injection P' as <-. apply (written_unique E c s a P) in M.
  eapply means_inside; eauto.
Qed.
Lemma secret_inside : forall E A c t x, self_contained c -> uses_only E A c -> is_secret E c t -> In x t -> A x.
Proof.
  intros E A c t x SC U H X. destruct (written_inside E A c t 0 (length t) SC U H) as [_ K]. apply In_nth_error in X as (k & X).
  destruct (K k) as (y & Y & Z); [split; [lia|apply nth_error_Some; congruence]|]. congruence.
Qed.
Lemma alphabets_apart : forall E rules (alphabet : nat -> char -> Prop) s,
  (forall c, In c rules -> self_contained c /\ good_pattern E c) ->
  (forall r c, nth_error rules r = Some c -> uses_only E (alphabet r) c) ->
  (forall r r' x, r <> r' -> alphabet r x -> ~ alphabet r' x) -> apart E rules s.
Proof.
  intros E rules A s SC U D r c r' c' i j i' j' Hc Hc' N M M'.
  destruct (written_inside E _ c s i j (proj1 (SC c (nth_error_In _ _ Hc))) (U r c Hc) M) as [L K].
  destruct (written_inside E _ c' s i' j' (proj1 (SC c' (nth_error_In _ _ Hc'))) (U r' c' Hc') M') as [L' K'].
  destruct (Nat.le_gt_cases j i') as [Q|Q]; [left; exact Q|]. destruct (Nat.le_gt_cases j' i) as [Q'|Q']; [right; exact Q'|].
  exfalso. destruct (Nat.eq_dec i j) as [->|Ni]; [|destruct (Nat.eq_dec i' j') as [->|Ni']].
  - destruct (K' j) as (x & X & _); [lia|]. assert (j < length s) by (apply nth_error_Some; congruence).
    apply (proj2 (proj2 (SC c (nth_error_In _ _ Hc))) s j); [lia|exact M].
  - destruct (K j') as (x & X & _); [lia|]. assert (j' < length s) by (apply nth_error_Some; congruence).
    apply (proj2 (proj2 (SC c' (nth_error_In _ _ Hc'))) s j'); [lia|exact M'].
  - destruct (K (Nat.max i i')) as (x & X & Ax); [lia|]. destruct (K' (Nat.max i i')) as (y & Y & Ay); [lia|].
    assert (x = y) by congruence. subst y. exact (D r r' x N Ax Ay).
Qed.
Lemma alphabets_inert : forall E h rules (alphabet : nat -> char -> Prop), (forall c, In c rules -> self_contained c) ->
  (forall r c, nth_error rules r = Some c -> uses_only E (alphabet r) c) ->
  (forall c, In c rules -> exists y, cf_action c = ActRedact y /\ y <> [] /\ forall r x, In x y -> ~ alphabet r x) -> inert E h rules.
Proof.
  intros E h rules A SC U Y c t Hc _. destruct (Y c Hc) as (y & -> & N & D). split; [exact N|]. intros c' u x Hc' Hu X Xu.
  apply In_nth_error in Hc' as (r & Hr). apply (D r x X). exact (secret_inside E _ c' u x (SC c' (nth_error_In _ _ Hr)) (U r c' Hr) Hu Xu).
Qed.
