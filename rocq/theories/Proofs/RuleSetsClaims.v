(* What other rules of a scanner change (C100-C102): proofs of the statements of Thm/RuleSets.v *)
From Coq Require Import Lia.
From Verif Require Import Proofs.Text Proofs.Apply Proofs.Overlap.
From Verif Require Import Examples.Setting Proofs.Search Proofs.SearchClaims.
From Verif Require Export Proofs.RuleSets Proofs.RedactionClaims Proofs.EndToEndClaims.
From Verif Require Import Spec.Panics Proofs.Panics Proofs.Events Proofs.Regex.

Lemma flat_map_changing : forall sc (res : list (str * list rule_match)),
  changing sc (flat_map snd res) = flat_map (fun x => changing sc (snd x)) res.
Proof.
  intros sc res. unfold changing. induction res as [|x res IH]; simpl; [reflexivity|]. rewrite filter_app, IH. reflexivity.
Qed.

(* results with the reports seen through [f] and [g] *)
Lemma same_through : forall (f g : list rule_match -> list rule_match) (strs : list (path * str)) r1 r2,
  length r1 = length strs -> length r2 = length strs ->
  (forall p c c1 o1 c2 o2, In ((p, c), (c1, o1), (c2, o2)) (combine (combine strs r1) r2) -> c1 = c2 /\ f o1 = g o2) ->
  map fst r1 = map fst r2 /\ flat_map (fun x : str * list rule_match => f (snd x)) r1 = flat_map (fun x => g (snd x)) r2.
Proof.
  intros f g. induction strs as [|[p c] strs IH]; intros [|[c1 o1] r1] [|[c2 o2] r2] H1 H2 H; try discriminate; [auto|].
  destruct (H p c c1 o1 c2 o2) as [-> E]; [left; reflexivity|].
  destruct (IH r1 r2) as [I1 I2]; [simpl in H1; lia|simpl in H2; lia|intros; eapply H; right; eassumption|].
  simpl. rewrite I1, I2, E. auto.
Qed.
Lemma held_alike : forall (strs : list (path * str)) (r1 r2 : list (str * list rule_match)), map fst r1 = map fst r2 ->
  map (fun x => (fst (fst x), fst (snd x), false)) (combine strs r1) = map (fun x => (fst (fst x), fst (snd x), false)) (combine strs r2).
Proof.
  induction strs as [|x strs IH]; intros [|y r1] [|z r2] H; try discriminate; simpl; auto.
  simpl in H. injection H as H1 H2. rewrite H1, (IH r1 r2 H2). reflexivity.
Qed.

Lemma candidate_fewer : forall sc fs blocked more p c i a b,
  candidate sc fs (more ++ blocked) p c (i, a, b) <-> candidate sc fs blocked p c (i, a, b) /\ ~ In i more.
Proof.
  intros. unfold candidate. split.
  - intros (r & H1 & H2 & H3). rewrite in_app_iff in H2. split; [exists r; tauto|tauto].
  - intros ((r & H1 & H2 & H3) & H4). exists r. rewrite in_app_iff. tauto.
Qed.
Lemma found_fewer : forall sc fs blocked more strs t,
  found_excluded sc fs (more ++ blocked) strs t -> found_excluded sc fs blocked strs t.
Proof.
  intros sc fs blocked more strs t (i & r & p & c & H1 & H2 & H3 & H4). exists i, r, p, c.
  rewrite in_app_iff in H3. tauto.
Qed.
Lemma not_changing : forall sc i, changes sc i = true -> forall r, nth_error (sc_rules sc) i = Some r -> rule_action r <> ActNone.
Proof. intros sc i H r Hr E. unfold changes in H. rewrite Hr, E in H. discriminate H. Qed.

(* rule 0 redacts "secret"; rule 1 only reports it, and not under "skip" *)
Definition passing : scanner := {|
  sc_rules := [regex_compiled (ActRedact (text "[R]")) everywhere None (plain_rule 0 (Engine.literal (text "secret")));
               regex_compiled ActNone (ScopeExclude [[Field (text "skip")]]) None (plain_rule 1 (Engine.literal (text "secret")))];
  sc_kw_paths := false; sc_wild := false; sc_multipass := true; sc_return_matches := true
|}.
(* two rules that redact, whose matches overlap in "12345678" *)
Definition crossing : scanner := {|
  sc_rules := [regex_compiled (ActRedact (text "[A]")) everywhere None (plain_rule 0 (Engine.literal (text "45678")));
               regex_compiled (ActRedact (text "[B]")) everywhere None (plain_rule 1 (Engine.literal (text "1234")))];
  sc_kw_paths := false; sc_wild := false; sc_multipass := false; sc_return_matches := true
|}.
Lemma two_plain : forall sc a0 s0 m0 a1 s1 m1,
  sc_rules sc = [regex_compiled a0 s0 None (plain_rule 0 m0); regex_compiled a1 s1 None (plain_rule 1 m1)] ->
  action_validate a0 = true -> action_validate a1 = true -> forall strs, regex_scanner sc strs.
Proof.
  intros sc a0 s0 m0 a1 s1 m1 Hsc H0 H1 strs i r Hr. rewrite Hsc in Hr.
  destruct i as [|[|i]]; [| |destruct i; discriminate Hr].
  - exists (plain_rule 0 m0), (match_at m0), (fun _ _ _ => False). split.
    + exists a0, s0, None. rewrite Hsc. split; [reflexivity|]. split; [reflexivity|]. split; [exact H0|apply plain_ok].
    + intros. apply plain_scannable.
  - exists (plain_rule 1 m1), (match_at m1), (fun _ _ _ => False). split.
    + exists a1, s1, None. rewrite Hsc. split; [reflexivity|]. split; [reflexivity|]. split; [exact H1|apply plain_ok].
    + intros. apply plain_scannable.
Qed.

Lemma c100_detect_only_lemma :
  forall I w srt sc fs e strs holds fuel,
  scan_setting I w srt sc fs e strs holds fuel ->
  forall h blocked quiet e1 outs1 e2 outs2,
  (forall i r, In i quiet -> nth_error (sc_rules sc) i = Some r -> rule_action r = ActNone) ->
  (sc_multipass sc = true -> forall t, found_excluded sc fs blocked strs t -> found_excluded sc fs (quiet ++ blocked) strs t) ->
  scan I fuel h srt sc blocked e = Ret (e1, outs1) ->
  scan I fuel h srt sc (quiet ++ blocked) e = Ret (e2, outs2) ->
  (exists l, holds e1 l /\ holds e2 l) /\ changing sc outs1 = changing sc outs2.
Proof.
  intros I w srt sc fs e strs holds fuel Hset h blocked quiet e1 outs1 e2 outs2 Hq Hx H1 H2.
  destruct (scan_scanned _ _ _ _ _ _ _ _ _ Hset _ _ _ _ H1) as (r1 & L1 & E1 & Hh1 & Hall1).
  destruct (scan_scanned _ _ _ _ _ _ _ _ _ Hset _ _ _ _ H2) as (r2 & L2 & E2 & Hh2 & Hall2).
  destruct (same_through (changing sc) (changing sc) strs r1 r2 L1 L2) as [S1 S2].
  - intros p c c1 o1 c2 o2 Hin. destruct (in_combine3 _ _ _ _ _ _ L1 L2 Hin) as [Hi1 Hi2].
    assert (Hpc : In (p, c) strs) by (eapply in_combine_l; exact Hi1).
    pose proof (only_changing _ _ _ _ _ _ _ _ _ (cut_so_of _ _ _ _ _ _ _ _ _ _ _ (Hall1 _ _ _ _ Hi1))) as K1.
    pose proof (only_changing _ _ _ _ _ _ _ _ _ (cut_so_of _ _ _ _ _ _ _ _ _ _ _ (Hall2 _ _ _ _ Hi2))) as K2.
    eapply cut_so_unique; [|exact K1|].
    + intros i a b [[Hc _] _]. exact (proj1 (candidate_part _ _ _ _ _ _ _ _ _ Hset blocked p c i a b Hpc Hc)).
    + eapply cut_so_ext; [|exact K2]. intros [[i a] b]. cbn [fst]. rewrite candidate_fewer. split.
      * intros [[[Hc _] Hns] Ha]. split; [split; [exact Hc|]|exact Ha]. intros (M1 & M2 & t & P & F). apply Hns.
        split; [exact M1|]. split; [exact M2|]. exists t. split; [exact P|]. apply Hx; auto.
      * intros [[Hc Hns] Ha]. split; [|exact Ha]. split; [split; [exact Hc|]|].
        -- intros Hi. destruct Hc as (r & Hr & _). exact (not_changing sc i Ha r Hr (Hq i r Hi Hr)).
        -- intros (M1 & M2 & t & P & F). apply Hns. split; [exact M1|]. split; [exact M2|]. exists t. split; [exact P|].
           eapply found_fewer; exact F.
  - split.
    + rewrite <- (held_alike strs r1 r2 S1) in Hh2. eauto.
    + rewrite E1, E2, !flat_map_changing. exact S2.
Qed.

Lemma c100_simple_event_lemma :
  forall srt sc e fuel,
  sorter_ok srt -> distinct_keys e -> regex_scanner sc (simple_strings e) ->
  enough_fuel fuel (simple_strings e) -> sc_multipass sc = false ->
  forall h blocked quiet,
  (forall i r, In i quiet -> nth_error (sc_rules sc) i = Some r -> rule_action r = ActNone) ->
  exists e' outs1 outs2,
    scan simple_event_impl fuel h srt sc blocked e = Ret (e', outs1) /\
    scan simple_event_impl fuel h srt sc (quiet ++ blocked) e = Ret (e', outs2) /\
    changing sc outs1 = changing sc outs2.
Proof.
  intros srt sc e fuel H1 H2 H3 H4 Hmp h blocked quiet Hq.
  pose proof (simple_setting srt sc e fuel H1 H2 H3 H4) as Hset.
  destruct (scan_returns _ _ _ _ _ _ _ _ _ Hset h blocked) as (e1 & o1 & S1).
  destruct (scan_returns _ _ _ _ _ _ _ _ _ Hset h (quiet ++ blocked)) as (e2 & o2 & S2).
  destruct (c100_detect_only_lemma _ _ _ _ _ _ _ _ _ Hset h blocked quiet e1 o1 e2 o2 Hq ltac:(congruence) S1 S2) as ((l & L1 & L2) & E).
  assert (e1 = e2) by (eapply simple_holds_fun; [apply simple_distinct; exact H2|exact L1|exact L2|reflexivity]). subst e2.
  exists e1, o1, o2. auto.
Qed.

Lemma c100_multipass_refuted_lemma :
  exists (sc : scanner) (e e1 : simple_event) outs1 outs2,
  (forall strs, regex_scanner sc strs) /\
  option_map rule_action (nth_error (sc_rules sc) 1) = Some ActNone /\
  e = SMap [(text "log", SString (text "secret")); (text "skip", SString (text "secret"))] /\
  e1 = SMap [(text "log", SString (text "[R]")); (text "skip", SString (text "[R]"))] /\
  scan simple_event_impl 100 ex_hash isort sc [1] e = Ret (e1, outs1) /\
  scan simple_event_impl 100 ex_hash isort sc [] e = Ret (e, outs2).
Proof.
  exists passing. eexists _, _, _, _. split; [eapply two_plain; reflexivity|]. split; [reflexivity|]. split; [reflexivity|]. split; [reflexivity|].
  split; vm_compute; reflexivity.
Qed.

Lemma c101_more_rules_refuted_lemma :
  exists (sc : scanner) outs1 outs2,
  (forall strs, regex_scanner sc strs) /\
  sc_multipass sc = false /\
  scan simple_event_impl 100 ex_hash isort sc [1] (SString (text "12345678")) = Ret (SString (text "123[A]"), outs1) /\
  scan simple_event_impl 100 ex_hash isort sc [] (SString (text "12345678")) = Ret (SString (text "[B]5678"), outs2).
Proof.
  exists crossing. eexists _, _. split; [eapply two_plain; reflexivity|]. split; [reflexivity|]. split; vm_compute; reflexivity.
Qed.

Lemma c101_still_touched_lemma :
  forall I w srt sc fs e strs holds fuel,
  scan_setting I w srt sc fs e strs holds fuel -> sc_multipass sc = false ->
  forall h blocked extra e1 outs1 e2 outs2,
  scan I fuel h srt sc blocked e = Ret (e1, outs1) ->
  scan I fuel h srt sc (extra ++ blocked) e = Ret (e2, outs2) ->
  exists res1 res2, scan_results I strs holds e1 outs1 res1 /\ scan_results I strs holds e2 outs2 res2 /\
    forall p c c1 o1 c2 o2, In ((p, c), (c1, o1), (c2, o2)) (combine (combine strs res1) res2) ->
    exists g1 cs1 g2 cs2,
      cut_by sc fs blocked h p c c1 o1 g1 cs1 /\ cut_by sc fs (extra ++ blocked) h p c c2 o2 g2 cs2 /\
      forall k2 x2 u2, nth_error o2 k2 = Some x2 -> nth_error cs2 k2 = Some u2 -> changes sc (rm_rule x2) = true ->
      exists k1 x1 u1, nth_error o1 k1 = Some x1 /\ nth_error cs1 k1 = Some u1 /\ changes sc (rm_rule x1) = true /\
        exists n,
          nbytes (original g2 (firstn k2 cs2)) <= n < nbytes (original g2 (firstn k2 cs2) ++ cut_old u2) /\
          nbytes (original g1 (firstn k1 cs1)) <= n < nbytes (original g1 (firstn k1 cs1) ++ cut_old u1).
Proof.
  intros I w srt sc fs e strs holds fuel Hset Hmp h blocked extra e1 outs1 e2 outs2 H1 H2.
  destruct (c62_no_mutating_candidate_survives_lemma _ _ _ _ _ _ _ _ _ Hset h blocked e1 outs1 H1) as (r1 & L1 & E1 & Hh1 & Hall1).
  destruct (scan_scanned _ _ _ _ _ _ _ _ _ Hset _ _ _ _ H2) as (r2 & L2 & E2 & Hh2 & Hall2).
  exists r1, r2. split; [split; auto|]. split; [split; auto|].
  intros p c c1 o1 c2 o2 Hin. destruct (in_combine3 _ _ _ _ _ _ L1 L2 Hin) as [Hi1 Hi2].
  destruct (Hall1 _ _ _ _ Hi1) as (g1 & cs1 & Hcut1 & Ht).
  destruct (scanned_cuts _ _ _ _ _ _ _ _ _ _ _ (Hall2 _ _ _ _ Hi2)) as (_ & _ & g2 & cs2 & _ & _ & Hcut2 & _).
  exists g1, cs1, g2, cs2. split; [exact Hcut1|]. split; [exact Hcut2|].
  intros k2 x2 u2 Hx Hu Hch. destruct (proj2 (proj2 (proj2 Hcut2)) k2 x2 u2 Hx Hu) as (r & Hr & Hc & _).
  apply candidate_fewer in Hc as [Hc _].
  destruct (Ht _ _ _ Hc) as (k1 & x1 & u1 & r' & Hx1 & Hu1 & Hr' & Hne & _ & n & N1 & N2).
  - intros (M & _). congruence.
  - exists r. split; [exact Hr|]. exact (not_changing _ _ Hch _ Hr).
  - exists k1, x1, u1. split; [exact Hx1|]. split; [exact Hu1|]. split; [|exists n; auto].
    unfold changes. unfold rule_of in Hr'. rewrite Hr'. destruct (rule_action r'); congruence.
Qed.

Lemma c101_apart_lemma :
  forall I w srt sc fs e strs holds fuel,
  scan_setting I w srt sc fs e strs holds fuel -> sc_multipass sc = false ->
  forall h blocked extra e1 outs1 e2 outs2,
  (forall p c i a b j a' b', In (p, c) strs -> In i extra -> ~ In j extra ->
     candidate sc fs blocked p c (i, a, b) -> candidate sc fs blocked p c (j, a', b') -> b <= a' \/ b' <= a) ->
  scan I fuel h srt sc blocked e = Ret (e1, outs1) ->
  scan I fuel h srt sc (extra ++ blocked) e = Ret (e2, outs2) ->
  exists res1 res2, scan_results I strs holds e1 outs1 res1 /\ scan_results I strs holds e2 outs2 res2 /\
    forall p c c1 o1 c2 o2, In ((p, c), (c1, o1), (c2, o2)) (combine (combine strs res1) res2) ->
    exists g1 cs1 g2 cs2,
      cut_by sc fs blocked h p c c1 o1 g1 cs1 /\ cut_by sc fs (extra ++ blocked) h p c c2 o2 g2 cs2 /\
      forall i a b t t',
        (exists k2 x2 u2, nth_error o2 k2 = Some x2 /\ nth_error cs2 k2 = Some u2 /\ rm_rule x2 = i /\
           nbytes (original g2 (firstn k2 cs2)) = a /\ nbytes (original g2 (firstn k2 cs2) ++ cut_old u2) = b /\
           cut_old u2 = t /\ cut_new u2 = t') <->
        ~ In i extra /\
        (exists k1 x1 u1, nth_error o1 k1 = Some x1 /\ nth_error cs1 k1 = Some u1 /\ rm_rule x1 = i /\
           nbytes (original g1 (firstn k1 cs1)) = a /\ nbytes (original g1 (firstn k1 cs1) ++ cut_old u1) = b /\
           cut_old u1 = t /\ cut_new u1 = t').
Proof.
  intros I w srt sc fs e strs holds fuel Hset Hmp h blocked extra e1 outs1 e2 outs2 Hap H1 H2.
  destruct (scan_scanned _ _ _ _ _ _ _ _ _ Hset _ _ _ _ H1) as (r1 & L1 & E1 & Hh1 & Hall1).
  destruct (scan_scanned _ _ _ _ _ _ _ _ _ Hset _ _ _ _ H2) as (r2 & L2 & E2 & Hh2 & Hall2).
  exists r1, r2. split; [split; auto|]. split; [split; auto|].
  intros p c c1 o1 c2 o2 Hin. destruct (in_combine3 _ _ _ _ _ _ L1 L2 Hin) as [Hi1 Hi2].
  assert (Hpc : In (p, c) strs) by (eapply in_combine_l; exact Hi1).
  destruct (scanned_cuts _ _ _ _ _ _ _ _ _ _ _ (Hall1 _ _ _ _ Hi1)) as (ca1 & ke1 & g1 & cs1 & Hc1 & Hr1 & Hcut1 & Hlk1 & Hk1).
  destruct (scanned_cuts _ _ _ _ _ _ _ _ _ _ _ (Hall2 _ _ _ _ Hi2)) as (ca2 & ke2 & g2 & cs2 & Hc2 & Hr2 & Hcut2 & Hlk2 & Hk2).
  exists g1, cs1, g2, cs2. split; [exact Hcut1|]. split; [exact Hcut2|].
  assert (Hns : forall bl k, ~ suppressed sc fs bl strs c k) by (intros bl [[i a] b] (M & _); congruence).
  assert (Hne1 : forall m, In m ca1 -> nonempty m).
  { intros m Hm. apply (in_map key) in Hm. apply Hc1 in Hm as [Hm _].
    exact (proj1 (candidate_part _ _ _ _ _ _ _ _ _ Hset _ p c _ _ _ Hpc Hm)). }
  assert (Hne2 : forall m, In m ca2 -> nonempty m).
  { intros m Hm. apply (in_map key) in Hm. apply Hc2 in Hm as [Hm _].
    exact (proj1 (candidate_part _ _ _ _ _ _ _ _ _ Hset _ p c _ _ _ Hpc Hm)). }
  assert (Hsub : forall i a b, In (i, a, b) (map key ca2) <-> In (i, a, b) (map key ca1) /\ ~ In i extra).
  { intros i a b. rewrite Hc1, Hc2, candidate_fewer. pose proof (Hns blocked (i, a, b)). pose proof (Hns (extra ++ blocked) (i, a, b)). tauto. }
  assert (Hkeys : forall m, In m ca2 -> In (key m) (map key ke2) <-> In (key m) (map key ke1)).
  { intros m Hm. refine (resolved_apart _ (sc_rules sc) ca1 ca2 ke1 ke2 Hne1 Hne2 _ _ Hr1 Hr2 _ m Hm (le_n _)).
    - intros [[i a] b] Hk. apply Hsub in Hk. tauto.
    - intros x y Hx Hy Hno (n & N1 & N2).
      pose proof (in_map key _ _ Hx) as Kx. pose proof (in_map key _ _ Hy) as Ky.
      apply Hsub in Ky as [Ky Ey]. unfold key in Hno at 1. unfold key in Kx at 1.
      assert (Ex : In (im_rule x) extra).
      { destruct (in_dec Nat.eq_dec (im_rule x) extra) as [Y|Y]; [exact Y|]. exfalso. apply Hno, Hsub. auto. }
      apply Hc1 in Kx as [Kx _]. apply Hc1 in Ky as [Ky _].
      destruct (Hap p c _ _ _ _ _ _ Hpc Ex Ey Kx Ky); lia. }
  assert (Q : forall o cs g ke ca bl c', cut_by sc fs bl h p c c' o g cs -> length ke = length o ->
      (forall k m x u, nth_error ke k = Some m -> nth_error o k = Some x -> nth_error cs k = Some u ->
         rm_rule x = im_rule m /\ im_start m = nbytes (original g (firstn k cs)) /\ im_end m = nbytes (original g (firstn k cs) ++ cut_old u)) ->
      resolved (sc_rules sc) (E := ev_enc I) ca ke ->
      forall i a b t t',
      (exists k x u, nth_error o k = Some x /\ nth_error cs k = Some u /\ rm_rule x = i /\
           nbytes (original g (firstn k cs)) = a /\ nbytes (original g (firstn k cs) ++ cut_old u) = b /\
           cut_old u = t /\ cut_new u = t') <->
      (In (i, a, b) (map key ke) /\ part_at c a b t /\ exists r, nth_error (sc_rules sc) i = Some r /\ t' = redacted h (rule_action r) t)).
  { intros o cs g ke ca bl c' (Q1 & Q2 & Q3 & Q4) Hl Hk Hr i a b t t'. split.
    - intros (k & x & u & Hx & Hu & <- & <- & <- & <- & <-).
      destruct (nth_in_both _ _ o ke k x (eq_sym Hl) Hx) as (m & Hm).
      destruct (Hk k m x u Hm Hx Hu) as (K1 & K2 & K3). split; [|split].
      + apply in_keys. exists m. split; [eapply nth_error_In; exact Hm|]. unfold key. congruence.
      + destruct (original_nth g cs k u Hu) as (q & Hq). exists (original g (firstn k cs)), q.
        split; [congruence|]. split; [reflexivity|]. rewrite nbytes_app. reflexivity.
      + destruct (Q4 k x u Hx Hu) as (r & R1 & _ & R2). exists r. auto.
    - intros (Hin' & (before & after & P1 & P2 & P3) & r & R1 & R2).
      apply in_keys in Hin' as (m & Hm & Ek). apply In_nth_error in Hm as (k & Hm).
      destruct (nth_in_both _ _ ke o k m Hl Hm) as (x & Hx).
      destruct (nth_in_both _ _ o cs k x (eq_sym Q3) Hx) as (u & Hu).
      destruct (Hk k m x u Hm Hx Hu) as (K1 & K2 & K3). unfold key in Ek. injection Ek as <- <- <-.
      exists k, x, u. split; [exact Hx|]. split; [exact Hu|]. split; [exact K1|]. split; [auto|]. split; [auto|].
      destruct (original_nth g cs k u Hu) as (q & Hq).
      assert (Hold : cut_old u = t).
      { rewrite <- Q1 in Hq. rewrite P1 in Hq. rewrite K2 in P2. rewrite !nbytes_blen in P2.
        destruct (app_inj_blen _ _ _ _ Hq P2) as [-> Hq2].
        rewrite K3, !nbytes_app in P3.
        symmetry. apply (app_inj_blen _ _ _ _ Hq2). rewrite <- !nbytes_blen. lia. }
      split; [exact Hold|]. destruct (Q4 k x u Hx Hu) as (r' & R1' & _ & R2'). unfold rule_of in R1'.
      rewrite K1, R1 in R1'. injection R1' as <-. rewrite R2', Hold. auto. }
  intros i a b t t'.
  rewrite (Q o2 cs2 g2 ke2 ca2 _ c2 Hcut2 Hlk2); [|intros k m x u Hm Hx Hu; destruct (Hk2 k m x u Hm Hx Hu) as (K1 & _ & K2 & K3 & _); auto|exact Hr2].
  rewrite (Q o1 cs1 g1 ke1 ca1 _ c1 Hcut1 Hlk1); [|intros k m x u Hm Hx Hu; destruct (Hk1 k m x u Hm Hx Hu) as (K1 & _ & K2 & K3 & _); auto|exact Hr1].
  assert (K : In (i, a, b) (map key ke2) <-> ~ In i extra /\ In (i, a, b) (map key ke1)).
  { split.
    - intros Hk. pose proof Hk as Hk'. apply in_keys in Hk as (m & Hm & Em). apply (rs_genuine _ _ _ Hr2) in Hm.
      split.
      + apply (in_map key) in Hm. rewrite Em in Hm. apply Hsub in Hm. tauto.
      + rewrite <- Em in *. apply Hkeys; auto.
    - intros [He Hk]. pose proof Hk as Hk'. apply in_keys in Hk as (m & Hm & Em). apply (rs_genuine _ _ _ Hr1) in Hm.
      apply (in_map key) in Hm. rewrite Em in Hm. assert (Hm2 : In (i, a, b) (map key ca2)) by (apply Hsub; auto).
      apply in_keys in Hm2 as (m2 & Hm2 & Em2). rewrite <- Em2 in *. apply Hkeys; auto. }
  rewrite K. tauto.
Qed.

Lemma ordered_alike : forall I sc1 sc2 fs1 fs2 pi strs holds w h blocked e1 outs1 e2 outs2,
  reordered pi sc1 sc2 fs1 fs2 ->
  (forall p c i a b, In (p, c) strs -> candidate sc1 fs1 blocked p c (i, a, b) -> a < b) ->
  no_ties sc1 fs1 blocked strs ->
  scan_result I strs holds e1 outs1 (string_scanned sc1 fs1 blocked (ev_enc I) w h strs) ->
  scan_result I strs holds e2 outs2 (string_scanned sc2 fs2 (map pi blocked) (ev_enc I) w h strs) ->
  (exists l, holds e1 l /\ holds e2 l) /\ outs2 = map (renamed pi) outs1.
Proof.
  intros I sc1 sc2 fs1 fs2 pi strs holds w h blocked e1 outs1 e2 outs2 Hro Hpart Hnt (r1 & L1 & E1 & Hh1 & Hall1) (r2 & L2 & E2 & Hh2 & Hall2).
  destruct (same_through (map (renamed pi)) (fun o => o) strs r1 r2 L1 L2) as [S1 S2].
  - intros p c c1 o1 c2 o2 Hin. destruct (in_combine3 _ _ _ _ _ _ L1 L2 Hin) as [Hi1 Hi2].
    assert (Hpc : In (p, c) strs) by (eapply in_combine_l; exact Hi1).
    pose proof (cut_so_of _ _ _ _ _ _ _ _ _ _ _ (Hall1 _ _ _ _ Hi1)) as K1.
    pose proof (cut_so_of _ _ _ _ _ _ _ _ _ _ _ (Hall2 _ _ _ _ Hi2)) as K2.
    apply (moved_cut sc1 sc2 fs1 fs2 pi Hro) in K1.
    + eapply cut_so_unique; [|exact K1|].
      * intros j a b (i & a' & b' & E & Hc & _). injection E as -> -> ->.
        exact (Hpart p c _ _ _ Hpc Hc).
      * eapply cut_so_ext; [|exact K2]. intros [[j a] b]. split.
        -- intros [Hc Hns]. pose proof Hc as Hc'. destruct Hc' as (r & Hr & _).
           destruct (ro_back _ _ _ _ _ Hro _ _ Hr) as (i & _ & -> & _). exists i, a, b. split; [reflexivity|].
           rewrite (ro_candidate _ _ _ _ _ blocked Hro), (ro_suppressed _ _ _ _ _ blocked Hro). auto.
        -- intros (i & a' & b' & E & Hc & Hns). injection E as -> -> ->.
           rewrite <- (ro_candidate _ _ _ _ _ blocked Hro), <- (ro_suppressed _ _ _ _ _ blocked Hro). auto.
    + intros i a b [(r & Hr & _) _]. apply nth_error_Some. congruence.
    + intros i j a b [Hi _] [Hj _] Hch. exact (Hnt p c i j a b Hpc Hi Hj Hch).
  - split.
    + rewrite <- (held_alike strs r1 r2 S1) in Hh2. eauto.
    + rewrite E1, E2. change (flat_map snd r2) with (flat_map (fun x : str * list rule_match => snd x) r2). rewrite <- S2. clear. induction r1 as [|x r1 IH]; simpl; [reflexivity|]. rewrite map_app, IH. reflexivity.
Qed.

Lemma c102_order_of_rules_lemma :
  forall I w srt sc1 sc2 fs1 fs2 pi e strs holds fuel,
  scan_setting I w srt sc1 fs1 e strs holds fuel -> scan_setting I w srt sc2 fs2 e strs holds fuel ->
  reordered pi sc1 sc2 fs1 fs2 ->
  forall h blocked e1 outs1 e2 outs2, no_ties sc1 fs1 blocked strs ->
  scan I fuel h srt sc1 blocked e = Ret (e1, outs1) ->
  scan I fuel h srt sc2 (map pi blocked) e = Ret (e2, outs2) ->
  (exists l, holds e1 l /\ holds e2 l) /\ outs2 = map (renamed pi) outs1.
Proof.
  intros I w srt sc1 sc2 fs1 fs2 pi e strs holds fuel Hset1 Hset2 Hro h blocked e1 outs1 e2 outs2 Hnt H1 H2.
  apply (ordered_alike I sc1 sc2 fs1 fs2 pi strs holds w h blocked e1 outs1 e2 outs2 Hro).
  - intros p c i a b Hpc K. apply (candidate_part _ _ _ _ _ _ _ _ _ Hset1 blocked p c i a b Hpc K).
  - exact Hnt.
  - eapply scan_scanned; eauto.
  - eapply scan_scanned; eauto.
Qed.

Lemma candidate_at : forall en fold b at_ t strs blocked p s i x y,
  build en b = Ret (Ok t) -> behaves en fold b at_ -> searchable en b at_ (bt_scanner t) blocked strs -> In (p, s) strs ->
  candidate (bt_scanner t) (finders (bt_scanner t)) blocked p s (i, x, y) -> at_ i s x = Some y /\ x < y.
Proof.
  intros en fold b at_ t strs blocked p s i x y H HB HW Hps (r & Hr & Hb & Hi & _ & Hin).
  destruct (built_config _ _ _ H i r Hr) as (c & Hc).
  destruct (built_rule _ _ _ _ _ H HB _ c Hc) as (rr & occ & R1 & CF & R3 & R4 & R5). rewrite R1 in Hr. injection Hr as <-.
  cbn [rule_scope regex_compiled] in Hi. destruct (built_options _ _ _ H) as (O1 & O2 & O3). rewrite O2 in Hi. rewrite O1 in Hin.
  assert (Hat : regex_rule_at (bt_scanner t) i rr (at_ i) occ).
  { exists (cf_action c), (cf_scope c), (cf_validation c). split; [exact R1|]. split; [exact (cp_index _ _ _ _ CF)|]. auto. }
  assert (K : at_ i s x = Some y).
  { pose proof (regex_rule_finds _ _ _ _ _ Hat) as F.
    destruct (rr_included rr) as [ik|] eqn:E.
    - destruct (rf_sound _ _ _ _ F ik s p _ x y E Hin) as ((H1 & _) & _). exact H1.
    - destruct (HW i c rr occ p s Hc Hb Hps Hi CF Hat E) as (Hch & _).
      destruct (chain_sorted _ _ _ _ _ _ (ro_find _ _ _ R4) Hch) as (_ & _ & Htp & _).
      destruct (Htp _ _ Hin) as (H1 & _). exact H1. }
  split; [exact K|]. apply (lm_range _ _ (ro_find _ _ _ R4) _ _ _ K).
Qed.
(* rules that search in the same way trip over the same strings *)
Lemma trips_alike : forall k rr at_ occ rr' at_' occ' s, regex_ok rr at_ occ -> regex_ok rr' at_' occ' -> rr' = at_index k rr ->
  (rule_trips rr at_ s <-> rule_trips rr' at_' s).
Proof.
  intros k rr at_ occ rr' at_' occ' s H H' ->.
  pose proof (regex_index k rr (nbytes s + 2) s [] false false []) as K.
  destruct (rule_or rr at_ occ H s [] false false) as [(T & P)|(T & ms & new & P & _)];
    destruct (rule_or (at_index k rr) at_' occ' H' s [] false false) as [(T' & P')|(T' & ms' & new' & P' & _)];
    rewrite P, P' in K by lia; try discriminate K; split; intros; auto; contradiction.
Qed.

Lemma c102_built_lemma :
  forall en fold b1 b2 at1 at2 t1 t2 pi srt e fuel,
  build en b1 = Ret (Ok t1) -> build en b2 = Ret (Ok t2) ->
  behaves en fold b1 at1 -> behaves en fold b2 at2 -> sorter_ok srt -> distinct_keys e ->
  enough_fuel fuel (simple_strings e) ->
  length (bu_rules b1) = length (bu_rules b2) -> (forall i j, pi i = pi j -> i = j) ->
  (forall i c, nth_error (bu_rules b1) i = Some c -> nth_error (bu_rules b2) (pi i) = Some c) ->
  bu_kw_paths b1 = bu_kw_paths b2 -> bu_wild b1 = bu_wild b2 -> bu_multipass b1 = bu_multipass b2 ->
  (forall i j ci cj p s x y, nth_error (bu_rules b1) i = Some ci -> nth_error (bu_rules b1) j = Some cj ->
     (cf_action ci = ActNone <-> cf_action cj = ActNone) -> In (p, s) (simple_strings e) ->
     at1 i s x = Some y -> at1 j s x = Some y -> i = j) ->
  forall h blocked,
    (scan simple_event_impl fuel h srt (bt_scanner t1) blocked e = Panic /\
     scan simple_event_impl fuel h srt (bt_scanner t2) (map pi blocked) e = Panic) \/
    exists e' outs, scan simple_event_impl fuel h srt (bt_scanner t1) blocked e = Ret (e', outs) /\
      scan simple_event_impl fuel h srt (bt_scanner t2) (map pi blocked) e = Ret (e', map (renamed pi) outs).
Proof.
  intros en fold b1 b2 at1 at2 t1 t2 pi srt e fuel B1 B2 H1 H2 Hso Hdk Hfu Hlen Hinj Hsame Okw Owild Omp Hties h blocked.
  pose proof (built_length _ _ _ B1) as Len1. pose proof (built_length _ _ _ B2) as Len2.
    assert (Honto : forall j, j < length (bu_rules b2) -> exists i, i < length (bu_rules b1) /\ pi i = j).
    { intros j Hj.
      assert (Hincl : incl (List.seq 0 (length (bu_rules b2))) (map pi (List.seq 0 (length (bu_rules b1))))).
      { apply NoDup_length_incl.
        - apply FinFun.Injective_map_NoDup; [exact Hinj|apply seq_NoDup].
        - rewrite map_length, !seq_length. lia.
        - intros x Hx. apply in_map_iff in Hx as (i & <- & Hi). apply in_seq in Hi. apply in_seq. split; [lia|]. simpl.
          destruct (nth_error (bu_rules b1) i) as [c|] eqn:Ec; [|apply nth_error_None in Ec; lia].
          apply nth_error_Some. rewrite (Hsame i c Ec). discriminate. }
      assert (Hin : In j (List.seq 0 (length (bu_rules b2)))) by (apply in_seq; lia).
      apply Hincl, in_map_iff in Hin as (i & Hp & Hi). apply in_seq in Hi. exists i. split; [lia|exact Hp]. }
  assert (Hsr : forall i c rr1 rr2, compiled_from en c i rr1 -> compiled_from en c (pi i) rr2 -> rr2 = at_index (pi i) rr1).
  { intros i c rr1 rr2 C1 C2. destruct C1 as [F1 F2 F3 F4 F5], C2 as [G1 G2 G3 G4 G5]. destruct rr1 as [i1 f1 in1 ex1 v1], rr2 as [i2 f2 in2 ex2 v2].
    cbn [rr_index rr_find rr_included rr_excluded rr_validator at_index] in *.
    destruct F2 as (p & P1 & P2), G2 as (p' & P1' & P2'). rewrite P1 in P1'. injection P1' as <-. rewrite P2 in P2'. injection P2' as <-.
    assert (in2 = in1).
    { destruct in1 as [a|]; [apply G4, F4; reflexivity|]. destruct in2 as [a|]; [|reflexivity]. symmetry. apply F4, G4. reflexivity. }
    assert (ex2 = ex1).
    { destruct ex1 as [a|]; [apply G5, F5; reflexivity|]. destruct ex2 as [a|]; [|reflexivity]. symmetry. apply F5, G5. reflexivity. }
    unfold at_index. cbn. congruence. }
  destruct (built_options _ _ _ B1) as (K1 & K2 & K3). destruct (built_options _ _ _ B2) as (L1 & L2 & L3).
  assert (Hro : reordered pi (bt_scanner t1) (bt_scanner t2) (finders (bt_scanner t1)) (finders (bt_scanner t2))).
  { 
    split; try congruence.
    - intros i r1 Hr1.
      destruct (nth_error (bu_rules b1) i) as [c|] eqn:Ec; [|apply nth_error_None in Ec; assert (i < length (sc_rules (bt_scanner t1))) by (apply nth_error_Some; congruence); lia].
      destruct (built_rule _ _ _ _ _ B1 H1 i c Ec) as (rr1 & _ & N1 & C1 & _).
      destruct (built_rule _ _ _ _ _ B2 H2 (pi i) c (Hsame i c Ec)) as (rr2 & _ & N2 & C2 & _).
      rewrite N1 in Hr1. injection Hr1 as <-. eexists. split; [exact N2|]. repeat (split; [reflexivity|]).
      assert (rr2 = at_index (pi i) rr1) as -> by (eapply Hsr; eauto).
      intros cc p ex kw. unfold finders. rewrite N1, N2. unfold finder_of. cbn [regex_compiled rule_string_matches]. rewrite regex_index. reflexivity.
    - exact Hinj.
    - intros j Hj. rewrite Len2 in Hj. rewrite Len1. auto.
    - destruct (built_spec _ _ _ B1) as (_ & vs1 & xs1 & _ & _ & _ & ->). destruct (built_spec _ _ _ B2) as (_ & vs2 & xs2 & _ & _ & _ & ->).
      cbn [bt_scanner sc_return_matches].
      assert (Hb : forall f : option match_validation_type -> bool, existsb f (map cf_validation (bu_rules b1)) = existsb f (map cf_validation (bu_rules b2))).
      { intros f. apply eq_true_iff_eq. rewrite !existsb_exists. split; intros (o & Ho & Hf); exists o; (split; [|exact Hf]);
          apply in_map_iff in Ho as (c & <- & Hc); apply in_map; apply In_nth_error in Hc as (i & Hc).
        - eapply nth_error_In. apply Hsame. exact Hc.
        - destruct (Honto i) as (i' & Hi' & <-); [apply nth_error_Some; congruence|].
          destruct (nth_error (bu_rules b1) i') as [c'|] eqn:Ec; [|apply nth_error_None in Ec; lia].
          rewrite (Hsame i' c' Ec) in Hc. injection Hc as <-. eapply nth_error_In. exact Ec. }
      apply Hb. }
  destruct (built_made _ _ _ _ _ B1 H1) as (rrs1 & occs1 & M1 & C1). destruct (built_made _ _ _ _ _ B2 H2) as (rrs2 & occs2 & M2 & C2).
  assert (Htr : scan_trips (bt_scanner t1) rrs1 at1 blocked (simple_strings e) <-> scan_trips (bt_scanner t2) rrs2 at2 (map pi blocked) (simple_strings e)).
  { assert (One : forall i c s, nth_error (bu_rules b1) i = Some c -> (rule_trips (rrs1 i) (at1 i) s <-> rule_trips (rrs2 (pi i)) (at2 (pi i)) s)).
    { intros i c s Hc. destruct (C1 i c Hc) as (D1 & N1). destruct (C2 (pi i) c (Hsame i c Hc)) as (D2 & N2).
      destruct (M1 i _ N1) as (a & sp & v & _ & _ & _ & O1). destruct (M2 (pi i) _ N2) as (a' & sp' & v' & _ & _ & _ & O2).
      exact (trips_alike (pi i) _ _ _ _ _ _ s O1 O2 (Hsr i c _ _ D1 D2)). }
    split.
    - intros (i & r & p & s & A & B & C & D & E). destruct (built_config _ _ _ B1 i r A) as (c & Hc).
      destruct (C1 i c Hc) as (_ & N1). rewrite N1 in A. injection A as <-. cbn [rule_scope regex_compiled] in D.
      destruct (C2 (pi i) c (Hsame i c Hc)) as (_ & N2). eexists (pi i), _, p, s. split; [exact N2|].
      split; [intros Q; apply in_map_iff in Q as (i' & Q1 & Q2); apply Hinj in Q1; subst; contradiction|]. split; [exact C|].
      split; [cbn [rule_scope regex_compiled]; rewrite L2, <- Owild, <- K2; exact D|]. apply (One i c s Hc), E.
    - intros (j & r & p & s & A & B & C & D & E). destruct (Honto j) as (i & Hi & <-); [rewrite <- Len2; apply nth_error_Some; congruence|].
      destruct (nth_error (bu_rules b1) i) as [c|] eqn:Hc; [|apply nth_error_None in Hc; lia].
      destruct (C2 (pi i) c (Hsame i c Hc)) as (_ & N2). rewrite N2 in A. injection A as <-. cbn [rule_scope regex_compiled] in D.
      destruct (C1 i c Hc) as (_ & N1). eexists i, _, p, s. split; [exact N1|].
      split; [intros Q; apply B, in_map, Q|]. split; [exact C|].
      split; [cbn [rule_scope regex_compiled]; rewrite K2, Owild, <- L2; exact D|]. apply (One i c s Hc), E. }
  destruct (scan_or _ _ _ _ M1 blocked simple_event_impl clen srt e _ _ h fuel utf8_shifts utf8_indices Hso (simple_laws e Hdk) Hfu) as [(T1 & P1)|(T1 & e1 & res1 & S1 & _)];
    destruct (scan_or _ _ _ _ M2 (map pi blocked) simple_event_impl clen srt e _ _ h fuel utf8_shifts utf8_indices Hso (simple_laws e Hdk) Hfu) as [(T2 & P2)|(T2 & e2 & res2 & S2 & _)];
    try (exfalso; tauto); [left; auto|right].
  destruct (returned _ _ _ _ _ _ _ _ B1 H1 Hso Hdk Hfu _ _ _ _ S1) as (W1 & R1). destruct (returned _ _ _ _ _ _ _ _ B2 H2 Hso Hdk Hfu _ _ _ _ S2) as (W2 & R2).
  destruct (fun X Y => ordered_alike simple_event_impl _ _ _ _ pi (simple_strings e) (simple_holds e) clen h blocked _ _ _ _ Hro X Y R1 R2) as ((l & Q1 & Q2) & Q).
  - intros p c i a b Hpc K. apply (candidate_at _ _ _ _ _ _ _ _ _ _ _ _ B1 H1 W1 Hpc K).
  - intros p c i j a b Hpc Hi Hj Hch.
    destruct (candidate_at _ _ _ _ _ _ _ _ _ _ _ _ B1 H1 W1 Hpc Hi) as (Ai & _). destruct (candidate_at _ _ _ _ _ _ _ _ _ _ _ _ B1 H1 W1 Hpc Hj) as (Aj & _).
    destruct Hi as (ri & Hri & _). destruct Hj as (rj & Hrj & _).
    destruct (built_config _ _ _ B1 i ri Hri) as (ci & Eci). destruct (built_config _ _ _ B1 j rj Hrj) as (cj & Ecj).
    apply (Hties i j ci cj p c a b Eci Ecj); [|exact Hpc|exact Ai|exact Aj].
    destruct (C1 i ci Eci) as (_ & Ni). destruct (C1 j cj Ecj) as (_ & Nj).
    unfold changes in Hch. rewrite Ni, Nj in Hch. cbn [regex_compiled rule_action] in Hch.
    destruct (cf_action ci), (cf_action cj); split; intros; congruence.
  - rewrite Q in S2.
    assert (e1 = e2) by (eapply simple_holds_fun; [apply simple_distinct; exact Hdk|exact Q1|exact Q2|reflexivity]). subst e2.
    exists e1, (flat_map snd res1). auto.
Qed.

