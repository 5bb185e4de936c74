(* Consequences of the scan specification *)
From Coq Require Import Lia.
From Verif Require Import Proofs.Text Proofs.Apply Proofs.Overlap Proofs.Visitor.
From Verif Require Export Spec.Claims Proofs.Scan Proofs.Events.

(* ---- cuts ---- *)
Lemma original_cons : forall g u cs, original g (u :: cs) = (g ++ cut_old u) ++ original (cut_gap u) cs.
Proof. intros. unfold original. simpl. rewrite !app_assoc. reflexivity. Qed.
Lemma rewritten_cons : forall g u cs, rewritten g (u :: cs) = (g ++ cut_new u) ++ rewritten (cut_gap u) cs.
Proof. intros. unfold rewritten. simpl. rewrite !app_assoc. reflexivity. Qed.
Lemma original_app : forall g a b, original g (a ++ b) = original g a ++ flat_map (fun c => cut_old c ++ cut_gap c) b.
Proof. intros. unfold original. rewrite flat_map_app, app_assoc. reflexivity. Qed.
Lemma rewritten_app : forall g a b, rewritten g (a ++ b) = rewritten g a ++ flat_map (fun c => cut_new c ++ cut_gap c) b.
Proof. intros. unfold rewritten. rewrite flat_map_app, app_assoc. reflexivity. Qed.

Lemma nth_split : forall A (l : list A) k u, nth_error l k = Some u ->
  l = firstn k l ++ u :: skipn (S k) l.
Proof.
  induction l as [|x l IH]; intros [|k] u H; try discriminate.
  - inversion H; subst. reflexivity.
  - simpl in *. f_equal. apply IH. exact H.
Qed.

Lemma original_nth : forall g cs k u, nth_error cs k = Some u ->
  exists q, original g cs = original g (firstn k cs) ++ cut_old u ++ q.
Proof.
  intros g cs k u H. exists (cut_gap u ++ flat_map (fun c => cut_old c ++ cut_gap c) (skipn (S k) cs)).
  rewrite (nth_split _ _ _ _ H) at 1. rewrite original_app. simpl. rewrite <- !app_assoc. reflexivity.
Qed.
Lemma rewritten_nth : forall g cs k u, nth_error cs k = Some u ->
  exists q, rewritten g cs = rewritten g (firstn k cs) ++ cut_new u ++ q.
Proof.
  intros g cs k u H. exists (cut_gap u ++ flat_map (fun c => cut_new c ++ cut_gap c) (skipn (S k) cs)).
  rewrite (nth_split _ _ _ _ H) at 1. rewrite rewritten_app. simpl. rewrite <- !app_assoc. reflexivity.
Qed.

Lemma firstn_S_nth : forall A (l : list A) k u, nth_error l k = Some u ->
  firstn (S k) l = firstn k l ++ [u].
Proof.
  induction l as [|x l IH]; intros [|k] u H; try discriminate.
  - inversion H; subst. reflexivity.
  - simpl in *. f_equal. apply IH. exact H.
Qed.

Lemma firstn_firstn_split : forall A (l : list A) i j, i <= j ->
  exists m, firstn j l = firstn i l ++ m.
Proof.
  intros A l i j H. exists (skipn i (firstn j l)). rewrite <- (firstn_skipn i (firstn j l)) at 1.
  rewrite firstn_firstn, Nat.min_l by lia. reflexivity.
Qed.

Lemma cuts_unique : forall cs1 cs2 g1 g2,
  length cs1 = length cs2 -> original g1 cs1 = original g2 cs2 ->
  (forall k u1 u2, nth_error cs1 k = Some u1 -> nth_error cs2 k = Some u2 ->
     nbytes (original g1 (firstn k cs1)) = nbytes (original g2 (firstn k cs2)) /\
     nbytes (original g1 (firstn k cs1) ++ cut_old u1) = nbytes (original g2 (firstn k cs2) ++ cut_old u2) /\
     (cut_old u1 = cut_old u2 -> cut_new u1 = cut_new u2)) ->
  g1 = g2 /\ cs1 = cs2.
Proof.
  induction cs1 as [|u1 cs1 IH]; intros [|u2 cs2] g1 g2 Hlen Heq Hk; try discriminate.
  - unfold original in Heq. simpl in Heq. rewrite !app_nil_r in Heq. auto.
  - rewrite !original_cons in Heq.
    destruct (Hk 0 u1 u2 eq_refl eq_refl) as (H1 & H2 & H3).
    unfold original in H1, H2. simpl in H1, H2. rewrite !app_nil_r in H1, H2.
    rewrite !nbytes_blen in H1, H2.
    destruct (app_inj_blen _ _ _ _ Heq H2) as [E1 E2].
    destruct (app_inj_blen _ _ _ _ E1 H1) as [-> E3].
    destruct (IH cs2 (cut_gap u1) (cut_gap u2)) as [Eg Ec].
    + simpl in Hlen. lia.
    + exact E2.
    + intros k v1 v2 Hv1 Hv2. destruct (Hk (S k) v1 v2 Hv1 Hv2) as (G1 & G2 & G3).
      cbn [firstn] in G1, G2. rewrite !original_cons, E3 in G1, G2. rewrite <- !app_assoc in G1, G2.
      repeat rewrite nbytes_app in G1. repeat rewrite nbytes_app in G2. rewrite !nbytes_app.
      repeat split; [lia|lia|exact G3].
    + split; [reflexivity|]. rewrite Ec. f_equal. destruct u1, u2; simpl in *. subst.
      rewrite (H3 eq_refl). reflexivity.
Qed.

Lemma same_rules_nth : forall l l', same_rules l l' -> forall i,
  match nth_error l i, nth_error l' i with
  | Some a, Some b => rule_action a = rule_action b /\ rule_scope a = rule_scope b /\
                      rule_validation a = rule_validation b /\ rule_multipass a = rule_multipass b
  | None, None => True
  | _, _ => False
  end.
Proof.
  intros l l' H. induction H as [|a b l l' Hab H IH]; intros [|i]; simpl; auto. apply IH.
Qed.

(* ---- one string ---- *)
Section Two.
Variables sc1 sc2 : scanner.
Variables fs1 fs2 : nat -> finder.
Variables blocked1 blocked2 : list nat.
Hypothesis Hsim : similar sc1 sc2.

Lemma similar_nth : forall i,
  match nth_error (sc_rules sc1) i, nth_error (sc_rules sc2) i with
  | Some a, Some b => rule_action a = rule_action b /\ rule_scope a = rule_scope b /\
                      rule_validation a = rule_validation b /\ rule_multipass a = rule_multipass b
  | None, None => True
  | _, _ => False
  end.
Proof. intros i. apply (same_rules_nth _ _ (sm_rules _ _ Hsim)). Qed.

Lemma similar_mutates : forall E (m : internal_match E), mutates (sc_rules sc1) m <-> mutates (sc_rules sc2) m.
Proof.
  intros E m. unfold mutates. pose proof (similar_nth (im_rule m)) as H.
  destruct (nth_error (sc_rules sc1) (im_rule m)) as [a|], (nth_error (sc_rules sc2) (im_rule m)) as [b|]; try contradiction.
  - destruct H as (Ha & _). split; intros (x & Hx & Hn); inversion Hx; subst; eexists; split; try reflexivity; congruence.
  - split; intros (x & Hx & _); discriminate.
Qed.

Lemma similar_outranks : forall E (a b : internal_match E),
  outranks (sc_rules sc1) a b <-> outranks (sc_rules sc2) a b.
Proof. intros. unfold outranks. rewrite !similar_mutates. reflexivity. Qed.

Lemma similar_resolved : forall E (ms out : list (internal_match E)),
  resolved (sc_rules sc1) ms out -> resolved (sc_rules sc2) ms out.
Proof.
  intros E ms out [H1 H2 H3 H4]. split; auto. intros m Hm. rewrite (H4 m Hm).
  split; intros H (o & Ho & Hr & Hov); apply H; exists o; split; auto; split; auto; apply similar_outranks; auto.
Qed.

Lemma string_scanned_unique : forall E w h strs1 strs2 p c c1 c2 o1 o2,
  (forall k, candidate sc1 fs1 blocked1 p c k /\ ~ suppressed sc1 fs1 blocked1 strs1 c k <->
             candidate sc2 fs2 blocked2 p c k /\ ~ suppressed sc2 fs2 blocked2 strs2 c k) ->
  (forall i a b, candidate sc1 fs1 blocked1 p c (i, a, b) -> a < b) ->
  string_scanned sc1 fs1 blocked1 E w h strs1 p c c1 o1 ->
  string_scanned sc2 fs2 blocked2 E w h strs2 p c c2 o2 -> c1 = c2 /\ o1 = o2.
Proof.
  intros E w h strs1 strs2 p c c1 c2 o1 o2 Hiff Hne
    (cands1 & kept1 & g1 & cs1 & Hc1 & Hr1 & Ho1 & Hw1 & Hl1 & Hlo1 & Hk1)
    (cands2 & kept2 & g2 & cs2 & Hc2 & Hr2 & Ho2 & Hw2 & Hl2 & Hlo2 & Hk2).
  assert (Hkeys : forall k, In k (map key cands1) <-> In k (map key cands2)).
  { intros k. rewrite Hc1, Hc2. apply Hiff. }
  assert (Hne1 : forall m, In m cands1 -> nonempty m).
  { intros m Hm. apply (in_map key) in Hm. apply Hc1 in Hm as [Hm _]. exact (Hne _ _ _ Hm). }
  assert (Hne2 : forall m, In m cands2 -> nonempty m).
  { intros m Hm. apply (in_map key) in Hm. apply Hkeys in Hm. apply Hc1 in Hm as [Hm _]. exact (Hne _ _ _ Hm). }
  apply similar_resolved in Hr1.
  pose proof (resolved_unique (sc_rules sc2) cands1 cands2 kept1 kept2 Hne1 Hne2 Hkeys Hr1 Hr2) as Hkk.
  assert (Hlen : length kept1 = length kept2) by (rewrite <- (map_length key), Hkk, map_length; reflexivity).
  assert (Hnth : forall k m1 m2, nth_error kept1 k = Some m1 -> nth_error kept2 k = Some m2 -> key m1 = key m2).
  { intros k m1 m2 H1 H2. apply (map_nth_error key) in H1, H2. rewrite Hkk in H1. congruence. }
  assert (Hget : forall k, k < length kept1 -> exists m1 m2 x1 x2,
            nth_error kept1 k = Some m1 /\ nth_error kept2 k = Some m2 /\
            nth_error o1 k = Some x1 /\ nth_error o2 k = Some x2).
  { intros k Hk.
    destruct (nth_error kept1 k) as [m1|] eqn:E1; [|apply nth_error_None in E1; lia].
    destruct (nth_error kept2 k) as [m2|] eqn:E2; [|apply nth_error_None in E2; lia].
    destruct (nth_error o1 k) as [x1|] eqn:E3; [|apply nth_error_None in E3; lia].
    destruct (nth_error o2 k) as [x2|] eqn:E4; [|apply nth_error_None in E4; lia].
    exists m1, m2, x1, x2. auto. }
  destruct (cuts_unique cs1 cs2 g1 g2) as [Eg Ec].
  - congruence.
  - congruence.
  - intros k u1 u2 Hu1 Hu2.
    destruct (Hget k) as (m1 & m2 & x1 & x2 & Em1 & Em2 & Ex1 & Ex2).
    { rewrite <- Hl1. apply nth_error_Some. congruence. }
    destruct (Hk1 k m1 x1 Em1 Ex1) as (v1 & r1 & Hv1 & Hn1 & Hs1 & He1 & Hnew1 & _).
    destruct (Hk2 k m2 x2 Em2 Ex2) as (v2 & r2 & Hv2 & Hn2 & Hs2 & He2 & Hnew2 & _).
    pose proof (Hnth k m1 m2 Em1 Em2) as Hkey. unfold key in Hkey.
    injection Hkey as Hir Hst Hen.
    assert (v1 = u1) by congruence. assert (v2 = u2) by congruence. subst v1 v2.
    split; [congruence|]. split; [congruence|]. intros Hold.
    pose proof (similar_nth (im_rule m1)) as Hs. rewrite Hn1, Hir, Hn2 in Hs. destruct Hs as (Ha & _).
    congruence.
  - subst g2 cs2. split; [congruence|].
    apply nth_ext with (d := {| rm_rule := 0; rm_path := []; rm_kind := RKNone; rm_start := 0; rm_end := 0;
                                rm_shift := 0%Z; rm_value := None; rm_status := NotChecked |})
                       (d' := {| rm_rule := 0; rm_path := []; rm_kind := RKNone; rm_start := 0; rm_end := 0;
                                rm_shift := 0%Z; rm_value := None; rm_status := NotChecked |}); [congruence|].
    intros k Hk. destruct (Hget k) as (m1 & m2 & x1 & x2 & Em1 & Em2 & Ex1 & Ex2); [lia|].
    rewrite (nth_error_nth _ _ _ Ex1), (nth_error_nth _ _ _ Ex2).
    destruct (Hk1 k m1 x1 Em1 Ex1) as (v1 & r1 & Hv1 & Hn1 & Hs1 & He1 & Hnew1 & F1 & F2 & F3 & F4 & F5 & F6 & F7 & F8).
    destruct (Hk2 k m2 x2 Em2 Ex2) as (v2 & r2 & Hv2 & Hn2 & Hs2 & He2 & Hnew2 & G1 & G2 & G3 & G4 & G5 & G6 & G7 & G8).
    pose proof (Hnth k m1 m2 Em1 Em2) as Hkey. unfold key in Hkey. injection Hkey as Hir Hst Hen.
    assert (v1 = v2) by congruence. subst v2.
    pose proof (similar_nth (im_rule m1)) as Hs. rewrite Hn1, Hir, Hn2 in Hs. destruct Hs as (Ha & _ & Hval & _).
    rewrite (sm_return _ _ Hsim) in F7. rewrite Hval in F8. rewrite Ha in F3.
    destruct x1, x2; simpl in *. congruence.
Qed.
End Two.

(* ---- the scan ---- *)
Section Scan.
Variable I : event_impl.
Variable w : char -> nat.
Variable srt : sorter.
Variable sc : scanner.
Variable fs : nat -> finder.
Variable e : ev_t I.
Variable strs : list (path * str).
Variable holds : ev_t I -> list (path * str * bool) -> Prop.
Variable fuel : nat.
Hypothesis Hset : scan_setting I w srt sc fs e strs holds fuel.
Variable h : hashers.
Variable blocked : list nat.

Lemma scan_returns : exists e' outs, scan I fuel h srt sc blocked e = Ret (e', outs).
Proof.
  destruct Hset as [H1 H2 H3 H4 H5 H6].
  destruct (scan_spec I w sc fs blocked srt e strs holds h fuel H1 H2 H3 H4 H5 H6) as (e' & res & Hs & _).
  eauto.
Qed.

Lemma scan_scanned : forall e' outs, scan I fuel h srt sc blocked e = Ret (e', outs) ->
  scan_result I strs holds e' outs (string_scanned sc fs blocked (ev_enc I) w h strs).
Proof.
  intros e' outs Hs. destruct Hset as [H1 H2 H3 H4 H5 H6].
  destruct (scan_spec I w sc fs blocked srt e strs holds h fuel H1 H2 H3 H4 H5 H6) as (e1 & res & Hs1 & Hl & Hh & Hall).
  rewrite Hs in Hs1. injection Hs1 as -> ->. exists res. auto.
Qed.

Lemma result_weaken : forall e' outs (P Q : path -> str -> str -> list rule_match -> Prop),
  (forall p c c' os, In (p, c) strs -> P p c c' os -> Q p c c' os) ->
  scan_result I strs holds e' outs P -> scan_result I strs holds e' outs Q.
Proof.
  intros e' outs P Q HPQ (res & H1 & H2 & H3 & H4). exists res. repeat split; auto.
  intros p c c' os Hin. apply HPQ; [|auto]. eapply in_combine_l; exact Hin.
Qed.

Lemma candidate_part : forall p c i a b, In (p, c) strs -> candidate sc fs blocked p c (i, a, b) ->
  a < b /\ exists t, part_at c a b t.
Proof.
  intros p c i a b Hin (r & Hr & _ & _ & _ & Hf).
  eapply (mt_ranges _ _ _ _ (ss_rules _ _ _ _ _ _ _ _ _ Hset i r Hr)); [|exact Hf]. eauto.
Qed.
End Scan.
