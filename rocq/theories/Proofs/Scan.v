(* The whole scan *)
From Coq Require Import Lia.
From Verif Require Import Proofs.Text.
From Verif Require Export Spec.Scan Proofs.Apply Proofs.Overlap Proofs.Visitor.

Lemma key_eq : forall E (m : internal_match E), key m = (im_rule m, im_start m, im_end m).
Proof. reflexivity. Qed.

Lemma existsb_eqb_in : forall i l, existsb (Nat.eqb i) l = true <-> In i l.
Proof.
  intros. rewrite existsb_exists. split.
  - intros (j & H & E). apply Nat.eqb_eq in E. subst; auto.
  - intros H. exists i. split; auto. apply Nat.eqb_refl.
Qed.

Lemma excluded_contains_in : forall x t, excluded_contains x t = true <-> In t x.
Proof.
  intros. unfold excluded_contains. rewrite existsb_exists. split.
  - intros (j & H & E). apply str_eqb_eq in E. subst; auto.
  - intros H. exists t. split; auto. apply str_eqb_refl.
Qed.

Lemma attach_keys : forall E ms (ix : list (enc_index E * enc_index E)),
  map key (attach_indices ms ix) = ms.
Proof.
  intros E. induction ms as [|[[i a] b] ms IH]; intros [|[cs ce] ix]; simpl; auto;
    f_equal; auto; apply IH.
Qed.

Lemma attach_nth : forall E ms (ix : list (enc_index E * enc_index E)) k i a b,
  nth_error ms k = Some (i, a, b) ->
  nth_error (attach_indices ms ix) k =
  Some (Build_internal_match i a b (fst (nth k ix (enc_zero_index E, enc_zero_index E)))
                                   (snd (nth k ix (enc_zero_index E, enc_zero_index E)))).
Proof.
  intros E. induction ms as [|[[i0 a0] b0] ms IH]; intros ix k i a b H;
    destruct k as [|k]; simpl in H; try discriminate.
  - inversion H; subst. destruct ix as [|[cs ce] ix]; reflexivity.
  - destruct ix as [|[cs ce] ix]; simpl.
    + rewrite (IH [] k i a b H). destruct k; reflexivity.
    + apply IH; auto.
Qed.

Lemma part_boundary : forall c a b t, part_at c a b t -> boundary c a /\ boundary c b.
Proof.
  intros c a b t (p & q & H1 & H2 & H3). split.
  - exists p, (t ++ q). auto.
  - exists (p ++ t), q. rewrite <- app_assoc. auto.
Qed.

Section Scan.
Variable E : encoding.
Variable w : char -> nat.
Variable sc : scanner.
Variable fs : nat -> finder.
Variable blocked : list nat.
Variable srt : sorter.
Hypothesis Hshift : shifts_additive E w.
Hypothesis Hindex : indices_additive E w.
Hypothesis Hsrt : sorter_ok srt.
Variable all : list (path * str).
Hypothesis Hmeets : scanner_meets sc fs all.

Let kw := sc_kw_paths sc.
Let scopes := map rule_scope (sc_rules sc).
Let n := length (sc_rules sc).

Lemma scopes_nth : forall i, nth_error scopes i = option_map rule_scope (nth_error (sc_rules sc) i).
Proof. intros. apply nth_error_map. Qed.

Lemma scopes_len : length scopes = n.
Proof. apply map_length. Qed.

Definition rules_p (p : path) := rules_at (sc_wild sc) (sc_tree sc) n p.
Definition excl_p (p : path) := excluded_at (sc_wild sc) (sc_tree sc) p.

Lemma rules_p_spec : forall p i, In i (rules_p p) <->
  exists r, nth_error (sc_rules sc) i = Some r /\ included (sc_wild sc) (rule_scope r) p.
Proof.
  intros p i. destruct (rules_at_spec (sc_wild sc) scopes p) as [_ H].
  rewrite scopes_len in H. unfold rules_p, sc_tree. fold scopes. rewrite H, scopes_nth.
  destruct (nth_error (sc_rules sc) i) as [r|]; simpl; split; intros (s & H1 & H2); inversion H1; subst; eauto.
Qed.

Lemma excl_p_spec : forall p i r, nth_error (sc_rules sc) i = Some r ->
  excl_p p i = true <-> excluded (sc_wild sc) (rule_scope r) p.
Proof.
  intros p i r Hr. unfold excl_p, sc_tree. fold scopes.
  apply excluded_at_spec. rewrite scopes_nth, Hr. reflexivity.
Qed.

Section Content.
Variables (p : path) (c : str).
Hypothesis Hdom : exists p, In (p, c) all.

Definition cands_of (i : nat) : list (nat * nat * nat) :=
  if existsb (Nat.eqb i) blocked then []
  else map (fun m => (i, fst m, snd m)) (fst (fs i c p (excl_p p i) kw)).

Lemma visit_rules : forall fuel rules ms0 x0,
  nbytes c + 2 <= fuel ->
  (forall i, In i rules -> exists r, nth_error (sc_rules sc) i = Some r) ->
  exists x', foldM (visit_content_rule fuel sc blocked p c (excl_p p)) rules (ms0, x0)
             = Ret (ms0 ++ flat_map cands_of rules, x') /\
    forall t, In t x' <-> In t x0 \/
      exists i, In i rules /\ ~ In i blocked /\ In t (snd (fs i c p (excl_p p i) kw)).
Proof.
  intros fuel. induction rules as [|i rules IH]; intros ms0 x0 Hf Hr.
  - exists x0. simpl. rewrite app_nil_r. split; [reflexivity|]. intros t. split; auto.
    intros [H|(i & [] & _)]; auto.
  - cbn [foldM]. unfold visit_content_rule at 1. cbn [flat_map]. unfold cands_of at 1.
    destruct (existsb (Nat.eqb i) blocked) eqn:Hb.
    + cbn [bind]. destruct (IH ms0 x0 Hf) as (x' & Ex & Hx).
      { intros j Hj. apply Hr. right; auto. }
      exists x'. split; [exact Ex|]. intros t. rewrite Hx. apply existsb_eqb_in in Hb. split.
      * intros [H|(j & H1 & H2)]; auto. right. exists j. split; [right|]; auto.
      * intros [H|(j & [<-|H1] & H2 & H3)]; auto; [contradiction|]. right. exists j. auto.
    + destruct (Hr i) as (r & Er); [left; reflexivity|]. rewrite Er. cbn [unwrap bind snd fst].
      rewrite (mt_runs _ _ _ _ (Hmeets i r Er)) by auto. cbn [bind].
      edestruct IH as (x' & Ex & Hx).
      { exact Hf. } { intros j Hj. apply Hr. right; auto. }
      exists x'. fold kw. rewrite Ex. split; [rewrite app_assoc; reflexivity|].
      assert (~ In i blocked) as Hni. { intros H. apply existsb_eqb_in in H. congruence. }
      intros t. rewrite Hx, in_app_iff. split.
      * intros [[H|H]|(j & H1 & H2)]; auto; right; [exists i|exists j]; split; auto; [left|right]; auto.
      * intros [H|(j & [<-|H1] & H2 & H3)]; auto. right. exists j. auto.
Qed.

Lemma cands_spec : forall k, In k (flat_map cands_of (rules_p p)) <-> candidate sc fs blocked p c k.
Proof.
  intros [[i a] b]. rewrite in_flat_map. unfold candidate. split.
  - intros (j & Hj & Hk). unfold cands_of in Hk.
    destruct (existsb (Nat.eqb j) blocked) eqn:Hb; [contradiction|].
    apply in_map_iff in Hk as ([a' b'] & Ek & Hin). simpl in Ek. inversion Ek; subst j a' b'.
    apply rules_p_spec in Hj as (r & Er & Hinc). exists r. split; [exact Er|].
    split. { intros H. apply existsb_eqb_in in H. congruence. }
    split; [exact Hinc|].
    destruct (excl_p p i) eqn:Hx.
    + rewrite (mt_excluded _ _ _ _ (Hmeets i r Er)) in Hin by auto. contradiction.
    + split; [|exact Hin]. intros H. apply (excl_p_spec p i r Er) in H. congruence.
  - intros (r & Er & Hb & Hinc & Hex & Hin). exists i. split.
    + apply rules_p_spec. eauto.
    + unfold cands_of. destruct (existsb (Nat.eqb i) blocked) eqn:Hbb.
      { apply existsb_eqb_in in Hbb. contradiction. }
      destruct (excl_p p i) eqn:Hx.
      { apply (excl_p_spec p i r Er) in Hx. contradiction. }
      apply in_map_iff. exists (a, b). auto.
Qed.

Lemma candidate_range : forall i a b, candidate sc fs blocked p c (i, a, b) ->
  a < b /\ exists t, part_at c a b t.
Proof.
  intros i a b (r & Er & _ & _ & _ & Hin).
  apply (mt_ranges _ _ _ _ (Hmeets i r Er) _ _ _ _ _ _ Hdom Hin).
Qed.

Definition good_match (m : internal_match E) : Prop :=
  good_rule sc m /\ nonempty m /\ in_text c m /\ indexed w c m.

Lemma candidate_rule : forall i a b, candidate sc fs blocked p c (i, a, b) ->
  exists r, nth_error (sc_rules sc) i = Some r /\ action_validate (rule_action r) = true.
Proof.
  intros i a b (r & Er & _). exists r. split; auto. apply (mt_action _ _ _ _ (Hmeets i r Er)).
Qed.

Lemma start_cmp_preorder :
  total_preorder (fun a b : nat * nat * nat => snd (fst a) ?= snd (fst b)).
Proof.
  constructor.
  - intros. apply Nat.compare_antisym.
  - intros a b d H1 H2. apply Nat.compare_le_iff in H1, H2. apply Nat.compare_le_iff. lia.
Qed.

Lemma visit_content_ok : forall fuel found x,
  nbytes c + 2 <= fuel ->
  exists (ims : list (internal_match E)) x',
    visit_content fuel srt sc blocked p c (rules_p p) (excl_p p) (found, x)
    = Ret ((found ++ match ims with [] => [] | _ => [(p, ims)] end, x'),
           match ims with [] => false | _ => true end) /\
    (forall k, In k (map key ims) <-> candidate sc fs blocked p c k) /\
    (forall m, In m ims -> good_match m) /\
    (forall t, In t x' <-> In t x \/
       exists i r, nth_error (sc_rules sc) i = Some r /\ ~ In i blocked /\
         included (sc_wild sc) (rule_scope r) p /\ excluded (sc_wild sc) (rule_scope r) p /\
         In t (snd (fs i c p true kw))) /\
    Permutation (flat_map cands_of (rules_p p)) (map key ims).
Proof.
  intros fuel found x Hf. unfold visit_content. cbn [snd fst].
  destruct (visit_rules fuel (rules_p p) [] x Hf) as (x' & Ex & Hx).
  { intros i Hi. apply rules_p_spec in Hi as (r & Er & _). eauto. }
  rewrite Ex. cbn [bind app].
  set (ms := flat_map cands_of (rules_p p)) in *.
  set (sorted := srt _ (fun a b : nat * nat * nat => snd (fst a) ?= snd (fst b)) ms).
  destruct (Hsrt _ _ ms start_cmp_preorder) as [Hperm Hss]. fold sorted in Hperm, Hss.
  set (ix := enc_calculate E c (map (fun m => (snd (fst m), snd m)) sorted)).
  assert (Hin : forall k, In k sorted <-> candidate sc fs blocked p c k).
  { intros k. rewrite <- cands_spec. split; apply Permutation_in; auto. apply Permutation_sym; auto. }
  exists (attach_indices sorted ix), x'. split; [|split; [|split; [|split]]].
  - destruct (attach_indices sorted ix); [rewrite app_nil_r|]; reflexivity.
  - intros k. rewrite attach_keys. apply Hin.
  - intros m Hm. apply In_nth_error in Hm as (k & Hk).
    assert (Hs : exists i a b, nth_error sorted k = Some (i, a, b)).
    { assert (L : nth_error (map key (attach_indices sorted ix)) k = Some (key m)).
      { apply map_nth_error; auto. }
      rewrite attach_keys in L. rewrite L. exists (im_rule m), (im_start m), (im_end m). reflexivity. }
    destruct Hs as (i & a & b & Hs). rewrite (attach_nth _ _ ix k i a b Hs) in Hk.
    inversion Hk; subst m; clear Hk.
    assert (Hc : candidate sc fs blocked p c (i, a, b)). { apply Hin. eapply nth_error_In; eauto. }
    destruct (candidate_range _ _ _ Hc) as (Hlt & t & Ht).
    split; [|split; [|split]].
    + destruct (candidate_rule _ _ _ Hc) as (r & Er & Hv). exists r. auto.
    + exact Hlt.
    + exists t. exact Ht.
    + assert (Hix := Hindex c (map (fun m => (snd (fst m), snd m)) sorted)).
      specialize (Hix).
      assert (H1 : StronglySorted (fun x y : nat * nat => fst x <= fst y)
                     (map (fun m : nat * nat * nat => (snd (fst m), snd m)) sorted)).
      { clear -Hss. induction Hss as [|u l Hl IHl Hall]; simpl; constructor; auto.
        rewrite Forall_map. eapply Forall_impl; [|exact Hall]. intros v Hv. simpl.
        apply Nat.compare_le_iff in Hv. exact Hv. }
      assert (H2 : forall a b, In (a, b) (map (fun m : nat * nat * nat => (snd (fst m), snd m)) sorted) ->
                     boundary c a /\ boundary c b).
      { intros a0 b0 H0. apply in_map_iff in H0 as ([[i0 a1] b1] & E0 & H0). simpl in E0.
        inversion E0; subst a1 b1. apply Hin in H0. destruct (candidate_range _ _ _ H0) as (_ & t0 & Ht0).
        eapply part_boundary; eauto. }
      assert (H3 : nth_error (map (fun m : nat * nat * nat => (snd (fst m), snd m)) sorted) k = Some (a, b)).
      { rewrite nth_error_map, Hs. reflexivity. }
      specialize (Hix H1 H2 k a b H3). fold ix in Hix. exact Hix.
  - intros t. rewrite Hx. split.
    + intros [H|(i & H1 & H2 & H3)]; auto. right. apply rules_p_spec in H1 as (r & Er & Hinc).
      exists i, r. destruct (excl_p p i) eqn:Hxx.
      * apply (excl_p_spec p i r Er) in Hxx. auto.
      * rewrite (mt_included _ _ _ _ (Hmeets i r Er)) in H3 by auto. contradiction.
    + intros [H|(i & r & H1 & H2 & H3 & H4 & H5)]; auto. right. exists i.
      split; [apply rules_p_spec; eauto|]. split; auto.
      apply (excl_p_spec p i r H1) in H4. rewrite H4. exact H5.
  - rewrite attach_keys. exact Hperm.
Qed.

(* ---- processing one string ---- *)
Lemma resolved_separated : forall ms (out : list (internal_match E)),
  (forall m, In m ms -> nonempty m) -> resolved (sc_rules sc) ms out -> separated out.
Proof.
  intros ms out Hne [Hg Hs Hd _] i j a b Hij Ha Hb.
  assert (Hlt : im_start a < im_start b).
  { clear -Hs Hij Ha Hb. revert i j Hij Ha Hb.
    induction Hs as [|x l Hl IH Hall]; intros i j Hij Ha Hb; [destruct i; discriminate|].
    destruct j as [|j]; [lia|]. simpl in Hb. destruct i as [|i]; simpl in Ha.
    - inversion Ha; subst. rewrite Forall_forall in Hall. apply Hall. eapply nth_error_In; eauto.
    - apply (IH i j); auto. lia. }
  destruct (le_lt_dec (im_end a) (im_start b)) as [H|H]; [exact H|].
  exfalso. apply (Hd i j a b); auto; [lia|]. exists (im_start b).
  assert (nonempty b) as Hb'. { apply Hne, Hg. eapply nth_error_In; eauto. }
  unfold nonempty in Hb'. lia.
Qed.

Variable h : hashers.
Variable strs : list (path * str).
Variable x : excluded_set.
Hypothesis Hx : forall t, In t x <-> found_excluded sc fs blocked strs t.

Lemma multipass_ok : forall ms : list (internal_match E),
  (forall m, In m ms -> good_match m) ->
  exists ms1, multipass_retain (sc_rules sc) x c ms = Ret ms1 /\
    forall m, In m ms1 <-> In m ms /\
      ~ ((exists r, nth_error (sc_rules sc) (im_rule m) = Some r /\ rule_multipass r = true) /\
         exists t, part_at c (im_start m) (im_end m) t /\ In t x).
Proof.
  induction ms as [|m ms IH]; intros Hg.
  - exists []. split; [reflexivity|]. intros m. simpl. tauto.
  - destruct IH as (ms1 & E1 & H1). { intros; apply Hg; right; auto. }
    cbn [multipass_retain].
    destruct (Hg m (or_introl eq_refl)) as ((r & Er & _) & _ & (t & Ht) & _).
    rewrite Er. cbn [unwrap bind].
    destruct (rule_multipass r) eqn:Hr.
    + rewrite (proj2 (slice_part c (im_start m) (im_end m) t) Ht). cbn [bind]. rewrite E1. cbn [bind].
      eexists; split; [reflexivity|]. intros m'.
      destruct (excluded_contains x t) eqn:Hc; simpl.
      * apply excluded_contains_in in Hc. rewrite H1. split.
        -- intros [A B]. auto.
        -- intros [[<-|A] B]; auto. exfalso. apply B. split; [eauto|]. exists t. auto.
      * rewrite H1. split.
        -- intros [<-|[A B]]; [|auto]. split; auto. intros (_ & t' & Ht' & Hin).
           rewrite (part_at_unique _ _ _ _ _ Ht' Ht) in Hin.
           apply excluded_contains_in in Hin. congruence.
        -- intros [[<-|A] B]; auto.
    + cbn [bind]. rewrite E1. cbn [bind]. eexists; split; [reflexivity|]. intros m'. simpl.
      rewrite H1. split.
      * intros [<-|[A B]]; [|auto]. split; auto. intros ((r' & Er' & Hr') & _). congruence.
      * intros [[<-|A] B]; auto.
Qed.

Lemma nth_error_in_range : forall A (l : list A) i a, nth_error l i = Some a -> i < length l.
Proof. intros. apply nth_error_Some. congruence. Qed.

Lemma rewritten_same : forall cs g, (forall u, In u cs -> cut_new u = cut_old u) ->
  rewritten g cs = original g cs.
Proof.
  intros cs g H. unfold rewritten, original. f_equal.
  induction cs as [|u cs IH]; simpl; auto.
  rewrite (H u) by (left; reflexivity). rewrite IH; auto. intros; apply H; right; auto.
Qed.

Lemma process_ok : forall ims : list (internal_match E),
  (forall k, In k (map key ims) <-> candidate sc fs blocked p c k) ->
  (forall m, In m ims -> good_match m) ->
  exists c' mutated outs,
    process_string h srt sc x p ims c = Ret (c', mutated, outs) /\
    (mutated = false -> c' = c) /\
    string_scanned sc fs blocked E w h strs p c c' outs.
Proof.
  intros ims Hk Hg.
  assert (Hms1 : exists ms1, (if sc_multipass sc then multipass_retain (sc_rules sc) x c ims else Ret ims) = Ret ms1 /\
    (forall m, In m ms1 -> In m ims) /\
    (forall k, In k (map key ms1) <-> candidate sc fs blocked p c k /\ ~ suppressed sc fs blocked strs c k)).
  { destruct (sc_multipass sc) eqn:Hmp.
    - destruct (multipass_ok ims Hg) as (ms1 & E1 & H1). exists ms1. split; [exact E1|].
      split; [intros m Hm; apply H1 in Hm; tauto|]. intros k. rewrite <- Hk, !in_map_iff. split.
      + intros (m & <- & Hm). apply H1 in Hm as [A B]. split; [eauto|].
        unfold suppressed, key. intros (_ & R & t & Ht & Hfe). apply B. split; [exact R|].
        exists t. split; auto. apply Hx; auto.
      + intros ((m & <- & Hm) & B). exists m. split; auto. apply H1. split; auto.
        intros (R & t & Ht & Hin). apply B. unfold suppressed, key. split; auto. split; auto.
        exists t. split; auto. apply Hx; auto.
    - exists ims. split; [reflexivity|]. split; auto. intros k. rewrite Hk. split; [|tauto].
      intros H. split; auto. destruct k as [[i a] b]. intros (H' & _). congruence. }
  destruct Hms1 as (ms1 & E1 & Hsub & Hk1). unfold process_string. rewrite E1. cbn [bind].
  destruct (sort_and_remove_spec (sc_rules sc) srt ms1 Hsrt) as (out & E2 & Hres).
  { intros m Hm. apply Hsub, Hg in Hm. destruct Hm as ((r & Er & _) & _). eapply nth_error_in_range; eauto. }
  { intros m Hm. apply Hsub, Hg in Hm. apply Hm. }
  rewrite E2. cbn [bind].
  assert (Hgo : forall m, In m out -> good_match m).
  { intros m Hm. apply Hg, Hsub. apply (rs_genuine _ _ _ Hres). exact Hm. }
  destruct (apply_spec E w h sc p c out Hshift) as (g0 & cs & os & Hc & E3 & L1 & L2 & Hrep).
  { intros m Hm. apply Hgo; auto. }
  { intros m Hm. apply Hgo; auto. }
  { intros m Hm. apply Hgo; auto. }
  { apply (resolved_separated ms1); auto. intros m Hm. apply Hg, Hsub; auto. }
  rewrite E3. cbn [bind fst snd].
  eexists _, _, _. split; [reflexivity|]. split.
  - intros Hnm. rewrite Hc. apply rewritten_same. intros u Hu.
    apply In_nth_error in Hu as (k & Hku).
    assert (Hlt : k < length out). { rewrite <- L1. eapply nth_error_in_range; eauto. }
    destruct (nth_error out k) as [m|] eqn:Hm; [|apply nth_error_None in Hm; lia].
    destruct (nth_error os k) as [o|] eqn:Ho; [|apply nth_error_None in Ho; lia].
    destruct (Hrep k m o Hm Ho) as (u' & Hu' & r & Er & _ & _ & Hnew & _).
    assert (u' = u) by congruence. subst u'. rewrite Hnew. apply redacted_none.
    assert (Hf : mutating_at (sc_rules sc) (im_rule m) = false).
    { destruct (mutating_at (sc_rules sc) (im_rule m)) eqn:Hmm; auto.
      assert (existsb (fun m0 : internal_match E => mutating_at (sc_rules sc) (im_rule m0)) out = true).
      { apply existsb_exists. exists m. split; auto. eapply nth_error_In; eauto. }
      congruence. }
    unfold mutating_at in Hf. rewrite Er in Hf. exact Hf.
  - exists ms1, out, g0, cs. split; [exact Hk1|]. split; [exact Hres|]. split; [exact Hc|].
    split; [reflexivity|]. split; [exact L1|]. split; [exact L2|].
    intros k m o Hm Ho. destruct (Hrep k m o Hm Ho) as (u & Hu & r & Er & H1 & H2 & Hnew & Ho').
    exists u, r. subst o. simpl. rewrite !nbytes_blen, blen_app. repeat (split; auto).
Qed.
End Content.

(* ---- the visit of all strings ---- *)
Definition entry := (path * str * list (internal_match E))%type.
Definition found_of (l : list entry) : list (path * list (internal_match E)) :=
  flat_map (fun t => match snd t with [] => [] | _ => [(fst (fst t), snd t)] end) l.
Definition pending (t : entry) : path * str * bool :=
  (fst t, match snd t with [] => false | _ => true end).

Lemma visit_all : forall fuel strs0 found x log,
  enough_fuel fuel strs0 -> (forall t, In t strs0 -> In t all) ->
  exists (l : list entry) x',
    foldM (visit_one (sc_wild sc) (sc_tree sc) n (visit_content fuel srt sc blocked)) strs0
          ((found, x), log)
    = Ret ((found ++ found_of l, x'), log ++ map pending l) /\
    map fst l = strs0 /\
    (forall t, In t l -> (forall k, In k (map key (snd t)) <-> candidate sc fs blocked (fst (fst t)) (snd (fst t)) k) /\
                         (forall m, In m (snd t) -> good_match (snd (fst t)) m)) /\
    (forall t, In t x' <-> In t x \/ found_excluded sc fs blocked strs0 t) /\
    (forall t, In t l -> Permutation (flat_map (cands_of (fst (fst t)) (snd (fst t))) (rules_p (fst (fst t))))
                                     (map key (snd t))).
Proof.
  intros fuel. induction strs0 as [|[p c] strs0 IH]; intros found x log Hf Hall.
  - exists [], x. simpl. rewrite !app_nil_r. split; [reflexivity|]. split; [reflexivity|].
    split; [intros t []|]. split; [|intros t []]. intros t. split; auto.
    intros [H|(i & r & p & c & [] & _)]; auto.
  - cbn [foldM]. unfold visit_one at 1. cbn [fst snd].
    destruct (visit_content_ok p c) with (fuel := fuel) (found := found) (x := x) as (ims & x1 & E1 & K1 & G1 & X1 & P1).
    { exists p. apply Hall. left; reflexivity. }
    { apply (Hf p c). left; reflexivity. }
    fold (rules_p p). fold (excl_p p). rewrite E1. cbn [bind fst snd].
    edestruct IH as (l & x' & E2 & K2 & G2 & X2 & P2). { intros q d H. apply (Hf q d). right; exact H. } { intros; apply Hall; right; auto. }
    rewrite E2. exists ((p, c, ims) :: l), x'. split; [|split; [|split; [|split]]].
    + unfold found_of. simpl. unfold pending at 2. simpl. rewrite <- !app_assoc. reflexivity.
    + simpl. congruence.
    + intros t [<-|Ht]; [simpl; auto|auto].
    + intros t. rewrite X2, X1. split.
      * intros [[H|(i & r & A1 & A2 & A3 & A4 & A5)]|(i & r & q & d & A0 & A)]; auto.
        -- right. exists i, r, p, c. repeat (split; auto). left; reflexivity.
        -- right. exists i, r, q, d. split; [right|]; auto.
      * intros [H|(i & r & q & d & [A0|A0] & A1 & A2 & A3 & A4 & A5)]; auto.
        -- inversion A0; subst. left. right. exists i, r. auto.
        -- right. exists i, r, q, d. repeat (split; auto).
    + intros t [<-|Ht]; [exact P1|auto].
Qed.

End Scan.

Section Event.
Variable I : event_impl.
Variable w : char -> nat.
Variable sc : scanner.
Variable fs : nat -> finder.
Variable blocked : list nat.
Variable srt : sorter.
Hypothesis Hshift : shifts_additive (ev_enc I) w.
Hypothesis Hindex : indices_additive (ev_enc I) w.
Hypothesis Hsrt : sorter_ok srt.
Variable e0 : ev_t I.
Variable strs : list (path * str).
Variable holds : ev_t I -> list (path * str * bool) -> Prop.
Hypothesis Hlaws : event_laws I e0 strs holds.
Variable h : hashers.
Variable x : excluded_set.
Hypothesis Hx : forall t, In t x <-> found_excluded sc fs blocked strs t.

Lemma process_all_ok : forall (l : list (entry (ev_enc I))) e done,
  (forall t, In t l -> (forall k, In k (map key (snd t)) <-> candidate sc fs blocked (fst (fst t)) (snd (fst t)) k) /\
                       (forall m, In m (snd t) -> good_match (ev_enc I) w sc (snd (fst t)) m)) ->
  NoDup (map (fun y => fst (fst y)) (done ++ map (pending (ev_enc I)) l)) ->
  holds e (done ++ map (pending (ev_enc I)) l) ->
  exists e' res,
    process_all I h srt sc x e (found_of (ev_enc I) l) = Ret (e', flat_map snd res) /\
    length res = length l /\
    holds e' (done ++ map (fun tr => (fst (fst (fst tr)), fst (snd tr), false)) (combine l res)) /\
    (forall t c' outs, In (t, (c', outs)) (combine l res) ->
       string_scanned sc fs blocked (ev_enc I) w h strs (fst (fst t)) (snd (fst t)) c' outs).
Proof.
  induction l as [|[[p c] ims] l IH]; intros e done Hl Hnd Hh.
  - exists e, []. simpl in *. split; [reflexivity|]. split; [reflexivity|]. split; [exact Hh|].
    intros t c' outs [].
  - destruct (Hl (p, c, ims) (or_introl eq_refl)) as [Hk Hg]. cbn [fst snd] in Hk, Hg.
    destruct (process_ok (ev_enc I) w sc fs blocked srt Hshift Hsrt p c h strs x Hx ims Hk Hg)
      as (c1 & mutated & outs1 & E1 & Hm1 & S1).
    assert (Hhead : exists e1,
      process_all I h srt sc x e (found_of (ev_enc I) ((p, c, ims) :: l)) =
      (let* r := process_all I h srt sc x e1 (found_of (ev_enc I) l) in
       Ret (fst r, outs1 ++ snd r)) /\
      holds e1 ((done ++ [(p, c1, false)]) ++ map (pending (ev_enc I)) l)).
    { destruct ims as [|m ims].
      - assert (c1 = c /\ outs1 = []) as [-> ->].
        { unfold process_string in E1. destruct (sc_multipass sc); cbn in E1;
            unfold sort_and_remove_overlapping_rules, check_rule_indices in E1; cbn in E1;
            destruct (Hsrt _ (overlap_compare (E := ev_enc I) (sc_rules sc)) [] (overlap_compare_preorder _)) as [P _];
            apply Permutation_nil in P; rewrite P in E1; cbn in E1;
            destruct (Hsrt _ (fun a b : internal_match (ev_enc I) => im_start a ?= im_start b) [] start_preorder) as [P' _];
            apply Permutation_nil in P'; rewrite P' in E1; cbn in E1; inversion E1; auto. }
        exists e. split.
        + unfold found_of at 1. simpl. fold (found_of (ev_enc I) l).
          destruct (process_all I h srt sc x e (found_of (ev_enc I) l)) as [[]| |]; reflexivity.
        + rewrite <- app_assoc. exact Hh.
      - exists (ev_set I e p c1 mutated). split.
        + unfold found_of at 1. simpl flat_map. cbn [app process_all].
          rewrite (el_get _ _ _ _ Hlaws e _ p c Hh).
          2:{ apply in_or_app. right. left. reflexivity. }
          cbn [bind]. rewrite E1. cbn [bind]. reflexivity.
        + rewrite <- app_assoc. simpl. apply (el_set _ _ _ _ Hlaws e done p c); auto. }
    destruct Hhead as (e1 & Ep & Hh1).
    destruct (IH e1 (done ++ [(p, c1, false)])) as (e' & res & E2 & L2 & H2 & S2).
    + intros t Ht. apply Hl. right; auto.
    + rewrite <- app_assoc. simpl. rewrite !map_app in *. simpl in *. exact Hnd.
    + exact Hh1.
    + exists e', ((c1, outs1) :: res). split; [eapply eq_trans; [exact Ep|]; rewrite E2; reflexivity|].
      split; [simpl; congruence|]. split.
      * rewrite <- app_assoc in H2. exact H2.
      * intros t c' outs [E3|Hin]; [|apply S2; auto]. inversion E3; subst. exact S1.
Qed.
End Event.

(* the main result about scan *)
Lemma scan_spec : forall I w sc fs blocked srt e strs holds h fuel,
  shifts_additive (ev_enc I) w -> indices_additive (ev_enc I) w ->
  sorter_ok srt -> scanner_meets sc fs strs -> event_laws I e strs holds -> enough_fuel fuel strs ->
  exists e' (res : list (str * list rule_match)),
    scan I fuel h srt sc blocked e = Ret (e', flat_map snd res) /\
    length res = length strs /\
    holds e' (map (fun tr => (fst (fst tr), fst (snd tr), false)) (combine strs res)) /\
    forall p c c' outs, In ((p, c), (c', outs)) (combine strs res) ->
      string_scanned sc fs blocked (ev_enc I) w h strs p c c' outs.
Proof.
  intros I w sc fs blocked srt e strs holds h fuel Hs Hi Hsrt Hm Hl Hf.
  unfold scan.
  assert (Hv : visit_string_rule_combinations (sc_tree sc) (length (sc_rules sc)) (sc_wild sc)
      (ev_ops I e) (visit_content (E := ev_enc I) fuel srt sc blocked) ([], []) =
      foldM (visit_one (sc_wild sc) (sc_tree sc) (length (sc_rules sc)) (visit_content fuel srt sc blocked)) strs (([], []), [])).
  { unfold sc_tree. rewrite <- (map_length rule_scope (sc_rules sc)).
    apply visit_scopes. apply (el_shows _ _ _ _ Hl). }
  rewrite Hv.
  destruct (visit_all (ev_enc I) w sc fs blocked srt Hi Hsrt strs Hm fuel strs [] [] [] Hf (fun t H => H))
    as (l & x & E1 & K1 & G1 & X1 & _).
  match type of E1 with ?l = _ =>
    match goal with |- context [foldM ?f strs ?s] => change (foldM f strs s) with l end end.
  rewrite E1. cbn [bind app].
  assert (Hlog : map fst (map (pending (ev_enc I)) l) = strs).
  { rewrite map_map. rewrite <- K1. apply map_ext. intros; reflexivity. }
  destruct (process_all_ok I w sc fs blocked srt Hs Hsrt e strs holds Hl h x) with (l := l) (e := ev_visited I e (map (pending (ev_enc I)) l)) (done := @nil (path * str * bool))
    as (e' & res & E2 & L2 & H2 & S2).
  - intros t. rewrite X1. split; auto. intros [[]|]; auto.
  - exact G1.
  - simpl. rewrite <- (map_map fst fst). rewrite Hlog. apply (el_distinct _ _ _ _ Hl).
  - simpl. apply (el_visited _ _ _ _ Hl). exact Hlog.
  - exists e', res. split; [exact E2|]. split; [rewrite L2, <- K1, map_length; reflexivity|].
    assert (Hc : forall (l0 : list (entry (ev_enc I))) (r0 : list (str * list rule_match)),
       map (fun tr => (fst (fst (fst tr)), fst (snd tr), false)) (combine l0 r0) =
       map (fun tr => (fst (fst tr), fst (snd tr), false)) (combine (map fst l0) r0)).
    { induction l0 as [|t l0 IH]; intros [|r r0]; simpl; auto. f_equal. apply IH. }
    split.
    + rewrite <- K1, <- Hc. exact H2.
    + intros p c c' outs Hin. rewrite <- K1 in Hin.
      assert (exists t, In (t, (c', outs)) (combine l res) /\ fst t = (p, c)) as (t & Ht & Et).
      { clear -Hin. revert res Hin. induction l as [|t l IH]; intros [|r res] Hin; simpl in *; try contradiction.
        destruct Hin as [Ei|Hin].
        - exists t. split; [left|]; congruence.
        - destruct (IH _ Hin) as (t' & A & B). eauto. }
      specialize (S2 t c' outs Ht). rewrite Et in S2. exact S2.
Qed.
