(* Overlap resolution is greedy selection by priority *)
From Coq Require Import Lia.
From Verif Require Import Proofs.Text.
From Verif Require Export Spec.Overlap Spec.Sorting.

Section One.
Context {E : encoding}.
Variable rules : list rule.
Implicit Types a b m o : internal_match E.

Lemma is_mutating_spec : forall x, is_mutating x = true <-> x <> ActNone.
Proof. intros []; simpl; split; intros H; try discriminate; auto; try contradiction. Qed.

Lemma mutating_at_spec : forall m, mutating_at rules (im_rule m) = true <-> mutates rules m.
Proof.
  intros m. unfold mutating_at, mutates.
  destruct (nth_error rules (im_rule m)) as [r|].
  - rewrite is_mutating_spec. split.
    + intros H. exists r. auto.
    + intros (r' & H & H'). inversion H; subst; auto.
  - split; [discriminate|]. intros (r' & H & _). discriminate.
Qed.
Lemma mutating_at_false : forall m, mutating_at rules (im_rule m) = false <-> ~ mutates rules m.
Proof.
  intros m. rewrite <- mutating_at_spec. destruct (mutating_at rules (im_rule m)); split; congruence.
Qed.

Definition nonempty m := im_start m < im_end m.

Lemma overlap_compare_gt : forall a b, nonempty a -> nonempty b ->
  overlap_compare rules a b = Gt <-> outranks rules a b.
Proof.
  intros a b Ha Hb. unfold nonempty in *.
  unfold overlap_compare, outranks, rev_cmp, im_len.
  rewrite <- !mutating_at_spec.
  destruct (mutating_at rules (im_rule a)), (mutating_at rules (im_rule b)); simpl;
    destruct (Nat.compare_spec (im_start a) (im_start b)); simpl;
    destruct (Nat.compare_spec (im_end a - im_start a) (im_end b - im_start b)); simpl;
    destruct (Nat.compare_spec (im_rule a) (im_rule b)); simpl;
    split; intros H'; try discriminate; try reflexivity; try (exfalso; intuition (try discriminate; try lia); fail);
    intuition (try discriminate; try lia).
Qed.

Lemma overlap_compare_eq : forall a b, nonempty a -> nonempty b ->
  overlap_compare rules a b = Eq <-> key a = key b.
Proof.
  intros a b Ha Hb. unfold nonempty in *. unfold overlap_compare, key, rev_cmp, im_len.
  split.
  - destruct (mutating_at rules (im_rule a)), (mutating_at rules (im_rule b)); simpl; try discriminate;
    destruct (Nat.compare_spec (im_start a) (im_start b)); simpl; try discriminate;
    destruct (Nat.compare_spec (im_end a - im_start a) (im_end b - im_start b)); simpl; try discriminate;
    destruct (Nat.compare_spec (im_rule a) (im_rule b)); simpl; try discriminate;
    intros _; assert (im_end a = im_end b) by lia; congruence.
  - intros H'. inversion H' as [[H1 H2 H3]]. rewrite H1, H2, H3.
    rewrite !Nat.compare_refl. destruct (mutating_at rules (im_rule b)); reflexivity.
Qed.

Lemma comp_opp_bool : forall x y, compare_bool y x = CompOpp (compare_bool x y).
Proof. intros [] []; reflexivity. Qed.
Lemma then_opp : forall x y, then_cmp (CompOpp x) (CompOpp y) = CompOpp (then_cmp x y).
Proof. intros [] []; reflexivity. Qed.

Lemma overlap_compare_preorder : total_preorder (@overlap_compare E rules).
Proof.
  split.
  - intros a b. unfold overlap_compare, rev_cmp.
    rewrite (comp_opp_bool (mutating_at rules (im_rule a))).
    rewrite (Nat.compare_antisym (im_start a) (im_start b)).
    rewrite (Nat.compare_antisym (im_len a) (im_len b)).
    rewrite (Nat.compare_antisym (im_rule a) (im_rule b)).
    rewrite !then_opp. reflexivity.
  - intros a b c. unfold overlap_compare, rev_cmp.
    destruct (mutating_at rules (im_rule a)), (mutating_at rules (im_rule b)),
      (mutating_at rules (im_rule c)); simpl; try congruence;
    destruct (Nat.compare_spec (im_start a) (im_start b)),
      (Nat.compare_spec (im_start b) (im_start c)),
      (Nat.compare_spec (im_start a) (im_start c)); simpl; try congruence; try lia;
    destruct (Nat.compare_spec (im_len a) (im_len b)),
      (Nat.compare_spec (im_len b) (im_len c)),
      (Nat.compare_spec (im_len a) (im_len c)); simpl; try congruence; try lia;
    destruct (Nat.compare_spec (im_rule a) (im_rule b)),
      (Nat.compare_spec (im_rule b) (im_rule c)),
      (Nat.compare_spec (im_rule a) (im_rule c)); simpl; try congruence; try lia.
Qed.

Lemma start_preorder : total_preorder (fun a b : internal_match E => im_start a ?= im_start b).
Proof.
  split.
  - intros a b. apply Nat.compare_antisym.
  - intros a b c. rewrite !Nat.compare_le_iff. lia.
Qed.

Lemma outranks_irrefl : forall a b, key a = key b -> ~ outranks rules a b.
Proof.
  intros a b K H. inversion K as [[K1 K2 K3]]. unfold outranks, mutates in H.
  rewrite K1, K2, K3 in H. intuition (try lia).
Qed.
Lemma outranks_trans : forall a b c, outranks rules a b -> outranks rules b c -> outranks rules a c.
Proof.
  intros a b c. unfold outranks. rewrite <- !mutating_at_spec.
  destruct (mutating_at rules (im_rule a)), (mutating_at rules (im_rule b)),
    (mutating_at rules (im_rule c)); intuition (try discriminate; try lia).
Qed.
Lemma outranks_key : forall o a b, key a = key b -> outranks rules o a -> outranks rules o b.
Proof.
  intros o a b K H. inversion K as [[K1 K2 K3]]. unfold outranks, mutates in *.
  rewrite <- K1, <- K2, <- K3. exact H.
Qed.
Lemma outranks_key_l : forall o a b, key a = key b -> outranks rules a o -> outranks rules b o.
Proof.
  intros o a b K H. inversion K as [[K1 K2 K3]]. unfold outranks, mutates in *.
  rewrite <- K1, <- K2, <- K3. exact H.
Qed.
Lemma overlaps_key : forall o a b, key a = key b -> overlaps o a -> overlaps o b.
Proof.
  intros o a b K H. inversion K as [[K1 K2 K3]]. unfold overlaps in *.
  rewrite <- K2, <- K3. exact H.
Qed.
Lemma overlaps_sym : forall a b, overlaps a b -> overlaps b a.
Proof. intros a b (i & H1 & H2). exists i; auto. Qed.

Lemma overlaps_test : forall a b, nonempty a -> nonempty b ->
  overlaps a b <-> im_start a < im_end b /\ im_start b < im_end a.
Proof.
  unfold nonempty. intros a b Ha Hb. split.
  - intros (i & H1 & H2). lia.
  - intros [H1 H2]. exists (Nat.max (im_start a) (im_start b)). lia.
Qed.

(* order in which matches are popped *)
Definition before a b := outranks rules a b \/ key a = key b.

Lemma before_of_cmp : forall a b, nonempty a -> nonempty b ->
  overlap_compare rules b a <> Gt -> before a b.
Proof.
  intros a b Ha Hb H. unfold before.
  rewrite <- (overlap_compare_gt a b Ha Hb), <- (overlap_compare_eq a b Ha Hb).
  rewrite (tp_opp _ overlap_compare_preorder a b) in H.
  destruct (overlap_compare rules a b); auto. contradiction.
Qed.

Lemma before_mutates : forall a b, before a b -> mutates rules b -> mutates rules a.
Proof.
  intros a b [[[H1 H2]|[H1 H2]]|H] Hb.
  - contradiction.
  - tauto.
  - inversion H as [[K1 K2 K3]]. unfold mutates in *. rewrite K1. exact Hb.
Qed.
Lemma before_start : forall a b, before a b -> mutates rules b -> im_start a <= im_start b.
Proof.
  intros a b [[[H1 H2]|[H1 H2]]|H] Hb.
  - contradiction.
  - lia.
  - inversion H. lia.
Qed.

Definition disjoint_list (l : list (internal_match E)) : Prop :=
  ForallOrdPairs (fun a b => ~ overlaps a b) l.

Lemma retain_loop_spec : forall l R,
  (forall m, In m (R ++ l) -> nonempty m) ->
  StronglySorted before l ->
  (forall r m, In r R -> In m l -> before r m) ->
  disjoint_list R ->
  (forall hd t, R = hd :: t -> (forall r, In r R -> mutates rules r) ->
     forall r, In r R -> im_end r <= im_end hd) ->
  let out := retain_loop rules R l in
  disjoint_list out /\
  (forall o, In o out -> In o R \/ In o l) /\
  (forall r, In r R -> In r out) /\
  (forall m, In m l -> In m out \/ exists o, In o out /\ before o m /\ overlaps o m).
Proof.
  induction l as [|m l IH]; intros R Hne Hs Hb Hd Hmax out.
  - simpl in out. subst out. repeat split; auto. intros m [].
  - assert (Hnm : nonempty m) by (apply Hne, in_or_app; right; left; reflexivity).
    assert (HnR : forall r, In r R -> nonempty r) by (intros; apply Hne, in_or_app; auto).
    inversion Hs as [|? ? Hs' Hf]; subst.
    set (keep := if mutating_at rules (im_rule m) then
        match R with
        | last :: _ => negb (im_start m <? im_end last)
        | [] => true
        end
      else
        forallb (fun r => negb ((im_start r <? im_end m) && (im_start m <? im_end r))) R).
    assert (Hout : out = retain_loop rules (if keep then m :: R else R) l) by reflexivity.
    assert (Hkeep : keep = true <-> forall r, In r R -> ~ overlaps r m).
    { unfold keep. destruct (mutating_at rules (im_rule m)) eqn:Hmm.
      - apply mutating_at_spec in Hmm.
        assert (HRm : forall r, In r R -> mutates rules r).
        { intros r Hr. eapply before_mutates; eauto. apply Hb; auto. left; reflexivity. }
        destruct R as [|hd t].
        + split; [intros _ r []|reflexivity].
        + rewrite negb_true_iff, Nat.ltb_ge. split.
          * intros Hle r Hr. pose proof (Hmax hd t eq_refl HRm r Hr).
            rewrite overlaps_test by auto. lia.
          * intros Hno. specialize (Hno hd (or_introl eq_refl)).
            assert (Hsl : im_start hd <= im_start m).
            { apply before_start; auto. apply Hb; left; reflexivity. }
            rewrite overlaps_test in Hno by (auto; apply HnR; left; reflexivity).
            unfold nonempty in Hnm. lia.
      - rewrite forallb_forall. split.
        + intros H r Hr. specialize (H r Hr). rewrite overlaps_test by auto.
          rewrite negb_true_iff, andb_false_iff, !Nat.ltb_ge in H. lia.
        + intros H r Hr. specialize (H r Hr). rewrite overlaps_test in H by auto.
          rewrite negb_true_iff, andb_false_iff, !Nat.ltb_ge. lia. }
    destruct (IH (if keep then m :: R else R)) as (A1 & A2 & A3 & A4).
    + intros x Hx. apply Hne. destruct keep; simpl in Hx |- *;
        rewrite ?in_app_iff in *; simpl in *; intuition.
    + exact Hs'.
    + intros r x Hr Hx. destruct keep; simpl in Hr.
      * destruct Hr as [<-|Hr]; [rewrite Forall_forall in Hf; auto|].
        apply Hb; auto. right; auto.
      * apply Hb; auto. right; auto.
    + destruct keep eqn:K; [|exact Hd]. constructor; [|exact Hd].
      apply Forall_forall. intros r Hr Ho. apply overlaps_sym in Ho.
      apply (proj1 Hkeep eq_refl r Hr Ho).
    + destruct keep eqn:K; [|exact Hmax].
      intros hd t Heq Hall r Hr. inversion Heq; subst hd t.
      destruct Hr as [<-|Hr]; [lia|].
      pose proof (proj1 Hkeep eq_refl r Hr) as Hno.
      rewrite overlaps_test in Hno by auto.
      assert (Hmm : mutates rules m) by (apply Hall; left; reflexivity).
      assert (im_start r <= im_start m).
      { apply before_start; auto. apply Hb; auto. left; reflexivity. }
      unfold nonempty in Hnm. lia.
    + rewrite <- Hout in A1, A2, A3, A4. split; [exact A1|]. split; [|split].
      * intros o Ho. apply A2 in Ho. destruct keep; simpl in *; intuition.
      * intros r Hr. apply A3. destruct keep; simpl; auto.
      * intros x [<-|Hx]; [|apply A4; exact Hx].
        destruct keep eqn:K.
        { left. apply A3. left; reflexivity. }
        right.
        assert (exists r, In r R /\ overlaps r m) as (r & Hr & Ho).
        { clear -Hkeep HnR Hnm.
          assert (H : ~ forall r, In r R -> ~ overlaps r m) by (intros H; apply Hkeep in H; discriminate).
          assert (Hdec : forall r, In r R -> overlaps r m \/ ~ overlaps r m).
          { intros r Hr. rewrite overlaps_test by auto. lia. }
          clear Hkeep HnR. induction R as [|r R IHR].
          - exfalso. apply H. intros r [].
          - destruct (Hdec r (or_introl eq_refl)) as [Ho|Ho].
            + exists r. split; [left; reflexivity|exact Ho].
            + destruct IHR as (r' & Hr' & Ho').
              * intros Hall. apply H. intros r' [<-|Hr']; auto.
              * intros r' Hr'. apply Hdec. right; auto.
              * exists r'. split; [right; auto|auto]. }
        exists r. split; [apply A3; exact Hr|]. split; [|exact Ho].
        apply Hb; auto. left; reflexivity.
Qed.

Lemma StronglySorted_rev : forall (R R' : internal_match E -> internal_match E -> Prop) l,
  StronglySorted R l -> (forall a b, In a l -> In b l -> R a b -> R' b a) ->
  StronglySorted R' (rev l).
Proof.
  intros R R' l H. induction H as [|x l Hs IH Hf]; intros HR; simpl.
  - constructor.
  - assert (Happ : forall (l1 : list (internal_match E)) y, StronglySorted R' l1 ->
        (forall z, In z l1 -> R' z y) -> StronglySorted R' (l1 ++ [y])).
    { induction l1 as [|z l1 IHl]; simpl; intros y H1 H2.
      - repeat constructor.
      - inversion H1 as [|? ? H4 H5]; subst. constructor.
        + apply IHl; auto.
        + apply Forall_forall. intros u Hu. apply in_app_or in Hu as [Hu|[<-|[]]].
          * rewrite Forall_forall in H5; auto.
          * apply H2; auto. }
    apply Happ.
    + apply IH. intros a b Ha Hb. apply HR; right; auto.
    + intros z Hz. apply in_rev in Hz. rewrite Forall_forall in Hf.
      apply HR; [left; reflexivity|right; exact Hz|auto].
Qed.

Lemma disjoint_perm : forall l l', Permutation l l' -> disjoint_list l -> disjoint_list l'.
Proof.
  intros l l' P. induction P; intros H; auto.
  - inversion H; subst. constructor.
    + eapply Permutation_Forall; eauto.
    + apply IHP; auto.
  - inversion H as [|? ? H1 H2]; subst. inversion H2 as [|? ? H3 H4]; subst.
    constructor.
    + inversion H1; subst. constructor; auto. intros Ho. apply overlaps_sym in Ho. contradiction.
    + constructor; auto. inversion H1; auto.
Qed.

Lemma disjoint_in : forall l a b, disjoint_list l -> In a l -> In b l -> a <> b -> ~ overlaps a b.
Proof.
  intros l a b H. induction H as [|x l Hf Hp IH]; intros Ha Hb Hne; [contradiction|].
  rewrite Forall_forall in Hf.
  destruct Ha as [Ha|Ha], Hb as [Hb|Hb].
  - congruence.
  - subst x. apply Hf; exact Hb.
  - subst x. intros Ho. apply overlaps_sym in Ho. apply (Hf a Ha). exact Ho.
  - apply IH; auto.
Qed.

Lemma disjoint_nth : forall l i j a b, disjoint_list l -> i <> j ->
  nth_error l i = Some a -> nth_error l j = Some b -> ~ overlaps a b.
Proof.
  intros l i j a b H. revert i j. induction H as [|x l Hf Hp IH]; intros i j Hij Ha Hb.
  - destruct i; discriminate.
  - rewrite Forall_forall in Hf. destruct i as [|i], j as [|j]; simpl in *.
    + contradiction.
    + inversion Ha; subst. apply Hf. eapply nth_error_In; eauto.
    + inversion Hb; subst. intros Ho. apply overlaps_sym in Ho.
      apply (Hf a); auto. eapply nth_error_In; eauto.
    + apply (IH i j); auto.
Qed.

Lemma sorted_strict : forall l, (forall m, In m l -> nonempty m) -> disjoint_list l ->
  StronglySorted (fun a b => (im_start a ?= im_start b) <> Gt) l ->
  StronglySorted (fun a b => im_start a < im_start b) l.
Proof.
  intros l Hne Hd H. induction H as [|x l Hs IH Hf]; [constructor|].
  inversion Hd; subst. constructor.
  - apply IH; auto. intros; apply Hne; right; auto.
  - rewrite Forall_forall in *. intros y Hy.
    specialize (Hf y Hy). specialize (H1 y Hy).
    rewrite overlaps_test in H1 by (apply Hne; simpl; auto).
    apply Nat.compare_le_iff in Hf.
    assert (nonempty x) by (apply Hne; left; reflexivity).
    assert (nonempty y) by (apply Hne; right; auto).
    unfold nonempty in *. lia.
Qed.

Lemma sort_and_remove_spec : forall srt (ms : list (internal_match E)),
  sorter_ok srt ->
  (forall m, In m ms -> im_rule m < length rules) ->
  (forall m, In m ms -> nonempty m) ->
  exists out, sort_and_remove_overlapping_rules srt rules ms = Ret out /\ resolved rules ms out.
Proof.
  intros srt ms Hsrt Hr Hne. unfold sort_and_remove_overlapping_rules.
  assert (Hc : check_rule_indices rules ms = Ret tt).
  { unfold check_rule_indices.
    assert (forallb (fun m => im_rule m <? length rules) ms = true) as ->; [|reflexivity].
    apply forallb_forall. intros m Hm. apply Nat.ltb_lt. auto. }
  rewrite Hc. cbn [bind]. eexists; split; [reflexivity|].
  set (sorted := srt _ (overlap_compare rules) ms).
  destruct (Hsrt _ (overlap_compare rules) ms overlap_compare_preorder) as [P1 S1].
  fold sorted in P1, S1.
  assert (Hin : forall m, In m (rev sorted) <-> In m ms).
  { intros m. rewrite <- in_rev. split; intro H; [apply (Permutation_in m (Permutation_sym P1) H)|apply (Permutation_in m P1 H)]. }
  assert (Hpop : StronglySorted before (rev sorted)).
  { eapply StronglySorted_rev; [exact S1|]. intros a b Ha Hb Hab.
    apply before_of_cmp; auto; apply Hne, Hin; apply in_rev; rewrite rev_involutive; auto. }
  destruct (retain_loop_spec (rev sorted) []) as (A1 & A2 & _ & A4); auto.
  { intros m Hm. apply Hne, Hin. exact Hm. }
  { intros r m []. }
  { constructor. }
  { intros hd t Heq. discriminate. }
  set (R := retain_loop rules [] (rev sorted)) in *.
  destruct (Hsrt _ (fun a b : internal_match E => im_start a ?= im_start b) (rev R) start_preorder)
    as [P2 S2].
  set (out := srt _ _ (rev R)) in *.
  assert (HP : Permutation R out).
  { eapply Permutation_trans; [apply Permutation_rev|exact P2]. }
  assert (Hio : forall o, In o out <-> In o R).
  { intros o. split; intro H; [apply (Permutation_in o (Permutation_sym HP) H)|apply (Permutation_in o HP H)]. }
  assert (Hd : disjoint_list out) by (eapply disjoint_perm; eauto).
  assert (Hgen : forall o, In o out -> In o ms).
  { intros o Ho. apply Hio in Ho. apply A2 in Ho as [[]|Ho]. apply Hin; auto. }
  assert (Hno : forall o, In o out -> nonempty o) by (intros; apply Hne; auto).
  split.
  - exact Hgen.
  - apply sorted_strict; auto.
  - intros i j a b Hij Ha Hb. eapply disjoint_nth; eauto.
  - intros m Hm. split.
    + intros (o & Ho & K) (o' & Ho' & Hout & Hov).
      assert (Hne' : o' <> o).
      { intros ->. apply (outranks_irrefl o m K Hout). }
      apply (disjoint_in out o' o Hd Ho' Ho Hne').
      eapply overlaps_key; [symmetry; exact K|exact Hov].
    + intros Hnone. apply Hin in Hm. destruct (A4 m Hm) as [Ho|(o & Ho & [Hb|Hb] & Hov)].
      * exists m. split; [apply Hio; exact Ho|reflexivity].
      * exfalso. apply Hnone. exists o. split; [apply Hio; exact Ho|auto].
      * exists o. split; [apply Hio; exact Ho|exact Hb].
Qed.

(* The specification determines the reported keys. *)
Definition outranksb a b : bool :=
  match overlap_compare rules a b with Gt => true | _ => false end.

Lemma filter_length_le : forall (f g : internal_match E -> bool) l,
  (forall x, In x l -> f x = true -> g x = true) ->
  length (filter f l) <= length (filter g l).
Proof.
  induction l as [|x l IH]; intros H; simpl; [lia|].
  assert (length (filter f l) <= length (filter g l)) by (apply IH; intros; apply H; simpl; auto).
  destruct (f x) eqn:F.
  - rewrite (H x); simpl; auto; lia.
  - destruct (g x); simpl; lia.
Qed.
Lemma filter_length_lt : forall (f g : internal_match E -> bool) l y,
  (forall x, In x l -> f x = true -> g x = true) ->
  In y l -> f y = false -> g y = true ->
  length (filter f l) < length (filter g l).
Proof.
  induction l as [|x l IH]; intros y H Hy Hf Hg; simpl; [contradiction|].
  assert (length (filter f l) <= length (filter g l)).
  { apply filter_length_le. intros; apply H; simpl; auto. }
  destruct Hy as [<-|Hy].
  - rewrite Hf, Hg. simpl. lia.
  - assert (length (filter f l) < length (filter g l)).
    { apply (IH y); auto. intros; apply H; simpl; auto. }
    destruct (f x) eqn:F.
    + rewrite (H x); simpl; auto; lia.
    + destruct (g x); simpl; lia.
Qed.

Lemma resolved_unique_in : forall ms ms' out out',
  (forall m, In m ms -> nonempty m) ->
  (forall m, In m ms' -> nonempty m) ->
  (forall k, In k (map key ms) <-> In k (map key ms')) ->
  resolved rules ms out -> resolved rules ms' out' ->
  forall n m, In m ms -> length (filter (fun x => outranksb x m) ms) <= n ->
    (In (key m) (map key out) <-> In (key m) (map key out')).
Proof.
  intros ms ms' out out' Hne Hne' Hk H H'.
  assert (Hin : forall m, In m ms -> exists m', In m' ms' /\ key m' = key m).
  { intros m Hm. assert (K : In (key m) (map key ms')) by (apply Hk, in_map; auto).
    apply in_map_iff in K as (m' & K1 & K2). eauto. }
  assert (Hin' : forall m, In m ms' -> exists m', In m' ms /\ key m' = key m).
  { intros m Hm. assert (K : In (key m) (map key ms)) by (apply Hk, in_map; auto).
    apply in_map_iff in K as (m' & K1 & K2). eauto. }
  assert (Hlt : forall n o m, In o ms -> In m ms -> outranks rules o m ->
    length (filter (fun x => outranksb x m) ms) <= S n ->
    length (filter (fun x => outranksb x o) ms) <= n).
  { intros n o m Ho Hm Hom Hl.
    assert (length (filter (fun x => outranksb x o) ms) <
            length (filter (fun x => outranksb x m) ms)); [|lia].
    apply filter_length_lt with (y := o).
    - intros x Hx. unfold outranksb.
      destruct (overlap_compare rules x o) eqn:C; try discriminate. intros _.
      apply overlap_compare_gt in C; auto.
      assert (overlap_compare rules x m = Gt) as ->; [|reflexivity].
      apply overlap_compare_gt; auto. eapply outranks_trans; eauto.
    - exact Ho.
    - unfold outranksb. destruct (overlap_compare rules o o) eqn:C; auto.
      apply overlap_compare_gt in C; auto. exfalso. apply (outranks_irrefl o o eq_refl C).
    - unfold outranksb. assert (overlap_compare rules o m = Gt) as ->; [|reflexivity].
      apply overlap_compare_gt; auto. }
  assert (HA : forall m, In m ms -> (In (key m) (map key out) <->
              ~ exists o, In o out /\ outranks rules o m /\ overlaps o m)).
  { intros m Hm. rewrite <- (rs_iff _ _ _ H m Hm), in_map_iff. firstorder. }
  assert (HB : forall m m', In m' ms' -> key m' = key m -> (In (key m) (map key out') <->
              ~ exists o, In o out' /\ outranks rules o m /\ overlaps o m)).
  { intros m m' Hm' Km. rewrite in_map_iff.
    split.
    - intros (o & Ho1 & Ho2). intros (o' & Q1 & Q2 & Q3).
      apply (proj1 (rs_iff _ _ _ H' m' Hm')).
      + exists o. split; [exact Ho2|congruence].
      + exists o'. split; [exact Q1|]. split.
        * eapply outranks_key; [symmetry; exact Km|exact Q2].
        * eapply overlaps_key; [symmetry; exact Km|exact Q3].
    - intros Hno. destruct (proj2 (rs_iff _ _ _ H' m' Hm')) as (o & Ho1 & Ho2).
      + intros (o' & Q1 & Q2 & Q3). apply Hno. exists o'. split; [exact Q1|]. split.
        * eapply outranks_key; [exact Km|exact Q2].
        * eapply overlaps_key; [exact Km|exact Q3].
      + exists o. split; [congruence|exact Ho1]. }
  induction n as [|n IH]; intros m Hm Hl.
  - destruct (Hin m Hm) as (m' & Hm' & Km).
    assert (Hnone : forall o, In o ms -> ~ outranks rules o m).
    { intros o Ho Hom.
      assert (In o (filter (fun x => outranksb x m) ms)).
      { apply filter_In. split; auto. unfold outranksb.
        assert (overlap_compare rules o m = Gt) as ->; [|reflexivity].
        apply overlap_compare_gt; auto. }
      destruct (filter (fun x => outranksb x m) ms); [contradiction|simpl in Hl; lia]. }
    rewrite (HA m Hm), (HB m m' Hm' Km). split; intros _ (o & Ho & Q & _).
    + assert (Ho' := rs_genuine _ _ _ H' o Ho). destruct (Hin' o Ho') as (o2 & Ho2 & K2).
      apply (Hnone o2 Ho2). eapply outranks_key_l; [symmetry; exact K2|exact Q].
    + apply (Hnone o); auto. apply (rs_genuine _ _ _ H); auto.
  - destruct (Hin m Hm) as (m' & Hm' & Km).
    rewrite (HA m Hm), (HB m m' Hm' Km).
    assert (forall P Q : Prop, (P <-> Q) -> (~ P <-> ~ Q)) as Hneg by tauto.
    apply Hneg. split.
    + intros (o & Ho & Q & V). assert (Homs := rs_genuine _ _ _ H o Ho).
      assert (K : In (key o) (map key out')).
      { apply (IH o Homs); [apply (Hlt n o m); auto|]. apply in_map; auto. }
      apply in_map_iff in K as (o' & K1 & K2). exists o'. split; [exact K2|]. split.
      * eapply outranks_key_l; [symmetry; exact K1|exact Q].
      * apply overlaps_sym. eapply overlaps_key; [symmetry; exact K1|]. apply overlaps_sym; exact V.
    + intros (o & Ho & Q & V). assert (Homs := rs_genuine _ _ _ H' o Ho).
      destruct (Hin' o Homs) as (o2 & Ho2 & K2).
      assert (Q2 : outranks rules o2 m) by (eapply outranks_key_l; [symmetry; exact K2|exact Q]).
      assert (K : In (key o2) (map key out)).
      { apply (IH o2 Ho2); [apply (Hlt n o2 m); auto|]. rewrite K2. apply in_map; auto. }
      apply in_map_iff in K as (o' & K3 & K4). exists o'. split; [exact K4|]. split.
      * eapply outranks_key_l; [symmetry; exact K3|exact Q2].
      * apply overlaps_sym. eapply overlaps_key; [symmetry; rewrite <- K2; rewrite K3; reflexivity|].
        apply overlaps_sym; exact V.
Qed.

(* strictly increasing starts: the list is determined by its set of keys *)
Lemma sorted_keys_unique : forall l l' : list (internal_match E),
  StronglySorted (fun a b => im_start a < im_start b) l ->
  StronglySorted (fun a b => im_start a < im_start b) l' ->
  (forall k, In k (map key l) <-> In k (map key l')) ->
  map key l = map key l'.
Proof.
  intros l l' H. revert l'. induction H as [|x l Hs IH Hf]; intros l' H' Hk.
  - destruct l' as [|y l']; [reflexivity|]. exfalso.
    apply (proj2 (Hk (key y))). left; reflexivity.
  - destruct l' as [|y l'].
    { exfalso. apply (proj1 (Hk (key x))). left; reflexivity. }
    inversion H' as [|? ? Hs' Hf']; subst. rewrite Forall_forall in Hf, Hf'.
    assert (Hxy : key x = key y).
    { assert (Hx : In (key x) (map key (y :: l'))) by (apply Hk; left; reflexivity).
      assert (Hy : In (key y) (map key (x :: l))) by (apply Hk; left; reflexivity).
      destruct Hx as [Hx|Hx]; [auto|]. destruct Hy as [Hy|Hy]; [auto|].
      apply in_map_iff in Hx as (u & U1 & U2). apply in_map_iff in Hy as (v & V1 & V2).
      specialize (Hf v V2). specialize (Hf' u U2).
      inversion U1. inversion V1. lia. }
    simpl. f_equal; [exact Hxy|]. apply IH; auto.
    assert (Hkx : forall z, In z l -> key z <> key x).
    { intros z Hz K. specialize (Hf z Hz). inversion K. lia. }
    assert (Hky : forall z, In z l' -> key z <> key y).
    { intros z Hz K. specialize (Hf' z Hz). inversion K. lia. }
    intros k. split; intros Hin.
    + assert (K : In k (map key (y :: l'))) by (apply Hk; right; auto).
      destruct K as [K|K]; auto. exfalso.
      apply in_map_iff in Hin as (z & Z1 & Z2). apply (Hkx z Z2). congruence.
    + assert (K : In k (map key (x :: l))) by (apply Hk; right; auto).
      destruct K as [K|K]; auto. exfalso.
      apply in_map_iff in Hin as (z & Z1 & Z2). apply (Hky z Z2). congruence.
Qed.

Lemma resolved_unique : forall ms ms' out out',
  (forall m, In m ms -> nonempty m) ->
  (forall m, In m ms' -> nonempty m) ->
  (forall k, In k (map key ms) <-> In k (map key ms')) ->
  resolved rules ms out -> resolved rules ms' out' ->
  map key out = map key out'.
Proof.
  intros ms ms' out out' Hne Hne' Hk H H'.
  apply sorted_keys_unique.
  - apply (rs_sorted _ _ _ H).
  - apply (rs_sorted _ _ _ H').
  - intros k. split; intros Hin.
    + apply in_map_iff in Hin as (o & <- & Ho).
      pose proof (rs_genuine _ _ _ H o Ho) as Hom.
      apply (resolved_unique_in ms ms' out out' Hne Hne' Hk H H' _ o Hom (le_n _)).
      apply in_map; auto.
    + apply in_map_iff in Hin as (o & <- & Ho).
      pose proof (rs_genuine _ _ _ H' o Ho) as Hom.
      assert (Hk' : forall k, In k (map key ms') <-> In k (map key ms)) by (intros; symmetry; apply Hk).
      apply (resolved_unique_in ms' ms out' out Hne' Hne Hk' H' H _ o Hom (le_n _)).
      apply in_map; auto.
Qed.
End One.
