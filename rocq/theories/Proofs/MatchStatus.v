(* The order of statuses, combination of statuses, and replacement of keywords *)
From Coq Require Import Lia.
From Verif Require Import Proofs.Text Proofs.Binary.
From Verif Require Export Spec.MatchValidation.

(* ---- the order of texts ---- *)
Lemma str_compare_refl : forall a, str_compare a a = Eq.
Proof. induction a as [|x a IH]; [reflexivity|]. simpl. rewrite N.compare_refl. exact IH. Qed.
Lemma str_compare_eq : forall a b, str_compare a b = Eq -> a = b.
Proof.
  induction a as [|x a IH]; intros [|y b] H; simpl in H; try discriminate; [reflexivity|].
  destruct (x ?= y)%N eqn:E; try discriminate. apply N.compare_eq in E. subst. f_equal. auto.
Qed.
Lemma str_compare_opp : forall a b, str_compare b a = CompOpp (str_compare a b).
Proof.
  induction a as [|x a IH]; intros [|y b]; simpl; try reflexivity.
  rewrite N.compare_antisym. destruct (x ?= y)%N; simpl; auto.
Qed.
Lemma str_compare_lt : forall a b, str_compare a b = Lt <-> text_before a b.
Proof.
  intros a b. split.
  - revert b. induction a as [|x a IH]; intros [|y b] H; simpl in H; try discriminate.
    + exact (tb_prefix [] y b).
    + destruct (x ?= y)%N eqn:E; try discriminate.
      * apply N.compare_eq in E. subst y. destruct (IH _ H) as [p y b'|p x' a' y b' Hlt].
        -- exact (tb_prefix (x :: p) y b').
        -- exact (tb_differ (x :: p) x' a' y b' Hlt).
      * exact (tb_differ [] x a y b E).
  - intros [p y b'|p x a' y b' Hlt].
    + induction p as [|c p IH]; [reflexivity|]. simpl. rewrite N.compare_refl. exact IH.
    + induction p as [|c p IH].
      * simpl. apply N.compare_lt_iff in Hlt. rewrite Hlt. reflexivity.
      * simpl. rewrite N.compare_refl. exact IH.
Qed.
Lemma str_compare_lt_trans : forall a b c, str_compare a b = Lt -> str_compare b c = Lt -> str_compare a c = Lt.
Proof.
  induction a as [|x a IH]; intros [|y b] [|z c] H1 H2; simpl in *; try discriminate; try reflexivity.
  destruct (x ?= y)%N eqn:E1; try discriminate; destruct (y ?= z)%N eqn:E2; try discriminate.
  - apply N.compare_eq in E1, E2. subst. rewrite N.compare_refl. eauto.
  - apply N.compare_eq in E1. subst. rewrite E2. reflexivity.
  - apply N.compare_eq in E2. subst. rewrite E1. reflexivity.
  - rewrite N.compare_lt_iff in E1, E2. assert (x < z)%N as E by lia. apply N.compare_lt_iff in E.
    rewrite E. reflexivity.
Qed.

(* ---- the order of statuses ---- *)
Lemma status_compare_gt : forall a b, status_compare a b = Gt <-> above a b.
Proof.
  intros a b. split.
  - destruct a; destruct b; cbn; intros H; try discriminate;
      solve [ apply above_error; [discriminate|intros; discriminate]
            | apply above_message, str_compare_lt; rewrite str_compare_opp, H; reflexivity
            | apply above_valid; discriminate
            | constructor ].
  - intros H. destruct H as [s Hs|e s H1 H2|e e' H| | |]; try reflexivity.
    + destruct s; try reflexivity. destruct (Hs eq_refl).
    + destruct s; try reflexivity; [destruct (H2 _ eq_refl)|destruct (H1 eq_refl)].
    + cbn. rewrite str_compare_opp. apply str_compare_lt in H. rewrite H. reflexivity.
Qed.
Lemma status_compare_opp : forall a b, status_compare b a = CompOpp (status_compare a b).
Proof. intros a b. destruct a; destruct b; cbn; try reflexivity. apply str_compare_opp. Qed.
Lemma status_compare_eq : forall a b, status_compare a b = Eq -> a = b.
Proof.
  intros a b H. destruct a; destruct b; cbn in H; try discriminate; try reflexivity.
  apply str_compare_eq in H. subst. reflexivity.
Qed.
Lemma above_trans : forall a b c, above a b -> above b c -> above a c.
Proof.
  intros a b c H1 H2. apply status_compare_gt. apply status_compare_gt in H1, H2.
  destruct a; destruct b; destruct c; cbn in *; try discriminate; try reflexivity.
  assert (forall x y, str_compare x y = Gt -> str_compare y x = Lt) as K
    by (intros x y E; rewrite str_compare_opp, E; reflexivity).
  apply K in H1, H2. rewrite str_compare_opp. rewrite (str_compare_lt_trans _ _ _ H2 H1). reflexivity.
Qed.
Lemma above_irrefl : forall a, ~ above a a.
Proof.
  intros a H. apply status_compare_gt in H. destruct a; cbn in H; try discriminate.
  rewrite str_compare_refl in H. discriminate.
Qed.
Lemma above_total : forall a b, a = b \/ above a b \/ above b a.
Proof.
  intros a b. destruct (status_compare a b) eqn:E.
  - left. apply status_compare_eq. exact E.
  - right. right. apply status_compare_gt. rewrite status_compare_opp, E. reflexivity.
  - right. left. apply status_compare_gt. exact E.
Qed.
Lemma above_total_not : forall a b, ~ above a b -> ~ above b a -> a = b.
Proof. intros a b H1 H2. destruct (above_total a b) as [E|[E|E]]; [exact E|destruct (H1 E)|destruct (H2 E)]. Qed.
Lemma not_above_trans : forall a b c, ~ above a b -> ~ above b c -> ~ above a c.
Proof.
  intros a b c H1 H2 H. destruct (above_total a b) as [<-|[E|E]]; [exact (H2 H)|exact (H1 E)|].
  exact (H2 (above_trans _ _ _ E H)).
Qed.

Lemma highest_unique : forall P s t, highest P s -> highest P t -> s = t.
Proof.
  intros P s t (H1 & H2) (H3 & H4).
  destruct (above_total s t) as [E|[E|E]]; [exact E|destruct (H4 _ H1 E)|destruct (H2 _ H3 E)].
Qed.
Lemma highest_iff : forall P Q s, (forall t, P t <-> Q t) -> highest P s -> highest Q s.
Proof. intros P Q s H (H1 & H2). split; [apply H; exact H1|]. intros t Ht. apply H2. apply H. exact Ht. Qed.

(* ---- merging ---- *)
Lemma merge_highest : forall a b, highest (fun s => s = a \/ s = b) (status_merge a b).
Proof.
  intros a b. unfold status_merge. destruct (status_compare b a) eqn:E.
  - apply status_compare_eq in E. subst. split; [auto|]. intros t [->| ->]; apply above_irrefl.
  - split; [auto|]. intros t [->| ->]; [apply above_irrefl|]. intros K. apply status_compare_gt in K. congruence.
  - apply status_compare_gt in E. split; [auto|]. intros t [->| ->]; [|apply above_irrefl].
    intros K. exact (above_irrefl _ (above_trans _ _ _ K E)).
Qed.
Lemma merge_comm : forall a b, status_merge a b = status_merge b a.
Proof.
  intros a b. eapply highest_unique; [apply merge_highest|].
  eapply highest_iff; [|apply merge_highest]. intros t. cbv beta. tauto.
Qed.
Lemma merge_list : forall l s, highest (fun t => t = s \/ In t l) (fold_left status_merge l s).
Proof.
  induction l as [|x l IH]; intros s; cbn [fold_left].
  - split; [auto|]. intros t [->|[]]. apply above_irrefl.
  - destruct (IH (status_merge s x)) as (H1 & H2). destruct (merge_highest s x) as (M1 & M2). split.
    + destruct H1 as [->|H1]; [|right; right; exact H1]. destruct M1 as [->| ->]; [auto|right; left; reflexivity].
    + intros t Ht. assert (~ above (status_merge s x) (fold_left status_merge l (status_merge s x))) as K
        by (apply H2; left; reflexivity).
      destruct Ht as [->|[<-|Ht]]; [| |apply H2; right; exact Ht].
      * eapply not_above_trans; [|exact K]. apply M2. auto.
      * eapply not_above_trans; [|exact K]. apply M2. auto.
Qed.
Lemma merge_assoc : forall a b c, status_merge (status_merge a b) c = status_merge a (status_merge b c).
Proof.
  intros a b c. eapply highest_unique.
  - exact (merge_list [b; c] a).
  - rewrite (merge_comm a (status_merge b c)). pose proof (merge_list [c; a] b) as H. cbn [fold_left] in H.
    eapply highest_iff; [|exact H]. intros t. cbn [In]. split; intros K; intuition.
Qed.
Lemma merge_same_elements : forall l1 l2 s, (forall t, In t l1 <-> In t l2) ->
  fold_left status_merge l1 s = fold_left status_merge l2 s.
Proof.
  intros l1 l2 s H. eapply highest_unique; [apply merge_list|]. eapply highest_iff; [|apply merge_list].
  intros t. cbv beta. rewrite H. tauto.
Qed.

(* ---- containment and replacement ---- *)
Lemma strip_prefix_some : forall p s r, strip_prefix p s = Some r <-> s = p ++ r.
Proof.
  induction p as [|x p IH]; intros s r; simpl.
  - split; [intros H; injection H as <-; reflexivity|intros ->; reflexivity].
  - destruct s as [|y s]; [split; discriminate|]. destruct (N.eqb_spec x y) as [->|Hne].
    + rewrite IH. split; [intros ->; reflexivity|intros H; injection H as ->; reflexivity].
    + split; [discriminate|intros H; injection H as <- _; destruct (Hne eq_refl)].
Qed.
Lemma str_starts_with_spec : forall p s : str, str_starts_with p s = true <-> exists r, s = p ++ r.
Proof.
  intros p s. unfold str_starts_with. destruct (strip_prefix p s) as [r|] eqn:E.
  - apply strip_prefix_some in E. split; eauto.
  - split; [discriminate|]. intros (r & H). apply strip_prefix_some in H. congruence.
Qed.
Lemma str_contains_spec : forall p s, str_contains p s = true <-> occurs p s.
Proof.
  intros p. induction s as [|c s IH]; cbn [str_contains]; rewrite orb_true_iff, str_starts_with_spec.
  - split.
    + intros [(r & H)|H]; [|discriminate]. exists [], r. exact H.
    + intros (a & b & H). left. exists b. symmetry in H. apply app_eq_nil in H as (-> & H). symmetry. exact H.
  - rewrite IH. split.
    + intros [(r & H)|(a & b & ->)]; [exists [], r; exact H|exists (c :: a), b; reflexivity].
    + intros ([|x a] & b & H); [left; exists b; exact H|]. injection H as -> H. right. exists a, b. exact H.
Qed.

Lemma replace_skip : forall p by_ a s, replace_from p by_ (length a) (a ++ s) = str_replace p by_ s.
Proof.
  intros p by_. induction a as [|c a IH]; intros s; [reflexivity|]. cbn [length app replace_from]. apply IH.
Qed.
Lemma replace_spec : forall p by_, p <> [] -> forall s, replaced p by_ s (str_replace p by_ s).
Proof.
  intros p by_ Hp. destruct p as [|c0 p]; [destruct (Hp eq_refl)|].
  assert (forall n s, length s <= n -> 
    replaced (c0 :: p) by_ s (str_replace (c0 :: p) by_ s)) as K.
  { induction n as [|n IH]; intros s Hn.
    - destruct s; [|simpl in Hn; lia].
      apply rep_none. intros (a & b & H). symmetry in H. apply app_eq_nil in H as (_ & H). discriminate.
    - destruct s as [|c s].
      { apply rep_none. intros (a & b & H). symmetry in H. apply app_eq_nil in H as (_ & H). discriminate. }
      unfold str_replace. cbn [replace_from]. destruct (str_starts_with (c0 :: p) (c :: s)) eqn:E.
      + apply str_starts_with_spec in E as (r & E). injection E as -> ->. cbn [length]. rewrite Nat.sub_succ, Nat.sub_0_r.
        rewrite replace_skip. change (c0 :: p ++ r) with ([] ++ (c0 :: p) ++ r).
        change (by_ ++ str_replace (c0 :: p) by_ r) with ([] ++ by_ ++ str_replace (c0 :: p) by_ r).
        apply rep_first; [intros; simpl; lia|].
        apply IH. cbn [length] in Hn. rewrite app_length in Hn. lia.
      + assert (replaced (c0 :: p) by_ s (str_replace (c0 :: p) by_ s)) as H by (apply IH; cbn [length] in Hn; lia).
        unfold str_replace in H. remember (replace_from (c0 :: p) by_ 0 s) as out eqn:Eo. clear Eo.
        inversion H as [s1 H1 E1 E2|a b t H1 H2 E1 E2].
        * subst s1 out. apply rep_none. intros (a & b & Hab).
          destruct a as [|x a]; [assert (str_starts_with (c0 :: p) (c :: s) = true) by (apply str_starts_with_spec; exists b; exact Hab); congruence|].
          injection Hab as -> Hab. apply H1. exists a, b. exact Hab.
        * change (c :: a ++ (c0 :: p) ++ b) with ((c :: a) ++ (c0 :: p) ++ b).
          change (c :: a ++ by_ ++ t) with ((c :: a) ++ by_ ++ t). apply rep_first; [|exact H2].
          intros a' b' Hab. destruct a' as [|x a'].
          { assert (str_starts_with (c0 :: p) (c :: s) = true) as K by (apply str_starts_with_spec; exists b'; rewrite <- E1; exact Hab).
            congruence. }
          cbn [app] in Hab. injection Hab as -> Hab. cbn [length]. apply le_n_S. exact (H1 _ _ Hab). }
  intros s. exact (K (length s) s (le_n _)).
Qed.

(* replacement is a function *)
Lemma replaced_unique : forall p by_ s t, replaced p by_ s t -> forall t', replaced p by_ s t' -> t = t'.
Proof.
  intros p by_ s t H. induction H as [s Hs|a b t Ha _ IH]; intros t' H'.
  - inversion H' as [|a b t2 Ha H2 E]; [reflexivity|]. destruct Hs. exists a, b. symmetry. exact E.
  - inversion H' as [s1 Hs E1|a2 b2 t2 Ha2 H2 E]; [destruct Hs; exists a, b; reflexivity|].
    assert (length a = length a2) as El by (apply Nat.le_antisymm; [eapply Ha; symmetry; exact E|eapply Ha2; exact E]).
    assert (a = a2 /\ p ++ b = p ++ b2) as (-> & Eb).
    { clear - El E. revert a2 El E. induction a as [|x a IH]; intros [|y a2] El E; simpl in El; try discriminate; [split; [reflexivity|symmetry; exact E]|].
      injection E as -> E. destruct (IH a2) as (-> & E'); [lia|exact E|]. split; [reflexivity|exact E']. }
    apply app_inv_head in Eb. subst b2. f_equal. f_equal. exact (IH _ H2).
Qed.
