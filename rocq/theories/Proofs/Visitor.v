(* The event visitor: its state is a function of the current path, and the rules it
   hands out are those of the specification *)
From Coq Require Import Lia.
From Verif Require Import Proofs.Text.
From Verif Require Export Proofs.Scopes.

Section Visitor.
Variable wild : bool.
Variable root : rule_tree.
Variable num_rules : nat.

Definition push_level (seg : segment) (l : list active_tree) : list active_tree :=
  flat_map (push_one wild seg) l.

(* active trees per depth, deepest first, for a path given in reverse *)
Fixpoint levels (rp : path) : list (list active_tree) :=
  match rp with
  | [] => [[ {| at_tree := root; at_wild := false |} ]]
  | s :: rp' => push_level s (hd [] (levels rp')) :: levels rp'
  end.

Definition nodes (rp : path) : list active_tree := concat (rev (levels rp)).
Definition bools0 : option bool_set := if wild then Some (bool_set_new num_rules) else None.

Definition state_at (p : path) : vstate := {|
  vs_nodes := nodes (rev p);
  vs_counts := map (@length _) (levels (rev p));
  vs_path := p;
  vs_bools := bools0
|}.

Lemma state_init : vstate_init root num_rules wild = state_at [].
Proof. reflexivity. Qed.

Lemma levels_ne : forall rp, exists l ls, levels rp = l :: ls.
Proof. intros [|s rp]; simpl; eauto. Qed.

Lemma nodes_cons : forall s rp, nodes (s :: rp) = nodes rp ++ push_level s (hd [] (levels rp)).
Proof.
  intros. unfold nodes. simpl. rewrite concat_app. simpl. rewrite app_nil_r. reflexivity.
Qed.

Lemma nodes_split : forall rp, exists pre, nodes rp = pre ++ hd [] (levels rp).
Proof.
  intros [|s rp].
  - exists []. reflexivity.
  - exists (nodes rp). rewrite nodes_cons. reflexivity.
Qed.

Lemma push_state : forall p s, push_segment wild s (state_at p) = Ret (state_at (p ++ [s])).
Proof.
  intros p s. unfold push_segment, state_at. cbn [vs_nodes vs_counts vs_path vs_bools].
  destruct (levels_ne (rev p)) as (l & ls & El).
  destruct (nodes_split (rev p)) as (pre & Ep).
  rewrite rev_app_distr. simpl rev. simpl app.
  rewrite nodes_cons, El in *. cbn [hd] in *. simpl map. cbn [hd_error unwrap bind].
  rewrite El. cbn [hd].
  rewrite Ep, app_length.
  assert (Hle : length l <=? length pre + length l = true) by (apply Nat.leb_le; lia).
  rewrite Hle.
  replace (length pre + length l - length l) with (length pre + 0) by lia.
  rewrite skipn_app, skipn_all2 by lia.
  replace (length pre + 0 - length pre) with 0 by lia. simpl skipn. simpl app.
  reflexivity.
Qed.

Lemma pop_state : forall p s, pop_segment (state_at (p ++ [s])) = Ret (state_at p).
Proof.
  intros p s. unfold pop_segment, state_at. cbn [vs_nodes vs_counts vs_path vs_bools].
  rewrite rev_app_distr. simpl rev. simpl app. simpl map.
  rewrite nodes_cons. rewrite removelast_last.
  rewrite app_length.
  match goal with |- context [firstn (?a + ?b - ?b) _] => replace (a + b - b) with (a + 0) by lia end.
  rewrite firstn_app_2. simpl firstn. rewrite app_nil_r. reflexivity.
Qed.

(* ---- which nodes are active ---- *)
Inductive rreach : path -> path -> bool -> Prop :=
| rr_nil : rreach [] [] false
| rr_keep : forall s rp rsp b, rreach rp rsp b -> b = false \/ is_index s = false ->
    rreach (s :: rp) (s :: rsp) false
| rr_del : forall i rp rsp b, wild = true -> rreach rp rsp b -> rreach (Index i :: rp) rsp true.

Lemma level_spec : forall rp a,
  In a (hd [] (levels rp)) <->
  exists rsp, rreach rp rsp (at_wild a) /\ tree_at root (rev rsp) = Some (at_tree a).
Proof.
  induction rp as [|s rp IH]; intros a; simpl.
  - split.
    + intros [<-|[]]. exists []. simpl. split; [constructor|reflexivity].
    + intros (rsp & H & E). inversion H; subst. simpl in E. inversion E. left.
      destruct a; simpl in *. congruence.
  - unfold push_level. rewrite in_flat_map. split.
    + intros (b & Hb & Ha). apply IH in Hb as (rsp & Hr & Et).
      unfold push_one in Ha. apply in_app_or in Ha as [Ha|Ha].
      * destruct (negb (at_wild b) || negb (is_index s)) eqn:Hc; [|contradiction].
        destruct (child_get (tree_children (at_tree b)) s) as [k|] eqn:Ek; [|contradiction].
        destruct Ha as [<-|[]]. simpl. exists (s :: rsp). split.
        -- eapply rr_keep; eauto. apply orb_prop in Hc as [Hc|Hc]; apply negb_true_iff in Hc; auto.
        -- simpl. rewrite tree_at_app, Et. simpl. rewrite Ek. reflexivity.
      * destruct (wild && is_index s) eqn:Hc; [|contradiction].
        apply andb_prop in Hc as [Hw Hi]. destruct s as [f|i]; [discriminate|].
        destruct Ha as [<-|[]]. simpl. exists rsp. split; [eapply rr_del; eauto|exact Et].
    + intros (rsp & Hr & Et). inversion Hr; subst.
      * simpl in Et. rewrite tree_at_app in Et.
        destruct (tree_at root (rev rsp0)) as [t0|] eqn:E0; [|discriminate]. simpl in Et.
        destruct (child_get (tree_children t0) s) as [k|] eqn:Ek; [|discriminate].
        inversion Et; subst k. exists {| at_tree := t0; at_wild := b |}. split.
        -- apply IH. exists rsp0. auto.
        -- unfold push_one. simpl. apply in_or_app. left.
           assert (Hc : negb b || negb (is_index s) = true).
           { match goal with K : _ \/ is_index s = false |- _ => destruct K as [->| ->] end; simpl; auto. apply orb_true_r. }
           rewrite Hc, Ek. left. destruct a; simpl in *; congruence.
      * exists {| at_tree := at_tree a; at_wild := b |}. split.
        -- apply IH. exists rsp. auto.
        -- unfold push_one. simpl. apply in_or_app. right.
           match goal with K : wild = true |- _ => rewrite K end. simpl. left.
           destruct a; simpl in *; congruence.
Qed.

Definition suffix_of (a b : path) : Prop := exists q, b = q ++ a.

Lemma nodes_spec : forall rp a,
  In a (nodes rp) <->
  exists rp1 rsp, suffix_of rp1 rp /\ rreach rp1 rsp (at_wild a) /\
                  tree_at root (rev rsp) = Some (at_tree a).
Proof.
  induction rp as [|s rp IH]; intros a.
  - unfold nodes. cbn [levels rev app concat].
    pose proof (level_spec [] a) as H. cbn [levels hd] in H. rewrite H. split.
    + intros (rsp & H1 & H2). exists [], rsp. split; [exists []; reflexivity|auto].
    + intros (rp1 & rsp & (q & Hq) & H1 & H2). symmetry in Hq. apply app_eq_nil in Hq as [_ ->].
      eauto.
  - rewrite nodes_cons, in_app_iff, IH.
    pose proof (level_spec (s :: rp) a) as H. cbn [levels hd] in H. rewrite H. split.
    + intros [(rp1 & rsp & (q & Hq) & H1 & H2)|(rsp & H1 & H2)].
      * exists rp1, rsp. split; [|auto]. exists (s :: q). simpl. congruence.
      * exists (s :: rp), rsp. split; [exists []; reflexivity|auto].
    + intros (rp1 & rsp & (q & Hq) & H1 & H2). destruct q as [|x q].
      * simpl in Hq. subst rp1. right. eauto.
      * simpl in Hq. inversion Hq; subst. left. exists rp1, rsp. split; [exists q; auto|auto].
Qed.

Lemma rreach_nonwild : wild = false -> forall rp rsp b, rreach rp rsp b -> rsp = rp /\ b = false.
Proof.
  intros Hw rp rsp b H. induction H; auto.
  - destruct IHrreach; subst; auto.
  - congruence.
Qed.

Lemma rreach_unwild : forall rp rsp b, rreach rp rsp b ->
  exists rp1, suffix_of rp1 rp /\ rreach rp1 rsp false.
Proof.
  intros rp rsp b H. induction H.
  - exists []. split; [exists []; reflexivity|constructor].
  - exists (s :: rp). split; [exists []; reflexivity|eapply rr_keep; eauto].
  - destruct IHrreach as (rp1 & (q & Hq) & H1). exists rp1. split; auto.
    exists (Index i :: q). simpl. congruence.
Qed.

Lemma skips_rreach : wild = true -> forall b p sp, skips b p sp ->
  forall rp rsp, rreach rp rsp b -> exists b', rreach (rev p ++ rp) (rev sp ++ rsp) b'.
Proof.
  intros Hw b p sp H. induction H; intros rp rsp Hr; simpl; rewrite <- ?app_assoc; simpl.
  - eauto.
  - apply IHskips. eapply rr_keep; eauto.
  - apply IHskips. eapply rr_keep; eauto.
  - apply IHskips. eapply rr_del; eauto.
Qed.

Lemma rreach_skips : forall rp rsp b, rreach rp rsp b ->
  forall p sp, skips b p sp -> skips false (rev rp ++ p) (rev rsp ++ sp).
Proof.
  intros rp rsp b H. induction H; intros p sp Hs; simpl; rewrite <- ?app_assoc; simpl; auto.
  - apply IHrreach. destruct s as [f|i].
    + apply skips_field; auto.
    + destruct H0 as [->|H0]; [|discriminate]. apply skips_index; auto.
  - apply IHrreach. apply skips_delete; auto.
Qed.

Lemma suffix_rev : forall rp p, suffix_of rp (rev p) <-> prefix_of (rev rp) p.
Proof.
  intros rp p. split.
  - intros (q & H). exists (rev q). rewrite <- rev_app_distr, <- H, rev_involutive. reflexivity.
  - intros (q & H). exists (rev q). rewrite H, rev_app_distr, rev_involutive. reflexivity.
Qed.

Lemma reach_covers : forall p sp,
  (exists rp1 b, suffix_of rp1 (rev p) /\ rreach rp1 (rev sp) b) <-> covers wild sp p.
Proof.
  intros p sp. unfold covers. destruct wild eqn:Hw.
  - split.
    + intros (rp1 & b & H1 & H2). apply suffix_rev in H1 as (q & ->).
      exists (rev rp1), q. split; [reflexivity|].
      pose proof (rreach_skips _ _ _ H2 [] [] (skips_nil b)) as H.
      rewrite !app_nil_r, rev_involutive in H. exact H.
    + intros (p1 & rest & -> & H).
      destruct (skips_rreach Hw false p1 sp H [] [] rr_nil) as (b & Hb).
      rewrite !app_nil_r in Hb. exists (rev p1), b. split; [|exact Hb].
      exists (rev rest). apply rev_app_distr.
  - split.
    + intros (rp1 & b & H1 & H2). apply rreach_nonwild in H2 as [H2 _]; auto.
      apply suffix_rev in H1. rewrite <- H2, rev_involutive in H1. exact H1.
    + intros H. exists (rev sp), false. split.
      * apply suffix_rev. rewrite rev_involutive. exact H.
      * assert (K : forall l, rreach l l false).
        { induction l; [constructor|]. eapply rr_keep; eauto. }
        apply K.
Qed.

Lemma covers_prefix : forall sp0 sp p, prefix_of sp0 sp -> covers wild sp p -> covers wild sp0 p.
Proof.
  intros sp0 sp p (r & ->) H. unfold covers in *. destruct wild.
  - destruct H as (p1 & rest & -> & H).
    assert (K : forall b x y, skips b x y -> forall a c, y = a ++ c ->
              exists x1 x2, x = x1 ++ x2 /\ skips b x1 a).
    { clear. intros b x y H. induction H; intros a c E.
      - symmetry in E. apply app_eq_nil in E as [-> ->]. exists [], []. split; auto. constructor.
      - destruct a as [|s a]; simpl in E.
        + exists [], (Field f :: p). split; auto. constructor.
        + inversion E; subst. destruct (IHskips a c eq_refl) as (x1 & x2 & -> & K).
          exists (Field f :: x1), x2. split; auto. constructor; auto.
      - destruct a as [|s a]; simpl in E.
        + exists [], (Index i :: p). split; auto. constructor.
        + inversion E; subst. destruct (IHskips a c eq_refl) as (x1 & x2 & -> & K).
          exists (Index i :: x1), x2. split; auto. constructor; auto.
      - destruct (IHskips a c E) as (x1 & x2 & -> & K).
        exists (Index i :: x1), x2. split; auto. constructor; auto. }
    destruct (K _ _ _ H sp0 r eq_refl) as (x1 & x2 & -> & K').
    exists x1, (x2 ++ rest). rewrite app_assoc. auto.
  - destruct H as (r' & ->). exists (r ++ r'). rewrite app_assoc. reflexivity.
Qed.

Lemma nodes_change : forall p c L, carries root c L ->
  (exists a, In a (nodes (rev p)) /\ In c (tree_changes (at_tree a))) <->
  (exists sp, In sp L /\ covers wild sp p).
Proof.
  intros p c L [H1 H2 H3]. split.
  - intros (a & Ha & Hc). apply nodes_spec in Ha as (rp1 & rsp & A & B & C).
    assert (Hh : has root (rev rsp) c) by (exists (at_tree a); auto).
    exists (rev rsp). split; [auto|]. apply reach_covers. exists rp1, (at_wild a).
    rewrite rev_involutive. auto.
  - intros (sp & Hin & Hcov). destruct (H2 sp Hin) as (sp0 & P0 & t & Et & Hc).
    apply (covers_prefix sp0) in Hcov; auto. apply reach_covers in Hcov as (rp1 & b & A & B).
    exists {| at_tree := t; at_wild := b |}. split; [|exact Hc].
    apply nodes_spec. exists rp1, (rev sp0). rewrite rev_involutive. auto.
Qed.

Lemma nodes_change_nonwild : forall p c,
  (exists a, In a (nodes (rev p)) /\ at_wild a = false /\ In c (tree_changes (at_tree a))) <->
  (exists a, In a (nodes (rev p)) /\ In c (tree_changes (at_tree a))).
Proof.
  intros p c. split.
  - intros (a & H1 & _ & H2). eauto.
  - intros (a & Ha & Hc). apply nodes_spec in Ha as (rp1 & rsp & (q & Hq) & B & C).
    destruct (rreach_unwild _ _ _ B) as (rp2 & (q2 & Hq2) & B2).
    exists {| at_tree := at_tree a; at_wild := false |}. split; [|auto].
    apply nodes_spec. exists rp2, rsp. split; [|auto].
    exists (q ++ q2). rewrite Hq, Hq2, app_assoc. reflexivity.
Qed.

Lemma is_excluded_spec : forall p i L, carries root (Remove i) L ->
  is_excluded (nodes (rev p)) i = true <-> exists sp, In sp L /\ covers wild sp p.
Proof.
  intros p i L H. rewrite <- (nodes_change p _ L H). unfold is_excluded.
  rewrite existsb_exists. split.
  - intros (a & Ha & Hc). exists a. split; auto.
    apply existsb_exists in Hc as ([j|j] & Hj & E); [discriminate|].
    apply Nat.eqb_eq in E. subst; auto.
  - intros (a & Ha & Hc). exists a. split; auto. apply existsb_exists.
    exists (Remove i). split; auto. apply Nat.eqb_refl.
Qed.

(* ---- the rules handed out ---- *)
Definition adds (a : active_tree) : list nat :=
  flat_map (fun c => match c with Add i => [i] | Remove _ => [] end) (tree_changes (at_tree a)).

Lemma adds_in : forall a i, In i (adds a) <-> In (Add i) (tree_changes (at_tree a)).
Proof.
  intros a i. unfold adds. rewrite in_flat_map. split.
  - intros ([j|j] & H1 & H2); simpl in H2; [|contradiction]. destruct H2 as [<-|[]]; auto.
  - intros H. exists (Add i). simpl. auto.
Qed.

Lemma foldM_app : forall A S (f : S -> A -> outcome S) l1 l2 s,
  foldM f (l1 ++ l2) s = bind (foldM f l1 s) (foldM f l2).
Proof.
  induction l1 as [|x l1 IH]; intros l2 s; simpl; [reflexivity|].
  destruct (f s x); simpl; auto.
Qed.

Lemma visit_changes_none : forall chs l,
  foldM visit_change chs (l, None) =
  Ret (l ++ flat_map (fun c => match c with Add i => [i] | Remove _ => [] end) chs, None).
Proof.
  induction chs as [|c chs IH]; intros l; simpl; [rewrite app_nil_r; reflexivity|].
  destruct c as [i|i]; simpl; rewrite IH.
  - rewrite <- app_assoc. reflexivity.
  - reflexivity.
Qed.

Lemma visit_nodes_none : forall ns l, (forall a, In a ns -> at_wild a = false) ->
  foldM visit_node ns (l, None) = Ret (l ++ flat_map adds ns, None).
Proof.
  induction ns as [|a ns IH]; intros l H; simpl; [rewrite app_nil_r; reflexivity|].
  unfold visit_node at 1. rewrite (H a) by (left; reflexivity).
  rewrite visit_changes_none. cbn [bind]. rewrite IH by (intros; apply H; right; auto).
  rewrite <- app_assoc. reflexivity.
Qed.

Definition tracks (l : list nat) (b : bool_set) : Prop :=
  NoDup l /\ length b = num_rules /\ forall i, nth_error b i = Some true <-> In i l.

Lemma set_nth_length : forall b i v, length (set_nth b i v) = length b.
Proof. induction b; intros [|i] v; simpl; auto. Qed.
Lemma set_nth_spec : forall b i v j, i < length b ->
  nth_error (set_nth b i v) j = if i =? j then Some v else nth_error b j.
Proof.
  induction b as [|x b IH]; intros [|i] v [|j] H; simpl in *; try lia; auto.
  apply IH. lia.
Qed.

Lemma tracks_add : forall l b i, tracks l b -> ~ In i l -> i < num_rules ->
  tracks (l ++ [i]) (set_nth b i true).
Proof.
  intros l b i (H1 & H2 & H3) Hn Hi. split; [|split].
  - rewrite <- (rev_involutive (l ++ [i])). apply NoDup_rev. rewrite rev_app_distr. simpl.
    constructor; [rewrite <- in_rev; auto|apply NoDup_rev; auto].
  - rewrite set_nth_length; auto.
  - intros j. rewrite set_nth_spec by lia. rewrite in_app_iff. simpl.
    destruct (i =? j) eqn:E.
    + apply Nat.eqb_eq in E. subst. split; auto.
    + apply Nat.eqb_neq in E. rewrite H3. intuition.
Qed.

Lemma visit_changes_some : forall chs l b,
  (forall i, In (Add i) chs -> i < num_rules) -> tracks l b ->
  exists l' b', foldM visit_change chs (l, Some b) = Ret (l', Some b') /\ tracks l' b' /\
    forall i, In i l' <-> In i l \/ In (Add i) chs.
Proof.
  induction chs as [|c chs IH]; intros l b Hlt Ht; simpl.
  - exists l, b. repeat split; try apply Ht; intuition.
  - destruct c as [i|i]; cbn [visit_change snd fst].
    + assert (Hi : i < num_rules) by (apply Hlt; left; reflexivity).
      destruct Ht as (H1 & H2 & H3).
      unfold get_and_set. destruct (nth_error b i) as [u|] eqn:En.
      2: { apply nth_error_None in En. lia. }
      cbn [unwrap bind]. destruct u.
      * assert (Hin : In i l) by (apply H3; auto).
        destruct (IH l (set_nth b i true)) as (l' & b' & E & T & K).
        -- intros j Hj. apply Hlt. right; auto.
        -- split; [auto|]. split; [rewrite set_nth_length; auto|]. intros j.
           rewrite set_nth_spec by lia. destruct (i =? j) eqn:Ej; [|apply H3].
           apply Nat.eqb_eq in Ej. subst. split; auto.
        -- exists l', b'. split; [exact E|]. split; [exact T|]. intros j. rewrite K.
           split; [intuition|]. intros [Hj|[Hj|Hj]]; auto. inversion Hj; subst; auto.
      * assert (Hin : ~ In i l). { intros H. apply H3 in H. congruence. }
        destruct (IH (l ++ [i]) (set_nth b i true)) as (l' & b' & E & T & K).
        -- intros j Hj. apply Hlt. right; auto.
        -- apply tracks_add; auto. split; auto.
        -- exists l', b'. split; [exact E|]. split; [exact T|]. intros j. rewrite K, in_app_iff.
           simpl. split; [intuition; subst; auto|]. intros [Hj|[Hj|Hj]]; auto. inversion Hj; subst; auto.
    + destruct (IH l b) as (l' & b' & E & T & K); auto.
      { intros j Hj. apply Hlt. right; auto. }
      exists l', b'. split; [exact E|]. split; [exact T|]. intros j. rewrite K.
      split; [intuition|]. intros [Hj|[Hj|Hj]]; auto. discriminate.
Qed.

Lemma visit_nodes_some : forall ns l b,
  (forall a i, In a ns -> In (Add i) (tree_changes (at_tree a)) -> i < num_rules) -> tracks l b ->
  exists l' b', foldM visit_node ns (l, Some b) = Ret (l', Some b') /\ tracks l' b' /\
    forall i, In i l' <-> In i l \/
      exists a, In a ns /\ at_wild a = false /\ In (Add i) (tree_changes (at_tree a)).
Proof.
  induction ns as [|a ns IH]; intros l b Hlt Ht.
  - exists l, b. cbn [foldM]. split; [reflexivity|]. split; [exact Ht|]. intros i. split; auto.
    intros [H|(a & [] & _)]; auto.
  - cbn [foldM]. unfold visit_node at 1. destruct (at_wild a) eqn:Hw.
    + cbn [bind]. destruct (IH l b) as (l' & b' & E & T & K); auto.
      { intros x i Hx. apply Hlt. right; auto. }
      exists l', b'. split; [exact E|]. split; [exact T|]. intros i. rewrite K. split.
      * intros [H|(x & H1 & H2)]; auto. right. exists x. split; [right|]; auto.
      * intros [H|(x & [<-|H1] & H2 & H3)]; auto; [congruence|]. right. exists x. auto.
    + destruct (visit_changes_some (tree_changes (at_tree a)) l b) as (l1 & b1 & E1 & T1 & K1); auto.
      { intros i Hi. eapply Hlt; eauto. left; reflexivity. }
      rewrite E1. cbn [bind]. destruct (IH l1 b1) as (l' & b' & E & T & K); auto.
      { intros x i Hx. apply Hlt. right; auto. }
      exists l', b'. split; [exact E|]. split; [exact T|]. intros i. rewrite K, K1. split.
      * intros [[H|H]|(x & H1 & H2)]; auto; right; [exists a|exists x]; split; auto; [left|right]; auto.
      * intros [H|(x & [<-|H1] & H2 & H3)]; auto. right. exists x. auto.
Qed.

Lemma tracks_new : tracks [] (bool_set_new num_rules).
Proof.
  split; [constructor|]. unfold bool_set_new. split; [apply repeat_length|].
  intros i. split; [|intros []]. intros H. apply nth_error_In in H. apply repeat_spec in H. discriminate.
Qed.

Lemma level_nonwild : wild = false -> forall rp,
  hd [] (levels rp) =
  match tree_at root (rev rp) with
  | Some t => [ {| at_tree := t; at_wild := false |} ]
  | None => []
  end.
Proof.
  intros Hw. induction rp as [|s rp IH]; [reflexivity|].
  cbn [levels hd]. rewrite IH. simpl rev. rewrite tree_at_app.
  destruct (tree_at root (rev rp)) as [t|]; [|reflexivity].
  unfold push_level, push_one. rewrite Hw. simpl.
  destruct (child_get (tree_children t) s); reflexivity.
Qed.

Lemma adds_nodup : nodup_tree root -> forall a rsp, tree_at root rsp = Some (at_tree a) -> NoDup (adds a).
Proof.
  intros Hn a rsp E. pose proof (Hn _ _ E) as H. unfold adds.
  induction (tree_changes (at_tree a)) as [|c l IH]; simpl; [constructor|].
  inversion H; subst. destruct c as [i|i]; simpl; [|auto].
  constructor; [|auto]. rewrite in_flat_map. intros ([j|j] & K1 & K2); simpl in K2; [|contradiction].
  destruct K2 as [<-|[]]. contradiction.
Qed.

Lemma NoDup_app' : forall A (l1 l2 : list A), NoDup l1 -> NoDup l2 ->
  (forall x, In x l1 -> ~ In x l2) -> NoDup (l1 ++ l2).
Proof.
  induction l1 as [|x l1 IH]; intros l2 H1 H2 H; simpl; [auto|].
  inversion H1; subst. constructor.
  - rewrite in_app_iff. intros [Hx|Hx]; [contradiction|]. apply (H x); simpl; auto.
  - apply IH; auto. intros y Hy. apply H. right; auto.
Qed.

Lemma nonwild_nodup : wild = false -> nodup_tree root ->
  (forall i, exists L, carries root (Add i) L) ->
  forall rp, NoDup (flat_map adds (nodes rp)).
Proof.
  intros Hw Hn Hc. induction rp as [|s rp IH].
  - unfold nodes. simpl. rewrite app_nil_r. apply (adds_nodup Hn _ []). reflexivity.
  - rewrite nodes_cons. rewrite flat_map_app.
    pose proof (level_nonwild Hw (s :: rp)) as Hl. cbn [levels hd] in Hl. rewrite Hl.
    destruct (tree_at root (rev (s :: rp))) as [t|] eqn:Et.
    2: { simpl. rewrite app_nil_r. exact IH. }
    simpl. rewrite app_nil_r. apply NoDup_app'; auto.
    + apply (adds_nodup Hn _ (rev (s :: rp))). exact Et.
    + intros i H1 H2. apply in_flat_map in H1 as (a & Ha & Hi).
      apply nodes_spec in Ha as (rp1 & rsp & (q & Hq) & B & C).
      apply rreach_nonwild in B as [B _]; auto. subst rsp.
      destruct (Hc i) as (L & [_ _ Hanti]).
      assert (rev rp1 = rev (s :: rp)) as Heq.
      { apply Hanti.
        - exists (at_tree a). split; auto. apply adds_in; auto.
        - exists t. split; auto. apply adds_in in H2. exact H2.
        - subst rp. exists (rev q ++ [s]). simpl. rewrite rev_app_distr, app_assoc. reflexivity. }
      apply (f_equal (@length _)) in Heq. rewrite !rev_length in Heq. subst rp.
      simpl in Heq. rewrite app_length in Heq. lia.
Qed.

(* the rules handed out at a path *)
Lemma visit_rules_spec : forall p,
  nodup_tree root ->
  (forall i, exists L, carries root (Add i) L /\ (num_rules <= i -> L = [])) ->
  exists rules b,
    visit_rule_indices (nodes (rev p)) bools0 = Ret (rules, b) /\
    option_map bool_set_reset b = bools0 /\
    NoDup rules /\
    (forall i, In i rules -> i < num_rules) /\
    forall i L, carries root (Add i) L -> (In i rules <-> exists sp, In sp L /\ covers wild sp p).
Proof.
  intros p Hn Hc.
  assert (Hlt : forall a i, In a (nodes (rev p)) -> In (Add i) (tree_changes (at_tree a)) -> i < num_rules).
  { intros a i Ha Hi. destruct (Hc i) as (L & HL & Hz).
    destruct (le_lt_dec num_rules i) as [Hge|Hlt]; [|exact Hlt].
    exfalso. rewrite (Hz Hge) in HL.
    destruct (proj1 (nodes_change p (Add i) [] HL)) as (sp & [] & _). eauto. }
  unfold visit_rule_indices, bools0. destruct wild eqn:Hw.
  - destruct (visit_nodes_some (nodes (rev p)) [] (bool_set_new num_rules) Hlt tracks_new)
      as (l & b & E & (T1 & T2 & T3) & K).
    exists l, (Some b). split; [exact E|]. split; [|split; [exact T1|split]].
    + simpl. f_equal. unfold bool_set_reset, bool_set_new. rewrite <- T2.
      clear. induction b; simpl; congruence.
    + intros i Hi. apply K in Hi as [[]|(a & H1 & _ & H2)]. eapply Hlt; eauto.
    + intros i L HL. rewrite K, <- Hw.
      rewrite <- (nodes_change p (Add i) L HL), <- nodes_change_nonwild.
      split; [intros [[]|H]; auto|auto].
  - assert (Hall : forall a, In a (nodes (rev p)) -> at_wild a = false).
    { intros a Ha. apply nodes_spec in Ha as (rp1 & rsp & _ & B & _).
      apply rreach_nonwild in B; tauto. }
    rewrite visit_nodes_none by auto. simpl app.
    eexists _, None. split; [reflexivity|]. split; [reflexivity|].
    assert (Hin : forall i, In i (flat_map adds (nodes (rev p))) <->
              exists a, In a (nodes (rev p)) /\ In (Add i) (tree_changes (at_tree a))).
    { intros i. rewrite in_flat_map. split; intros (a & H1 & H2); exists a; split; auto; apply adds_in; auto. }
    split; [|split].
    + apply nonwild_nodup; auto. intros i. destruct (Hc i) as (L & HL & _). eauto.
    + intros i Hi. apply Hin in Hi as (a & H1 & H2). eapply Hlt; eauto.
    + intros i L HL. rewrite Hin, <- Hw. apply nodes_change; auto.
Qed.

Definition rules_at (p : path) : list nat :=
  match visit_rule_indices (nodes (rev p)) bools0 with
  | Ret (l, _) => l
  | _ => []
  end.
Definition excluded_at (p : path) : nat -> bool := is_excluded (nodes (rev p)).

(* visiting the operations is visiting the strings, in order *)
Definition visit_one {S} (cv : content_visitor S) (st : S * list (path * str * bool)) (pc : path * str)
  : outcome (S * list (path * str * bool)) :=
  let* r := cv (fst pc) (snd pc) (rules_at (fst pc)) (excluded_at (fst pc)) (fst st) in
  Ret (fst r, snd st ++ [(fst pc, snd pc, snd r)]).

Lemma run_ops : forall S (cv : content_visitor S) ops p s log strs,
  nodup_tree root ->
  (forall i, exists L, carries root (Add i) L /\ (num_rules <= i -> L = [])) ->
  strings_at p ops = Some strs ->
  (let* r := foldM (run_op wild cv) ops (state_at p, s, log) in
   let '(_, s', log') := r in Ret (s', log')) =
  foldM (visit_one cv) strs (s, log).
Proof.
  intros S cv. induction ops as [|op ops IH]; intros p s log strs Hn Hc Hs; simpl in Hs.
  - inversion Hs; subst. reflexivity.
  - cbn [foldM]. destruct op as [seg| |c].
    + unfold run_op at 1. rewrite push_state. cbn [bind]. apply IH; auto.
    + destruct p as [|x p]; [discriminate|].
      destruct (exists_last (l := x :: p)) as (q & y & Eq); [discriminate|].
      unfold run_op at 1. rewrite Eq at 1. rewrite pop_state. cbn [bind].
      rewrite Eq, removelast_last in Hs. apply IH; auto.
    + destruct (strings_at p ops) as [l|] eqn:El; [|discriminate]. inversion Hs; subst strs.
      cbn [foldM]. unfold run_op at 1, visit_string. cbn [vs_nodes vs_bools vs_path vs_counts state_at].
      destruct (visit_rules_spec p Hn Hc) as (rules & b & Er & Eb & _).
      unfold visit_one at 1. unfold rules_at at 1, excluded_at at 1. cbn [fst snd].
      rewrite Er. cbn [bind].
      destruct (cv p c rules (is_excluded (nodes (rev p))) s) as [[s' mm]| |]; cbn [bind]; try reflexivity.
      rewrite Eb. cbn [fst snd]. apply IH; auto.
Qed.

Lemma visit_combinations : forall S (cv : content_visitor S) ops s strs,
  nodup_tree root ->
  (forall i, exists L, carries root (Add i) L /\ (num_rules <= i -> L = [])) ->
  strings_of ops = Some strs ->
  visit_string_rule_combinations root num_rules wild ops cv s = foldM (visit_one cv) strs (s, []).
Proof.
  intros. unfold visit_string_rule_combinations. rewrite state_init. apply run_ops; auto.
Qed.
End Visitor.

(* for the tree of a list of scopes *)
Lemma scopes_carry : forall scopes i,
  exists L, carries (build_tree scopes) (Add i) L /\ (length scopes <= i -> L = []).
Proof.
  intros scopes i. destruct (build_tree_spec scopes) as (A & B & _).
  destruct (nth_error scopes i) as [s|] eqn:E.
  - exists (add_paths s). split; [apply A; auto|]. intros H.
    apply nth_error_None in H. congruence.
  - apply nth_error_None in E. exists []. split; [apply B; auto|auto].
Qed.

Lemma rules_at_spec : forall wild scopes p,
  NoDup (rules_at wild (build_tree scopes) (length scopes) p) /\
  forall i, In i (rules_at wild (build_tree scopes) (length scopes) p) <->
    exists s, nth_error scopes i = Some s /\ included wild s p.
Proof.
  intros wild scopes p. destruct (build_tree_spec scopes) as (A & B & N).
  destruct (visit_rules_spec wild (build_tree scopes) (length scopes) p N (scopes_carry scopes))
    as (rules & b & E & _ & Hd & Hlt & K).
  unfold rules_at. rewrite E. split; [exact Hd|]. intros i.
  destruct (nth_error scopes i) as [s|] eqn:Es.
  - destruct (A i s Es) as [HA _]. rewrite (K i _ HA). split.
    + intros (sp & H1 & H2). exists s. split; auto. destruct s as [inc exc|ps]; simpl in *; [eauto|exact I].
    + intros (s' & Es' & Hi). inversion Es'; subst s'. destruct s as [inc exc|ps]; simpl in *; [exact Hi|].
      exists []. split; [left; reflexivity|]. unfold covers. destruct wild.
      * exists [], p. split; [reflexivity|constructor].
      * apply prefix_nil.
  - split.
    + intros Hi. apply Hlt in Hi. apply nth_error_None in Es. lia.
    + intros (s & H & _). discriminate.
Qed.

Lemma excluded_at_spec : forall wild scopes p i s, nth_error scopes i = Some s ->
  excluded_at wild (build_tree scopes) p i = true <-> excluded wild s p.
Proof.
  intros wild scopes p i s Es. destruct (build_tree_spec scopes) as (A & _ & _).
  destruct (A i s Es) as [_ HR]. unfold excluded_at.
  rewrite (is_excluded_spec wild (build_tree scopes) p i _ HR).
  destruct s; reflexivity.
Qed.

Lemma visit_scopes : forall S wild scopes (cv : content_visitor S) ops s strs,
  strings_of ops = Some strs ->
  visit_string_rule_combinations (build_tree scopes) (length scopes) wild ops cv s =
  foldM (visit_one wild (build_tree scopes) (length scopes) cv) strs (s, []).
Proof.
  intros. apply visit_combinations; auto.
  - apply (build_tree_spec scopes).
  - apply scopes_carry.
Qed.

Lemma recorder_fold : forall wild root n strs st log,
  foldM (visit_one wild root n recorder) strs (st, log) =
  Ret (st ++ map (fun pc => (fst pc, snd pc, rules_at wild root n (fst pc), excluded_at wild root (fst pc))) strs,
       log ++ map (fun pc => (fst pc, snd pc, false)) strs).
Proof.
  intros wild root n. induction strs as [|[p c] strs IH]; intros st log.
  - simpl. rewrite !app_nil_r. reflexivity.
  - cbn [foldM]. unfold visit_one at 1. cbn [recorder bind fst snd].
    unfold recorder. cbn [bind fst snd]. rewrite IH. simpl. rewrite <- !app_assoc. reflexivity.
Qed.
