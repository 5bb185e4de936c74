(* The scope tree decides inclusion and exclusion as specified *)
From Coq Require Import Lia.
From Verif Require Import Proofs.Text.
From Verif Require Export Spec.Scopes.

Lemma segment_eqb_eq : forall a b, segment_eqb a b = true <-> a = b.
Proof.
  intros [x|i] [y|j]; simpl; split; intro H; try discriminate.
  - apply str_eqb_eq in H. congruence.
  - inversion H. apply str_eqb_refl.
  - apply Nat.eqb_eq in H. congruence.
  - inversion H. apply Nat.eqb_refl.
Qed.
Lemma segment_eqb_refl : forall a, segment_eqb a a = true.
Proof. intros; apply segment_eqb_eq; reflexivity. Qed.
Lemma segment_eq_dec : forall a b : segment, {a = b} + {a <> b}.
Proof.
  intros a b. destruct (segment_eqb a b) eqn:E.
  - left. apply segment_eqb_eq; auto.
  - right. intros H. apply segment_eqb_eq in H. congruence.
Qed.
Lemma path_eqb_eq : forall a b, path_eqb a b = true <-> a = b.
Proof.
  induction a as [|x a IH]; intros [|y b]; simpl; split; intro H; try discriminate; auto.
  - apply andb_prop in H as [H1 H2]. apply segment_eqb_eq in H1. apply IH in H2. congruence.
  - inversion H; subst. rewrite segment_eqb_refl. apply IH. reflexivity.
Qed.
Lemma change_eqb_eq : forall a b, change_eqb a b = true <-> a = b.
Proof.
  intros [i|i] [j|j]; simpl; split; intro H; try discriminate; try apply Nat.eqb_eq in H;
    try congruence; inversion H; apply Nat.eqb_refl.
Qed.

(* the node at a path *)
Fixpoint tree_at (t : rule_tree) (sp : path) : option rule_tree :=
  match sp with
  | [] => Some t
  | s :: sp' =>
      match child_get (tree_children t) s with
      | Some k => tree_at k sp'
      | None => None
      end
  end.

Definition has (t : rule_tree) (sp : path) (c : rule_change) : Prop :=
  exists t', tree_at t sp = Some t' /\ In c (tree_changes t').

Lemma tree_at_app : forall a t b,
  tree_at t (a ++ b) = match tree_at t a with Some k => tree_at k b | None => None end.
Proof.
  induction a as [|s a IH]; intros t b; simpl; [reflexivity|].
  destruct (child_get (tree_children t) s); auto.
Qed.

Lemma has_nil : forall t c, has t [] c <-> In c (tree_changes t).
Proof.
  intros. unfold has. simpl. split.
  - intros (t' & E & H). inversion E; subst; auto.
  - eauto.
Qed.
Lemma has_cons : forall t s sp c,
  has t (s :: sp) c <-> exists k, child_get (tree_children t) s = Some k /\ has k sp c.
Proof.
  intros. unfold has. simpl. destruct (child_get (tree_children t) s) as [k|].
  - split.
    + intros H. exists k. auto.
    + intros (k' & E & H). inversion E; subst; auto.
  - split.
    + intros (t' & E & _). discriminate.
    + intros (k' & E & _). discriminate.
Qed.

Lemma child_get_update : forall kids s f s',
  child_get (child_update kids s f) s' =
  if segment_eqb s s' then
    Some (f (match child_get kids s with Some k => k | None => tree_new end))
  else child_get kids s'.
Proof.
  induction kids as [|[k t] kids IH]; intros s f s'; simpl.
  - destruct (segment_eqb s s'); reflexivity.
  - destruct (segment_eqb k s) eqn:E.
    + apply segment_eqb_eq in E. subst k. simpl. destruct (segment_eqb s s'); reflexivity.
    + simpl. rewrite IH. destruct (segment_eqb k s') eqn:E'; [|reflexivity].
      destruct (segment_eqb s s') eqn:E''; [|reflexivity].
      apply segment_eqb_eq in E', E''. subst. rewrite segment_eqb_refl in E. discriminate.
Qed.

Lemma child_get_map : forall kids (f : rule_tree -> rule_tree) s,
  child_get (map (fun sk => match sk with (s, k) => (s, f k) end) kids) s =
  option_map f (child_get kids s).
Proof.
  induction kids as [|[k t] kids IH]; intros f s; simpl; [reflexivity|].
  destruct (segment_eqb k s); auto.
Qed.

Lemma recursively_remove_at : forall c sp t,
  tree_at (recursively_remove c t) sp = option_map (recursively_remove c) (tree_at t sp).
Proof.
  intros c. induction sp as [|s sp IH]; intros [chs kids]; simpl; [reflexivity|].
  rewrite child_get_map. destruct (child_get kids s) as [k|]; simpl; auto.
Qed.

Lemma remove_changes : forall c t,
  tree_changes (recursively_remove c t) = filter (fun x => negb (change_eqb x c)) (tree_changes t).
Proof. intros c [chs kids]. reflexivity. Qed.
Lemma remove_in : forall c c' t,
  In c' (tree_changes (recursively_remove c t)) <-> In c' (tree_changes t) /\ c' <> c.
Proof.
  intros. rewrite remove_changes, filter_In, negb_true_iff. split.
  - intros [H1 H2]. split; auto. intros ->. rewrite (proj2 (change_eqb_eq c c) eq_refl) in H2. discriminate.
  - intros [H1 H2]. split; auto. destruct (change_eqb c' c) eqn:E; auto.
    apply change_eqb_eq in E. contradiction.
Qed.

Lemma has_remove : forall c c' sp t, has (recursively_remove c t) sp c' <-> has t sp c' /\ c' <> c.
Proof.
  intros. unfold has. rewrite recursively_remove_at.
  destruct (tree_at t sp) as [t'|]; simpl.
  - split.
    + intros (t'' & E & H). inversion E; subst. apply remove_in in H as [H1 H2]. eauto.
    + intros [(t'' & E & H) Hne]. inversion E; subst. eexists; split; eauto. apply remove_in; auto.
  - split.
    + intros (? & E & _); discriminate.
    + intros [(? & E & _) _]; discriminate.
Qed.

Lemma existsb_change : forall c l, existsb (fun x => change_eqb x c) l = true <-> In c l.
Proof.
  intros. rewrite existsb_exists. split.
  - intros (x & H1 & H2). apply change_eqb_eq in H2. subst; auto.
  - intros H. exists c. split; auto. apply change_eqb_eq; auto.
Qed.

Lemma prefix_nil : forall p, prefix_of [] p.
Proof. intros p. exists p. reflexivity. Qed.
Lemma prefix_refl : forall p, prefix_of p p.
Proof. intros p. exists []. rewrite app_nil_r. reflexivity. Qed.
Lemma prefix_cons : forall s a b, prefix_of (s :: a) (s :: b) <-> prefix_of a b.
Proof.
  intros. unfold prefix_of. split; intros (r & H); exists r; simpl in *.
  - inversion H; auto.
  - congruence.
Qed.
Lemma prefix_cons_inv : forall s a p, prefix_of (s :: a) p -> exists b, p = s :: b /\ prefix_of a b.
Proof. intros s a p (r & ->). exists (a ++ r). split; [reflexivity|]. exists r; auto. Qed.
Lemma prefix_nil_inv : forall p, prefix_of p [] -> p = [].
Proof. intros p (r & H). symmetry in H. apply app_eq_nil in H as [-> _]. reflexivity. Qed.
Lemma prefix_trans : forall a b c, prefix_of a b -> prefix_of b c -> prefix_of a c.
Proof. intros a b c (r & ->) (r' & ->). exists (r ++ r'). rewrite app_assoc. reflexivity. Qed.

Lemma has_new : forall sp c, ~ has tree_new sp c.
Proof. intros [|s sp] c (t & E & H); simpl in E; inversion E; subst; simpl in H; contradiction. Qed.

(* what insertion does to the set of paths carrying a change *)
Lemma has_insert : forall c p t sp c',
  has (insert_rule_inner p c t) sp c' <->
  if change_eqb c' c then
    (has t sp c /\ (~ prefix_of p sp \/ exists p0, prefix_of p0 p /\ has t p0 c)) \/
    (sp = p /\ ~ exists p0, prefix_of p0 p /\ has t p0 c)
  else has t sp c'.
Proof.
  intros c. induction p as [|s p IH]; intros t sp c'; cbn [insert_rule_inner].
  - destruct (existsb (fun x => change_eqb x c) (tree_changes t)) eqn:E.
    + apply existsb_change in E.
      destruct (change_eqb c' c) eqn:Hc; [|reflexivity].
      apply change_eqb_eq in Hc; subst c'.
      assert (Hex : exists p0, prefix_of p0 [] /\ has t p0 c).
      { exists []. split; [apply prefix_nil|apply has_nil; auto]. }
      tauto.
    + assert (Hn : ~ In c (tree_changes t)).
      { intros H. apply existsb_change in H. congruence. }
      assert (Hnex : ~ exists p0, prefix_of p0 [] /\ has t p0 c).
      { intros (p0 & H1 & H2). apply prefix_nil_inv in H1; subst. apply has_nil in H2. contradiction. }
      destruct sp as [|s' sp].
      * rewrite has_nil. simpl. rewrite in_app_iff, remove_in. simpl.
        destruct (change_eqb c' c) eqn:Hc.
        -- apply change_eqb_eq in Hc; subst c'. split; intros _; [right|]; auto.
        -- rewrite has_nil. assert (c' <> c). { intros ->. rewrite (proj2 (change_eqb_eq c c) eq_refl) in Hc. discriminate. }
           split; [intros [[H1 _]|[H1|[]]]; auto; congruence|auto].
      * transitivity (has (recursively_remove c t) (s' :: sp) c').
        { rewrite !has_cons. simpl. reflexivity. }
        rewrite has_remove. destruct (change_eqb c' c) eqn:Hc.
        -- apply change_eqb_eq in Hc; subst c'. split; [tauto|].
           intros [[H1 [H2|H2]]|[H1 _]]; [|contradiction|discriminate].
           exfalso. apply H2, prefix_nil.
        -- assert (c' <> c). { intros ->. rewrite (proj2 (change_eqb_eq c c) eq_refl) in Hc. discriminate. }
           tauto.
  - destruct (existsb (fun x => change_eqb x c) (tree_changes t)) eqn:E.
    + apply existsb_change in E.
      destruct (change_eqb c' c) eqn:Hc; [|reflexivity].
      apply change_eqb_eq in Hc; subst c'.
      assert (Hex : exists p0, prefix_of p0 (s :: p) /\ has t p0 c).
      { exists []. split; [apply prefix_nil|apply has_nil; auto]. }
      tauto.
    + assert (Hn : ~ In c (tree_changes t)).
      { intros H. apply existsb_change in H. congruence. }
      set (k0 := match child_get (tree_children t) s with Some k => k | None => tree_new end).
      assert (Hk0 : forall sp' c'', has k0 sp' c'' <-> has t (s :: sp') c'').
      { intros sp' c''. rewrite has_cons. unfold k0. destruct (child_get (tree_children t) s) as [k|].
        - split; [eauto|]. intros (k' & Ek & H). inversion Ek; subst; auto.
        - split; [intros H; apply has_new in H; contradiction|]. intros (k' & Ek & _); discriminate. }
      assert (Hpre : (exists p0, prefix_of p0 (s :: p) /\ has t p0 c) <->
                     (exists p0, prefix_of p0 p /\ has k0 p0 c)).
      { split.
        - intros ([|s0 p0] & H1 & H2).
          + apply has_nil in H2. contradiction.
          + apply prefix_cons_inv in H1 as (b & Eb & H1). inversion Eb; subst.
            exists p0. split; auto. apply Hk0. auto.
        - intros (p0 & H1 & H2). exists (s :: p0). split; [apply prefix_cons; auto|apply Hk0; auto]. }
      destruct sp as [|s' sp].
      * rewrite has_nil. simpl. destruct (change_eqb c' c) eqn:Hc.
        -- apply change_eqb_eq in Hc; subst c'. split; [contradiction|].
           intros [[H1 _]|[H1 _]]; [apply has_nil in H1; auto|discriminate].
        -- rewrite has_nil. reflexivity.
      * assert (Hstep : has (Node (tree_changes t) (child_update (tree_children t) s (insert_rule_inner p c))) (s' :: sp) c' <->
            if segment_eqb s s' then has (insert_rule_inner p c k0) sp c' else has t (s' :: sp) c').
        { rewrite has_cons. simpl. rewrite child_get_update. fold k0. destruct (segment_eqb s s').
          - split; [intros (k & Ek & H); inversion Ek; subst; auto|eauto].
          - rewrite has_cons. reflexivity. }
        rewrite Hstep. destruct (segment_eqb s s') eqn:Es.
        -- apply segment_eqb_eq in Es; subst s'. rewrite IH.
           destruct (change_eqb c' c) eqn:Hc; [|apply Hk0].
           rewrite Hpre, <- Hk0, prefix_cons.
           assert (Heq : s :: sp = s :: p <-> sp = p) by (split; congruence).
           rewrite Heq. reflexivity.
        -- assert (Hss : s <> s'). { intros ->. rewrite segment_eqb_refl in Es. discriminate. }
           destruct (change_eqb c' c) eqn:Hc; [|reflexivity].
           apply change_eqb_eq in Hc; subst c'. split.
           ++ intros H. left. split; auto. left. intros H'.
              apply prefix_cons_inv in H' as (b & Eb & _). congruence.
           ++ intros [[H _]|[H _]]; [auto|congruence].
Qed.

(* the tree carries the change [c] exactly for the paths [L], up to coverage *)
Record carries (t : rule_tree) (c : rule_change) (L : list path) : Prop := {
  ca_in : forall sp, has t sp c -> In sp L;
  ca_cov : forall sp, In sp L -> exists sp0, prefix_of sp0 sp /\ has t sp0 c;
  ca_anti : forall a b, has t a c -> has t b c -> prefix_of a b -> a = b
}.

Lemma has_dec_prefix : forall t c p,
  (exists p0, prefix_of p0 p /\ has t p0 c) \/ ~ (exists p0, prefix_of p0 p /\ has t p0 c).
Proof.
  intros t c p. revert t. induction p as [|s p IH]; intros t.
  - destruct (in_dec (fun x y => match change_eqb x y as b return change_eqb x y = b -> {x = y} + {x <> y} with
        | true => fun E => left (proj1 (change_eqb_eq x y) E)
        | false => fun E => right (fun H => eq_true_false_abs _ (proj2 (change_eqb_eq x y) H) E) end eq_refl)
        c (tree_changes t)) as [H|H].
    + left. exists []. split; [apply prefix_nil|apply has_nil; auto].
    + right. intros (p0 & H1 & H2). apply prefix_nil_inv in H1; subst. apply has_nil in H2. contradiction.
  - destruct (existsb (fun x => change_eqb x c) (tree_changes t)) eqn:E.
    + left. exists []. split; [apply prefix_nil|]. apply has_nil, existsb_change; auto.
    + destruct (child_get (tree_children t) s) as [k|] eqn:Ek.
      * destruct (IH k) as [(p0 & H1 & H2)|H].
        -- left. exists (s :: p0). split; [apply prefix_cons; auto|]. apply has_cons. eauto.
        -- right. intros ([|s0 p0] & H1 & H2).
           ++ apply has_nil, existsb_change in H2. congruence.
           ++ apply prefix_cons_inv in H1 as (b & Eb & H1). inversion Eb; subst.
              apply has_cons in H2 as (k' & Ek' & H2). rewrite Ek in Ek'. inversion Ek'; subst.
              apply H. eauto.
      * right. intros ([|s0 p0] & H1 & H2).
        ++ apply has_nil, existsb_change in H2. congruence.
        ++ apply prefix_cons_inv in H1 as (b & Eb & H1). inversion Eb; subst.
           apply has_cons in H2 as (k' & Ek' & H2). congruence.
Qed.

Lemma prefix_dec : forall a b, prefix_of a b \/ ~ prefix_of a b.
Proof.
  induction a as [|x a IH]; intros b; [left; apply prefix_nil|].
  destruct b as [|y b].
  - right. intros H. apply prefix_nil_inv in H. discriminate.
  - destruct (segment_eq_dec x y) as [->|Hn].
    + destruct (IH b) as [H|H]; [left|right]; rewrite prefix_cons; auto.
    + right. intros H. apply prefix_cons_inv in H as (c & E & _). congruence.
Qed.

Lemma carries_insert_same : forall t c L p, carries t c L -> carries (insert_rule_inner p c t) c (L ++ [p]).
Proof.
  intros t c L p [H1 H2 H3].
  assert (Hc : change_eqb c c = true) by (apply change_eqb_eq; auto).
  split.
  - intros sp. rewrite has_insert, Hc. intros [[H _]|[-> _]]; apply in_or_app; simpl; auto.
  - intros sp Hin. apply in_app_or in Hin as [Hin|[<-|[]]].
    + destruct (H2 sp Hin) as (sp0 & P0 & Q0).
      destruct (has_dec_prefix t c p) as [He|Hn].
      * exists sp0. split; auto. rewrite has_insert, Hc. left. auto.
      * destruct (prefix_dec p sp0) as [Hp|Hp].
        -- exists p. split; [eapply prefix_trans; eauto|]. rewrite has_insert, Hc. right; auto.
        -- exists sp0. split; auto. rewrite has_insert, Hc. left. auto.
    + destruct (has_dec_prefix t c p) as [He|Hn].
      * destruct He as (p0 & P0 & Q0). exists p0. split; auto. rewrite has_insert, Hc. left. eauto.
      * exists p. split; [apply prefix_refl|]. rewrite has_insert, Hc. auto.
  - intros a b. rewrite !has_insert, Hc. intros [[Ha Ha']|[-> Ha']] [[Hb Hb']|[-> Hb']] Hp; auto.
    + exfalso. apply Hb'. eauto.
    + destruct Hb' as [Hb'|Hb']; contradiction.
Qed.

Lemma carries_insert_other : forall t c c' L p, c <> c' -> carries t c' L -> carries (insert_rule_inner p c t) c' L.
Proof.
  intros t c c' L p Hne [H1 H2 H3].
  assert (Hc : change_eqb c' c = false).
  { destruct (change_eqb c' c) eqn:E; auto. apply change_eqb_eq in E. congruence. }
  assert (Hh : forall sp, has (insert_rule_inner p c t) sp c' <-> has t sp c').
  { intros sp. rewrite has_insert, Hc. reflexivity. }
  split.
  - intros sp. rewrite Hh. auto.
  - intros sp Hin. destruct (H2 sp Hin) as (sp0 & A & B). exists sp0. rewrite Hh. auto.
  - intros a b. rewrite !Hh. auto.
Qed.

(* every node lists a change at most once *)
Definition nodup_tree (t : rule_tree) : Prop :=
  forall sp t', tree_at t sp = Some t' -> NoDup (tree_changes t').

Lemma nodup_insert : forall c p t, nodup_tree t -> nodup_tree (insert_rule_inner p c t).
Proof.
  intros c. induction p as [|s p IH]; intros t H; cbn [insert_rule_inner].
  - destruct (existsb (fun x => change_eqb x c) (tree_changes t)) eqn:E; auto.
    intros [|s sp] t'; simpl.
    + intros Eq; inversion Eq; subst. simpl.
      assert (Hn : NoDup (tree_changes t)) by (apply (H []); reflexivity).
      rewrite remove_changes.
      assert (Hf : NoDup (filter (fun x => negb (change_eqb x c)) (tree_changes t))) by (apply NoDup_filter; auto).
      apply NoDup_rev in Hf. rewrite <- (rev_involutive (filter _ _ ++ [c])).
      apply NoDup_rev. rewrite rev_app_distr. simpl. constructor; auto.
      rewrite <- in_rev, filter_In, negb_true_iff. intros [_ Hx].
      rewrite (proj2 (change_eqb_eq c c) eq_refl) in Hx. discriminate.
    + intros Eq.
      assert (Hr : tree_at (recursively_remove c t) (s :: sp) = Some t').
      { simpl. exact Eq. }
      rewrite recursively_remove_at in Hr. destruct (tree_at t (s :: sp)) as [u|] eqn:Eu; [|discriminate].
      inversion Hr; subst. rewrite remove_changes. apply NoDup_filter. apply (H (s :: sp)); auto.
  - destruct (existsb (fun x => change_eqb x c) (tree_changes t)) eqn:E; auto.
    intros [|s' sp] t'; simpl.
    + intros Eq; inversion Eq; subst. simpl. apply (H []); reflexivity.
    + rewrite child_get_update. destruct (segment_eqb s s') eqn:Es.
      * apply (IH (match child_get (tree_children t) s with Some k => k | None => tree_new end)).
        intros sp0 t0. destruct (child_get (tree_children t) s) as [k|] eqn:Ek.
        -- intros H0. apply (H (s :: sp0)). simpl. rewrite Ek. exact H0.
        -- destruct sp0; simpl; intros H0; inversion H0; subst. constructor.
      * intros H0. apply (H (s' :: sp)). exact H0.
Qed.

(* inserting a list of paths for one change *)
Lemma fold_insert : forall c paths t L,
  carries t c L ->
  carries (fold_left (fun t p => insert_rule_inner p c t) paths t) c (L ++ paths) /\
  (nodup_tree t -> nodup_tree (fold_left (fun t p => insert_rule_inner p c t) paths t)) /\
  (forall c' L', c <> c' -> carries t c' L' ->
     carries (fold_left (fun t p => insert_rule_inner p c t) paths t) c' L').
Proof.
  intros c. induction paths as [|p paths IH]; intros t L H; simpl.
  - rewrite app_nil_r. auto.
  - destruct (IH (insert_rule_inner p c t) (L ++ [p])) as (A & B & C).
    { apply carries_insert_same; auto. }
    rewrite <- app_assoc in A. simpl in A. split; [exact A|]. split.
    + intros Hn. apply B, nodup_insert, Hn.
    + intros c' L' Hne Hc. apply C; auto. apply carries_insert_other; auto.
Qed.

Definition add_paths (s : scope) : list path :=
  match s with ScopeInclude inc _ => inc | ScopeExclude _ => [[]] end.
Definition remove_paths (s : scope) : list path :=
  match s with ScopeInclude _ exc => exc | ScopeExclude ps => ps end.

Lemma insert_scope_spec : forall i s t,
  carries t (Add i) [] -> carries t (Remove i) [] -> nodup_tree t ->
  carries (insert_scope i s t) (Add i) (add_paths s) /\
  carries (insert_scope i s t) (Remove i) (remove_paths s) /\
  nodup_tree (insert_scope i s t) /\
  (forall c' L', c' <> Add i -> c' <> Remove i -> carries t c' L' -> carries (insert_scope i s t) c' L').
Proof.
  intros i s t HA HR HN. destruct s as [inc exc|ps]; unfold insert_scope, insert_adds, insert_removals.
  - destruct (fold_insert (Remove i) exc t [] HR) as (A & B & C).
    destruct (fold_insert (Add i) inc (fold_left (fun t p => insert_rule_inner p (Remove i) t) exc t) []) as (A' & B' & C').
    { apply C; auto. discriminate. }
    simpl in A, A'. split; [exact A'|]. split; [apply C'; [discriminate|exact A]|].
    split; [apply B', B, HN|]. intros c' L' H1 H2 H3. apply C'; auto.
  - destruct (fold_insert (Add i) [[]] t [] HA) as (A & B & C).
    destruct (fold_insert (Remove i) ps (fold_left (fun t p => insert_rule_inner p (Add i) t) [[]] t) []) as (A' & B' & C').
    { apply C; auto. discriminate. }
    simpl app in A, A'. split; [apply C'; [discriminate|exact A]|]. split; [exact A'|].
    split; [apply B', B, HN|]. intros c' L' H1 H2 H3. apply C'; auto.
Qed.

Lemma insert_scopes_spec : forall scopes i t,
  (forall j, i <= j -> carries t (Add j) [] /\ carries t (Remove j) []) -> nodup_tree t ->
  (forall k s, nth_error scopes k = Some s ->
     carries (insert_scopes i scopes t) (Add (i + k)) (add_paths s) /\
     carries (insert_scopes i scopes t) (Remove (i + k)) (remove_paths s)) /\
  (forall j, i + length scopes <= j ->
     carries (insert_scopes i scopes t) (Add j) [] /\ carries (insert_scopes i scopes t) (Remove j) []) /\
  nodup_tree (insert_scopes i scopes t) /\
  (forall c L, (forall j, c = Add j \/ c = Remove j -> j < i) -> carries t c L ->
     carries (insert_scopes i scopes t) c L).
Proof.
  induction scopes as [|s scopes IH]; intros i t H HN; simpl.
  - split; [intros k s Hk; destruct k; discriminate|]. split; [|auto].
    intros j Hj. apply H. lia.
  - destruct (H i (le_n i)) as [HA HR].
    destruct (insert_scope_spec i s t HA HR HN) as (A & B & C & D).
    destruct (IH (S i) (insert_scope i s t)) as (A' & B' & C' & D').
    + intros j Hj. destruct (H j) as [H1 H2]; [lia|]. split.
      * apply D; auto; try congruence. intros E; inversion E; lia.
      * apply D; auto; try congruence. intros E; inversion E; lia.
    + exact C.
    + split; [|split; [|split]].
      * intros [|k] s' Hk; simpl in Hk.
        -- inversion Hk; subst s'. rewrite Nat.add_0_r. split.
           ++ apply D'; auto. intros j [E|E]; inversion E; lia.
           ++ apply D'; auto. intros j [E|E]; inversion E; lia.
        -- replace (i + S k) with (S i + k) by lia. apply A'; auto.
      * intros j Hj. apply B'. lia.
      * exact C'.
      * intros c L Hc Hcar. apply D'.
        -- intros j Hj. specialize (Hc j Hj). lia.
        -- apply D; auto.
           ++ intros ->. specialize (Hc i (or_introl eq_refl)). lia.
           ++ intros ->. specialize (Hc i (or_intror eq_refl)). lia.
Qed.

Lemma carries_new : forall c, carries tree_new c [].
Proof.
  intros c. split.
  - intros sp H. apply has_new in H. contradiction.
  - intros sp [].
  - intros a b H. apply has_new in H. contradiction.
Qed.
Lemma nodup_new : nodup_tree tree_new.
Proof. intros [|s sp] t' E; simpl in E; inversion E; constructor. Qed.

Lemma build_tree_spec : forall scopes,
  (forall i s, nth_error scopes i = Some s ->
     carries (build_tree scopes) (Add i) (add_paths s) /\
     carries (build_tree scopes) (Remove i) (remove_paths s)) /\
  (forall i, length scopes <= i ->
     carries (build_tree scopes) (Add i) [] /\ carries (build_tree scopes) (Remove i) []) /\
  nodup_tree (build_tree scopes).
Proof.
  intros scopes. destruct (insert_scopes_spec scopes 0 tree_new) as (A & B & C & _).
  - intros j _. split; apply carries_new.
  - apply nodup_new.
  - split; [exact A|]. split; [exact B|exact C].
Qed.
