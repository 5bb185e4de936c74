(* Lemmas about the handles of the native library. *)
From Coq Require Import Lia.
From Verif Require Export Spec.Native.

Section Heap.

Definition obj_at (h : heap) (a : N) : option object := option_map ce_object (load h a).
Definition refs_of (o : object) (a : N) : nat :=
  match o with
  | ObDouble i => if N.eqb i a then 1 else 0
  | ObList items _ => count_occ N.eq_dec items a
  | _ => 0
  end.
Fixpoint refs (h : heap) (a : N) : nat :=
  match h with [] => 0 | (_, c) :: h' => refs_of (ce_object c) a + refs h' a end.
Definition is_rule (h : heap) (a : N) : Prop := exists x, obj_at h a = Some (ObRule x).

Lemma load_store : forall h a c b, load (store h a c) b = if N.eqb a b then Some c else load (release h a) b.
Proof. reflexivity. Qed.
Lemma load_release_other : forall h a b, a <> b -> load (release h a) b = load h b.
Proof.
  induction h as [|[k c] h IH]; intros a b D; cbn; [reflexivity|].
  destruct (N.eqb_spec k a) as [->|E]; cbn.
  - destruct (N.eqb_spec a b); [contradiction|reflexivity].
  - destruct (N.eqb_spec k b); [reflexivity|apply IH; exact D].
Qed.
Lemma load_In : forall h a c, load h a = Some c -> In (a, c) h.
Proof.
  induction h as [|[k x] h IH]; cbn; intros a c H; [discriminate|].
  destruct (N.eqb_spec k a) as [->|E]; [injection H as ->; left; reflexivity|right; apply IH, H].
Qed.
Lemma load_none : forall h a, load h a = None <-> ~ In a (map fst h).
Proof.
  induction h as [|[k x] h IH]; cbn; intros a; [tauto|].
  destruct (N.eqb_spec k a) as [->|E]; [split; [discriminate|tauto]|]. rewrite IH. tauto.
Qed.
Lemma release_keys : forall h a b, In b (map fst (release h a)) -> In b (map fst h).
Proof.
  induction h as [|[k x] h IH]; cbn; intros a b H; [exact H|].
  destruct (N.eqb_spec k a) as [->|E]; [right; exact H|]. cbn in H. destruct H as [H|H]; [left; exact H|right; eapply IH, H].
Qed.
Lemma release_nodup : forall h a, NoDup (map fst h) -> NoDup (map fst (release h a)).
Proof.
  induction h as [|[k x] h IH]; cbn; intros a H; [exact H|]. inversion H; subst.
  destruct (N.eqb_spec k a) as [->|E]; [assumption|]. cbn. constructor; [intros K; apply release_keys in K; contradiction|apply IH; assumption].
Qed.
Lemma load_release_same : forall h a, NoDup (map fst h) -> load (release h a) a = None.
Proof.
  induction h as [|[k x] h IH]; cbn; intros a H; [reflexivity|]. inversion H; subst.
  destruct (N.eqb_spec k a) as [->|E]; [apply load_none; assumption|]. cbn.
  destruct (N.eqb_spec k a); [contradiction|]. apply IH; assumption.
Qed.
Lemma load_release : forall h a b, NoDup (map fst h) -> load (release h a) b = if N.eqb a b then None else load h b.
Proof.
  intros h a b H. destruct (N.eqb_spec a b) as [<-|E]; [apply load_release_same, H|apply load_release_other, E].
Qed.
Lemma release_none : forall h a, load h a = None -> release h a = h.
Proof.
  induction h as [|[k x] h IH]; cbn; intros a H; [reflexivity|].
  destruct (N.eqb_spec k a); [discriminate|]. f_equal. apply IH, H.
Qed.
Lemma store_nodup : forall h a c, NoDup (map fst h) -> NoDup (map fst (store h a c)).
Proof.
  intros h a c H. cbn. constructor; [|apply release_nodup, H]. apply load_none, load_release_same, H.
Qed.
Lemma obj_store : forall h a c b, obj_at (store h a c) b = if N.eqb a b then Some (ce_object c) else obj_at h b.
Proof.
  intros h a c b. unfold obj_at. rewrite load_store. destruct (N.eqb_spec a b) as [|E]; [reflexivity|].
  rewrite load_release_other by exact E. reflexivity.
Qed.
Lemma obj_release : forall h a b, NoDup (map fst h) -> obj_at (release h a) b = if N.eqb a b then None else obj_at h b.
Proof. intros h a b H. unfold obj_at. rewrite load_release by exact H. destruct (N.eqb a b); reflexivity. Qed.
Lemma refs_release : forall h a c x, load h a = Some c -> refs h x = refs_of (ce_object c) x + refs (release h a) x.
Proof.
  induction h as [|[k y] h IH]; cbn; intros a c x H; [discriminate|].
  destruct (N.eqb_spec k a) as [->|E]; [injection H as ->; reflexivity|]. cbn. rewrite (IH _ _ x H). lia.
Qed.
Lemma refs_store : forall h a c x, refs (store h a c) x = refs_of (ce_object c) x + refs (release h a) x.
Proof. reflexivity. Qed.
Lemma obj_load : forall h a c, load h a = Some c -> obj_at h a = Some (ce_object c).
Proof. intros h a c H. unfold obj_at. rewrite H. reflexivity. Qed.
Lemma obj_inv : forall h a o, obj_at h a = Some o -> exists c, load h a = Some c /\ ce_object c = o.
Proof. unfold obj_at. intros h a o H. destruct (load h a) as [c|]; [injection H as H; exists c; auto|discriminate]. Qed.

(* [p]: rules referred to from outside the heap *)
Definition fine (h : heap) (p : list N) (a : N) (c : cell) : Prop :=
  match ce_object c with
  | ObRule _ => ce_count c = refs h a + count_occ N.eq_dec p a /\ 1 <= ce_count c
  | o => ce_count c = 1 /\ forall i, 0 < refs_of o i -> is_rule h i
  end.
Record wf (h : heap) (p : list N) : Prop := {
  wf_keys : NoDup (map fst h);
  wf_fine : forall a c, load h a = Some c -> fine h p a c;
  wf_pending : forall a, In a p -> is_rule h a
}.

Lemma refs_positive : forall h i, 0 < refs h i -> exists a c, In (a, c) h /\ 0 < refs_of (ce_object c) i.
Proof.
  induction h as [|[k c] h IH]; cbn; intros i H; [lia|].
  destruct (refs_of (ce_object c) i) as [|n] eqn:E.
  - destruct (IH i H) as (a & d & I & R). exists a, d. auto.
  - exists k, c. split; [left; reflexivity|lia].
Qed.
Lemma In_load : forall h a c, NoDup (map fst h) -> In (a, c) h -> load h a = Some c.
Proof.
  induction h as [|[k x] h IH]; cbn; intros a c N I; [contradiction|]. inversion N; subst.
  destruct I as [[= -> ->]|I]; [rewrite N.eqb_refl; reflexivity|].
  destruct (N.eqb_spec k a) as [->|E]; [exfalso; apply H1; apply (in_map fst) in I; exact I|apply IH; assumption].
Qed.
Lemma refs_le : forall h a c i, load h a = Some c -> refs_of (ce_object c) i <= refs h i.
Proof. intros h a c i H. rewrite (refs_release _ _ _ i H). lia. Qed.

Definition view_object (h : heap) (o : object) : option handle :=
  match o with
  | ObRule _ => None
  | ObDouble i => option_map HRule (rule_at h i)
  | ObList items p => option_map (fun cs => HList cs p) (rules_at h items)
  | ObScanner t => Some (HScanner t)
  | ObVec b cap => Some (HVec b cap)
  | ObString s => Some (HString s)
  | ObC b => Some (HC b)
  end.
Definition view (h : heap) (a : N) : option handle :=
  match obj_at h a with Some o => view_object h o | None => None end.

Lemma rule_at_obj : forall h a, rule_at h a = match obj_at h a with Some (ObRule x) => Some x | _ => None end.
Proof. intros h a. unfold rule_at, obj_at. destruct (load h a) as [[n o]|]; reflexivity. Qed.
Lemma rules_at_same : forall h h' l, (forall i, In i l -> obj_at h i = obj_at h' i) -> rules_at h l = rules_at h' l.
Proof.
  intros h h' l H. unfold rules_at. f_equal. apply map_ext_in. intros i I. rewrite !rule_at_obj, (H i I). reflexivity.
Qed.
Lemma view_object_same : forall h h' o, (forall i, 0 < refs_of o i -> obj_at h i = obj_at h' i) ->
  view_object h o = view_object h' o.
Proof.
  intros h h' [c|i|l p|t|b cap|s|b] H; try reflexivity; cbn in *.
  - specialize (H i). rewrite N.eqb_refl in H. rewrite !rule_at_obj, H by lia. reflexivity.
  - rewrite (rules_at_same h h' l); [reflexivity|]. intros i I. apply H. apply count_occ_In. exact I.
Qed.
Lemma rules_at_total : forall h l, (forall i, In i l -> is_rule h i) -> exists cs, rules_at h l = Some cs.
Proof.
  intros h l. unfold rules_at. induction l as [|i l IH]; cbn; intros H; [eexists; reflexivity|].
  destruct (H i (or_introl eq_refl)) as [x X]. rewrite rule_at_obj, X.
  destruct IH as [cs E]; [intros j J; apply H; right; exact J|]. rewrite E. cbn. eexists; reflexivity.
Qed.
Lemma rules_at_snoc : forall h l i cs x, rules_at h l = Some cs -> rule_at h i = Some x -> rules_at h (l ++ [i]) = Some (cs ++ [x]).
Proof.
  unfold rules_at. intros h l i cs x. revert cs. induction l as [|j l IH]; cbn; intros cs H X.
  - injection H as <-. rewrite X. reflexivity.
  - destruct (rule_at h j) as [y|]; cbn in *; [|discriminate].
    destruct (all_some (map (rule_at h) l)) as [ys|]; cbn in *; [|discriminate]. injection H as <-.
    rewrite (IH ys eq_refl X). reflexivity.
Qed.

(* everything but a rule is seen by the client *)
Lemma view_visible : forall h p a o, wf h p -> obj_at h a = Some o -> (exists x, o = ObRule x) \/ exists v, view h a = Some v.
Proof.
  intros h p a o W H. unfold view. rewrite H. destruct (obj_inv _ _ _ H) as (c & L & E). pose proof (wf_fine _ _ W a c L) as F.
  unfold fine in F. rewrite E in F. destruct o as [x|i|l q|t|b cap|s|b]; try (right; eexists; reflexivity).
  - left. exists x. reflexivity.
  - right. destruct F as [_ F]. destruct (F i) as [x X]; [cbn; rewrite N.eqb_refl; lia|]. cbn. rewrite rule_at_obj, X. eexists; reflexivity.
  - right. destruct F as [_ F]. destruct (rules_at_total h l) as [cs K]; [|cbn; rewrite K; eexists; reflexivity].
    intros i I. apply F. cbn. apply count_occ_In. exact I.
Qed.

(* dropping a reference *)
Lemma drop_rule_fine : forall h p i, wf h (i :: p) -> exists h', drop_rule h i = Some h' /\ wf h' p /\
  (forall b, b <> i -> load h' b = load h b) /\ (forall b, view h' b = view h b).
Proof.
  intros h p i W. destruct (wf_pending _ _ W i (or_introl eq_refl)) as [x X].
  destruct (obj_inv _ _ _ X) as (c & L & E). pose proof (wf_fine _ _ W i c L) as F. unfold fine in F. rewrite E in F.
  destruct F as [F1 F2]. cbn [count_occ] in F1. destruct (N.eq_dec i i) as [_|K]; [|contradiction].
  unfold drop_rule. rewrite L. cbn [obind]. rewrite E.
  destruct (ce_count c) as [|[|n]] eqn:C; [lia| |].
  - (* the last one *)
    exists (release h i). split; [reflexivity|].
    assert (R0 : refs h i = 0) by lia. assert (P0 : count_occ N.eq_dec p i = 0) by lia.
    assert (RR : forall b, refs (release h i) b = refs h b).
    { intros b. rewrite (refs_release _ _ _ b L), E. reflexivity. }
    assert (LL : forall b, load (release h i) b = if N.eqb i b then None else load h b) by (intros b; apply load_release, (wf_keys _ _ W)).
    assert (IR : forall b, b <> i -> is_rule h b -> is_rule (release h i) b).
    { intros b D [y Y]. exists y. rewrite obj_release by apply (wf_keys _ _ W). destruct (N.eqb_spec i b); [congruence|exact Y]. }
    split; [split|split].
    + apply release_nodup, (wf_keys _ _ W).
    + intros b d H. rewrite LL in H. destruct (N.eqb_spec i b) as [|D]; [discriminate|].
      pose proof (wf_fine _ _ W b d H) as F. unfold fine in *. pose proof (refs_le _ _ _ i H) as RL.
      destruct (ce_object d) eqn:O; try (destruct F as [Fa Fb]; split; [exact Fa|intros j J; apply IR; [intros ->; lia|apply Fb, J]]).
      rewrite RR. cbn [count_occ] in F. destruct (N.eq_dec i b); [contradiction|]. exact F.
    + intros b I. apply IR; [intros ->; apply (count_occ_In N.eq_dec) in I; lia|apply (wf_pending _ _ W); right; exact I].
    + intros b D. rewrite LL. destruct (N.eqb_spec i b); [congruence|reflexivity].
    + intros b. unfold view. rewrite obj_release by apply (wf_keys _ _ W). destruct (N.eqb_spec i b) as [<-|D].
      * rewrite X. reflexivity.
      * destruct (obj_at h b) as [o|] eqn:O; [|reflexivity]. destruct (obj_inv _ _ _ O) as (d & Ld & Ed).
        apply view_object_same. intros j J. rewrite obj_release by apply (wf_keys _ _ W).
        destruct (N.eqb_spec i j) as [<-|]; [|reflexivity]. exfalso. pose proof (refs_le _ _ _ i Ld). rewrite Ed in *. lia.
  - exists (store h i {| ce_count := S n; ce_object := ObRule x |}). split; [reflexivity|].
    assert (OO : forall b, obj_at (store h i {| ce_count := S n; ce_object := ObRule x |}) b = obj_at h b).
    { intros b. rewrite obj_store. destruct (N.eqb_spec i b) as [<-|]; [rewrite X; reflexivity|reflexivity]. }
    assert (RR : forall b, refs (store h i {| ce_count := S n; ce_object := ObRule x |}) b = refs h b).
    { intros b. rewrite refs_store, (refs_release _ _ _ b L), E. reflexivity. }
    split; [split|split].
    + apply store_nodup, (wf_keys _ _ W).
    + intros b d H. rewrite load_store in H. destruct (N.eqb_spec i b) as [<-|D].
      * injection H as <-. unfold fine. cbn [ce_object ce_count]. rewrite RR. lia.
      * rewrite load_release_other in H by exact D.
        pose proof (wf_fine _ _ W b d H) as F. unfold fine in *.
        destruct (ce_object d) eqn:O; try (destruct F as [Fa Fb]; split; [exact Fa|intros j J; unfold is_rule; rewrite OO; apply Fb, J]).
        rewrite RR. cbn [count_occ] in F. destruct (N.eq_dec i b); [contradiction|]. exact F.
    + intros b I. unfold is_rule. rewrite OO. apply (wf_pending _ _ W). right. exact I.
    + intros b D. rewrite load_store. destruct (N.eqb_spec i b); [congruence|]. apply load_release_other. congruence.
    + intros b. unfold view. rewrite OO. destruct (obj_at h b) as [o|]; [|reflexivity]. apply view_object_same. intros j _. apply OO.
Qed.
Lemma drop_rules_fine : forall l h p, wf h (l ++ p) -> exists h', drop_rules h l = Some h' /\ wf h' p /\
  (forall b, view h' b = view h b).
Proof.
  induction l as [|i l IH]; cbn [app drop_rules]; intros h p W; [exists h; auto|].
  destruct (drop_rule_fine _ _ _ W) as (h1 & D & W1 & _ & V1). rewrite D. cbn [obind].
  destruct (IH _ _ W1) as (h2 & D2 & W2 & V2). exists h2. split; [exact D2|]. split; [exact W2|]. intros b. rewrite V2. apply V1.
Qed.
Lemma clone_rule_fine : forall h p i, wf h p -> is_rule h i -> exists h', clone_rule h i = Some h' /\ wf h' (i :: p) /\
  (forall b, b <> i -> load h' b = load h b) /\ (forall b, obj_at h' b = obj_at h b) /\ (forall b, view h' b = view h b).
Proof.
  intros h p i W [x X]. destruct (obj_inv _ _ _ X) as (c & L & E). pose proof (wf_fine _ _ W i c L) as F. unfold fine in F. rewrite E in F.
  unfold clone_rule. rewrite L. cbn [obind]. rewrite E. eexists. split; [reflexivity|].
  set (h' := store _ _ _).
  assert (OO : forall b, obj_at h' b = obj_at h b).
  { intros b. unfold h'. rewrite obj_store. destruct (N.eqb_spec i b) as [<-|]; [rewrite X; reflexivity|reflexivity]. }
  assert (RR : forall b, refs h' b = refs h b).
  { intros b. unfold h'. rewrite refs_store, (refs_release _ _ _ b L), E. reflexivity. }
  assert (LL : forall b, b <> i -> load h' b = load h b).
  { intros b D. unfold h'. rewrite load_store. destruct (N.eqb_spec i b); [congruence|]. apply load_release_other. congruence. }
  split; [split|split; [exact LL|split; [exact OO|]]].
  - apply store_nodup, (wf_keys _ _ W).
  - intros b d H. destruct (N.eq_dec b i) as [->|D].
    + unfold h' in H. rewrite load_store, N.eqb_refl in H. injection H as <-. unfold fine. cbn [ce_object ce_count count_occ].
      rewrite RR. destruct (N.eq_dec i i); [|contradiction]. lia.
    + rewrite LL in H by exact D. pose proof (wf_fine _ _ W b d H) as G. unfold fine in *.
      destruct (ce_object d) eqn:O; try (destruct G as [Fa Fb]; split; [exact Fa|intros j J; unfold is_rule; rewrite OO; apply Fb, J]).
      rewrite RR. cbn [count_occ]. destruct (N.eq_dec i b); [congruence|]. exact G.
  - intros b [<-|I]; unfold is_rule; rewrite OO; [exists x; exact X|apply (wf_pending _ _ W), I].
  - intros b. unfold view. rewrite OO. destruct (obj_at h b) as [o|]; [|reflexivity]. apply view_object_same. intros j _. apply OO.
Qed.

(* putting an object at an address that holds none or no rule; the references of the old
   object [old] become pending and those of the new one [new] are taken from there *)
Definition is_rule_object (o : object) : Prop := match o with ObRule _ => True | _ => False end.
Definition items_of (o : object) : list N :=
  match o with ObDouble i => [i] | ObList l _ => l | _ => [] end.
Lemma refs_items : forall o i, refs_of o i = count_occ N.eq_dec (items_of o) i.
Proof.
  intros [c|k|l p|t|b cap|s|b] i; try reflexivity. cbn. destruct (N.eqb_spec k i), (N.eq_dec k i); congruence.
Qed.
Lemma count_occ_app : forall l k i, count_occ N.eq_dec (l ++ k) i = count_occ N.eq_dec l i + count_occ N.eq_dec k i.
Proof. induction l as [|j l IH]; cbn; intros k i; [reflexivity|]. destruct (N.eq_dec j i); rewrite IH; reflexivity. Qed.

Lemma put_fine : forall h p a o, wf h (items_of o ++ p) -> load h a = None -> ~ is_rule_object o ->
  wf (store h a (new_cell o)) p /\ (forall b, view (store h a (new_cell o)) b = if N.eqb a b then view_object h o else view h b).
Proof.
  intros h p a o W L N. set (h' := store _ _ _).
  assert (OO : forall b, obj_at h' b = if N.eqb a b then Some o else obj_at h b) by (intros b; apply obj_store).
  assert (OA : obj_at h a = None) by (unfold obj_at; rewrite L; reflexivity).
  assert (IR : forall b, is_rule h b -> is_rule h' b).
  { intros b [x X]. exists x. rewrite OO. destruct (N.eqb_spec a b) as [<-|]; [congruence|exact X]. }
  assert (RR : forall b, refs h' b = count_occ N.eq_dec (items_of o) b + refs h b).
  { intros b. unfold h'. rewrite refs_store, release_none by exact L. cbn [new_cell ce_object]. rewrite refs_items. reflexivity. }
  assert (PI : forall b, 0 < refs_of o b -> is_rule h b).
  { intros b B. apply (wf_pending _ _ W), in_or_app. left. rewrite refs_items in B. apply count_occ_In in B. exact B. }
  split; [split|].
  - apply store_nodup, (wf_keys _ _ W).
  - intros b c H. unfold h' in H. rewrite load_store, release_none in H by exact L.
    destruct (N.eqb_spec a b) as [<-|D].
    + injection H as <-. unfold fine, new_cell. cbn [ce_object ce_count].
      destruct o; try (exfalso; apply N; exact I); (split; [reflexivity|intros j J; apply IR, PI, J]).
    + pose proof (wf_fine _ _ W b c H) as F. unfold fine in *.
      destruct (ce_object c); try (destruct F as [Fa Fb]; split; [exact Fa|intros j J; apply IR, Fb, J]).
      rewrite RR. rewrite count_occ_app in F. lia.
  - intros b I. apply IR, (wf_pending _ _ W), in_or_app. right. exact I.
  - intros b. unfold view. rewrite OO. destruct (N.eqb_spec a b) as [<-|D].
    + symmetry. apply view_object_same. intros j J. rewrite OO. destruct (N.eqb_spec a j) as [<-|]; [|reflexivity].
      destruct (PI a J) as [x X]. congruence.
    + destruct (obj_at h b) as [q|] eqn:Q; [|reflexivity]. symmetry. apply view_object_same. intros j J. rewrite OO.
      destruct (N.eqb_spec a j) as [<-|]; [|reflexivity]. destruct (obj_inv _ _ _ Q) as (c & Lc & Ec).
      pose proof (wf_fine _ _ W b c Lc) as F. unfold fine in F. rewrite Ec in F.
      destruct q; try (cbn in J; lia); destruct F as [_ F]; destruct (F a J) as [x X]; congruence.
Qed.
Lemma take_fine : forall h p a c, wf h p -> load h a = Some c -> ~ is_rule_object (ce_object c) ->
  ce_count c = 1 /\ wf (release h a) (items_of (ce_object c) ++ p) /\
  load (release h a) a = None /\ (forall b, b <> a -> load (release h a) b = load h b) /\
  (forall b, view (release h a) b = if N.eqb a b then None else view h b).
Proof.
  intros h p a c W L N. pose proof (wf_fine _ _ W a c L) as F0.
  assert (F : ce_count c = 1 /\ forall i, 0 < refs_of (ce_object c) i -> is_rule h i).
  { unfold fine in F0. destruct (ce_object c); try exact F0. exfalso. apply N. exact I. }
  destruct F as [F1 F2]. split; [exact F1|].
  assert (OO : forall b, obj_at (release h a) b = if N.eqb a b then None else obj_at h b) by (intros b; apply obj_release, (wf_keys _ _ W)).
  assert (OA : obj_at h a = Some (ce_object c)) by (apply obj_load, L).
  assert (NA : ~ is_rule h a). { intros [x X]. rewrite OA in X. injection X as X. apply N. rewrite X. exact I. }
  assert (IR : forall b, is_rule h b -> is_rule (release h a) b).
  { intros b B. assert (a <> b) by (intros <-; contradiction). destruct B as [x X]. exists x. rewrite OO. destruct (N.eqb_spec a b); [contradiction|exact X]. }
  assert (RR : forall b, refs h b = count_occ N.eq_dec (items_of (ce_object c)) b + refs (release h a) b).
  { intros b. rewrite (refs_release _ _ _ b L), refs_items. reflexivity. }
  split; [split|split; [|split]].
  - apply release_nodup, (wf_keys _ _ W).
  - intros b d H. rewrite load_release in H by apply (wf_keys _ _ W). destruct (N.eqb_spec a b) as [|D]; [discriminate|].
    pose proof (wf_fine _ _ W b d H) as F. unfold fine in *.
    destruct (ce_object d); try (destruct F as [Fa Fb]; split; [exact Fa|intros j J; apply IR, Fb, J]).
    rewrite count_occ_app. rewrite RR in F. lia.
  - intros b I. apply in_app_or in I. destruct I as [I|I]; apply IR; [|apply (wf_pending _ _ W), I].
    apply F2. rewrite refs_items. apply count_occ_In. exact I.
  - apply load_release_same, (wf_keys _ _ W).
  - intros b D. apply load_release_other. congruence.
  - intros b. unfold view. rewrite OO. destruct (N.eqb_spec a b) as [<-|D]; [reflexivity|].
    destruct (obj_at h b) as [q|] eqn:Q; [|reflexivity]. apply view_object_same. intros j J. rewrite OO.
    destruct (N.eqb_spec a j) as [<-|]; [|reflexivity]. exfalso. apply NA. destruct (obj_inv _ _ _ Q) as (d & Ld & Ed).
    pose proof (wf_fine _ _ W b d Ld) as G. unfold fine in G. rewrite Ed in G.
    destruct q; try (cbn in J; lia); destruct G as [_ G]; exact (G a J).
Qed.
(* a new rule, referred to from outside *)
Lemma new_rule_fine : forall h a x, wf h [] -> load h a = None ->
  wf (store h a (new_cell (ObRule x))) [a] /\ (forall b, view (store h a (new_cell (ObRule x))) b = view h b) /\
  rule_at (store h a (new_cell (ObRule x))) a = Some x.
Proof.
  intros h a x W L. set (h' := store _ _ _).
  assert (OO : forall b, obj_at h' b = if N.eqb a b then Some (ObRule x) else obj_at h b) by (intros b; apply obj_store).
  assert (OA : obj_at h a = None) by (unfold obj_at; rewrite L; reflexivity).
  assert (IR : forall b, is_rule h b -> is_rule h' b).
  { intros b [y Y]. exists y. rewrite OO. destruct (N.eqb_spec a b) as [<-|]; [congruence|exact Y]. }
  assert (RR : forall b, refs h' b = refs h b).
  { intros b. unfold h'. rewrite refs_store, release_none by exact L. reflexivity. }
  assert (R0 : refs h a = 0).
  { destruct (refs h a) as [|n] eqn:R; [reflexivity|]. destruct (refs_positive h a) as (b & c & I & P); [lia|].
    apply In_load in I; [|apply (wf_keys _ _ W)]. pose proof (wf_fine _ _ W b c I) as F. unfold fine in F.
    destruct (ce_object c); try (cbn in P; lia); destruct F as [_ F]; destruct (F a P) as [y Y]; congruence. }
  split; [split|split].
  - apply store_nodup, (wf_keys _ _ W).
  - intros b c H. unfold h' in H. rewrite load_store, release_none in H by exact L. destruct (N.eqb_spec a b) as [<-|D].
    + injection H as <-. unfold fine, new_cell. cbn [ce_object ce_count count_occ]. rewrite RR, R0.
      destruct (N.eq_dec a a); [lia|contradiction].
    + pose proof (wf_fine _ _ W b c H) as F. unfold fine in *.
      destruct (ce_object c); try (destruct F as [Fa Fb]; split; [exact Fa|intros j J; apply IR, Fb, J]).
      rewrite RR. cbn [count_occ] in *. destruct (N.eq_dec a b); [contradiction|]. exact F.
  - intros b [<-|[]]. exists x. rewrite OO, N.eqb_refl. reflexivity.
  - intros b. unfold view. rewrite OO. destruct (N.eqb_spec a b) as [<-|D]; [rewrite OA; reflexivity|].
    destruct (obj_at h b) as [q|] eqn:Q; [|reflexivity]. symmetry. apply view_object_same. intros j J. rewrite OO.
    destruct (N.eqb_spec a j) as [<-|]; [|reflexivity]. exfalso. destruct (obj_inv _ _ _ Q) as (c & Lc & Ec).
    pose proof (wf_fine _ _ W b c Lc) as F. unfold fine in F. rewrite Ec in F.
    destruct q; try (cbn in J; lia); destruct F as [_ F]; destruct (F a J) as [y Y]; congruence.
  - rewrite rule_at_obj, OO, N.eqb_refl. reflexivity.
Qed.
End Heap.

(* ---- the client and the machine ---- *)
Record related (m : machine) (cl : client) : Prop := {
  rl_wf : wf (ma_heap m) [];
  rl_handle : forall a, cl_handle cl a = view (ma_heap m) a;
  rl_scan : forall u, cl_scan cl u = scan_of (ma_scans m) u;
  rl_threads : NoDup (map fst (ma_scans m));
  rl_address : forall a, cl_handle cl a <> None -> address a;
  rl_busy : forall u a d, cl_scan cl u = Some (a, d) -> exists t, cl_handle cl a = Some (HScanner t);
  rl_vec : forall a b cap, cl_handle cl a = Some (HVec b cap) -> (N.of_nat (length b) <= cap)%N
}.

Lemma pointer_as_int : forall a, address a -> pointer (as_int a) = a.
Proof.
  intros a [A B]. unfold pointer, as_int. rewrite Z.mod_small; [apply N2Z.id|lia].
Qed.
Lemma handle_as_int : forall a, address a -> handle_of a = as_int a.
Proof. intros a [A B]. unfold handle_of, as_int. destruct (Z.ltb_spec (Z.of_N a) 9223372036854775808); [reflexivity|lia]. Qed.

Lemma view_inv_rule : forall h a x, view h a = Some (HRule x) -> exists n i, load h a = Some {| ce_count := n; ce_object := ObDouble i |} /\ rule_at h i = Some x.
Proof.
  unfold view, obj_at. intros h a x H. destruct (load h a) as [[n o]|]; [|discriminate]. cbn in H.
  destruct o; cbn in H; try discriminate.
  - destruct (rule_at h inner) eqn:R; [|discriminate]. injection H as ->. exists n, inner. auto.
  - destruct (rules_at h items); discriminate.
Qed.
Lemma view_inv_list : forall h a cs p, view h a = Some (HList cs p) -> exists n l, load h a = Some {| ce_count := n; ce_object := ObList l p |} /\ rules_at h l = Some cs.
Proof.
  unfold view, obj_at. intros h a cs p H. destruct (load h a) as [[n o]|]; [|discriminate]. cbn in H.
  destruct o; cbn in H; try discriminate.
  - destruct (rule_at h inner) eqn:R; discriminate.
  - destruct (rules_at h items) eqn:R; [|discriminate]. injection H as -> ->. exists n, items. auto.
Qed.
Lemma view_inv : forall h a v, view h a = Some v ->
  match v with
  | HRule _ | HList _ _ => True
  | HScanner t => exists n, load h a = Some {| ce_count := n; ce_object := ObScanner t |}
  | HVec b k => exists n, load h a = Some {| ce_count := n; ce_object := ObVec b k |}
  | HString s => exists n, load h a = Some {| ce_count := n; ce_object := ObString s |}
  | HC b => exists n, load h a = Some {| ce_count := n; ce_object := ObC b |}
  end.
Proof.
  unfold view, obj_at. intros h a v H. destruct (load h a) as [[n o]|]; [|discriminate]. cbn in H.
  destruct o; cbn in H; try discriminate; try (injection H as <-; exists n; reflexivity).
  - destruct (rule_at h inner) eqn:R; [|discriminate]. injection H as <-. exact I.
  - destruct (rules_at h items) eqn:R; [|discriminate]. injection H as <-. exact I.
Qed.

Lemma not_busy : forall m cl a v, related m cl -> cl_handle cl a = v -> (forall t, v <> Some (HScanner t)) ->
  forall u d, cl_scan cl u <> Some (a, d).
Proof. intros m cl a v R H N u d K. destruct (rl_busy _ _ R _ _ _ K) as [t T]. apply (N t). congruence. Qed.

Lemma related_hold : forall m cl h' a x, related m cl -> wf h' [] ->
  (forall b, view h' b = if N.eqb a b then x else view (ma_heap m) b) -> (x <> None -> address a) ->
  (forall u d, cl_scan cl u <> Some (a, d)) -> (forall b cap, x = Some (HVec b cap) -> (N.of_nat (length b) <= cap)%N) ->
  related (with_heap m h') (hold cl a x).
Proof.
  intros m cl h' a x R W V A B VC. split; cbn [with_heap ma_heap ma_scans hold cl_handle cl_scan].
  - exact W.
  - intros b. rewrite V, N.eqb_sym. destruct (N.eqb a b); [reflexivity|apply (rl_handle _ _ R)].
  - apply (rl_scan _ _ R).
  - apply (rl_threads _ _ R).
  - intros b. destruct (N.eqb_spec b a) as [->|]; [exact A|apply (rl_address _ _ R)].
  - intros u b d H. destruct (N.eqb_spec b a) as [->|]; [exfalso; exact (B u d H)|apply (rl_busy _ _ R u b d H)].
  - intros b v cap. destruct (N.eqb_spec b a) as [->|]; [apply VC|apply (rl_vec _ _ R)].
Qed.
Lemma related_heap : forall m cl h', related m cl -> wf h' [] -> (forall b, view h' b = view (ma_heap m) b) ->
  related (with_heap m h') cl.
Proof.
  intros m cl h' R W V. split; cbn [with_heap ma_heap ma_scans].
  - exact W.
  - intros b. rewrite V. apply (rl_handle _ _ R).
  - apply (rl_scan _ _ R).
  - apply (rl_threads _ _ R).
  - apply (rl_address _ _ R).
  - apply (rl_busy _ _ R).
  - apply (rl_vec _ _ R).
Qed.
Lemma related_equivalent : forall m cl cl', related m cl -> equivalent cl cl' -> related m cl'.
Proof.
  intros m cl cl' R [E F]. split.
  - apply (rl_wf _ _ R).
  - intros a. rewrite <- E. apply (rl_handle _ _ R).
  - intros u. rewrite <- F. apply (rl_scan _ _ R).
  - apply (rl_threads _ _ R).
  - intros a. rewrite <- E. apply (rl_address _ _ R).
  - intros u a d. rewrite <- F. intros H. destruct (rl_busy _ _ R u a d H) as [t T]. exists t. rewrite <- E. exact T.
  - intros a b cap. rewrite <- E. apply (rl_vec _ _ R).
Qed.

Lemma view_none : forall h a, load h a = None -> view h a = None.
Proof. intros h a H. unfold view, obj_at. rewrite H. reflexivity. Qed.

Lemma alloc_fine : forall w m cl o v a, sane_world w -> nw_alloc w (ma_heap m) = Some a -> related m cl -> items_of o = [] -> ~ is_rule_object o ->
  view_object (ma_heap m) o = Some v -> (forall b cap, v = HVec b cap -> (N.of_nat (length b) <= cap)%N) ->
  fresh cl a /\ related (with_heap m (store (ma_heap m) a (new_cell o))) (hold cl a (Some v)).
Proof.
  intros w m cl o v a S AL R I N V VC. destruct (sw_alloc _ S _ _ AL) as [A L].
  assert (F : cl_handle cl a = None) by (rewrite (rl_handle _ _ R); apply view_none, L).
  split; [split; assumption|].
  destruct (put_fine (ma_heap m) [] a o) as [W VV];
    [rewrite I; apply (rl_wf _ _ R)|exact L|exact N|].
  apply related_hold; [exact R|exact W| |intros _; exact A|eapply not_busy; [exact R|exact F|discriminate]|intros b cap [= E]; apply VC, E].
  intros b. rewrite VV, V. reflexivity.
Qed.

Lemma c_message_string : forall s, c_string s (c_message s).
Proof.
  intros s. unfold c_string, c_message. destruct (existsb (N.eqb 0) s) eqn:E.
  - right. split; [|reflexivity]. apply existsb_exists in E. destruct E as (x & I & Q). apply N.eqb_eq in Q. subst x. exact I.
  - left. split; [|reflexivity]. intros I. assert (existsb (N.eqb 0) s = true) by (apply existsb_exists; exists 0%N; auto). congruence.
Qed.
Lemma c_string_unique : forall m s s', c_string m s -> c_string m s' -> s = s'.
Proof. unfold c_string. intros m s s'. intuition congruence. Qed.

Lemma scan_of_end : forall l t u, scan_of (end_scan l t) u = if u =? t then None else scan_of l u.
Proof.
  unfold end_scan. induction l as [|[k x] l IH]; cbn; intros t u; [destruct (u =? t); reflexivity|].
  destruct (Nat.eqb_spec k t) as [->|D]; cbn; rewrite IH.
  - destruct (Nat.eqb_spec u t) as [->|E]; [reflexivity|]. destruct (Nat.eqb_spec t u); [congruence|reflexivity].
  - destruct (Nat.eqb_spec k u) as [->|E]; [|reflexivity]. destruct (Nat.eqb_spec u t); [contradiction|reflexivity].
Qed.
Lemma end_scan_threads : forall l t, NoDup (map fst l) -> NoDup (map fst (end_scan l t)).
Proof.
  induction l as [|[k x] l IH]; cbn; intros t H; [exact H|]. inversion H; subst.
  destruct (k =? t); cbn; [apply IH; assumption|]. constructor; [|apply IH; assumption].
  intros I. apply H2. apply in_map_iff in I. destruct I as ([k' y] & E & I). cbn in E. subst k'. apply filter_In in I.
  apply in_map_iff. exists (k, y). tauto.
Qed.
Lemma scan_of_In : forall l u x, NoDup (map fst l) -> In (u, x) l -> scan_of l u = Some x.
Proof.
  induction l as [|[k y] l IH]; cbn; intros u x N I; [contradiction|]. inversion N; subst.
  destruct I as [[= -> ->]|I]; [rewrite Nat.eqb_refl; reflexivity|].
  destruct (Nat.eqb_spec k u) as [->|D]; [exfalso; apply H1; apply (in_map fst) in I; exact I|apply IH; assumption].
Qed.
Lemma scan_of_none : forall l u, scan_of l u = None -> ~ In u (map fst l).
Proof.
  induction l as [|[k y] l IH]; cbn; intros u H; [tauto|]. destruct (Nat.eqb_spec k u) as [->|D]; [discriminate|].
  intros [E|I]; [contradiction|exact (IH u H I)].
Qed.
Lemma not_scanning : forall l a, (forall u d, scan_of l u <> Some (a, d)) -> NoDup (map fst l) ->
  existsb (fun x : nat * (N * octets) => N.eqb (fst (snd x)) a) l = false.
Proof.
  intros l a H N. destruct (existsb _ l) eqn:E; [|reflexivity]. apply existsb_exists in E. destruct E as ([u [b d]] & I & Q).
  cbn in Q. apply N.eqb_eq in Q. subst b. exfalso. apply (H u d). apply scan_of_In; assumption.
Qed.

Lemma related_ends : forall m cl u, related m cl ->
  related {| ma_heap := ma_heap m; ma_scans := end_scan (ma_scans m) u |} (scanning cl u None).
Proof.
  intros m cl u R. split; cbn [ma_heap ma_scans scanning cl_handle cl_scan].
  - apply (rl_wf _ _ R).
  - apply (rl_handle _ _ R).
  - intros t. rewrite scan_of_end. destruct (t =? u); [reflexivity|apply (rl_scan _ _ R)].
  - apply end_scan_threads, (rl_threads _ _ R).
  - apply (rl_address _ _ R).
  - intros t a d. destruct (t =? u); [discriminate|apply (rl_busy _ _ R)].
  - apply (rl_vec _ _ R).
Qed.

(* the calls of a careful client are defined and do what the client expects *)
Definition goes_well (w : native_world) (m : machine) (cl : client) (c : call) : Prop :=
  exists r m' cl', step w m c = Done r m' /\ ideal (nw_build w) (nw_scan w) (nw_message w) cl c r cl' /\ related m' cl'.

Definition well (w : native_world) (m : machine) (cl : client) (c : call) : Prop :=
  (step w m c = Never /\ never_returns w cl c) \/ goes_well w m cl c.
Lemma alloc_or_not : forall A w h o (f : N -> heap -> stepped A), 
  (allocate w h o f = Never /\ out_of_memory w) \/ exists a, nw_alloc w h = Some a /\ allocate w h o f = f a (store h a (new_cell o)).
Proof.
  intros A w h o f. unfold allocate. destruct (nw_alloc w h) as [a|] eqn:E; [right; exists a; auto|left; split; [reflexivity|exists h; exact E]].
Qed.

Section Steps.
Variables (w : native_world) (S : sane_world w) (m : machine) (cl : client) (R : related m cl).

Lemma step_rule : forall json, well w m cl (CRule json).
Proof.
  intros [x|]; unfold well, goes_well; cbn [step create_regex_rule].
  2: { right. exists (RInt err_panic), m, cl. split; [reflexivity|]. split; [apply il_not_a_rule|exact R]. }
  set (h := ma_heap m). destruct (alloc_or_not _ w h (ObRule x) (fun i h => allocate w h (ObDouble i) (fun d h => Done (RInt (handle_of d)) (with_heap m h)))) as [[E O]|(i & Ei & E)]; rewrite E.
  { left. split; [reflexivity|left; exact O]. }
  set (h1 := store h i (new_cell (ObRule x))).
  destruct (alloc_or_not _ w h1 (ObDouble i) (fun d h => Done (RInt (handle_of d)) (with_heap m h))) as [[E' O]|(d & Ed & E')]; rewrite E'.
  { left. split; [reflexivity|left; exact O]. }
  right. clear E E'.
  destruct (sw_alloc _ S _ _ Ei) as [Ai Li]. destruct (sw_alloc _ S _ _ Ed) as [Ad Ld].
  destruct (new_rule_fine h i x (rl_wf _ _ R) Li) as (W1 & V1 & X1). fold h1 in W1, V1, X1.
  destruct (put_fine h1 [] d (ObDouble i)) as [W2 V2]; [cbn; exact W1|exact Ld|cbn; tauto|].
  assert (F : fresh cl d).
  { split; [exact Ad|]. rewrite (rl_handle _ _ R). fold h. rewrite <- V1. apply view_none, Ld. }
  exists (RInt (as_int d)). eexists. exists (hold cl d (Some (HRule x))). split; [rewrite (handle_as_int d Ad); reflexivity|].
  split; [apply il_rule; exact F|].
  apply related_hold; [exact R|exact W2| |intros _; exact Ad|eapply not_busy; [exact R|apply F|discriminate]|discriminate].
  intros b. rewrite V2, V1. cbn [view_object]. rewrite X1. reflexivity.
Qed.
Lemma step_free_rule : forall a x, address a -> cl_handle cl a = Some (HRule x) -> goes_well w m cl (CFreeRule (as_int a)).
Proof.
  intros a x A H. pose proof H as H0. rewrite (rl_handle _ _ R) in H. destruct (view_inv_rule _ _ _ H) as (n & i & L & X).
  destruct (take_fine _ _ _ _ (rl_wf _ _ R) L) as (C & W & L1 & L2 & V); [cbn; tauto|]. cbn in C. subst n.
  unfold goes_well. cbn [step]. unfold free_any_rule. rewrite (pointer_as_int a A), L. cbn [obind ce_object ce_count].
  destruct (drop_rule_fine _ _ _ W) as (h' & D & W' & _ & V'). rewrite D. cbn [defined].
  exists RUnit. eexists. exists (hold cl a None). split; [reflexivity|]. split; [apply (il_free_rule _ _ _ _ _ x); assumption|].
  apply related_hold; [exact R|exact W'|intros b; rewrite V'; apply V|congruence|eapply not_busy; [exact R|exact H0|discriminate]|discriminate].
Qed.
Lemma step_list : well w m cl CList.
Proof.
  unfold well, goes_well. cbn [step]. unfold create_rule_list.
  destruct (alloc_or_not _ w (ma_heap m) (ObList [] false) (fun l h => Done (RInt (handle_of l)) (with_heap m h))) as [[AE AO]|(a' & AL & AE)]; rewrite AE; [left; split; [reflexivity|left; exact AO]|right; clear AE].
  destruct (alloc_fine w m cl (ObList [] false) (HList [] false) a' S AL R) as [F R']; [reflexivity|cbn; tauto|reflexivity|discriminate|].
  eexists. eexists. eexists. split; [rewrite (handle_as_int _ (proj1 F)); reflexivity|]. split; [apply il_list; exact F|exact R'].
Qed.
Lemma step_append : forall a x l cs p, address a -> address l -> cl_handle cl a = Some (HRule x) -> cl_handle cl l = Some (HList cs p) ->
  goes_well w m cl (CAppend (as_int a) (as_int l)).
Proof.
  intros a x l cs p A B H K. pose proof H as H0. pose proof K as K0.
  rewrite (rl_handle _ _ R) in H, K. destruct (view_inv_rule _ _ _ H) as (n & i & L & X).
  destruct (view_inv_list _ _ _ _ K) as (k & items & LL & CS).
  assert (IR : is_rule (ma_heap m) i).
  { rewrite rule_at_obj in X. destruct (obj_at (ma_heap m) i) as [[y|?|? ?|?|? ?|?|?]|] eqn:O; try discriminate. exists y. exact O. }
  destruct (clone_rule_fine _ _ _ (rl_wf _ _ R) IR) as (h1 & D1 & W1 & L1 & O1 & V1).
  unfold goes_well. cbn [step]. unfold append_rule_to_list. rewrite (pointer_as_int a A), (pointer_as_int l B), L, LL.
  cbn [obind ce_object]. rewrite D1. cbn [obind].
  destruct p.
  - destruct (drop_rule_fine _ _ _ W1) as (h2 & D2 & W2 & _ & V2). rewrite D2. cbn [defined].
    exists RUnit. eexists. exists cl. split; [reflexivity|]. split; [apply (il_append_poisoned _ _ _ _ _ x _ cs); assumption|].
    apply related_heap; [exact R|exact W2|intros b; rewrite V2; apply V1].
  - assert (NI : l <> i). { intros ->. destruct IR as [y Y]. unfold obj_at in Y. rewrite LL in Y. discriminate. }
    assert (LL1 : load h1 l = Some {| ce_count := k; ce_object := ObList items false |}) by (rewrite L1; assumption).
    destruct (take_fine _ _ _ _ W1 LL1) as (C & W & Ln & Lo & V); [cbn; tauto|]. cbn in C. subst k.
    cbn [defined ce_count]. exists RUnit. eexists. exists (hold cl l (Some (HList (cs ++ [x]) false))). split; [reflexivity|].
    split; [apply (il_append _ _ _ _ _ x _ cs); assumption|].
    cbn [items_of ce_object app] in W.
    assert (W2 : wf (release h1 l) (items_of (ObList (items ++ [i]) false) ++ [])).
    { cbn [items_of]. rewrite <- app_assoc. exact W. }
    destruct (put_fine _ _ l (ObList (items ++ [i]) false) W2 Ln) as [W3 V3]; [cbn; tauto|].
    assert (ST : store (release h1 l) l (new_cell (ObList (items ++ [i]) false)) =
                 store h1 l {| ce_count := 1; ce_object := ObList (items ++ [i]) false |}).
    { unfold store at 1. rewrite (release_none _ _ Ln). reflexivity. }
    rewrite ST in W3, V3.
    apply related_hold; [exact R|exact W3| |intros _; exact B|eapply not_busy; [exact R|exact K0|discriminate]|discriminate].
    intros b. rewrite V3. destruct (N.eqb_spec l b) as [<-|Db].
    + cbn [view_object]. rewrite (rules_at_snoc _ items i cs x); [reflexivity| |].
      * rewrite <- CS. apply rules_at_same. intros j J.
        assert (Dj : j <> l).
        { intros ->. pose proof (wf_fine _ _ (rl_wf _ _ R) l _ LL) as F. destruct F as [_ F]. destruct (F l) as [y Y]; [cbn; apply count_occ_In; exact J|].
          unfold obj_at in Y. rewrite LL in Y. discriminate. }
        unfold obj_at. rewrite Lo by exact Dj. fold (obj_at h1 j). apply O1.
      * rewrite rule_at_obj. unfold obj_at. rewrite Lo by congruence. fold (obj_at h1 i). rewrite O1, <- rule_at_obj. exact X.
    + rewrite V. destruct (N.eqb_spec l b); [contradiction|]. apply V1.
Qed.
Lemma step_free_list : forall l cs p, address l -> cl_handle cl l = Some (HList cs p) -> goes_well w m cl (CFreeList (as_int l)).
Proof.
  intros l cs p A H. pose proof H as H0. rewrite (rl_handle _ _ R) in H. destruct (view_inv_list _ _ _ _ H) as (n & items & L & CS).
  destruct (take_fine _ _ _ _ (rl_wf _ _ R) L) as (C & W & L1 & L2 & V); [cbn; tauto|]. cbn in C. subst n.
  unfold goes_well. cbn [step]. unfold free_rule_list. rewrite (pointer_as_int l A), L. cbn [obind ce_object ce_count].
  destruct (drop_rules_fine _ _ _ W) as (h' & D & W' & V'). cbn [items_of ce_object] in D. rewrite D. cbn [defined].
  exists RUnit. eexists. exists (hold cl l None). split; [reflexivity|]. split; [apply (il_free_list _ _ _ _ _ cs p); assumption|].
  apply related_hold; [exact R|exact W'|intros b; rewrite V'; apply V|congruence|eapply not_busy; [exact R|exact H0|discriminate]|discriminate].
Qed.
Lemma step_scanner : forall l cs p kw, address l -> cl_handle cl l = Some (HList cs p) ->
  well w m cl (CScanner (as_int l) kw).
Proof.
  intros l cs p kw A H. pose proof H as H0. rewrite (rl_handle _ _ R) in H. destruct (view_inv_list _ _ _ _ H) as (n & items & L & CS).
  unfold well, goes_well. cbn [step]. unfold create_scanner. rewrite (pointer_as_int l A), L. cbn [ce_object].
  destruct p.
  - unfold create_panicked. destruct (alloc_or_not _ w (ma_heap m) (ObString (c_message (nw_message w))) (fun e h => Done (RCreated err_panic (Some e)) (with_heap m h))) as [[AE AO]|(a' & AL & AE)]; rewrite AE; [left; split; [reflexivity|left; exact AO]|right; clear AE].
    destruct (alloc_fine w m cl (ObString (c_message (nw_message w))) (HString (c_message (nw_message w))) a' S AL R) as [F R']; [reflexivity|cbn; tauto|reflexivity|discriminate|].
    eexists. eexists. eexists. split; [reflexivity|]. split; [|exact R'].
    apply (il_poisoned _ _ _ _ l cs); [exact A|exact H0|exact F|apply c_message_string].
  - rewrite CS. destruct (nw_build w cs kw) as [[t|e]| |] eqn:BD.
    + destruct (alloc_or_not _ w (ma_heap m) (ObScanner t) (fun a h => Done (RCreated (handle_of a) None) (with_heap m h))) as [[AE AO]|(a' & AL & AE)]; rewrite AE; [left; split; [reflexivity|left; exact AO]|right; clear AE].
      destruct (alloc_fine w m cl (ObScanner t) (HScanner t) a' S AL R) as [F R']; [reflexivity|cbn; tauto|reflexivity|discriminate|].
      eexists. eexists. eexists. split; [rewrite (handle_as_int _ (proj1 F)); reflexivity|]. split; [|exact R'].
      apply (il_scanner _ _ _ _ l cs kw t); assumption.
    + right. eexists. exists m, cl. split; [reflexivity|]. split; [apply (il_refused _ _ _ _ l cs); assumption|exact R].
    + destruct (take_fine _ _ _ _ (rl_wf _ _ R) L) as (C & W & Ln & Lo & V); [cbn; tauto|]. cbn in C. subst n.
      cbn [ce_object items_of app ce_count] in *.
      assert (W2 : wf (release (ma_heap m) l) (items_of (ObList items true) ++ [])) by exact W.
      destruct (put_fine _ _ l (ObList items true) W2 Ln) as [W3 V3]; [cbn; tauto|].
      assert (ST : store (release (ma_heap m) l) l (new_cell (ObList items true)) =
                   store (ma_heap m) l {| ce_count := 1; ce_object := ObList items true |}).
      { unfold store at 1. rewrite (release_none _ _ Ln). reflexivity. }
      rewrite ST in W3, V3.
      assert (R1 : related (with_heap m (store (ma_heap m) l {| ce_count := 1; ce_object := ObList items true |})) (hold cl l (Some (HList cs true)))).
      { apply related_hold; [exact R|exact W3| |intros _; exact A|eapply not_busy; [exact R|exact H0|discriminate]|discriminate].
        intros b. rewrite V3. destruct (N.eqb_spec l b) as [<-|Db].
        - cbn [view_object]. replace (rules_at (release (ma_heap m) l) items) with (Some cs); [reflexivity|].
          rewrite <- CS. apply rules_at_same. intros j J.
          assert (Dj : j <> l).
          { intros ->. pose proof (wf_fine _ _ (rl_wf _ _ R) l _ L) as F. destruct F as [_ F]. destruct (F l) as [y Y]; [cbn; apply count_occ_In; exact J|].
            unfold obj_at in Y. rewrite L in Y. discriminate. }
          unfold obj_at. rewrite Lo by exact Dj. reflexivity.
        - rewrite V. destruct (N.eqb_spec l b); [contradiction|reflexivity]. }
      unfold create_panicked. destruct (alloc_or_not _ w (store (ma_heap m) l {| ce_count := 1; ce_object := ObList items true |}) (ObString (c_message (nw_message w))) (fun e h => Done (RCreated err_panic (Some e)) (with_heap m h))) as [[AE AO]|(a' & AL & AE)]; rewrite AE; [left; split; [reflexivity|left; exact AO]|right; clear AE].
      destruct (alloc_fine w (with_heap m (store (ma_heap m) l {| ce_count := 1; ce_object := ObList items true |})) _ (ObString (c_message (nw_message w))) (HString (c_message (nw_message w))) a' S AL R1) as [F R']; [reflexivity|cbn; tauto|reflexivity|discriminate|].
      cbn [with_heap ma_heap ma_scans] in *.
      eexists. eexists. eexists. split; [reflexivity|]. split; [|exact R'].
      apply (il_panics _ _ _ _ l cs kw); [exact A|exact H0|exact BD| |apply c_message_string].
      destruct F as [Fa Fb]. split; [exact Fa|]. cbn [hold cl_handle] in Fb.
      destruct (N.eqb_spec a' l); [discriminate|exact Fb].
    + left. split; [reflexivity|]. right. cbn. exists l, cs. auto.
Qed.
Lemma step_delete : forall a t, address a -> cl_handle cl a = Some (HScanner t) -> (forall u d, cl_scan cl u <> Some (a, d)) ->
  goes_well w m cl (CDelete (as_int a)).
Proof.
  intros a t A H B. pose proof H as H0. rewrite (rl_handle _ _ R) in H. destruct (view_inv _ _ _ H) as [n L].
  destruct (take_fine _ _ _ _ (rl_wf _ _ R) L) as (C & W & L1 & L2 & V); [cbn; tauto|]. cbn in C. subst n.
  unfold goes_well. cbn [step]. unfold delete_scanner. rewrite (pointer_as_int a A), L.
  rewrite not_scanning; [|intros u d; rewrite <- (rl_scan _ _ R); apply B|apply (rl_threads _ _ R)].
  cbn [obind ce_object ce_count defined].
  exists RUnit. eexists. exists (hold cl a None). split; [reflexivity|]. split; [apply (il_delete _ _ _ _ _ t); assumption|].
  apply related_hold; [exact R|exact W|exact V|congruence|exact B|discriminate].
Qed.
Lemma step_bytes : forall b, well w m cl (CBytes b).
Proof.
  intros b. unfold well, goes_well. cbn [step]. unfold c_bytes.
  destruct (alloc_or_not _ w (ma_heap m) (ObC b) (fun l h => Done (RInt (handle_of l)) (with_heap m h))) as [[AE AO]|(a' & AL & AE)]; rewrite AE; [left; split; [reflexivity|left; exact AO]|right; clear AE].
  destruct (alloc_fine w m cl (ObC b) (HC b) a' S AL R) as [F R']; [reflexivity|cbn; tauto|reflexivity|discriminate|].
  eexists. eexists. eexists. split; [rewrite (handle_as_int _ (proj1 F)); reflexivity|]. split; [apply il_bytes; exact F|exact R'].
Qed.
Lemma step_free : forall a b, cl_handle cl a = Some (HC b) -> goes_well w m cl (CFree a).
Proof.
  intros a b H. pose proof H as H0. rewrite (rl_handle _ _ R) in H. destruct (view_inv _ _ _ H) as [n L].
  destruct (take_fine _ _ _ _ (rl_wf _ _ R) L) as (C & W & L1 & L2 & V); [cbn; tauto|].
  unfold goes_well. cbn [step]. unfold c_free. rewrite L. cbn [obind ce_object defined].
  exists RUnit. eexists. exists (hold cl a None). split; [reflexivity|]. split; [apply (il_free _ _ _ _ _ b); assumption|].
  apply related_hold; [exact R|exact W|exact V|congruence|eapply not_busy; [exact R|exact H0|discriminate]|discriminate].
Qed.
Lemma step_free_vec : forall a b cap, cl_handle cl a = Some (HVec b cap) ->
  goes_well w m cl (CFreeVec a (Z.of_nat (length b)) (Z.of_N cap)).
Proof.
  intros a b cap H. pose proof (rl_vec _ _ R _ _ _ H) as G. pose proof H as H0. rewrite (rl_handle _ _ R) in H. destruct (view_inv _ _ _ H) as [n L].
  destruct (take_fine _ _ _ _ (rl_wf _ _ R) L) as (C & W & L1 & L2 & V); [cbn; tauto|].
  unfold goes_well. cbn [step]. unfold free_vec. rewrite L. cbn [obind ce_object]. rewrite Z.eqb_refl.
  destruct (Z.leb_spec (Z.of_nat (length b)) (Z.of_N cap)) as [_|K]; [|lia]. cbn [andb defined].
  exists RUnit. eexists. exists (hold cl a None). split; [reflexivity|]. split; [apply il_free_vec; assumption|].
  apply related_hold; [exact R|exact W|exact V|congruence|eapply not_busy; [exact R|exact H0|discriminate]|discriminate].
Qed.
Lemma step_free_string : forall a s, cl_handle cl a = Some (HString s) -> goes_well w m cl (CFreeString a).
Proof.
  intros a s H. pose proof H as H0. rewrite (rl_handle _ _ R) in H. destruct (view_inv _ _ _ H) as [n L].
  destruct (take_fine _ _ _ _ (rl_wf _ _ R) L) as (C & W & L1 & L2 & V); [cbn; tauto|].
  unfold goes_well. cbn [step]. unfold free_string. rewrite L. cbn [obind ce_object defined].
  exists RUnit. eexists. exists (hold cl a None). split; [reflexivity|]. split; [apply (il_free_string _ _ _ _ _ s); assumption|].
  apply related_hold; [exact R|exact W|exact V|congruence|eapply not_busy; [exact R|exact H0|discriminate]|discriminate].
Qed.
Lemma step_start : forall u a t e b n, address a -> cl_handle cl a = Some (HScanner t) -> cl_handle cl e = Some (HC b) -> n <= length b ->
  cl_scan cl u = None -> goes_well w m cl (CStart u (as_int a) e n).
Proof.
  intros u a t e b n A H K B F. pose proof H as H0. pose proof K as K0. rewrite (rl_handle _ _ R) in H, K.
  destruct (view_inv _ _ _ H) as [k L]. destruct (view_inv _ _ _ K) as [k' L'].
  unfold goes_well. cbn [step]. unfold start_scan. rewrite (pointer_as_int a A), L, L'. cbn [ce_object].
  rewrite (proj2 (Nat.leb_le n (length b)) B).
  exists RUnit. eexists. exists (scanning cl u (Some (a, firstn n b))). split; [reflexivity|].
  split; [apply (il_start _ _ _ _ _ a t e b n); assumption|].
  split; cbn [ma_heap ma_scans scanning cl_handle cl_scan].
  - apply (rl_wf _ _ R).
  - apply (rl_handle _ _ R).
  - intros v. cbn [scan_of]. rewrite Nat.eqb_sym. destruct (u =? v); [reflexivity|apply (rl_scan _ _ R)].
  - cbn. constructor; [apply scan_of_none; rewrite <- (rl_scan _ _ R); exact F|apply (rl_threads _ _ R)].
  - apply (rl_address _ _ R).
  - intros v c d. destruct (v =? u); [intros [= <- <-]; exists t; exact H0|apply (rl_busy _ _ R)].
  - apply (rl_vec _ _ R).
Qed.
Lemma step_finish : forall u x, cl_scan cl u = Some x ->
  well w m cl (CFinish u).
Proof.
  intros u [a d] F. pose proof F as F0. rewrite (rl_scan _ _ R) in F. destruct (rl_busy _ _ R _ _ _ F0) as [t H].
  pose proof H as H0. rewrite (rl_handle _ _ R) in H. destruct (view_inv _ _ _ H) as [k L].
  unfold well, goes_well. cbn [step]. unfold finish_scan. rewrite F, L. cbn [ce_object].
  pose proof (related_ends _ _ u R) as RE.
  destruct (nw_scan w t d) as [[b|]| |] eqn:SC.
  - destruct (alloc_or_not _ w (ma_heap m) (ObVec b (nw_capacity w b)) (fun v h => Done (RScanned v (Z.of_nat (length b)) (Z.of_N (nw_capacity w b)) None) {| ma_heap := h; ma_scans := end_scan (ma_scans m) u |})) as [[AE AO]|(a' & AL & AE)]; rewrite AE; [left; split; [reflexivity|left; exact AO]|right; clear AE].
    destruct (alloc_fine w {| ma_heap := ma_heap m; ma_scans := end_scan (ma_scans m) u |} _ (ObVec b (nw_capacity w b)) (HVec b (nw_capacity w b)) a' S AL RE) as [G R']; [reflexivity|cbn; tauto|reflexivity|intros ? ? [= <- <-]; apply (sw_capacity _ S)|].
    cbn [ma_heap] in *. eexists. eexists. eexists. split; [reflexivity|]. split; [|exact R'].
    apply (il_found _ _ _ _ _ a d t); [exact F0|exact H0|exact SC|exact G|apply (sw_capacity _ S)].
  - right. eexists. eexists. eexists. split; [reflexivity|]. split; [|exact RE]. apply (il_nothing _ _ _ _ _ a d t); assumption.
  - destruct (alloc_or_not _ w (ma_heap m) (ObString (c_message (nw_message w))) (fun e h => Done (RScanned 0 0 0 (Some e)) {| ma_heap := h; ma_scans := end_scan (ma_scans m) u |})) as [[AE AO]|(a' & AL & AE)]; rewrite AE; [left; split; [reflexivity|left; exact AO]|right; clear AE].
    destruct (alloc_fine w {| ma_heap := ma_heap m; ma_scans := end_scan (ma_scans m) u |} _ (ObString (c_message (nw_message w))) (HString (c_message (nw_message w))) a' S AL RE) as [G R']; [reflexivity|cbn; tauto|reflexivity|discriminate|].
    cbn [ma_heap] in *. eexists. eexists. eexists. split; [reflexivity|]. split; [|exact R'].
    apply (il_scan_panics _ _ _ _ _ a d t); [exact F0|exact H0|exact SC|exact G|apply c_message_string].
  - left. split; [reflexivity|]. right. cbn. exists a, d, t. auto.
Qed.
End Steps.

Lemma careful_fine : forall w m cl c, sane_world w -> related m cl -> careful cl c -> well w m cl c.
Proof.
  intros w m cl c S R H. destruct H.
  - apply step_rule; assumption.
  - right. eapply step_free_rule; eassumption.
  - apply step_list; assumption.
  - right. eapply step_append; eassumption.
  - right. eapply step_free_list; eassumption.
  - eapply step_scanner; eassumption.
  - right. eapply step_delete; eassumption.
  - apply step_bytes; assumption.
  - right. eapply step_free; eassumption.
  - right. eapply step_start; eassumption.
  - eapply step_finish; eassumption.
  - right. eapply step_free_vec; eassumption.
  - right. eapply step_free_string; eassumption.
Qed.

Lemma as_int_inj : forall a b, as_int a = as_int b -> a = b.
Proof. intros a b. apply N2Z.inj. Qed.
Lemma equivalent_refl : forall cl, equivalent cl cl.
Proof. intros cl. split; reflexivity. Qed.
Lemma equivalent_sym : forall a b, equivalent a b -> equivalent b a.
Proof. intros a b [E F]. split; symmetry; auto. Qed.
Lemma equivalent_trans : forall a b c, equivalent a b -> equivalent b c -> equivalent a c.
Proof. intros a b c [E F] [G H]. split; etransitivity; eauto. Qed.

Lemma ideal_unique : forall bd sc ms cl c r cl1 cl2, ideal bd sc ms cl c r cl1 -> ideal bd sc ms cl c r cl2 -> cl1 = cl2.
Proof.
  intros bd sc ms cl c r cl1 cl2 H1 H2.
  destruct H1; inversion H2; subst;
    repeat match goal with
    | E : as_int _ = as_int _ |- _ => apply as_int_inj in E; subst
    | E : Z.of_N _ = Z.of_N _ |- _ => apply N2Z.inj in E; subst
    | A : ?x = Some _, B : ?x = Some _ |- _ => rewrite A in B; injection B; clear B; intros; subst
    | A : ?x = Ret _, B : ?x = Ret _ |- _ => rewrite A in B; injection B; clear B; intros; subst
    | A : c_string _ ?s, B : c_string _ ?t |- _ => rewrite (c_string_unique _ _ _ A B) in *; clear A
    end; try reflexivity; try congruence.
Qed.
Lemma ideal_careful : forall bd sc ms cl c r cl', ideal bd sc ms cl c r cl' -> careful cl c.
Proof. intros bd sc ms cl c r cl' H. destruct H; econstructor; eassumption. Qed.

Lemma reached_related : forall w tr m cl, sane_world w -> reaches w tr m cl -> related m cl.
Proof.
  intros w tr m cl S [A B]. revert m cl A B. induction tr as [|[c r] tr IH]; intros m cl A B.
  - inversion A; subst. inversion B; subst. split; cbn.
    + split; cbn; [constructor|discriminate|contradiction].
    + reflexivity.
    + reflexivity.
    + constructor.
    + congruence.
    + discriminate.
    + discriminate.
  - inversion A as [|? m0 ? ? ? Am As]; subst. inversion B as [|? cl0 ? ? ? Bm Bs]; subst. specialize (IH _ _ Am Bm).
    destruct (careful_fine w _ _ c S IH) as [[N _]|(r' & m' & cl' & E & I & R)]; [eapply ideal_careful; eassumption|congruence|].
    rewrite As in E. injection E as <- <-. rewrite (ideal_unique _ _ _ _ _ _ _ _ Bs I). exact R.
Qed.
Lemma reached_step : forall w tr m cl c, sane_world w -> reaches w tr m cl -> careful cl c ->
  (step w m c = Never /\ never_returns w cl c) \/
  exists r m' cl', step w m c = Done r m' /\ ideal (nw_build w) (nw_scan w) (nw_message w) cl c r cl' /\ reaches w ((c, r) :: tr) m' cl'.
Proof.
  intros w tr m cl c S R H.
  destruct (careful_fine w _ _ c S (reached_related _ _ _ _ S R) H) as [N|(r & m' & cl' & E & I & _)]; [left; exact N|right].
  exists r, m', cl'. split; [exact E|]. split; [exact I|]. destruct R as [A B]. split; econstructor; eassumption.
Qed.

(* nothing is left when nothing is held *)
Lemma all_freed : forall m cl, related m cl -> (forall a, cl_handle cl a = None) -> m = {| ma_heap := []; ma_scans := [] |}.
Proof.
  intros [h sc] cl R H. assert (V : forall a, view h a = None) by (intros a; rewrite <- (rl_handle _ _ R); apply H).
  pose proof (rl_wf _ _ R) as W. cbn [ma_heap] in W.
  assert (NR : forall a c, load h a = Some c -> exists x, ce_object c = ObRule x).
  { intros a c L. destruct (view_visible _ _ a _ W (obj_load _ _ _ L)) as [X|[v E]]; [exact X|rewrite V in E; discriminate]. }
  assert (E : h = []).
  { destruct h as [|[a c] h']; [reflexivity|exfalso].
    assert (L : load ((a, c) :: h') a = Some c) by (cbn; rewrite N.eqb_refl; reflexivity).
    destruct (NR _ _ L) as [x X]. pose proof (wf_fine _ _ W a c L) as F. unfold fine in F. rewrite X in F.
    destruct (refs_positive ((a, c) :: h') a) as (b & d & I & P); [cbn [count_occ] in F; lia|].
    apply In_load in I; [|apply (wf_keys _ _ W)]. destruct (NR _ _ I) as [y Y]. rewrite Y in P. cbn in P. lia. }
  assert (F : sc = []).
  { destruct sc as [|[u [a d]] sc']; [reflexivity|exfalso]. pose proof (rl_scan _ _ R u) as K. cbn in K. rewrite Nat.eqb_refl in K.
    destruct (rl_busy _ _ R _ _ _ K) as [t T]. rewrite H in T. discriminate. }
  subst. reflexivity.
Qed.

(* ---- the Go binding ---- *)
Lemma rule_made : forall w tr m cl json, sane_world w -> reaches w tr m cl ->
  (step w m (CRule json) = Never /\ out_of_memory w) \/ (json = None /\ step w m (CRule json) = Done (RInt (-5)) m) \/
  exists c a m' cl', json = Some c /\ step w m (CRule json) = Done (RInt (as_int a)) m' /\ fresh cl a /\
    reaches w ((CRule json, RInt (as_int a)) :: tr) m' cl' /\ cl' = hold cl a (Some (HRule c)).
Proof.
  intros w tr m cl json S R. destruct json as [c|]; [|right; left; split; reflexivity].
  destruct (reached_step w tr m cl (CRule (Some c)) S R (ca_rule _ _)) as [[N [O|[]]]|(r & m' & cl' & E & I & R')]; [left; auto|right; right].
  inversion I; subst. exists c, a, m', (hold cl a (Some (HRule c))). auto.
Qed.

Lemma hold_here : forall cl a x, cl_handle (hold cl a x) a = x.
Proof. intros. cbn. rewrite N.eqb_refl. reflexivity. Qed.
Lemma hold_there : forall cl a x b, b <> a -> cl_handle (hold cl a x) b = cl_handle cl b.
Proof. intros. cbn. destruct (N.eqb_spec b a); [contradiction|reflexivity]. Qed.
Ltac same_handles := repeat match goal with K : as_int _ = as_int _ |- _ => apply as_int_inj in K; subst end.

Lemma go_append_fine : forall w conf rl, sane_world w -> address rl -> forall l tr m cl cs, reaches w tr m cl ->
  cl_handle cl rl = Some (HList cs false) ->
  (go_append_rules w conf m (as_int rl) l = Never /\ out_of_memory w) \/
  exists ok m' tr' cl' cs', go_append_rules w conf m (as_int rl) l = Done ok m' /\ reaches w (tr' ++ tr) m' cl' /\
    cl_handle cl' rl = Some (HList cs' false) /\ (forall b, b <> rl -> cl_handle cl' b = cl_handle cl b) /\
    (forall u, cl_scan cl' u = cl_scan cl u) /\
    match all_some (map conf l) with
    | Some configs => ok = true /\ cs' = cs ++ configs
    | None => ok = false
    end.
Proof.
  intros w conf rl S A. induction l as [|g l IH]; cbn [go_append_rules map all_some]; intros tr m cl cs R H.
  - right. exists true, m, [], cl, cs. rewrite app_nil_r. repeat (split; [assumption || reflexivity|]). split; reflexivity.
  - unfold go_rule_handle, run_int, run_unit.
    destruct (rule_made w tr m cl (conf g) S R) as [[E O]|[[J E]|(c & a & m1 & cl1 & J & E & F & R1 & C1)]].
    + left. rewrite E. cbn [after]. auto.
    + right. rewrite J in *. rewrite E. cbn [after]. exists false, m, [], cl, cs. cbn. repeat (split; [assumption || reflexivity|]). reflexivity.
    + rewrite E. cbn [after]. rewrite J. cbn [obind].
      assert (NN : (as_int a <? 0)%Z = false) by (unfold as_int; apply Z.ltb_ge; lia). rewrite NN.
      assert (D : a <> rl) by (intros ->; destruct F as [_ F]; congruence).
      assert (H1 : cl_handle cl1 rl = Some (HList cs false)) by (subst cl1; rewrite hold_there by congruence; exact H).
      assert (H1a : cl_handle cl1 a = Some (HRule c)) by (subst cl1; apply hold_here).
      destruct (reached_step w _ _ _ (CAppend (as_int a) (as_int rl)) S R1 (ca_append _ _ _ _ _ _ (proj1 F) A H1a H1)) as [[N2 [O|[]]]|(r2 & m2 & cl2 & E2 & I2 & R2)].
      { left. rewrite N2. cbn [after]. auto. }
      rewrite E2. cbn [after].
      assert (C2 : cl2 = hold cl1 rl (Some (HList (cs ++ [c]) false))) by (inversion I2; subst; same_handles; congruence).
      assert (H2a : cl_handle cl2 a = Some (HRule c)) by (rewrite C2, hold_there by exact D; exact H1a).
      destruct (reached_step w _ _ _ (CFreeRule (as_int a)) S R2 (ca_free_rule _ _ _ (proj1 F) H2a)) as [[N3 [O|[]]]|(r3 & m3 & cl3 & E3 & I3 & R3)].
      { left. rewrite N3. cbn [after]. auto. }
      rewrite E3. cbn [after].
      assert (C3 : cl3 = hold cl2 a None) by (inversion I3; subst; same_handles; reflexivity).
      assert (H3 : cl_handle cl3 rl = Some (HList (cs ++ [c]) false)) by (rewrite C3, hold_there by congruence; rewrite C2; apply hold_here).
      destruct (IH _ _ _ _ R3 H3) as [L|(ok & m' & tr' & cl' & cs' & E' & R' & H' & O' & U' & Q)]; [left; exact L|right].
      exists ok, m'. eexists (tr' ++ [_; _; _]). exists cl', cs'. split; [exact E'|]. split; [rewrite <- app_assoc; exact R'|]. split; [exact H'|]. split; [|split].
      * intros b B. rewrite O' by exact B. rewrite C3. destruct (N.eq_dec b a) as [->|Da].
        -- rewrite hold_here. symmetry. apply F.
        -- rewrite hold_there by exact Da. rewrite C2, hold_there by exact B. rewrite C1, hold_there by exact Da. reflexivity.
      * intros u. rewrite U', C3, C2, C1. reflexivity.
      * destruct (all_some (map conf l)) as [configs|]; cbn; [|exact Q]. destruct Q as [Q1 Q2]. split; [exact Q1|].
        rewrite Q2, <- app_assoc. reflexivity.
Qed.

Lemma string_read : forall m cl a s, related m cl -> cl_handle cl a = Some (HString s) -> go_string m a = Done s m.
Proof.
  intros m cl a s R H. rewrite (rl_handle _ _ R) in H. destruct (view_inv _ _ _ H) as [n L]. unfold go_string. rewrite L. reflexivity.
Qed.

(* from the list with all rules to the result *)
Lemma go_scanner_fine : forall w tr m cl rl cs, sane_world w -> reaches w tr m cl -> address rl -> cl_handle cl rl = Some (HList cs false) ->
  let run := after (step w m (CScanner (as_int rl) false)) (fun r m =>
             match r with RCreated code error => go_created_from w m code error | _ => Undefined end) in
  (run = Never /\ (out_of_memory w \/ nw_build w cs false = Diverge)) \/
  exists r m' tr' cl', run = Done r m' /\ reaches w (tr' ++ tr) m' cl' /\
    (exists p, cl_handle cl' rl = Some (HList cs p)) /\
    match nw_build w cs false with
    | Ret (Ok t) => exists a, fresh cl a /\ a <> rl /\ r = GoScanner (as_int a) /\ (forall b, b <> rl -> cl_handle cl' b = cl_handle (hold cl a (Some (HScanner t))) b) /\ (forall u, cl_scan cl' u = cl_scan cl u)
    | Ret (Err e) => r = go_created_of (error_code e) None /\ (forall b, b <> rl -> cl_handle cl' b = cl_handle cl b) /\ (forall u, cl_scan cl' u = cl_scan cl u)
    | Panic => exists s, c_string (nw_message w) s /\ r = GoErrPanic (Some s) /\ (forall b, b <> rl -> cl_handle cl' b = cl_handle cl b) /\ (forall u, cl_scan cl' u = cl_scan cl u)
    | Diverge => False
    end.
Proof.
  intros w tr m cl rl cs S R A H run.
  destruct (reached_step w _ _ _ (CScanner (as_int rl) false) S R (ca_scanner _ _ _ _ _ A H)) as [[N O]|(r1 & m1 & cl1 & E1 & I1 & R1)].
  { left. unfold run. rewrite N. cbn [after]. split; [reflexivity|]. destruct O as [O|O]; [left; exact O|right].
    cbn in O. destruct O as (l' & cs' & E & H' & B). apply as_int_inj in E. subst l'. congruence. }
  unfold run. rewrite E1. cbn [after].
  inversion I1; subst; same_handles.
  - (* built *)
    match goal with K : nw_build w ?c false = _ |- _ => assert (c = cs) by congruence; subst c; rename K into BD end. match goal with K : fresh cl a |- _ => rename K into Fa end. rewrite BD. right.
    assert (D : a <> rl) by (intros ->; destruct Fa as [_ K]; congruence).
    unfold go_created_from. assert (NN : (as_int a =? -5)%Z = false) by (unfold as_int; apply Z.eqb_neq; lia). rewrite NN.
    eexists. exists m1. eexists [_]. eexists. split; [reflexivity|]. split; [exact R1|]. split; [exists false; rewrite hold_there by congruence; exact H|].
    exists a. split; [exact Fa|]. split; [exact D|]. split; [|split; [intros b B; reflexivity|reflexivity]].
    unfold go_created_of. destruct (Z.ltb_spec (as_int a) 0) as [K|K]; [unfold as_int in K; lia|reflexivity].
  - (* refused *)
    match goal with K : nw_build w ?c false = _ |- _ => assert (c = cs) by congruence; subst c; rename K into BD end. rewrite BD. right.
    unfold go_created_from. replace (if (error_code e =? -5)%Z then Done (go_created_of (error_code e) None) m1 else Done (go_created_of (error_code e) None) m1)
      with (Done (go_created_of (error_code e) None) m1) by (destruct (error_code e =? -5)%Z; reflexivity).
    eexists. exists m1. eexists [_]. exists cl1. split; [reflexivity|]. split; [exact R1|]. split; [exists false; exact H|]. split; [reflexivity|]. split; reflexivity.
  - (* panicked *)
    match goal with K : nw_build w ?c false = _ |- _ => assert (c = cs) by congruence; subst c; rename K into BD end. match goal with K : fresh cl a |- _ => rename K into Fa end. rewrite BD.
    assert (D : a <> rl) by (intros ->; destruct Fa as [_ K]; congruence).
    unfold go_created_from. cbn [Z.eqb Pos.eqb].
    assert (HS : cl_handle (hold (hold cl rl (Some (HList cs true))) a (Some (HString s))) a = Some (HString s)) by apply hold_here.
    rewrite (string_read _ _ _ s (reached_related _ _ _ _ S R1) HS). cbn [after]. unfold run_unit.
    destruct (reached_step w _ _ _ (CFreeString a) S R1 (ca_free_string _ _ _ HS)) as [[N2 [O|[]]]|(r2 & m2 & cl2 & E2 & I2 & R2)].
    { left. rewrite N2. cbn [after]. auto. }
    right. rewrite E2. cbn [after]. inversion I2; subst. eexists. exists m2. eexists [_; _]. eexists. split; [reflexivity|]. split; [exact R2|].
    split; [exists true; rewrite !hold_there by congruence; apply hold_here|].
    exists s. split; [assumption|]. split; [reflexivity|]. split; [|reflexivity].
    intros b B. destruct (N.eq_dec b a) as [->|Da]; [rewrite hold_here; symmetry; apply Fa|]. rewrite !hold_there by assumption. reflexivity.
  - congruence.
Qed.

Lemma go_create_fine : forall w conf l tr m cl, sane_world w -> reaches w tr m cl ->
  (go_create w conf m l = Never /\ (out_of_memory w \/ exists configs, all_some (map conf l) = Some configs /\ nw_build w configs false = Diverge)) \/
  exists r m' tr' cl', go_create w conf m l = Done r m' /\ reaches w (tr' ++ tr) m' cl' /\
    created w cl (all_some (map conf l)) r cl'.
Proof.
  intros w conf l tr m cl S R. unfold go_create, run_int, run_unit.
  destruct (reached_step w _ _ _ CList S R (ca_list _)) as [[N0 [O|[]]]|(r0 & m0 & cl0 & E0 & I0 & R0)].
  { left. rewrite N0. cbn [after]. auto. }
  rewrite E0. inversion I0; subst. cbn [after].
  destruct (go_append_fine w conf a S (proj1 H) l _ _ _ [] R0 (hold_here _ _ _)) as [[N1 O]|(ok & m1 & tr1 & cl1 & cs1 & E1 & R1 & H1 & O1 & U1 & Q)].
  { left. rewrite N1. cbn [after]. auto. }
  rewrite E1. cbn [after].
  (* the list is freed *)
  assert (F : forall tr' m' cl', reaches w (tr' ++ tr1 ++ [(CList, RInt (as_int a))] ++ tr) m' cl' -> (exists cs p, cl_handle cl' a = Some (HList cs p)) ->
    (step w m' (CFreeList (as_int a)) = Never /\ out_of_memory w) \/
    exists r' m'' cl'', step w m' (CFreeList (as_int a)) = Done r' m'' /\
      reaches w ((CFreeList (as_int a), r') :: tr' ++ tr1 ++ [(CList, RInt (as_int a))] ++ tr) m'' cl'' /\ cl'' = hold cl' a None).
  { intros tr' m' cl' R' (cs & p & HL).
    destruct (reached_step w _ _ _ (CFreeList (as_int a)) S R' (ca_free_list _ _ _ _ (proj1 H) HL)) as [[N2 [O|[]]]|(r2 & m2 & cl2 & E2 & I2 & R2)]; [left; auto|right].
    exists r2, m2, cl2. split; [exact E2|]. split; [exact R2|]. inversion I2; subst; same_handles. reflexivity. }
  assert (OUT : forall b, b <> a -> cl_handle cl1 b = cl_handle cl b) by (intros b B; rewrite O1, hold_there by exact B; reflexivity).
  destruct (all_some (map conf l)) as [configs|] eqn:AS.
  - destruct Q as [-> ->]. cbn [app] in H1.
    destruct (go_scanner_fine w _ _ _ a configs S R1 (proj1 H) H1) as [[N2 O]|(r2 & m2 & tr2 & cl2 & E2 & R2 & [p HL] & Q)].
    { left. rewrite N2. cbn [after]. split; [reflexivity|]. destruct O as [O|O]; [left; exact O|right; exists configs; auto]. }
    rewrite E2. cbn [after].
    destruct (F tr2 m2 cl2 R2 (ex_intro _ _ (ex_intro _ _ HL))) as [[N3 O]|(r3 & m3 & cl3 & E3 & R3 & C3)].
    { left. rewrite N3. cbn [after]. auto. }
    right. rewrite E3. cbn [after]. exists r2, m3. exists ((CFreeList (as_int a), r3) :: tr2 ++ tr1 ++ [(CList, RInt (as_int a))]). exists cl3. split; [reflexivity|].
    split; [cbn [app] in *; rewrite <- !app_assoc; exact R3|].
    unfold created. destruct (nw_build w configs false) as [[t|e]| |].
    + destruct Q as (x & Fx & Dx & -> & Qh & Qs). exists x. split; [|split; [reflexivity|]].
      * destruct Fx as [Ax Fx]. split; [exact Ax|]. rewrite <- OUT by exact Dx. exact Fx.
      * subst cl3. split; [|intros u; cbn; rewrite Qs; apply U1].
        intros b. destruct (N.eq_dec b a) as [->|B].
        -- rewrite hold_here, hold_there by congruence. symmetry. apply H.
        -- rewrite hold_there by exact B. rewrite Qh by exact B. destruct (N.eq_dec b x) as [->|Bx]; [rewrite !hold_here; reflexivity|].
           rewrite !hold_there by exact Bx. apply OUT, B.
    + destruct Q as (-> & Qh & Qs). split; [reflexivity|]. subst cl3. split; [|intros u; cbn; rewrite Qs; apply U1].
      intros b. destruct (N.eq_dec b a) as [->|B]; [rewrite hold_here; symmetry; apply H|]. rewrite hold_there by exact B. rewrite Qh by exact B. apply OUT, B.
    + destruct Q as (s & Cs & -> & Qh & Qs). exists s. split; [exact Cs|]. split; [reflexivity|]. subst cl3. split; [|intros u; cbn; rewrite Qs; apply U1].
      intros b. destruct (N.eq_dec b a) as [->|B]; [rewrite hold_here; symmetry; apply H|]. rewrite hold_there by exact B. rewrite Qh by exact B. apply OUT, B.
    + exact Q.
  - subst ok. cbn [after].
    destruct (F [] m1 cl1 R1 (ex_intro _ _ (ex_intro _ _ H1))) as [[N3 O]|(r3 & m3 & cl3 & E3 & R3 & C3)].
    { left. rewrite N3. cbn [after]. auto. }
    right. rewrite E3. cbn [after]. exists GoErrRule, m3. exists ((CFreeList (as_int a), r3) :: tr1 ++ [(CList, RInt (as_int a))]). exists cl3. split; [reflexivity|].
    split; [cbn [app] in *; rewrite <- !app_assoc; exact R3|]. cbn. split; [reflexivity|]. subst cl3. split; [|intros u; cbn; apply U1].
    intros b. destruct (N.eq_dec b a) as [->|B]; [rewrite hold_here; symmetry; apply H|]. rewrite hold_there by exact B. apply OUT, B.
Qed.

Lemma c_int_le : forall n, (c_int (Z.of_nat n) <= Z.of_nat n)%Z.
Proof.
  intros n. unfold c_int. pose proof (Z.mod_le (Z.of_nat n) 4294967296 (Nat2Z.is_nonneg n) eq_refl).
  destruct (Z.of_nat n mod 4294967296 <? 2147483648)%Z; lia.
Qed.

Lemma go_scan_fine : forall w tr m cl u a t encoded, sane_world w -> reaches w tr m cl -> address a -> cl_handle cl a = Some (HScanner t) ->
  cl_scan cl u = None ->
  (go_low_level_scan w m u (as_int a) encoded = Never /\ (out_of_memory w \/ nw_scan w t encoded = Diverge)) \/
  exists r m' tr' cl', go_low_level_scan w m u (as_int a) encoded = Done r m' /\ reaches w (tr' ++ tr) m' cl' /\ equivalent cl' cl /\
    low_level_scan (nw_scan w t) encoded = r.
Proof.
  intros w tr m cl u a t encoded S R A H U. unfold go_low_level_scan, run_int, run_unit.
  destruct (reached_step w _ _ _ (CBytes encoded) S R (ca_bytes _ _)) as [[N0 [O|[]]]|(r0 & m0 & cl0 & E0 & I0 & R0)].
  { left. rewrite N0. cbn [after]. auto. }
  rewrite E0. inversion I0; subst. cbn [after]. rename a0 into e. rename H2 into Fe.
  rewrite (pointer_as_int e (proj1 Fe)).
  assert (D : a <> e) by (intros ->; destruct Fe as [_ K]; congruence).
  assert (H0 : cl_handle (hold cl e (Some (HC encoded))) a = Some (HScanner t)) by (rewrite hold_there by exact D; exact H).
  destruct (reached_step w _ _ _ (CStart u (as_int a) e (length encoded)) S R0 (ca_start _ _ _ _ _ _ _ A H0 (hold_here _ _ _) (le_n _) U))
    as [[N1 [O|[]]]|(r1 & m1 & cl1 & E1 & I1 & R1)].
  { left. rewrite N1. cbn [after]. auto. }
  rewrite E1. cbn [after].
  assert (C1 : cl1 = scanning (hold cl e (Some (HC encoded))) u (Some (a, encoded))).
  { inversion I1; subst; same_handles. rewrite hold_here in *. match goal with K : Some (HC encoded) = Some (HC ?b) |- _ => injection K as <- end.
    rewrite firstn_all. reflexivity. }
  assert (U1 : cl_scan cl1 u = Some (a, encoded)) by (subst cl1; cbn; rewrite Nat.eqb_refl; reflexivity).
  assert (H1 : cl_handle cl1 a = Some (HScanner t)) by (subst cl1; exact H0).
  assert (He : cl_handle cl1 e = Some (HC encoded)) by (subst cl1; apply hold_here).
  destruct (reached_step w _ _ _ (CFinish u) S R1 (ca_finish _ _ _ U1)) as [[N2 [O|O]]|(r2 & m2 & cl2 & E2 & I2 & R2)].
  { left. rewrite N2. cbn [after]. auto. }
  { left. rewrite N2. cbn [after]. split; [reflexivity|right]. cbn in O. destruct O as (a' & d' & t' & Q1 & Q2 & Q3). congruence. }
  rewrite E2. cbn [after].
  (* the bytes are freed *)
  assert (F : forall x tr' m' cl', reaches w (tr' ++ tr) m' cl' -> cl_handle cl' e = Some (HC encoded) ->
    (forall b, b <> e -> cl_handle cl' b = cl_handle cl b) -> (forall v, cl_scan cl' v = cl_scan cl v) -> low_level_scan (nw_scan w t) encoded = x ->
    (after (after (step w m' (CFree e)) (fun _ m => Done tt m)) (fun _ m => Done x m) = Never /\ (out_of_memory w \/ nw_scan w t encoded = Diverge)) \/
    exists r m'' tr'' cl'', after (after (step w m' (CFree e)) (fun _ m => Done tt m)) (fun _ m => Done x m) = Done r m'' /\
      reaches w (tr'' ++ tr) m'' cl'' /\ equivalent cl'' cl /\ low_level_scan (nw_scan w t) encoded = r).
  { intros x tr' m' cl' R' B1 B2 B3 B4.
    destruct (reached_step w _ _ _ (CFree e) S R' (ca_free _ _ _ B1)) as [[N3 [O|[]]]|(r3 & m3 & cl3 & E3 & I3 & R3)].
    { left. rewrite N3. cbn [after]. auto. }
    right. rewrite E3. cbn [after]. inversion I3; subst. eexists; exists m3. eexists (_ :: tr'). eexists. split; [reflexivity|]. split; [exact R3|]. split; [|reflexivity].
    split; [|exact B3]. intros b'. destruct (N.eq_dec b' e) as [->|Be]; [rewrite hold_here; symmetry; apply Fe|]. rewrite hold_there by exact Be. apply B2, Be. }
  assert (OUT1 : forall b, b <> e -> cl_handle cl1 b = cl_handle cl b) by (intros b' B; subst cl1; cbn; destruct (N.eqb_spec b' e); [contradiction|reflexivity]).
  assert (SC1 : forall v, cl_scan (scanning cl1 u None) v = cl_scan cl v).
  { intros v. subst cl1. cbn. destruct (Nat.eqb_spec v u) as [->|]; [symmetry; exact U|reflexivity]. }
  assert (SC2 : exists d, cl_scan cl1 u = Some (a, d) /\ d = encoded) by (exists encoded; auto).
  inversion I2; subst r2 cl2;
    match goal with K : nw_scan w ?t' ?d' = _ |- _ => assert (t' = t) by congruence; assert (d' = encoded) by congruence; subst t' d'; rename K into SC end.
  - (* found *)
    match goal with K : fresh cl1 v |- _ => rename K into Fv end.
    rename b into x. 
    assert (B0 : x <> []) by (eapply (sw_scan _ S); exact SC).
    assert (Z1 : (Z.of_nat (length x) <=? 0)%Z = false) by (apply Z.leb_gt; destruct x; [congruence|cbn; lia]).
    assert (Z2 : (Z.of_N cap <=? 0)%Z = false) by (apply Z.leb_gt; destruct x; [congruence|cbn in *; lia]).
    rewrite Z1, Z2. cbn [orb].
    assert (Hv : cl_handle (hold (scanning cl1 u None) v (Some (HVec x cap))) v = Some (HVec x cap)) by apply hold_here.
    assert (Dv : e <> v) by (intros ->; destruct Fv as [_ K]; congruence).
    assert (GB : go_bytes m2 v (c_int (Z.of_nat (length x))) = Done (go_bytes_of x (c_int (Z.of_nat (length x)))) m2).
    { pose proof (reached_related _ _ _ _ S R2) as RL. rewrite (rl_handle _ _ RL) in Hv. destruct (view_inv _ _ _ Hv) as [n L].
      unfold go_bytes. rewrite L. cbn [ce_object]. rewrite (proj2 (Z.leb_le _ _) (c_int_le _)) . reflexivity. }
    rewrite GB. cbn [after].
    destruct (reached_step w _ _ _ (CFreeVec v (Z.of_nat (length x)) (Z.of_N cap)) S R2 (ca_free_vec _ _ _ _ Hv)) as [[N3 [O|[]]]|(r3 & m3 & cl3 & E3 & I3 & R3)].
    { left. rewrite N3. cbn [after]. auto. }
    rewrite E3. cbn [after].
    assert (C3 : cl3 = hold (hold (scanning cl1 u None) v (Some (HVec x cap))) v None) by (inversion I3; subst; reflexivity).
    eapply (F (let* b := go_bytes_of x (c_int (Z.of_nat (length x))) in Ret (Ok b)) [_; _; _; _] m3 cl3); [exact R3| | | |].
    + rewrite C3, !hold_there by exact Dv. exact He.
    + intros b' B. rewrite C3. destruct (N.eq_dec b' v) as [->|Bv].
      * rewrite hold_here. rewrite <- OUT1 by exact B. symmetry. apply Fv.
      * rewrite !hold_there by exact Bv. apply (OUT1 b' B).
    + intros k. rewrite C3. apply SC1.
    + unfold low_level_scan. rewrite SC. reflexivity.
  - (* nothing *)
    cbn [Z.leb Z.compare orb after]. eapply (F (Ret (Ok [])) [_; _; _] m2 (scanning cl1 u None)); [exact R2|exact He|exact OUT1|exact SC1|].
    unfold low_level_scan. rewrite SC. reflexivity.
  - (* panic *)
    match goal with K : fresh cl1 ?x |- _ => rename K into Fv; rename x into v end.
    assert (Hv : cl_handle (hold (scanning cl1 u None) v (Some (HString s))) v = Some (HString s)) by apply hold_here.
    assert (Dv : e <> v) by (intros ->; destruct Fv as [_ K]; congruence).
    rewrite (string_read _ _ _ s (reached_related _ _ _ _ S R2) Hv). cbn [after].
    destruct (reached_step w _ _ _ (CFreeString v) S R2 (ca_free_string _ _ _ Hv)) as [[N3 [O|[]]]|(r3 & m3 & cl3 & E3 & I3 & R3)].
    { left. rewrite N3. cbn [after]. auto. }
    rewrite E3. cbn [after].
    assert (C3 : cl3 = hold (hold (scanning cl1 u None) v (Some (HString s))) v None) by (inversion I3; subst; reflexivity).
    eapply (F (Ret (Err tt)) [_; _; _; _] m3 cl3); [exact R3| | | |].
    + rewrite C3, !hold_there by exact Dv. exact He.
    + intros b' B. rewrite C3. destruct (N.eq_dec b' v) as [->|Bv].
      * rewrite hold_here. rewrite <- OUT1 by exact B. symmetry. apply Fv.
      * rewrite !hold_there by exact Bv. apply (OUT1 b' B).
    + intros k. rewrite C3. apply SC1.
    + unfold low_level_scan. rewrite SC. reflexivity.
Qed.
