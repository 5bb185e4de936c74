(* Creation of the validators, grouping of the matches, and [validate_matches] *)
From Coq Require Import Lia.
From Verif Require Import Proofs.Text Proofs.Events.
From Verif Require Export Proofs.MatchValidation.

(* ---- kinds ---- *)
Lemma strs_eqb_eq : forall a b, strs_eqb a b = true <-> a = b.
Proof.
  induction a as [|x a IH]; intros [|y b]; cbn [strs_eqb]; split; intros H; try discriminate; try reflexivity.
  - apply andb_true_iff in H as (H1 & H2). apply str_eqb_eq in H1. apply IH in H2. congruence.
  - injection H as -> ->. apply andb_true_iff. split; [apply str_eqb_refl|apply IH; reflexivity].
Qed.
Lemma internal_eqb_eq : forall a b, internal_eqb a b = true <-> a = b.
Proof.
  intros [|x] [|y]; cbn [internal_eqb]; split; intros H; try discriminate; try reflexivity.
  - apply strs_eqb_eq in H. congruence.
  - injection H as ->. apply strs_eqb_eq. reflexivity.
Qed.
Lemma internal_eqb_refl : forall a, internal_eqb a a = true.
Proof. intros a. apply internal_eqb_eq. reflexivity. Qed.
Lemma internal_eqb_neq : forall a b, internal_eqb a b = false <-> a <> b.
Proof.
  intros a b. rewrite <- internal_eqb_eq. destruct (internal_eqb a b); split; intros; congruence.
Qed.
Lemma same_kind_internal : forall t k, same_kind t k <-> get_internal_type t = k.
Proof.
  intros [a|c] [|es]; cbn; split; intros H; try discriminate; try contradiction; auto; congruence.
Qed.

(* ---- the validators ---- *)
Lemma makes_spec : forall t v, makes t v <-> can_create_match_validator t = true /\ into_match_validator t = Ok v.
Proof.
  intros [[|c|]|c] v; cbn; split; intros H; try contradiction; try (destruct H; discriminate).
  - subst. auto.
  - destruct H as (_ & H). injection H as <-. reflexivity.
  - subst. auto.
  - destruct H as (_ & H). injection H as <-. reflexivity.
Qed.
Lemma assoc_app : forall K V (eqb : K -> K -> bool) k (l1 l2 : list (K * V)),
  assoc eqb k (l1 ++ l2) = match assoc eqb k l1 with Some v => Some v | None => assoc eqb k l2 end.
Proof.
  intros K V eqb k. induction l1 as [|[k' v] l1 IH]; intros l2; [reflexivity|]. cbn [app assoc].
  destruct (eqb k k'); [reflexivity|apply IH].
Qed.

Definition first_opt (types : list (option match_validation_type)) (k : internal_type) : option validator :=
  (fix go l := match l with
   | [] => None
   | Some t :: l' =>
     if can_create_match_validator t && internal_eqb (get_internal_type t) k
     then match into_match_validator t with Ok v => Some v | Err _ => None end
     else go l'
   | None :: l' => go l'
   end) types.
Lemma build_validators_spec : forall types acc rm, exists vs,
  build_validators types acc rm = Ok (vs, rm || existsb (fun o => match o with
     | Some t => can_create_match_validator t &&
                 match assoc internal_eqb (get_internal_type t) acc with Some _ => false | None => true end
     | None => false end) types) /\
  forall k, assoc internal_eqb k vs =
    match assoc internal_eqb k acc with Some v => Some v | None => first_opt types k end.
Proof.
  induction types as [|[t|] types IH]; intros acc rm; cbn [build_validators existsb].
  - exists acc. rewrite orb_false_r. split; [reflexivity|]. intros k. destruct (assoc internal_eqb k acc); reflexivity.
  - destruct (can_create_match_validator t) eqn:Ec; cbn [andb orb].
    + assert (exists v, into_match_validator t = Ok v) as (v & Ev).
      { destruct t as [[|c|]|c]; try discriminate; cbn; eauto. }
      rewrite Ev. destruct (assoc internal_eqb (get_internal_type t) acc) as [v0|] eqn:Ea.
      * destruct (IH acc rm) as (vs & E & H). exists vs. split; [exact E|]. intros k. rewrite H.
        destruct (assoc internal_eqb k acc) eqn:Ek; [reflexivity|]. unfold first_opt. rewrite Ec. cbn [andb].
        destruct (internal_eqb (get_internal_type t) k) eqn:E'; [apply internal_eqb_eq in E'; congruence|reflexivity].
      * destruct (IH (acc ++ [(get_internal_type t, v)]) true) as (vs & E & H). exists vs.
        split; [rewrite E; cbn [orb]; rewrite orb_true_r; reflexivity|]. intros k. rewrite H, assoc_app.
        destruct (assoc internal_eqb k acc) eqn:Ek; [reflexivity|]. cbn [assoc]. unfold first_opt. rewrite Ec, Ev. cbn [andb].
        destruct (internal_eqb k (get_internal_type t)) eqn:E'.
        -- apply internal_eqb_eq in E'. subst k. rewrite internal_eqb_refl. reflexivity.
        -- apply internal_eqb_neq in E'. assert (internal_eqb (get_internal_type t) k = false) as -> by (apply internal_eqb_neq; congruence).
           reflexivity.
    + destruct (IH acc rm) as (vs & E & H). exists vs. split; [exact E|]. intros k. rewrite H. unfold first_opt. rewrite Ec. reflexivity.
  - destruct (IH acc rm) as (vs & E & H). exists vs. split; [exact E|exact H].
Qed.
Lemma first_opt_spec : forall types k v, first_opt types k = Some v <-> first_of_kind types k v.
Proof.
  induction types as [|o types IH]; intros k v.
  - split; [discriminate|]. intros (b & t & a & E & _). destruct b; discriminate.
  - assert (forall t, o = Some t -> same_kind t k -> (exists v', makes t v') -> first_opt (o :: types) k = Some v <-> makes t v) as Here.
    { intros t -> Hk (v' & Hm). apply makes_spec in Hm as (H1 & H2). unfold first_opt. rewrite H1. cbn [andb].
      apply same_kind_internal in Hk. rewrite Hk, internal_eqb_refl, H2. rewrite makes_spec, H2. split; intros K; [split; [exact H1|congruence]|destruct K; congruence]. }
    assert ((forall t, o = Some t -> same_kind t k -> forall v', ~ makes t v') -> first_opt (o :: types) k = first_opt types k) as Skip.
    { intros H. destruct o as [t|]; [|reflexivity]. unfold first_opt. fold (first_opt types k).
      destruct (can_create_match_validator t) eqn:Ec; [|reflexivity]. cbn [andb].
      destruct (internal_eqb (get_internal_type t) k) eqn:Ek; [|reflexivity]. exfalso.
      apply internal_eqb_eq in Ek. apply same_kind_internal in Ek.
      assert (exists v', into_match_validator t = Ok v') as (v' & Ev) by (destruct t as [[|c|]|c]; try discriminate; cbn; eauto).
      exact (H t eq_refl Ek v' (proj2 (makes_spec _ _) (conj Ec Ev))). }
    assert ((exists t, o = Some t /\ same_kind t k /\ exists v', makes t v') \/ (forall t, o = Some t -> same_kind t k -> forall v', ~ makes t v')) as D.
    { destruct o as [t|]; [|right; discriminate].
      destruct (internal_eqb (get_internal_type t) k) eqn:Ek.
      - destruct (can_create_match_validator t) eqn:Ec.
        + left. exists t. split; [reflexivity|]. split; [apply same_kind_internal, internal_eqb_eq; exact Ek|].
          assert (exists v', into_match_validator t = Ok v') as (v' & Ev) by (destruct t as [[|c|]|c]; try discriminate; cbn; eauto).
          exists v'. apply makes_spec. auto.
        + right. intros t' E _ v' Hm. injection E as <-. apply makes_spec in Hm as (Hm & _). congruence.
      - right. intros t' E Hk. injection E as <-. apply same_kind_internal in Hk. apply internal_eqb_neq in Ek. contradiction. }
    destruct D as [(t & -> & Hk & Hm)|D].
    + rewrite (Here t eq_refl Hk Hm). split.
      * intros H. exists [], t, types. split; [reflexivity|]. split; [exact Hk|]. split; [exact H|]. intros t' [].
      * intros ([|x b] & t' & a & E & Hk' & Hm' & Hb); [injection E as -> _; exact Hm'|].
        injection E as <- E. exfalso. destruct Hm as (v' & Hm). exact (Hb t (or_introl eq_refl) Hk v' Hm).
    + rewrite (Skip D), IH. split.
      * intros (b & t & a & -> & Hk & Hm & Hb). exists (o :: b), t, a. split; [reflexivity|]. split; [exact Hk|]. split; [exact Hm|].
        intros t' [->|Hin]; [exact (D t' eq_refl)|exact (Hb t' Hin)].
      * intros ([|x b] & t & a & E & Hk & Hm & Hb).
        -- injection E as -> _. exfalso. exact (D t eq_refl Hk v Hm).
        -- injection E as -> E. exists b, t, a. split; [exact E|]. split; [exact Hk|]. split; [exact Hm|].
           intros t' Hin. apply Hb. right. exact Hin.
Qed.

(* ---- groups ---- *)
Definition kind_of (rules : list rule) (m : rule_match) : option internal_type :=
  match nth_error rules (rm_rule m) with
  | Some r => match rule_validation r with Some t => Some (get_internal_type t) | None => None end
  | None => None
  end.
Definition of_kind (rules : list rule) (k : internal_type) (m : rule_match) : bool :=
  match kind_of rules m with Some k' => internal_eqb k' k | None => false end.
Definition typed (rules : list rule) (m : rule_match) : bool :=
  match kind_of rules m with Some _ => true | None => false end.

Record grouped (rules : list rule) (ms : list rule_match) (gs : list (internal_type * list rule_match)) : Prop := {
  gr_keys : NoDup (map fst gs);
  gr_group : forall k l, In (k, l) gs -> l = filter (of_kind rules k) ms;
  gr_all : forall m k, In m ms -> kind_of rules m = Some k -> In k (map fst gs)
}.

Lemma push_group_keys : forall k m gs, 
  map fst (push_group k m gs) = map fst gs /\ In k (map fst gs) \/
  map fst (push_group k m gs) = map fst gs ++ [k] /\ ~ In k (map fst gs).
Proof.
  intros k m. induction gs as [|[k' l] gs IH]; cbn [push_group map fst app].
  - right. split; [reflexivity|intros []].
  - destruct (internal_eqb k k') eqn:E.
    + apply internal_eqb_eq in E. left. split; [reflexivity|left; congruence].
    + apply internal_eqb_neq in E. cbn [map fst].
      destruct IH as [(-> & H)|(-> & H)]; [left; split; [reflexivity|right; exact H]|right].
      split; [reflexivity|]. intros [K|K]; [congruence|exact (H K)].
Qed.
Lemma push_group_in : forall k m gs k' l, NoDup (map fst gs) -> In (k', l) (push_group k m gs) ->
  (k' <> k /\ In (k', l) gs) \/
  (k' = k /\ exists l0, l = l0 ++ [m] /\ (In (k, l0) gs \/ (l0 = [] /\ ~ In k (map fst gs)))).
Proof.
  intros k m. induction gs as [|[k0 l0] gs IH]; intros k' l Hn H; cbn [push_group] in H.
  - destruct H as [H|[]]. injection H as <- <-. right. split; [reflexivity|]. exists []. split; [reflexivity|]. right. split; [reflexivity|intros []].
  - cbn [map fst] in Hn. apply NoDup_cons_iff in Hn as (Hn0 & Hn). destruct (internal_eqb k k0) eqn:E.
    + apply internal_eqb_eq in E. subst k0. destruct H as [H|H].
      * injection H as <- <-. right. split; [reflexivity|]. exists l0. split; [reflexivity|]. left. left. reflexivity.
      * left. split; [intros ->; apply Hn0; exact (in_map fst _ _ H)|right; exact H].
    + apply internal_eqb_neq in E. destruct H as [H|H].
      * injection H as <- <-. left. split; [congruence|left; reflexivity].
      * destruct (IH _ _ Hn H) as [(H1 & H2)|(H1 & l1 & H2 & H3)]; [left; split; [exact H1|right; exact H2]|].
        right. split; [exact H1|]. exists l1. split; [exact H2|]. destruct H3 as [H3|(H3 & H4)]; [left; right; exact H3|right].
        split; [exact H3|]. cbn [map fst]. intros [K|K]; [congruence|exact (H4 K)].
Qed.

Lemma of_kind_spec : forall rules k m, of_kind rules k m = true <-> kind_of rules m = Some k.
Proof.
  intros rules k m. unfold of_kind. destruct (kind_of rules m) as [k'|]; [|split; discriminate].
  rewrite internal_eqb_eq. split; intros H; congruence.
Qed.
Lemma filter_none : forall A (f : A -> bool) l, (forall x, In x l -> f x = false) -> filter f l = [].
Proof.
  intros A f. induction l as [|x l IH]; intros H; [reflexivity|]. cbn [filter]. rewrite (H x (or_introl eq_refl)).
  apply IH. intros y Hy. apply H. right. exact Hy.
Qed.
Lemma filter_snoc : forall A (f : A -> bool) l x, filter f (l ++ [x]) = filter f l ++ (if f x then [x] else []).
Proof. intros A f l x. rewrite filter_app. reflexivity. Qed.

Lemma group_matches_spec : forall rules ms gs, group_matches rules ms = Ret gs ->
  grouped rules ms gs /\ forall m, In m ms -> exists r, nth_error rules (rm_rule m) = Some r.
Proof.
  intros rules ms. unfold group_matches.
  induction ms as [|m ms IH] using rev_ind; intros gs H.
  - injection H as <-. split; [|intros m []]. constructor; [constructor|intros k l []|intros m k []].
  - rewrite foldM_app in H.
    destruct (foldM _ ms []) as [gs0| |] eqn:E0; try discriminate. cbn [bind foldM] in H.
    destruct (IH _ eq_refl) as ([G1 G2 G3] & R). destruct (nth_error rules (rm_rule m)) as [r|] eqn:Er; [|discriminate].
    cbn [unwrap bind] in H. injection H as <-. split.
    + assert (kind_of rules m = match rule_validation r with Some t => Some (get_internal_type t) | None => None end) as Ek
        by (unfold kind_of; rewrite Er; reflexivity).
      destruct (rule_validation r) as [t|].
      * set (k := get_internal_type t) in *. constructor.
        -- destruct (push_group_keys k m gs0) as [(-> & _)|(-> & Hk)]; [exact G1|].
           apply NoDup_app2; [exact G1|constructor; [intros []|constructor]|]. intros x Hx [<-|[]]. exact (Hk Hx).
        -- intros k' l Hin. rewrite filter_snoc. destruct (push_group_in _ _ _ _ _ G1 Hin) as [(H1 & H2)|(-> & l0 & -> & H3)].
           ++ rewrite <- (G2 _ _ H2). unfold of_kind. rewrite Ek. assert (internal_eqb k k' = false) as -> by (apply internal_eqb_neq; congruence).
              rewrite app_nil_r. reflexivity.
           ++ assert (of_kind rules k m = true) as -> by (apply of_kind_spec; exact Ek). f_equal.
              destruct H3 as [H3|(-> & H3)]; [exact (G2 _ _ H3)|]. symmetry. apply filter_none. intros x Hx.
              destruct (of_kind rules k x) eqn:Ex; [|reflexivity]. exfalso. apply H3. apply of_kind_spec in Ex. exact (G3 _ _ Hx Ex).
        -- intros x k' Hx Hk. apply in_app_iff in Hx as [Hx|[<-|[]]].
           ++ specialize (G3 _ _ Hx Hk). destruct (push_group_keys k m gs0) as [(-> & _)|(-> & _)]; [exact G3|apply in_or_app; left; exact G3].
           ++ assert (k' = k) as -> by congruence. destruct (push_group_keys k m gs0) as [(-> & K)|(-> & _)]; [exact K|].
              apply in_or_app. right. left. reflexivity.
      * constructor; [exact G1| |].
        -- intros k l Hin. rewrite filter_snoc, <- (G2 _ _ Hin). unfold of_kind. rewrite Ek. rewrite app_nil_r. reflexivity.
        -- intros x k Hx Hk. apply in_app_iff in Hx as [Hx|[<-|[]]]; [exact (G3 _ _ Hx Hk)|congruence].
    + intros x Hx. apply in_app_iff in Hx as [Hx|[<-|[]]]; [exact (R _ Hx)|eauto].
Qed.
Lemma group_matches_total : forall rules ms, (forall m, In m ms -> exists r, nth_error rules (rm_rule m) = Some r) ->
  exists gs, group_matches rules ms = Ret gs.
Proof.
  intros rules ms. unfold group_matches. generalize (@nil (internal_type * list rule_match)).
  induction ms as [|m ms IH]; intros gs H; [eexists; reflexivity|]. cbn [foldM].
  destruct (H m (or_introl eq_refl)) as (r & ->). cbn [unwrap bind]. apply IH. intros x Hx. apply H. right. exact Hx.
Qed.

(* filtering by the keys of the groups collects all typed matches *)
Lemma grouped_perm : forall rules ms gs, grouped rules ms gs -> Permutation (flat_map snd gs) (filter (typed rules) ms).
Proof.
  intros rules ms gs [G1 G2 G3].
  assert (forall (gs : list (internal_type * list rule_match)), NoDup (map fst gs) ->
    (forall k l, In (k, l) gs -> l = filter (of_kind rules k) ms) ->
    Permutation (flat_map snd gs) (filter (fun m => existsb (fun k => of_kind rules k m) (map fst gs)) ms)) as K.
  { clear. induction gs as [|[k l] gs IH]; intros N G; cbn [flat_map map fst snd existsb].
    - rewrite filter_none by reflexivity. constructor.
    - apply NoDup_cons_iff in N as (N0 & N). rewrite (IH N) by (intros k' l' H; apply G; right; exact H).
      rewrite (G k l (or_introl eq_refl)). clear G IH.
      induction ms as [|m ms IHm]; [constructor|]. cbn [filter]. destruct (of_kind rules k m) eqn:E1.
      + cbn [orb app]. assert (existsb (fun k0 => of_kind rules k0 m) (map fst gs) = false) as ->.
        { destruct (existsb _ (map fst gs)) eqn:E2; [|reflexivity]. exfalso. apply existsb_exists in E2 as (k' & Hk' & E2).
          apply of_kind_spec in E1, E2. assert (k' = k) as -> by congruence. exact (N0 Hk'). }
        constructor. exact IHm.
      + cbn [orb]. destruct (existsb (fun k0 => of_kind rules k0 m) (map fst gs)).
        * rewrite <- Permutation_middle. constructor. exact IHm.
        * exact IHm. }
  rewrite (K gs G1 G2). clear K.
  assert (forall l, incl l ms -> filter (fun m => existsb (fun k => of_kind rules k m) (map fst gs)) l = filter (typed rules) l) as E.
  { induction l as [|m l IH]; intros Hl; [reflexivity|]. cbn [filter].
    assert (existsb (fun k => of_kind rules k m) (map fst gs) = typed rules m) as ->.
    { unfold typed. destruct (kind_of rules m) as [k|] eqn:Ek.
      - apply existsb_exists. exists k. split; [apply (G3 m k); [apply Hl; left; reflexivity|exact Ek]|apply of_kind_spec; exact Ek].
      - destruct (existsb _ (map fst gs)) eqn:E2; [|reflexivity]. apply existsb_exists in E2 as (k' & _ & E2). apply of_kind_spec in E2. congruence. }
    rewrite IH by (intros x Hx; apply Hl; right; exact Hx). reflexivity. }
  rewrite (E ms (incl_refl _)). reflexivity.
Qed.

(* ---- sorting ---- *)
Lemma insert_start_perm : forall m l, Permutation (m :: l) (insert_by_start m l).
Proof.
  intros m. induction l as [|x l IH]; [constructor; constructor|]. cbn [insert_by_start].
  destruct (rm_start m <=? rm_start x); [reflexivity|]. rewrite perm_swap. constructor. exact IH.
Qed.
Lemma sort_start_perm : forall l, Permutation l (sort_by_start l).
Proof.
  induction l as [|m l IH]; [constructor|]. cbn [sort_by_start fold_right]. rewrite <- insert_start_perm. constructor. exact IH.
Qed.
Lemma sort_start_sorted : forall l, sorted_by_start (sort_by_start l).
Proof.
  assert (forall m l, sorted_by_start l -> sorted_by_start (insert_by_start m l)) as K.
  { intros m l H. unfold sorted_by_start in *. induction H as [|x l Hs IH Hall]; cbn [insert_by_start]; [repeat constructor|].
    destruct (Nat.leb_spec (rm_start m) (rm_start x)).
    - constructor; [constructor; assumption|]. constructor; [assumption|]. eapply Forall_impl; [|exact Hall]. intros a Ha. cbv beta in *. lia.
    - constructor; [exact IH|]. apply Forall_forall. intros a Ha.
      apply (Permutation_in _ (Permutation_sym (insert_start_perm m l))) in Ha as [<-|Ha]; [lia|].
      rewrite Forall_forall in Hall. auto. }
  induction l as [|m l IH]; [constructor|]. cbn [sort_by_start fold_right]. apply K. exact IH.
Qed.
Lemma sort_start_stable : forall (f : rule_match -> bool) n, (forall m, f m = true -> rm_start m = n) ->
  forall l, filter f (sort_by_start l) = filter f l.
Proof.
  intros f n Hf.
  assert (forall m l, filter f (insert_by_start m l) = filter f (m :: l)) as K.
  { intros m. induction l as [|x l IH]; [reflexivity|]. cbn [insert_by_start].
    destruct (Nat.leb_spec (rm_start m) (rm_start x)); [reflexivity|]. cbn [filter]. rewrite IH. cbn [filter].
    destruct (f x) eqn:Ex; [|reflexivity]. destruct (f m) eqn:Em; [|reflexivity]. apply Hf in Ex, Em. lia. }
  induction l as [|m l IH]; [reflexivity|]. cbn [sort_by_start fold_right]. rewrite K. cbn [filter]. rewrite <- IH. reflexivity.
Qed.

(* ---- one group ---- *)
(* what is known about a match and its validated version; [l] is the group *)
Definition validated_as (vs : list (internal_type * validator)) (w : validation_world) (rules : list rule)
  (k : internal_type) (l : list rule_match) (m m' : rule_match) : Prop :=
  same_match m m' /\
  match assoc internal_eqb k vs with
  | None => m' = m
  | Some (VHttp c) => exists i, nth_error l i = Some m /\ highest (http_candidate c (vw_http w k i) m) (rm_status m')
  | Some (VAws c) => exists i, nth_error l i = Some m /\ highest (aws_candidate c (vw_aws w) rules l i m) (rm_status m')
  end.

Lemma nth_Forall2 : forall A B (R : A -> B -> Prop) l1 l2, length l2 = length l1 ->
  (forall i x, nth_error l1 i = Some x -> exists y, nth_error l2 i = Some y /\ R x y) -> Forall2 R l1 l2.
Proof.
  intros A B R. induction l1 as [|x l1 IH]; intros [|y l2] L H; try discriminate; [constructor|].
  constructor.
  - destruct (H 0 x eq_refl) as (y' & E & HR). injection E as <-. exact HR.
  - apply IH; [injection L as L; exact L|]. intros i z Hz. exact (H (S i) z Hz).
Qed.

Lemma same_match_refl : forall m, same_match m m.
Proof. intros m. constructor; reflexivity. Qed.

Lemma validate_group_spec : forall vs w rules g g', orders_ok w -> validate_group vs w rules g = Ret g' ->
  fst g' = fst g /\ Forall2 (validated_as vs w rules (fst g) (snd g)) (snd g) (snd g').
Proof.
  intros vs w rules g g' (O1 & O2 & O3) H. unfold validate_group in H. unfold validated_as.
  destruct (assoc internal_eqb (fst g) vs) as [[c|c]|].
  - destruct (aws_validate c (vw_aws w) (vw_aws_order w) rules (snd g)) as [out| |] eqn:E; try discriminate.
    injection H as <-. split; [reflexivity|]. cbn [snd]. destruct (aws_validate_spec _ _ _ _ _ _ O2 E) as (L & S).
    apply nth_Forall2; [exact L|]. intros i m Hi. destruct (S i m Hi) as (m' & H1 & H2 & H3). exists m'. eauto.
  - destruct (http_validate c (vw_http w (fst g)) (vw_http_order w (fst g)) (snd g)) as [out| |] eqn:E; try discriminate.
    injection H as <-. split; [reflexivity|]. cbn [snd]. destruct (http_validate_spec _ _ _ _ _ (O1 _) E) as (L & S).
    apply nth_Forall2; [exact L|]. intros i m Hi. destruct (S i m Hi) as (m' & H1 & H2 & H3). exists m'. eauto.
  - injection H as <-. split; [reflexivity|].
    assert (forall l : list rule_match, Forall2 (fun m m' => same_match m m' /\ m' = m) l l) as K; [|apply K].
    induction l; constructor; [split; [apply same_match_refl|reflexivity]|assumption].
Qed.

(* ---- all of it ---- *)
Lemma Forall2_flat_map : forall A (R : A -> A -> Prop) (P : internal_type * list A -> internal_type * list A -> Prop) gs gs',
  Forall2 P gs gs' -> (forall g g', In g gs -> P g g' -> Forall2 R (snd g) (snd g')) ->
  Forall2 R (flat_map snd gs) (flat_map snd gs').
Proof.
  intros A R P gs gs' H. induction H as [|g g' gs gs' H1 _ IH]; intros K; [constructor|]. cbn [flat_map].
  apply Forall2_app; [apply K; [left; reflexivity|exact H1]|]. apply IH. intros x y Hx. apply K. right. exact Hx.
Qed.
Lemma Forall2_flip : forall A B (R : A -> B -> Prop) l1 l2, Forall2 R l1 l2 -> Forall2 (fun y x => R x y) l2 l1.
Proof. intros A B R l1 l2 H. induction H; constructor; assumption. Qed.
Lemma Forall2_weaken : forall A B (R S : A -> B -> Prop) l1 l2, (forall x y, R x y -> S x y) -> Forall2 R l1 l2 -> Forall2 S l1 l2.
Proof. intros A B R S l1 l2 K H. induction H; constructor; auto. Qed.
Lemma filter_typed_split : forall A (f : A -> bool) l, Permutation l (filter f l ++ filter (fun x => negb (f x)) l).
Proof.
  intros A f. induction l as [|x l IH]; [constructor|]. cbn [filter]. destruct (f x); cbn [negb app].
  - constructor. exact IH.
  - rewrite <- Permutation_middle. constructor. exact IH.
Qed.
Lemma permutation_flat_map : forall A B (f : A -> list B) l l', Permutation l l' -> Permutation (flat_map f l) (flat_map f l').
Proof.
  intros A B f l l' H. induction H; cbn [flat_map].
  - constructor.
  - apply Permutation_app_head. exact IHPermutation.
  - rewrite !app_assoc. apply Permutation_app_tail. apply Permutation_app_comm.
  - etransitivity; eassumption.
Qed.

Lemma kind_rule_type : forall rules m k, kind_of rules m = Some k <-> exists t, rule_type rules m t /\ same_kind t k.
Proof.
  intros rules m k. unfold kind_of, rule_type. split.
  - destruct (nth_error rules (rm_rule m)) as [r|]; [|discriminate].
    destruct (rule_validation r) as [t|] eqn:Et; [|discriminate]. intros H. injection H as <-. exists t.
    split; [eauto|]. apply same_kind_internal. reflexivity.
  - intros (t & (r & -> & ->) & H). apply same_kind_internal in H. congruence.
Qed.

Lemma validate_matches_spec : forall vs w rules ms out, orders_ok w ->
  validate_matches vs w true rules ms = Ret (Ok out) -> exists kept dropped,
  Permutation ms (kept ++ dropped) /\
  (forall m, In m dropped -> typed rules m = false) /\
  Forall2 (fun m m' => exists k, kind_of rules m = Some k /\
             validated_as vs w rules k (filter (of_kind rules k) ms) m m') kept out /\
  sorted_by_start out.
Proof.
  intros vs w rules ms out Ho H. unfold validate_matches in H. cbn [negb] in H.
  destruct (group_matches rules ms) as [gs| |] eqn:Eg; try discriminate. cbn [bind] in H.
  destruct (try_map (validate_group vs w rules) gs) as [gs'| |] eqn:Ev; try discriminate. cbn [bind] in H.
  injection H as <-. apply group_matches_spec in Eg as (G & _). apply try_map_inv in Ev.
  pose proof (grouped_perm _ _ _ G) as P.
  assert (Forall2 (fun m m' => exists k, kind_of rules m = Some k /\ validated_as vs w rules k (filter (of_kind rules k) ms) m m')
            (flat_map snd gs) (flat_map snd gs')) as F.
  { eapply Forall2_flat_map; [exact Ev|]. intros [k l] g' Hin Hg.
    destruct (validate_group_spec _ _ _ _ _ Ho Hg) as (_ & K). cbn [fst snd] in K.
    pose proof (gr_group _ _ _ G _ _ Hin) as El. cbn [snd]. rewrite El in K at 1.
    assert (forall m, In m l -> kind_of rules m = Some k) as Hk.
    { intros m Hm. rewrite El in Hm. apply filter_In in Hm as (_ & Hm). apply of_kind_spec. exact Hm. }
    clear - K Hk. induction K as [|m m' l1 l2 H1 _ IH]; constructor.
    - exists k. split; [apply Hk; left; reflexivity|exact H1].
    - apply IH. intros x Hx. apply Hk. right. exact Hx. }
  assert (Permutation (flat_map snd gs') (sort_by_start (flat_map snd (vw_group_order w gs')))) as P'.
  { etransitivity; [|apply sort_start_perm]. apply permutation_flat_map. apply Ho. }
  assert (exists kept, Permutation (flat_map snd gs) kept /\
            Forall2 (fun m m' => exists k, kind_of rules m = Some k /\ validated_as vs w rules k (filter (of_kind rules k) ms) m m')
              kept (sort_by_start (flat_map snd (vw_group_order w gs')))) as (kept & Pk & Fk).
  { apply Forall2_flip in F. destruct (Permutation_Forall2 P' F) as (kept & K1 & K2). exists kept. split; [exact K1|].
    apply Forall2_flip in K2. exact K2. }
  exists kept, (filter (fun x => negb (typed rules x)) ms). split.
  - etransitivity; [apply (filter_typed_split _ (typed rules))|]. apply Permutation_app_tail.
    etransitivity; [symmetry; exact P|exact Pk].
  - split; [|split; [exact Fk|apply sort_start_sorted]]. intros m Hm. apply filter_In in Hm as (_ & Hm).
    destruct (typed rules m); [discriminate|reflexivity].
Qed.

(* ---- independence of the order ---- *)
Lemma try_map_ext : forall A B (f g : A -> outcome B) l, (forall x, In x l -> f x = g x) -> try_map f l = try_map g l.
Proof.
  intros A B f g. induction l as [|x l IH]; intros H; [reflexivity|]. cbn [try_map].
  rewrite (H x (or_introl eq_refl)). destruct (g x); [|reflexivity|reflexivity]. cbn [bind].
  rewrite IH by (intros y Hy; apply H; right; exact Hy). reflexivity.
Qed.
Lemma validate_group_order : forall vs w1 w2 rules g, orders_ok w1 -> orders_ok w2 -> same_answers w1 w2 ->
  validate_group vs w1 rules g = validate_group vs w2 rules g.
Proof.
  intros vs w1 w2 rules g (A1 & A2 & A3) (B1 & B2 & B3) (E1 & E2). unfold validate_group.
  destruct (assoc internal_eqb (fst g) vs) as [[c|c]|]; [| |reflexivity].
  - rewrite E2, (aws_validate_order c (vw_aws w2) _ _ rules (snd g) A2 B2). reflexivity.
  - rewrite E1, (http_validate_order c (vw_http w2 (fst g)) _ _ (snd g) (A1 (fst g)) (B1 (fst g))). reflexivity.
Qed.
Lemma validate_matches_order : forall vs w1 w2 rm rules ms, orders_ok w1 -> orders_ok w2 -> same_answers w1 w2 ->
  match validate_matches vs w1 rm rules ms, validate_matches vs w2 rm rules ms with
  | Ret (Ok o1), Ret (Ok o2) => Permutation o1 o2
  | r1, r2 => r1 = r2
  end.
Proof.
  intros vs w1 w2 rm rules ms O1 O2 S. unfold validate_matches. destruct rm; cbn [negb]; [|reflexivity].
  destruct (group_matches rules ms) as [gs| |]; try reflexivity. cbn [bind].
  rewrite (try_map_ext _ _ _ (validate_group vs w2 rules) gs) by (intros g _; apply validate_group_order; assumption).
  destruct (try_map (validate_group vs w2 rules) gs) as [gs'| |]; try reflexivity. cbn [bind].
  rewrite <- !sort_start_perm. apply permutation_flat_map.
  etransitivity; [symmetry; apply O1|apply O2].
Qed.

(* ---- matches of one kind with one start keep their order ---- *)
Lemma filter_filter_sub : forall A (f g : A -> bool) l, (forall x, f x = true -> g x = true) -> filter f (filter g l) = filter f l.
Proof.
  intros A f g l H. induction l as [|x l IH]; [reflexivity|]. cbn [filter]. destruct (g x) eqn:E; cbn [filter]; rewrite IH; [reflexivity|].
  destruct (f x) eqn:E2; [apply H in E2; congruence|reflexivity].
Qed.
Lemma filter_flat_map : forall A B (f : B -> bool) (g : A -> list B) l,
  filter f (flat_map g l) = flat_map (fun x => filter f (g x)) l.
Proof. intros A B f g. induction l as [|x l IH]; [reflexivity|]. cbn [flat_map]. rewrite filter_app, IH. reflexivity. Qed.
Lemma flat_map_single : forall A (f : A -> bool) k (gs : list (internal_type * list A)), NoDup (map fst gs) ->
  (forall k' l x, In (k', l) gs -> In x l -> f x = true -> k' = k) ->
  forall l, In (k, l) gs -> filter f (flat_map snd gs) = filter f l.
Proof.
  intros A f k gs. induction gs as [|[k0 l0] gs IH]; intros N H l Hin; [destruct Hin|].
  cbn [map fst] in N. apply NoDup_cons_iff in N as (N0 & N). cbn [flat_map snd]. rewrite filter_app.
  assert (forall gs' : list (internal_type * list A), (forall k' l' x, In (k', l') gs' -> In x l' -> f x = true -> False) -> filter f (flat_map snd gs') = []) as Z.
  { intros gs' Hz. apply filter_none. intros x Hx. apply in_flat_map in Hx as ([k' l'] & Hg & Hx).
    destruct (f x) eqn:E; [|reflexivity]. destruct (Hz _ _ _ Hg Hx E). }
  destruct Hin as [E|Hin].
  - injection E as -> ->. rewrite Z; [apply app_nil_r|]. intros k' l' x Hg Hx Ef.
    rewrite (H k' l' x (or_intror Hg) Hx Ef) in Hg. exact (N0 (in_map fst _ _ Hg)).
  - rewrite (IH N) with (l := l); [|intros k' l' x Hg; apply H; right; exact Hg|exact Hin].
    rewrite (filter_none _ f l0); [reflexivity|]. intros x Hx. destruct (f x) eqn:Ef; [|reflexivity]. exfalso.
    rewrite (H k0 l0 x (or_introl eq_refl) Hx Ef) in N0. exact (N0 (in_map fst _ _ Hin)).
Qed.
Lemma Forall2_filter : forall A (R : A -> A -> Prop) (f : A -> bool) l1 l2, Forall2 R l1 l2 ->
  (forall x y, R x y -> f x = f y) -> Forall2 R (filter f l1) (filter f l2).
Proof.
  intros A R f l1 l2 H K. induction H as [|x y l1 l2 H1 _ IH]; [constructor|]. cbn [filter]. rewrite (K _ _ H1).
  destruct (f y); [constructor; assumption|assumption].
Qed.
Lemma kind_of_same : forall rules m m', same_match m m' -> kind_of rules m = kind_of rules m'.
Proof. intros rules m m' H. unfold kind_of. rewrite (sm_rule _ _ H). reflexivity. Qed.

Lemma validate_matches_stable : forall vs w rules ms out, orders_ok w ->
  validate_matches vs w true rules ms = Ret (Ok out) ->
  forall k n (f : rule_match -> bool), (forall m, f m = true <-> kind_of rules m = Some k /\ rm_start m = n) ->
  Forall2 same_match (filter f ms) (filter f out).
Proof.
  intros vs w rules ms out Ho H k n f Hf. unfold validate_matches in H. cbn [negb] in H.
  destruct (group_matches rules ms) as [gs| |] eqn:Eg; try discriminate. cbn [bind] in H.
  destruct (try_map (validate_group vs w rules) gs) as [gs'| |] eqn:Ev; try discriminate. cbn [bind] in H.
  injection H as <-. apply group_matches_spec in Eg as (G & _). apply try_map_inv in Ev.
  rewrite (sort_start_stable f n) by (intros m Hm; apply Hf in Hm; exact (proj2 Hm)).
  assert (Forall2 (fun g g' => fst g' = fst g /\ Forall2 same_match (snd g) (snd g')) gs gs') as F.
  { clear G. induction Ev as [|g g' gs gs' Hg _ IH]; constructor; [|exact IH].
    destruct (validate_group_spec _ _ _ _ _ Ho Hg) as (E1 & E2). split; [exact E1|].
    eapply Forall2_weaken; [|exact E2]. intros m m' (K & _). exact K. }
  assert (map fst gs' = map fst gs) as Ek.
  { clear - F. induction F as [|g g' gs gs' (E & _) _ IH]; [reflexivity|]. cbn [map]. congruence. }
  assert (Permutation gs' (vw_group_order w gs')) as P by apply Ho.
  assert (forall k' l x, In (k', l) gs' -> In x l -> f x = true -> k' = k) as Only.
  { intros k' l x Hin Hx Hfx. apply Hf in Hfx as (Hfx & _).
    assert (exists l0, In (k', l0) gs /\ Forall2 same_match l0 l) as (l0 & Hin0 & F0).
    { clear - F Hin. induction F as [|[k1 l1] [k2 l2] gs gs' (E & S) _ IH]; [destruct Hin|]. cbn [fst snd] in *.
      destruct Hin as [E2|Hin]; [injection E2 as -> ->; subst; exists l1; split; [left; reflexivity|exact S]|].
      destruct (IH Hin) as (l0 & H0 & F0). exists l0. split; [right; exact H0|exact F0]. }
    assert (exists y, In y l0 /\ same_match y x) as (y & Hy & Hs).
    { clear - F0 Hx. induction F0 as [|a b l0 l S _ IH]; [destruct Hx|]. destruct Hx as [<-|Hx]; [exists a; split; [left; reflexivity|exact S]|].
      destruct (IH Hx) as (y & Hy & Hs). exists y. split; [right; exact Hy|exact Hs]. }
    rewrite (gr_group _ _ _ G _ _ Hin0) in Hy. apply filter_In in Hy as (_ & Hy). apply of_kind_spec in Hy.
    rewrite (kind_of_same _ _ _ Hs) in Hy. congruence. }
  assert (forall x y, same_match x y -> f x = f y) as Resp.
  { intros x y S. assert (f x = true <-> f y = true) as K by (rewrite !Hf, (kind_of_same _ _ _ S), (sm_start _ _ S); reflexivity).
    destruct (f x), (f y); try reflexivity; [symmetry; apply K; reflexivity|apply K; reflexivity]. }
  destruct (in_dec (fun a b => match internal_eqb a b as q return internal_eqb a b = q -> {a = b} + {a <> b} with
                       | true => fun E => left (proj1 (internal_eqb_eq a b) E)
                       | false => fun E => right (proj1 (internal_eqb_neq a b) E) end eq_refl) k (map fst gs)) as [Hk|Hk].
  - apply in_map_iff in Hk as ([k0 l0] & E & Hin). cbn [fst] in E. subst k0.
    assert (exists l1, In (k, l1) gs' /\ Forall2 same_match l0 l1) as (l1 & Hin1 & F1).
    { clear - F Hin. induction F as [|[k1 l1] [k2 l2] gs gs' (E & S) _ IH]; [destruct Hin|]. cbn [fst snd] in *.
      destruct Hin as [E2|Hin]; [injection E2 as -> ->; subst; exists l2; split; [left; reflexivity|exact S]|].
      destruct (IH Hin) as (l & H0 & F0). exists l. split; [right; exact H0|exact F0]. }
    rewrite (flat_map_single _ f k) with (l := l1).
    + assert (filter f ms = filter f l0) as ->.
      { rewrite (gr_group _ _ _ G _ _ Hin). symmetry. apply filter_filter_sub. intros x Hx. apply of_kind_spec.
        apply Hf in Hx. exact (proj1 Hx). }
      apply Forall2_filter; assumption.
    + eapply Permutation_NoDup; [apply Permutation_map; exact P|]. rewrite Ek. exact (gr_keys _ _ _ G).
    + intros k' l x Hin2. apply Only. eapply Permutation_in; [symmetry; exact P|exact Hin2].
    + eapply Permutation_in; [exact P|exact Hin1].
  - assert (filter f ms = []) as ->.
    { apply filter_none. intros x Hx. destruct (f x) eqn:E; [|reflexivity]. exfalso. apply Hk. apply Hf in E as (E & _).
      exact (gr_all _ _ _ G _ _ Hx E). }
    rewrite filter_none; [constructor|]. intros x Hx. apply in_flat_map in Hx as ([k' l] & Hin & Hx). destruct (f x) eqn:E; [|reflexivity].
    exfalso. apply Hk. assert (In (k', l) gs') as Hin' by (eapply Permutation_in; [symmetry; exact P|exact Hin]).
    rewrite <- (Only _ _ _ Hin' Hx E), <- Ek. exact (in_map fst _ _ Hin').
Qed.

(* ---- no panic ---- *)
Lemma aws_indices_total : forall rules ms n, (forall m, In m ms -> exists r, nth_error rules (rm_rule m) = Some r) ->
  exists p, aws_indices rules n ms = Ret p.
Proof.
  intros rules. induction ms as [|m ms IH]; intros n H; [eexists; reflexivity|]. cbn [aws_indices].
  unfold aws_kind. destruct (H m (or_introl eq_refl)) as (r & ->). cbn [unwrap bind].
  destruct (IH (S n)) as ([ids secrets] & ->); [intros x Hx; apply H; right; exact Hx|]. cbn [bind]. eexists. reflexivity.
Qed.
Lemma aws_validate_total : forall c w ord rules ms, permutes ord -> signable w ->
  (forall m, In m ms -> exists r, nth_error rules (rm_rule m) = Some r) ->
  exists out, aws_validate c w ord rules ms = Ret out.
Proof.
  intros c w ord rules ms Ho Hs Hr. unfold aws_validate.
  destruct (aws_indices_total rules ms 0 Hr) as ([ids secrets] & Ei). rewrite Ei. cbn [bind].
  apply aws_indices_spec in Ei as (I1 & I2).
  assert (forall k, In k (list_prod ids secrets) -> exists s, aws_entry c w ms k = Ret (k, s)) as K.
  { intros [i j] Hk. apply in_prod_iff in Hk as (Hi & Hj). apply I1 in Hi as (i' & id & -> & Ni & _).
    apply I2 in Hj as (j' & secret & -> & Nj & _). cbn [Nat.add] in *. unfold aws_entry. cbn [fst snd]. rewrite Ni, Nj. cbn [unwrap bind].
    destruct (rm_value secret) as [s|]; [|destruct (rm_value id); eauto]. destruct (rm_value id) as [v|]; [|eauto].
    unfold aws_headers. destruct (Hs (aws_sts_endpoint c) v (extract_aws_secret (aw_word w) s)) as (auth & -> & Ha). cbn [unwrap bind].
    assert (forallb header_char auth = true) as -> by (apply forallb_forall; intros x Hx; apply header_char_spec, Ha; exact Hx).
    cbn [bind]. eauto. }
  assert (exists es, try_map (aws_entry c w ms) (list_prod ids secrets) = Ret es) as (es & Ee).
  { clear - K. induction (list_prod ids secrets) as [|k ks IH]; [eexists; reflexivity|]. cbn [try_map].
    destruct (K k (or_introl eq_refl)) as (s & ->). cbn [bind]. destruct IH as (es & ->); [intros k' Hk'; apply K; right; exact Hk'|].
    cbn [bind]. eexists. reflexivity. }
  rewrite Ee. cbn [bind]. rewrite foldM_pairs. apply try_map_inv in Ee.
  match goal with |- context [applied ?us ms] => destruct (applied_ret us ms) as (out & E & _) end; [|eauto].
  intros u Hu. apply in_flat_map in Hu as ([[i j] s] & Hin & Hu). apply permutes_in in Hin; [|exact Ho].
  apply In_nth_error in Hin as (p & Hp).
  assert (exists id secret, nth_error ms i = Some id /\ nth_error ms j = Some secret) as (id & secret & N1 & N2).
  { clear - Ee Hp. revert p Hp. induction Ee as [|k y ks ys Hk _ IH]; intros [|p] Hp; try discriminate; [|eauto].
    injection Hp as ->. destruct (aws_entry_spec _ _ _ _ _ Hk) as (id & secret & s' & E & N1 & N2 & _). injection E as <- ->.
    exists id, secret. auto. }
  destruct Hu as [<-|[<-|[]]]; cbn [fst snd]; apply nth_error_Some; congruence.
Qed.
Lemma validate_matches_total : forall vs w rules ms, orders_ok w -> signable (vw_aws w) ->
  (forall m, In m ms -> exists r, nth_error rules (rm_rule m) = Some r) ->
  (forall m, In m ms -> rm_value m <> None) ->
  exists out, validate_matches vs w true rules ms = Ret (Ok out).
Proof.
  intros vs w rules ms Ho Hs Hr Hv. unfold validate_matches. cbn [negb].
  destruct (group_matches_total rules ms Hr) as (gs & Eg). rewrite Eg. cbn [bind]. apply group_matches_spec in Eg as (G & _).
  assert (exists gs', try_map (validate_group vs w rules) gs = Ret gs') as (gs' & ->); [|cbn [bind]; eauto].
  assert (forall g, In g gs -> forall m, In m (snd g) -> In m ms) as Sub.
  { intros [k l] Hg m Hm. cbn [snd] in Hm. rewrite (gr_group _ _ _ G _ _ Hg) in Hm. apply filter_In in Hm. exact (proj1 Hm). }
  assert (forall g, In g gs -> exists g', validate_group vs w rules g = Ret g') as K.
  { intros g Hg. unfold validate_group. destruct Ho as (O1 & O2 & O3). destruct (assoc internal_eqb (fst g) vs) as [[c|c]|]; [| |eauto].
    - destruct (aws_validate_total c (vw_aws w) (vw_aws_order w) rules (snd g) O2 Hs) as (out & ->); [|cbn [bind]; eauto].
      intros m Hm. apply Hr. exact (Sub _ Hg _ Hm).
    - destruct (http_validate_total c (vw_http w (fst g)) (vw_http_order w (fst g)) (snd g) (O1 _)) as (out & ->); [|cbn [bind]; eauto].
      intros m Hm. apply Hv. exact (Sub _ Hg _ Hm). }
  clear - K. induction gs as [|g gs IH]; [eexists; reflexivity|]. cbn [try_map].
  destruct (K g (or_introl eq_refl)) as (g' & ->). cbn [bind]. destruct IH as (gs' & ->); [intros x Hx; apply K; right; exact Hx|].
  cbn [bind]. eexists. reflexivity.
Qed.
