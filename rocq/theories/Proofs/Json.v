(* JSON events *)
From Coq Require Import Lia.
From Verif Require Import Proofs.Text Proofs.Scopes Proofs.Events.
From Verif Require Export Spec.Json.

Section Ind.
Variable P : json -> Prop.
Hypothesis H0 : P JNull.
Hypothesis H1 : forall b, P (JBool b).
Hypothesis H2 : forall t, P (JNumber t).
Hypothesis H3 : forall s, P (JString s).
Hypothesis HL : forall l, Forall P l -> P (JArray l).
Hypothesis HM : forall m, Forall (fun kc => P (snd kc)) m -> P (JObject m).
Fixpoint json_ind' (e : json) : P e :=
  match e with
  | JNull => H0
  | JBool b => H1 b
  | JNumber t => H2 t
  | JString s => H3 s
  | JArray l => HL l ((fix go (l : list json) : Forall P l :=
      match l with
      | [] => Forall_nil _
      | c :: l' => Forall_cons c (json_ind' c) (go l')
      end) l)
  | JObject m => HM m ((fix go (m : list (str * json)) : Forall (fun kc => P (snd kc)) m :=
      match m with
      | [] => Forall_nil _
      | kc :: m' => Forall_cons kc (json_ind' (snd kc)) (go m')
      end) m)
  end.
End Ind.

Section Loops.
Variable ops : json -> list visit_op.
Definition jmap_ops := fix go (m : list (str * json)) : list visit_op :=
  match m with
  | [] => []
  | (k, c) :: m' => under (Field k) (ops c) ++ go m'
  end.
Definition jlist_ops := fix go (i : nat) (l : list json) : list visit_op :=
  match l with
  | [] => []
  | c :: l' => under (Index i) (ops c) ++ go (S i) l'
  end.
Variable strs : json -> list (path * str).
Definition jmap_strs := fix go (m : list (str * json)) : list (path * str) :=
  match m with
  | [] => []
  | (k, c) :: m' => pre (Field k) (strs c) ++ go m'
  end.
Definition jlist_strs := fix go (i : nat) (l : list json) : list (path * str) :=
  match l with
  | [] => []
  | c :: l' => pre (Index i) (strs c) ++ go (S i) l'
  end.
End Loops.
Fixpoint json_strings (e : json) : list (path * str) :=
  match e with
  | JNull => []
  | JBool b => [([], bool_text b)]
  | JNumber t => [([], t)]
  | JString s => [([], s)]
  | JArray l => jlist_strs json_strings 0 l
  | JObject m => jmap_strs json_strings m
  end.

Lemma json_shows : forall e, shows (json_ops e) (json_strings e).
Proof.
  assert (K : forall s, shows [OpString s] [([], s)]).
  { intros s stack rest. simpl. rewrite app_nil_r. destruct (strings_at stack rest); reflexivity. }
  induction e as [|b|t|s|l IH|m IH] using json_ind'; try apply K.
  - apply shows_nil.
  - change (json_ops (JArray l)) with (jlist_ops json_ops 0 l). cbn [json_strings]. generalize 0 as i.
    induction IH as [|c l Hc Hl IH]; intros i; simpl; [apply shows_nil|].
    apply (shows_app (under (Index i) (json_ops c))); [apply shows_under; auto|apply IH].
  - change (json_ops (JObject m)) with (jmap_ops json_ops m). cbn [json_strings].
    induction IH as [|[k c] m Hc Hm IH]; simpl; [apply shows_nil|].
    apply (shows_app (under (Field k) (json_ops c))); [apply shows_under; auto|apply IH].
Qed.

Lemma json_strings_of : forall e, strings_of (json_ops e) = Some (json_strings e).
Proof.
  intros e. unfold strings_of. rewrite <- (app_nil_r (json_ops e)), json_shows. simpl.
  rewrite app_nil_r. unfold shown. simpl. f_equal. rewrite <- map_id. apply map_ext.
  intros []; reflexivity.
Qed.

Lemma in_jlist : forall strs l i p c,
  In (p, c) (jlist_strs strs i l) <->
  exists j d q, nth_error l j = Some d /\ p = Index (i + j) :: q /\ In (q, c) (strs d).
Proof.
  intros strs. induction l as [|d l IH]; intros i p c; simpl.
  - split; [intros []|]. intros (j & d & q & H & _). destruct j; discriminate.
  - rewrite in_app_iff, in_pre, IH. split.
    + intros [(q & -> & H)|(j & d' & q & H1 & -> & H2)].
      * exists 0, d, q. rewrite Nat.add_0_r. auto.
      * exists (S j), d', q. split; [exact H1|]. rewrite Nat.add_succ_r. auto.
    + intros ([|j] & d' & q & H1 & -> & H2); simpl in H1.
      * inversion H1; subst. left. rewrite Nat.add_0_r. eauto.
      * right. exists j, d', q. rewrite Nat.add_succ_r. auto.
Qed.
Lemma in_jmap : forall strs m p c,
  In (p, c) (jmap_strs strs m) <->
  exists k d q, In (k, d) m /\ p = Field k :: q /\ In (q, c) (strs d).
Proof.
  intros strs. induction m as [|[k d] m IH]; intros p c; simpl.
  - split; [intros []|]. intros (k & d & q & [] & _).
  - rewrite in_app_iff, in_pre, IH. split.
    + intros [(q & -> & H)|(k' & d' & q & H1 & H2)].
      * exists k, d, q. auto.
      * exists k', d', q. auto.
    + intros (k' & d' & q & [H1|H1] & H2 & H3).
      * injection H1 as <- <-. left. eauto.
      * right. exists k', d', q. auto.
Qed.

Lemma json_strings_shown : forall e p c, In (p, c) (json_strings e) <-> exists b, json_shown e p c b.
Proof.
  induction e as [|b|t|s|l IH|m IH] using json_ind'; intros p c.
  - simpl. split; [intros []|intros (b & H); inversion H].
  - simpl. split.
    + intros [H|[]]. injection H as <- <-. exists false. destruct b; constructor.
    + intros (b' & H). inversion H; subst; simpl; auto.
  - simpl. split.
    + intros [H|[]]. injection H as <- <-. exists false. constructor.
    + intros (b' & H). inversion H; subst; simpl; auto.
  - simpl. split.
    + intros [H|[]]. injection H as <- <-. exists true. constructor.
    + intros (b' & H). inversion H; subst; simpl; auto.
  - cbn [json_strings]. rewrite in_jlist. rewrite Forall_forall in IH. split.
    + intros (j & d & q & H1 & -> & H2). apply (IH d (nth_error_In _ _ H1)) in H2 as (b & H2).
      exists b. econstructor; eauto.
    + intros (b & H). inversion H; subst. exists i, c0, p0. repeat split; auto.
      eapply IH; [eapply nth_error_In; eauto|eauto].
  - cbn [json_strings]. rewrite in_jmap. rewrite Forall_forall in IH. split.
    + intros (k & d & q & H1 & -> & H2). apply (IH (k, d) H1) in H2 as (b & H2).
      exists b. econstructor; eauto.
    + intros (b & H). inversion H; subst. exists k, c0, p0. repeat split; auto.
      apply (IH (k, c0)); eauto.
Qed.

Lemma json_nodup : forall e, json_distinct e -> NoDup (map fst (json_strings e)).
Proof.
  induction e as [|b|t|s|l IH|m IH] using json_ind'; intros Hd; inversion Hd; subst;
    try (simpl; constructor; [intros []|constructor]); try (simpl; constructor).
  - cbn [json_strings]. clear Hd. generalize 0 as i.
    induction IH as [|c l Hc Hl IH]; intros i; simpl; [constructor|].
    rewrite map_app. apply NoDup_app2.
    + apply NoDup_pre, Hc. apply H0. left; auto.
    + apply IH; intros; apply H0; right; auto.
    + intros p A B. apply map_fst_in in A as (x & A). apply map_fst_in in B as (y & B).
      apply in_pre in A as (q & -> & _).
      apply in_jlist in B as (j & d & q' & _ & E & _). inversion E. lia.
  - cbn [json_strings]. clear Hd. induction IH as [|[k c] m Hc Hm IH]; simpl; [constructor|].
    simpl in *. match goal with Hn : NoDup (_ :: _) |- _ => inversion Hn; subst end.
    rewrite map_app. apply NoDup_app2.
    + apply NoDup_pre, Hc. eauto.
    + apply IH; eauto.
    + intros p A B. apply map_fst_in in A as (x & A). apply map_fst_in in B as (y & B).
      apply in_pre in A as (q & -> & _). apply in_jmap in B as (k' & d & q' & B1 & B2 & _).
      injection B2 as <- <-. match goal with Hn : ~ In _ _ |- _ => apply Hn end. apply in_map_iff. exists (k, d). auto.
Qed.

Lemma shape_distinct : forall e e', json_shape e = json_shape e' -> json_distinct e -> json_distinct e'.
Proof.
  assert (Hm : forall A B (f : A -> B) l l', map f l = map f l' ->
            forall y, In y l' -> exists x, In x l /\ f x = f y).
  { intros A B f l l' H y Hy. apply (in_map f) in Hy. rewrite <- H in Hy. apply in_map_iff in Hy as (x & E & Hx). eauto. }
  induction e as [|b|t|s|l IH|m IH] using json_ind'; intros e' Hs Hd; destruct e'; try discriminate Hs; try constructor.
  - simpl in Hs. injection Hs as Hs. inversion Hd; subst. rewrite Forall_forall in IH.
    intros c Hc. destruct (Hm _ _ _ _ _ Hs c Hc) as (x & Hx & E). apply (IH x Hx c E). auto.
  - simpl in Hs. injection Hs as Hs. inversion Hd; subst.
    assert (E : map fst m = map fst m0).
    { transitivity (map fst (map (fun kc => (fst kc, json_shape (snd kc))) m)).
      - rewrite map_map. reflexivity.
      - rewrite Hs, map_map. reflexivity. }
    rewrite <- E. auto.
  - simpl in Hs. injection Hs as Hs. inversion Hd; subst. rewrite Forall_forall in IH.
    intros k c Hc. destruct (Hm _ _ _ _ _ Hs (k, c) Hc) as ([k' x] & Hx & E). simpl in E. injection E as <- E.
    apply (IH (k', x) Hx c E). eauto.
Qed.

(* reading and writing a string *)
Lemma json_get_shown : forall p e s, json_distinct e -> json_shown e p s true -> json_get e p = Ret s.
Proof.
  induction p as [|x p IH]; intros e s Hd Hs.
  - inversion Hs; subst. reflexivity.
  - inversion Hs; subst; inversion Hd; subst; cbn [json_get].
    + match goal with Hn : nth_error _ _ = Some _ |- _ => rewrite Hn; apply IH; auto;
        match goal with Ha : forall c, In c l -> _ |- _ => apply Ha end; eapply nth_error_In; eauto end.
    + rewrite (map_get_in _ m k c) by auto. apply IH; eauto.
Qed.

Lemma list_set_map : forall A B (f : A -> B) l i (d x : A), nth_error l i = Some d -> f x = f d ->
  map f (list_set l i x) = map f l.
Proof.
  induction l as [|a l IH]; intros [|i] d x H E; simpl in *; try discriminate; auto.
  - injection H as ->. rewrite E. reflexivity.
  - rewrite (IH i d x H E). reflexivity.
Qed.

Lemma list_set_nth : forall A (l : list A) i x j, nth_error (list_set l i x) j =
  if i =? j then match nth_error l j with Some _ => Some x | None => None end else nth_error l j.
Proof.
  induction l as [|a l IH]; intros [|i] x [|j]; simpl; auto.
  destruct (i =? j); reflexivity.
Qed.

Lemma map_set_in : forall A (m : list (str * A)) k x k' y, NoDup (map fst m) -> In (k', y) m ->
  In (k', if str_eqb k k' then x else y) (map_set m k x).
Proof.
  induction m as [|[a b] m IH]; intros k x k' y Hn Hin; simpl in *; [contradiction|].
  inversion Hn; subst. destruct (str_eqb a k) eqn:E.
  - apply str_eqb_eq in E. subst a. destruct Hin as [Hin|Hin].
    + injection Hin as <- <-. rewrite str_eqb_refl. left; auto.
    + right. destruct (str_eqb k k') eqn:E'; auto. apply str_eqb_eq in E'. subst k'.
      exfalso. apply H1. apply in_map_iff. exists (k, y). auto.
  - destruct Hin as [Hin|Hin].
    + injection Hin as <- <-. left. destruct (str_eqb k a) eqn:E'; auto.
      apply str_eqb_eq in E'. subst. rewrite str_eqb_refl in E. discriminate.
    + right. apply IH; auto.
Qed.

Lemma map_set_map : forall A B (f : str * A -> B) m k (d x : A), map_get m k = Some d ->
  (forall k, f (k, x) = f (k, d)) -> map f (map_set m k x) = map f m.
Proof.
  induction m as [|[a b] m IH]; intros k d x H E; simpl in *; [discriminate|].
  destruct (str_eqb a k); simpl; [injection H as ->; rewrite E; reflexivity|].
  rewrite (IH k d x H E). reflexivity.
Qed.

Lemma json_set_shape : forall p e s s', json_distinct e -> json_shown e p s true ->
  json_shape (json_set e p s') = json_shape e.
Proof.
  induction p as [|x p IH]; intros e s s' Hd Hs.
  - inversion Hs; subst. reflexivity.
  - inversion Hs; subst; inversion Hd; subst; cbn [json_set].
    + match goal with Hn : nth_error _ _ = Some _ |- _ => pose proof Hn as Hn'; rewrite Hn end.
      cbn [json_shape]. f_equal. apply (list_set_map _ _ json_shape l i c); auto.
      apply (IH c s); auto. match goal with Ha : forall c, In c l -> _ |- _ => apply Ha end. eapply nth_error_In; eauto.
    + rewrite (map_get_in _ m k c) by auto. cbn [json_shape]. f_equal.
      apply (map_set_map _ _ (fun kc => (fst kc, json_shape (snd kc))) m k c); [apply map_get_in; auto|].
      intros k'. simpl. f_equal. apply (IH c s); eauto.
Qed.

Lemma json_set_shown : forall p e s s' q t b, json_distinct e -> json_shown e p s true ->
  json_shown e q t b ->
  json_shown (json_set e p s') q (if path_eqb p q then s' else t) (if path_eqb p q then true else b).
Proof.
  induction p as [|x p IH]; intros e s s' q t b Hd Hs Hq.
  - inversion Hs; subst. inversion Hq; subst. simpl. constructor.
  - inversion Hs; subst; inversion Hd; subst; cbn [json_set].
    + match goal with Hn : nth_error _ _ = Some _ |- _ => pose proof Hn as Hn'; rewrite Hn end.
      inversion Hq; subst. cbn [path_eqb segment_eqb].
      destruct (i =? i0) eqn:Ei.
      * apply Nat.eqb_eq in Ei. subst i0. assert (c0 = c) by congruence. subst c0. cbn [andb].
        apply js_array with (json_set c p s').
        -- rewrite list_set_nth, Nat.eqb_refl, Hn'. reflexivity.
        -- apply (IH c s); auto. match goal with Ha : forall c, In c l -> _ |- _ => apply Ha end. eapply nth_error_In; eauto.
      * cbn [andb]. apply js_array with c0; auto. rewrite list_set_nth, Ei. auto.
    + rewrite (map_get_in _ m k c) by auto. inversion Hq; subst. cbn [path_eqb segment_eqb].
      match goal with Hk : In (k0, c0) m |- _ => pose proof (map_set_in _ m k (json_set c p s') k0 c0 ltac:(assumption) Hk) as Hset end.
      destruct (str_eqb k k0) eqn:Ek; cbn [andb].
      * apply str_eqb_eq in Ek. subst k0.
        assert (c0 = c).
        { match goal with Hn : NoDup _, A : In (k, c) m, B : In (k, c0) m |- _ =>
            pose proof (map_get_in _ _ _ _ Hn A) as G1; pose proof (map_get_in _ _ _ _ Hn B) as G2 end. congruence. }
        subst c0. apply js_object with (json_set c p s'); auto. apply (IH c s); eauto.
      * apply js_object with c0; auto.
Qed.

Lemma json_laws : forall e0, json_distinct e0 ->
  (forall p s b, json_shown e0 p s b -> b = true) ->
  event_laws json_event_impl e0 (json_strings e0) (json_holds e0).
Proof.
  intros e0 Hd Hp. constructor.
  - apply json_strings_of.
  - apply json_nodup; auto.
  - intros log Hl. split; [reflexivity|]. intros p s b Hin. apply (in_map fst) in Hin. rewrite Hl in Hin.
    apply json_strings_shown in Hin as (b' & H). pose proof (Hp _ _ _ H). subst b'. exact H.
  - intros e l p c [Hs H] Hin. simpl. apply json_get_shown; eauto. apply shape_distinct with e0; auto.
  - intros e l1 p c l2 c' mutated [Hs H] _ Hn. simpl.
    assert (Hde : json_distinct e) by (apply shape_distinct with e0; auto).
    assert (Hc : json_shown e p c true) by (apply (H p c true), in_or_app; right; left; auto).
    split; [rewrite (json_set_shape p e c); auto|].
    intros q t b Hin. rewrite map_app in Hn. simpl in Hn. apply NoDup_remove in Hn as [_ Hn]. rewrite in_app_iff in Hn.
    apply in_app_or in Hin. destruct Hin as [Hin|[Hin|Hin]].
    + pose proof (json_set_shown p e c c' q t true Hde Hc (H q t b ltac:(apply in_or_app; auto))) as K.
      destruct (path_eqb p q) eqn:E; auto. apply path_eqb_eq in E. subst q. exfalso. apply Hn. left.
      apply in_map_iff. exists (p, t, b). auto.
    + injection Hin as <- <- <-. pose proof (json_set_shown p e c c' p c true Hde Hc Hc) as K.
      rewrite (proj2 (path_eqb_eq p p) eq_refl) in K. exact K.
    + pose proof (json_set_shown p e c c' q t true Hde Hc (H q t b ltac:(apply in_or_app; right; right; auto))) as K.
      destruct (path_eqb p q) eqn:E; auto. apply path_eqb_eq in E. subst q. exfalso. apply Hn. right.
      apply in_map_iff. exists (p, t, b). auto.
Qed.
