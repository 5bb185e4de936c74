(* Match validation (C48-C53, C66): proofs of the statements of Thm/MatchValidation.v *)
From Coq Require Import Lia.
From Verif Require Import Proofs.Text.
From Verif Require Export Proofs.ValidateMatches Examples.Validation.

(* the same endpoint with different codes for Valid *)
Definition strict : http_config := http_rule_config [chars "eu"] [(200, 300)%N].
Definition loose : http_config := http_rule_config [chars "eu"] [(300, 301)%N].
Definition clash_rules : list rule := [typed_rule 0 (Some (MVCustomHttp strict)); typed_rule 1 (Some (MVCustomHttp loose))].
Definition definite (s : match_status) : Prop := s = Valid \/ s = Invalid \/ exists e, s = StError e.
Lemma above_definite : forall s t, definite t -> ~ above t s -> definite s.
Proof.
  intros s t Ht Ha. unfold definite. destruct s; eauto; exfalso; apply Ha;
    destruct Ht as [->|[->|(e & ->)]]; apply status_compare_gt; reflexivity.
Qed.
Lemma Forall2_in_right : forall A B (R : A -> B -> Prop) l1 l2 y, Forall2 R l1 l2 -> In y l2 -> exists x, In x l1 /\ R x y.
Proof.
  intros A B R l1 l2 y H. induction H as [|a b l1 l2 H1 _ IH]; intros Hy; [destruct Hy|].
  destruct Hy as [<-|Hy]; [exists a; split; [left; reflexivity|exact H1]|]. destruct (IH Hy) as (x & Hx & HR).
  exists x. split; [right; exact Hx|exact HR].
Qed.
Lemma untyped_rule : forall rules m, typed rules m = false <-> forall t, ~ rule_type rules m t.
Proof.
  intros rules m. unfold typed, kind_of, rule_type. split.
  - intros H t (r & Er & Et). rewrite Er, Et in H. discriminate.
  - intros H. destruct (nth_error rules (rm_rule m)) as [r|]; [|reflexivity].
    destruct (rule_validation r) as [t|] eqn:Et; [|reflexivity]. exfalso. apply (H t). eauto.
Qed.
Lemma rule_type_unique : forall rules m t t', rule_type rules m t -> rule_type rules m t' -> t = t'.
Proof. intros rules m t t' (r & E1 & E2) (r' & E1' & E2'). congruence. Qed.
Lemma built_first : forall types rm vs rm', build_validators types [] rm = Ok (vs, rm') ->
  forall k v, assoc internal_eqb k vs = Some v <-> first_of_kind types k v.
Proof.
  intros types rm vs rm' H k v. destruct (build_validators_spec types [] rm) as (vs' & E & A). rewrite H in E.
  injection E as <- _. rewrite A. cbn [assoc]. apply first_opt_spec.
Qed.
Lemma rule_type_in : forall rules m t, rule_type rules m t -> In (Some t) (map rule_validation rules).
Proof.
  intros rules m t (r & E1 & E2). rewrite <- E2. apply in_map. exact (nth_error_In _ _ E1).
Qed.
Lemma first_exists : forall types k t, In (Some t) types -> same_kind t k -> (exists v, makes t v) ->
  exists v, first_of_kind types k v.
Proof.
  intros types k t Hin Hk (v & Hm).
  destruct (first_opt types k) as [v'|] eqn:E; [exists v'; apply first_opt_spec; exact E|]. exfalso.
  induction types as [|o types IH]; [destruct Hin|].
  apply makes_spec in Hm as Hm2. apply same_kind_internal in Hk as Hk2. destruct Hm2 as (Hc & Hi).
  destruct o as [t'|].
  - unfold first_opt in E. destruct (can_create_match_validator t' && internal_eqb (get_internal_type t') k) eqn:Eb.
    + apply andb_true_iff in Eb as (Eb & _). destruct t' as [[|c|]|c]; discriminate.
    + destruct Hin as [Et|Hin]; [|exact (IH Hin E)]. injection Et as ->. rewrite Hc, Hk2, internal_eqb_refl in Eb. discriminate.
  - destruct Hin as [Et|Hin]; [discriminate|exact (IH Hin E)].
Qed.

Lemma c48_combination_lemma :
  forall a b c, status_merge a b = status_merge b a /\
  status_merge (status_merge a b) c = status_merge a (status_merge b c) /\
  status_merge a a = a /\ ~ above a (status_merge a b) /\ ~ above b (status_merge a b).
Proof.
  intros a b c. split; [apply merge_comm|]. split; [apply merge_assoc|]. destruct (merge_highest a b) as (_ & H).
  split; [|split; apply H; auto]. destruct (merge_highest a a) as ([K|K] & _); exact K.
Qed.

Lemma c48_http_lemma :
  forall c reply ord1 ord2 ms, permutes ord1 -> permutes ord2 ->
  http_validate c reply ord1 ms = http_validate c reply ord2 ms.
Proof.
  exact http_validate_order.
Qed.

Lemma c48_aws_lemma :
  forall c w ord1 ord2 rules ms, permutes ord1 -> permutes ord2 ->
  aws_validate c w ord1 rules ms = aws_validate c w ord2 rules ms.
Proof.
  exact aws_validate_order.
Qed.

Lemma c48_scanner_lemma :
  forall vs w1 w2 rm rules ms, orders_ok w1 -> orders_ok w2 -> same_answers w1 w2 ->
  match validate_matches vs w1 rm rules ms, validate_matches vs w2 rm rules ms with
  | Ret (Ok o1), Ret (Ok o2) => Permutation o1 o2
  | r1, r2 => r1 = r2
  end.
Proof.
  exact validate_matches_order.
Qed.

Lemma c48_list_refuted_lemma :
  ~ (forall vs w1 w2 rules ms o1 o2, orders_ok w1 -> orders_ok w2 -> same_answers w1 w2 ->
   validate_matches vs w1 true rules ms = Ret (Ok o1) ->
   validate_matches vs w2 true rules ms = Ret (Ok o2) -> o1 = o2).
Proof.
  intros H.
  assert (forall o1 o2,
    validate_matches [(ITCustomHttp [chars "eu"; chars "us"], VHttp two_hosts)] (world echo false) true mixed_rules
      [found 1 7 (Some (chars "x")); found 2 7 (Some (chars "y"))] = Ret (Ok o1) ->
    validate_matches [(ITCustomHttp [chars "eu"; chars "us"], VHttp two_hosts)] (world echo true) true mixed_rules
      [found 1 7 (Some (chars "x")); found 2 7 (Some (chars "y"))] = Ret (Ok o2) -> map rm_rule o1 = map rm_rule o2) as K.
  { intros o1 o2 E1 E2. rewrite (H _ _ _ _ _ _ _ (world_orders echo false) (world_orders echo true) (conj eq_refl eq_refl) E1 E2). reflexivity. }
  vm_compute in K. specialize (K _ _ eq_refl eq_refl). discriminate K.
Qed.

Lemma c49_refuted_lemma :
  ~ (forall a b, documented_level (status_merge a b) = Nat.max (documented_level a) (documented_level b)).
Proof.
  intros H. specialize (H Invalid (StError (chars "x"))). vm_compute in H. discriminate H.
Qed.

Lemma c49_order_lemma :
  forall a b, highest (fun s => s = a \/ s = b) (status_merge a b).
Proof.
  exact merge_highest.
Qed.

Lemma c49_documented_lemma :
  forall a b, (a = Invalid -> forall e, b <> StError e) -> (b = Invalid -> forall e, a <> StError e) ->
  documented_level (status_merge a b) = Nat.max (documented_level a) (documented_level b).
Proof.
  intros a b H1 H2. unfold status_merge. destruct a as [| | |e|]; destruct b as [| | |e'|]; try reflexivity.
  - destruct (H1 eq_refl e' eq_refl).
  - destruct (H2 eq_refl e eq_refl).
  - cbn [status_compare]. destruct (str_compare e' e); reflexivity.
Qed.

Lemma c50_refuted_lemma :
  ~ (forall rm rm' vs w rules ms out, build_validators (map rule_validation rules) [] rm = Ok (vs, rm') ->
   orders_ok w -> validate_matches vs w rm' rules ms = Ret (Ok out) ->
   exists l, Permutation ms l /\ Forall2 same_match l out).
Proof.
  intros H.
  assert (exists l, Permutation (found 0 5 (Some (chars "x")) :: mixed_matches) l /\ exists out, Forall2 same_match l out /\ length out = 5) as K.
  { edestruct (H false) with (rules := mixed_rules) (ms := found 0 5 (Some (chars "x")) :: mixed_matches) as (l & H1 & H2); [vm_compute; reflexivity|apply (world_orders echo false)|vm_compute; reflexivity|].
    exists l. split; [exact H1|]. eexists. split; [exact H2|reflexivity]. }
  destruct K as (l & P & out & F & L). apply Permutation_length in P. cbn in P.
  assert (length l = length out) as E by (clear - F; induction F; cbn; congruence). lia.
Qed.

Lemma c50_kept_lemma :
  forall vs w rules ms out, orders_ok w -> validate_matches vs w true rules ms = Ret (Ok out) ->
  exists kept dropped, Permutation ms (kept ++ dropped) /\
    (forall m, In m kept -> exists t, rule_type rules m t) /\
    (forall m, In m dropped -> forall t, ~ rule_type rules m t) /\
    Forall2 same_match kept out /\ sorted_by_start out.
Proof.
  intros vs w rules ms out Ho H. destruct (validate_matches_spec _ _ _ _ _ Ho H) as (kept & dropped & P & D & F & S).
  exists kept, dropped. split; [exact P|]. split; [|split; [|split; [|exact S]]].
  - intros m Hm. apply Forall2_flip in F. destruct (Forall2_in_right _ _ _ _ _ _ F Hm) as (m' & _ & k & Hk & _).
    apply kind_rule_type in Hk as (t & Ht & _). eauto.
  - intros m Hm. apply untyped_rule. exact (D m Hm).
  - eapply Forall2_weaken; [|exact F]. intros m m' (k & _ & K & _). exact K.
Qed.

Lemma c50_same_kind_lemma :
  forall vs w rules ms out, orders_ok w -> validate_matches vs w true rules ms = Ret (Ok out) ->
  forall k n (f : rule_match -> bool),
  (forall m, f m = true <-> (exists t, rule_type rules m t /\ same_kind t k) /\ rm_start m = n) ->
  Forall2 same_match (filter f ms) (filter f out).
Proof.
  intros vs w rules ms out Ho H k n f Hf. eapply (validate_matches_stable _ _ _ _ _ Ho H k n).
  intros m. rewrite Hf, kind_rule_type. reflexivity.
Qed.

Lemma c50_returns_lemma :
  (forall vs w rules ms, orders_ok w -> signable (vw_aws w) ->
   (forall m, In m ms -> exists r, nth_error rules (rm_rule m) = Some r) ->
   (forall m, In m ms -> rm_value m <> None) ->
   exists out, validate_matches vs w true rules ms = Ret (Ok out)) /\
(forall vs w rules ms, validate_matches vs w false rules ms = Ret (Err tt)).
Proof.
  split; [exact validate_matches_total|reflexivity].
Qed.

Lemma c50_value_refuted_lemma :
  exists c reply ms, (forall m, In m ms -> rm_value m = None) /\ http_validate c reply (fun l => l) ms = Panic.
Proof.
  exists two_hosts, (fun _ => eu_only), [found 1 0 None]. split; [|vm_compute; reflexivity].
  intros m [<-|[]]. reflexivity.
Qed.

Lemma c51_refuted_lemma :
  ~ (forall rm rm' vs w rules ms out, build_validators (map rule_validation rules) [] rm = Ok (vs, rm') ->
   orders_ok w -> validate_matches vs w rm' rules ms = Ret (Ok out) ->
   forall m', In m' out -> forall c, rule_type rules m' (MVCustomHttp c) ->
   exists m i, In m ms /\ same_match m m' /\
     highest (http_candidate c (vw_http w (ITCustomHttp (hc_endpoints c)) i) m) (rm_status m')).
Proof.
  intros H.
  pose proof (H false true [(ITCustomHttp [chars "eu"], VHttp strict)] (world echo false) clash_rules [found 1 5 (Some (chars "t"))]
    [with_status (found 1 5 (Some (chars "t"))) Valid]) as K. clear H.
  specialize (K ltac:(vm_compute; reflexivity) (world_orders echo false) ltac:(vm_compute; reflexivity)).
  specialize (K _ (or_introl eq_refl) loose). destruct K as (m & i & Hm & _ & (Hc & _)).
  { eexists. split; reflexivity. }
  destruct Hm as [<-|[]]. destruct Hc as [Hc|(e & v & r & He & Hv & Hr & Hs)]; [discriminate|].
  destruct He as [<-|[]]. pose proof (ri_endpoint _ _ _ _ Hr) as Ee. cbn [vw_http world] in Hs. unfold eu_only in Hs. rewrite Ee in Hs.
  cbn in Hs. inversion Hs as [code Hin| | |]; subst. destruct Hin as (lo & hi & [E|[]] & K). injection E as <- <-. lia.
Qed.

Lemma c51_validators_lemma :
  forall types rm vs rm', build_validators types [] rm = Ok (vs, rm') ->
  forall k v, assoc internal_eqb k vs = Some v <-> first_of_kind types k v.
Proof.
  exact built_first.
Qed.

Lemma c51_own_lemma :
  forall rm rm' vs w rules ms out, build_validators (map rule_validation rules) [] rm = Ok (vs, rm') ->
  (forall c1 c2, In (Some (MVCustomHttp c1)) (map rule_validation rules) ->
     In (Some (MVCustomHttp c2)) (map rule_validation rules) -> hc_endpoints c1 = hc_endpoints c2 -> c1 = c2) ->
  orders_ok w -> validate_matches vs w true rules ms = Ret (Ok out) ->
  exists kept dropped, Permutation ms (kept ++ dropped) /\
    Forall2 (fun m m' => same_match m m' /\ forall c, rule_type rules m (MVCustomHttp c) ->
      exists i, highest (http_candidate c (vw_http w (ITCustomHttp (hc_endpoints c)) i) m) (rm_status m')) kept out.
Proof.
  intros rm rm' vs w rules ms out Hb Ha Ho H. destruct (validate_matches_spec _ _ _ _ _ Ho H) as (kept & dropped & P & D & F & S).
  exists kept, dropped. split; [exact P|]. eapply Forall2_weaken; [|exact F]. intros m m' (k & Hk & K & V). split; [exact K|].
  intros c Hc. apply kind_rule_type in Hk as (t & Ht & Hs). rewrite (rule_type_unique _ _ _ _ Ht Hc) in Hs.
  destruct k as [|es]; [destruct Hs|]. cbn in Hs. subst es.
  pose proof (built_first _ _ _ _ Hb (ITCustomHttp (hc_endpoints c))) as Hf.
  destruct (first_exists (map rule_validation rules) (ITCustomHttp (hc_endpoints c)) (MVCustomHttp c)) as (v & Hv);
    [exact (rule_type_in _ _ _ Hc)|reflexivity|exists (VHttp c); reflexivity|].
  pose proof (proj2 (Hf v) Hv) as Ea. rewrite Ea in V. destruct Hv as (b & t' & a & E & Hk' & Hm & _).
  destruct t' as [a'|c']; [destruct Hk'|]. cbn in Hk', Hm. subst v.
  assert (c' = c) as -> by (apply Ha; [rewrite E; apply in_or_app; right; left; reflexivity|exact (rule_type_in _ _ _ Hc)|exact Hk']).
  destruct V as (i & _ & V). exists i. exact V.
Qed.

Lemma c51_aws_lemma :
  forall rm rm' vs w rules ms out c, build_validators (map rule_validation rules) [] rm = Ok (vs, rm') ->
  first_of_kind (map rule_validation rules) ITAws (VAws c) ->
  orders_ok w -> validate_matches vs w true rules ms = Ret (Ok out) ->
  forall f, (forall m, f m = true <-> exists t, rule_type rules m (MVAws t)) ->
  exists kept dropped, Permutation ms (kept ++ dropped) /\
    Forall2 (fun m m' => same_match m m' /\ forall t, rule_type rules m (MVAws t) ->
      exists i, nth_error (filter f ms) i = Some m /\
        highest (aws_candidate c (vw_aws w) rules (filter f ms) i m) (rm_status m')) kept out.
Proof.
  intros rm rm' vs w rules ms out c Hb Hc Ho H f Hf. destruct (validate_matches_spec _ _ _ _ _ Ho H) as (kept & dropped & P & D & F & S).
  exists kept, dropped. split; [exact P|]. eapply Forall2_weaken; [|exact F]. intros m m' (k & Hk & K & V). split; [exact K|].
  intros t Ht. apply kind_rule_type in Hk as (t' & Ht' & Hs). rewrite (rule_type_unique _ _ _ _ Ht' Ht) in Hs.
  destruct k as [|es]; [|destruct Hs]. rewrite (proj2 (built_first _ _ _ _ Hb ITAws (VAws c)) Hc) in V.
  assert (filter f ms = filter (of_kind rules ITAws) ms) as ->; [|exact V].
  apply filter_ext. intros x. assert (f x = true <-> of_kind rules ITAws x = true) as E.
  { rewrite Hf, of_kind_spec, kind_rule_type. split.
    - intros (t0 & H0). exists (MVAws t0). split; [exact H0|exact I].
    - intros ([t0|c0] & H0 & H1); [eauto|destruct H1]. }
  destruct (f x), (of_kind rules ITAws x); try reflexivity; [symmetry; apply E; reflexivity|apply E; reflexivity].
Qed.

Lemma c52_http_lemma :
  forall c reply ord ms out, permutes ord -> http_validate c reply ord ms = Ret out ->
  length out = length ms /\
  forall i m, nth_error ms i = Some m -> exists m', nth_error out i = Some m' /\ same_match m m' /\
    highest (http_candidate c (reply i) m) (rm_status m') /\
    (hc_endpoints c <> [] -> rm_status m' = Valid \/ rm_status m' = Invalid \/ exists e, rm_status m' = StError e).
Proof.
  intros c reply ord ms out Ho H. destruct (http_validate_spec _ _ _ _ _ Ho H) as (L & S). split; [exact L|].
  intros i m Hi. destruct (S i m Hi) as (m' & H1 & H2 & H3). exists m'. split; [exact H1|]. split; [exact H2|]. split; [exact H3|].
  intros He. destruct (hc_endpoints c) as [|e es] eqn:Ee; [destruct (He eq_refl)|].
  unfold http_validate in H. destruct (try_map (http_entry c reply ms) (http_keys c ms)) as [en| |] eqn:E; try discriminate.
  apply http_entries in E as (_ & E). destruct (E (i, e)) as (m1 & v & N1 & V1);
    [apply http_keys_in; split; [apply nth_error_Some; congruence|rewrite Ee; left; reflexivity]|].
  cbn [fst] in N1. rewrite Hi in N1. injection N1 as <-.
  assert (exists s, http_candidate c (reply i) m s /\ definite s) as (s & Hs & Hd).
  { eexists. split; [right; exists e, v, (http_request_for c e v); split; [rewrite Ee; left; reflexivity|]; split; [exact V1|]; split; [apply request_for_is|apply http_result_spec]|].
    pose proof (http_result_spec c (reply i (http_request_for c e v))) as R. unfold definite.
    match type of R with http_result _ ?a ?s => revert R; generalize a; generalize s end. intros s0 a0 []; eauto. }
  eapply above_definite; [exact Hd|]. apply H3. exact Hs.
Qed.

Lemma c52_aws_lemma :
  forall c w ord rules ms out, permutes ord -> aws_validate c w ord rules ms = Ret out ->
  length out = length ms /\
  forall n m, nth_error ms n = Some m -> exists m', nth_error out n = Some m' /\ same_match m m' /\
    highest (aws_candidate c w rules ms n m) (rm_status m').
Proof.
  exact aws_validate_spec.
Qed.

Lemma c52_aws_valid_lemma :
  forall c w ord rules ms out n m m', permutes ord -> aws_validate c w ord rules ms = Ret out ->
  nth_error ms n = Some m -> nth_error out n = Some m' -> rm_status m <> Valid ->
  (rm_status m' = Valid <-> exists i j id secret code, in_pair rules ms n i j id secret /\
     pair_answer c w i j id secret (Ok code) /\ (200 <= code < 300)%N).
Proof.
  intros c w ord rules ms out n m m' Ho H Hn Hn' Hv. destruct (aws_validate_spec _ _ _ _ _ _ Ho H) as (_ & S).
  destruct (S n m Hn) as (m1 & E1 & _ & (C & U)). assert (m1 = m') as -> by congruence. split.
  - intros Ev. rewrite Ev in C. destruct C as [C|(i & j & id & secret & Hp & R)]; [congruence|].
    inversion R as [| |a s A W]; subst. inversion W; subst. exists i, j, id, secret, code. auto.
  - intros (i & j & id & secret & code & Hp & A & Hc).
    assert (aws_candidate c w rules ms n m Valid) as K.
    { right. exists i, j, id, secret. split; [exact Hp|]. eapply pr_answer; [exact A|]. constructor. exact Hc. }
    destruct (rm_status m') eqn:E; try reflexivity; exfalso; apply (U Valid K); constructor; discriminate.
Qed.

Lemma c52_definite_refuted_lemma :
  ~ (forall c w ord rules ms out n i j id secret m', permutes ord -> aws_validate c w ord rules ms = Ret out ->
   in_pair rules ms n i j id secret -> nth_error out n = Some m' ->
   rm_status m' = Valid \/ rm_status m' = Invalid \/ exists e, rm_status m' = StError e).
Proof.
  intros H. pose (ms := [found 2 30 (Some (chars "id")); found 3 10 (Some (chars "s"))]).
  assert (rm_status (found 2 30 (Some (chars "id"))) = Valid \/ rm_status (found 2 30 (Some (chars "id"))) = Invalid \/
          exists e, rm_status (found 2 30 (Some (chars "id"))) = StError e) as K.
  { eapply (H sts (echo_code 304) (fun l => l) mixed_rules ms) with (n := 0) (i := 0) (j := 1).
    - intros l. apply Permutation_refl.
    - vm_compute. reflexivity.
    - split; [reflexivity|]. split; [eexists; split; reflexivity|]. split; [reflexivity|]. split; [exists sts; eexists; split; reflexivity|left; reflexivity].
    - reflexivity. }
  destruct K as [K|[K|(e & K)]]; discriminate.
Qed.

Lemma c52_definite_lemma :
  forall c w ord rules ms out n i j id secret m', permutes ord -> aws_validate c w ord rules ms = Ret out ->
  (forall i j r code, aw_reply w i j r = Ok code -> (200 <= code < 300 \/ 400 <= code < 600)%N) ->
  in_pair rules ms n i j id secret -> nth_error out n = Some m' ->
  rm_status m' = Valid \/ rm_status m' = Invalid \/ exists e, rm_status m' = StError e.
Proof.
  intros c w ord rules ms out n i j id secret m' Ho H Hr Hp Hn.
  assert (exists m, nth_error ms n = Some m) as (m & Em) by (destruct Hp as (N1 & _ & N2 & _ & [->| ->]); eauto).
  destruct (aws_validate_spec _ _ _ _ _ _ Ho H) as (_ & S). destruct (S n m Em) as (m1 & E1 & _ & (C & U)).
  assert (m1 = m') as -> by congruence.
  destruct (aws_updates _ _ _ _ _ _ Ho H) as (us & _).
  assert (exists s, pair_result c w i j id secret s /\ definite s) as (s & R & Hd).
  { unfold aws_validate in H. destruct (aws_indices rules 0 ms) as [[ids secrets]| |] eqn:Ei; try discriminate. cbn [bind] in H.
    destruct (try_map (aws_entry c w ms) (list_prod ids secrets)) as [es| |] eqn:Ee; try discriminate.
    apply aws_indices_spec in Ei as (I1 & I2). apply try_map_inv in Ee. destruct Hp as (N1 & P1 & N2 & P2 & _).
    assert (In (i, j) (list_prod ids secrets)) as Hin by (apply in_prod_iff; split; [apply I1; exists i, id; auto|apply I2; exists j, secret; auto]).
    apply Forall2_flip in Ee. destruct (Forall2_in_right _ _ _ _ _ _ Ee Hin) as (y & _ & He).
    destruct (aws_entry_spec _ _ _ _ _ He) as (id' & secret' & s & _ & N1' & N2' & R). cbn [fst snd] in *.
    assert (id' = id) as -> by congruence. assert (secret' = secret) as -> by congruence.
    exists s. split; [exact R|]. unfold definite. destruct R as [| |a s A W]; eauto.
    destruct A as (v & x & k & auth & _ & _ & _ & _ & ->). remember (aw_reply w i j _) as a eqn:Ea.
    destruct W as [code K|code K|code d K|code K|e]; eauto. exfalso. symmetry in Ea. apply Hr in Ea. lia. }
  eapply above_definite; [exact Hd|]. apply U. right. exists i, j, id, secret. auto.
Qed.

Lemma c52_signature_refuted_lemma :
  ~ (forall c w ord rules ms, permutes ord -> (forall e i s, aw_sign w e i s <> None) ->
   (forall m, In m ms -> exists r, nth_error rules (rm_rule m) = Some r) ->
   (forall m, In m ms -> rm_value m <> None) -> exists out, aws_validate c w ord rules ms = Ret out).
Proof.
  intros H. destruct (H sts echo (fun l => l) mixed_rules [found 2 30 (Some [65%N; 10%N]); found 3 10 (Some (chars "s"))]) as (out & E).
  - intros l. apply Permutation_refl.
  - discriminate.
  - intros m [<-|[<-|[]]]; eexists; reflexivity.
  - intros m [<-|[<-|[]]]; discriminate.
  - vm_compute in E. discriminate E.
Qed.

Lemma c53_accepted_lemma :
  forall endpoint hosts, (exists c, http_config_new endpoint hosts = Ok c) <->
  (occurs (chars "$HOST") endpoint <-> hosts <> []).
Proof.
  intros endpoint hosts. unfold http_config_new. change (chars "$HOST") with host_keyword.
  rewrite <- str_contains_spec. destruct (str_contains host_keyword endpoint), hosts as [|h hosts]; cbn [andb negb].
  - split; [intros (c & E); discriminate|]. intros (K & _). destruct (K eq_refl eq_refl).
  - split; [|eauto]. intros _. split; [discriminate|reflexivity].
  - split; [|eauto]. intros _. split; [discriminate|]. intros K. destruct (K eq_refl).
  - split; [intros (c & E); discriminate|]. intros (_ & K). exfalso. assert (h :: hosts <> []) as N by discriminate. apply K in N. discriminate.
Qed.

Lemma c53_endpoints_lemma :
  forall endpoint hosts c, http_config_new endpoint hosts = Ok c ->
  (hosts = [] -> hc_endpoints c = [endpoint]) /\
  (hosts <> [] -> Forall2 (fun h e => replaced (chars "$HOST") h endpoint e) hosts (hc_endpoints c)).
Proof.
  intros endpoint hosts c H. unfold http_config_new in H.
  assert (hc_endpoints c = match map (fun host => str_replace host_keyword host endpoint) hosts with [] => [endpoint] | l => l end) as E.
  { destruct (str_contains host_keyword endpoint), hosts; cbn [andb negb] in H; try discriminate; injection H as <-; reflexivity. }
  rewrite E. split.
  - intros ->. reflexivity.
  - intros Hn. destruct hosts as [|h hosts]; [destruct (Hn eq_refl)|]. cbn [map]. clear H E Hn.
    constructor; [apply replace_spec; discriminate|]. induction hosts as [|h' hosts IH]; cbn [map]; constructor; [apply replace_spec; discriminate|exact IH].
Qed.

Lemma c53_builder_lemma :
  forall b c, http_build b = Ok c <->
  exists c0, http_config_new (hb_endpoint b) (hb_hosts b) = Ok c0 /\ hc_endpoints c = hc_endpoints c0 /\
    hc_method c = hb_method b /\ hc_headers c = hb_headers b /\ hc_valid c = hb_valid b /\
    hc_invalid c = hb_invalid b /\ hc_timeout c = hb_timeout b.
Proof.
  intros b c. unfold http_build. destruct (http_config_new (hb_endpoint b) (hb_hosts b)) as [c0|e].
  - split.
    + intros H. injection H as <-. exists c0. repeat split; reflexivity.
    + intros (c1 & E & H1 & H2 & H3 & H4 & H5 & H6). injection E as <-. destruct c. cbn in *. subst. reflexivity.
  - split; [discriminate|]. intros (c0 & E & _). discriminate.
Qed.

Lemma c53_defaults_lemma :
  (forall endpoint hosts c, http_config_new endpoint hosts = Ok c ->
  hc_method c = MGet /\ hc_headers c = [] /\ hc_timeout c = 3%N /\
  forall code, (in_some_range code (hc_valid c) <-> (200 <= code <= 299)%N) /\
    (in_some_range code (hc_invalid c) <-> (400 <= code <= 499)%N)) /\
forall endpoint, hb_endpoint (http_builder_new endpoint) = endpoint /\ hb_hosts (http_builder_new endpoint) = [] /\
  hb_method (http_builder_new endpoint) = MGet /\ hb_timeout (http_builder_new endpoint) = 3%N /\
  hb_headers (http_builder_new endpoint) = [(chars "Authorization", chars "Bearer $MATCH")] /\
  forall code, (in_some_range code (hb_valid (http_builder_new endpoint)) <-> (200 <= code <= 299)%N) /\
    (in_some_range code (hb_invalid (http_builder_new endpoint)) <-> (400 <= code <= 499)%N).
Proof.
  assert (R : forall code a b, in_some_range code [(a, b)%N] <-> (a <= code < b)%N).
  { intros code a b. unfold in_some_range. split; [intros (lo & hi & [E|[]] & H); injection E as <- <-; exact H|intros H; exists a, b; split; [left; reflexivity|exact H]]. }
  split.
  - intros endpoint hosts c H. unfold http_config_new in H.
    destruct (str_contains host_keyword endpoint), hosts; cbn [andb negb] in H; try discriminate; injection H as <-;
      (split; [reflexivity|]); (split; [reflexivity|]); (split; [reflexivity|]); intros code; cbn [hc_valid hc_invalid]; rewrite !R; lia.
  - intros endpoint. repeat (split; [reflexivity|]). intros code. cbn [http_builder_new hb_valid hb_invalid]. rewrite !R. lia.
Qed.

Lemma c53_errors_lemma :
  forall endpoint hosts e, http_config_new endpoint hosts = Err e ->
  (occurs (chars "$HOST") endpoint /\ hosts = [] /\ e = chars "Endpoint contains $HOST but no hosts are provided") \/
  (~ occurs (chars "$HOST") endpoint /\ hosts <> [] /\ e = chars "Endpoint does not contain $HOST but hosts are provided").
Proof.
  intros endpoint hosts e H. unfold http_config_new in H. change (chars "$HOST") with host_keyword. rewrite <- str_contains_spec.
  destruct (str_contains host_keyword endpoint), hosts as [|h hosts]; cbn [andb negb] in H; try discriminate; injection H as <-.
  - left. auto.
  - right. split; [discriminate|]. split; [discriminate|reflexivity].
Qed.

Lemma window_split : forall (a k b a' k' b' : str), a ++ k ++ b = a' ++ k' ++ b' -> length a' < length a ->
  (exists x, a = a' ++ k' ++ x) \/ (exists y z, a = a' ++ y /\ y <> [] /\ k' = y ++ z).
Proof.
  intros a k b a' k' b' E L.
  assert (exists y, a = a' ++ y /\ y <> []) as (y & -> & Hy).
  { clear - E L. revert a' E L. induction a as [|x a IH]; intros [|x' a'] E L; cbn [length] in L; try lia.
    - exists (x :: a). split; [reflexivity|discriminate].
    - injection E as -> E. destruct (IH a' E) as (y & -> & Hy); [lia|]. exists y. split; [reflexivity|exact Hy]. }
  rewrite <- app_assoc in E. apply app_inv_head in E.
  assert ((exists x, y = k' ++ x) \/ exists z, k' = y ++ z) as [(x & ->)|(z & ->)].
  { clear - E. revert k' E. induction y as [|c y IH]; intros [|c' k'] E.
    - left. exists []. reflexivity.
    - right. exists (c' :: k'). reflexivity.
    - left. exists (c :: y). reflexivity.
    - injection E as -> E. destruct (IH k' E) as [(x & ->)|(z & ->)]; [left; exists x; reflexivity|right; exists z; reflexivity]. }
  - left. exists x. reflexivity.
  - right. exists y, z. auto.
Qed.

Lemma c66_first_lemma :
  forall word v, secret_of word v (extract_aws_secret word v) /\
  forall k, secret_of word v k -> k = extract_aws_secret word v.
Proof.
  intros word v. split; [apply extract_spec|]. intros k Hk. eapply secret_of_unique; [exact Hk|apply extract_spec].
Qed.

Lemma c66_refuted_lemma :
  ~ (forall word a k b, length k = 40 -> (forall c, In c k -> key_character c) ->
   (forall x c, a = x ++ [c] -> ~ key_character c /\ ~ word_character word c) ->
   (forall c x, b = c :: x -> ~ key_character c /\ ~ word_character word c) ->
   (forall c, In c a -> ~ key_character c) -> (forall c, In c b -> ~ key_character c) ->
   extract_aws_secret word (a ++ k ++ b) = k).
Proof.
  intros H.
  assert (extract_aws_secret (fun _ => false) (chars "=" ++ chars "wJalrXUtnFEMI/K7MDENG/bPxRfiCYEXAMPLEKE+" ++ chars " ") =
          chars "wJalrXUtnFEMI/K7MDENG/bPxRfiCYEXAMPLEKE+") as K; [|vm_compute in K; discriminate K].
  assert (forall c, In c (chars "=") \/ In c (chars " ") -> ~ key_character c /\ ~ word_character (fun _ => false) c) as N.
  { intros c Hc. rewrite <- key_char_spec, <- is_word_spec. destruct Hc as [[<-|[]]|[<-|[]]]; split; vm_compute; discriminate. }
  apply H.
  - reflexivity.
  - intros c Hc. apply key_char_spec. revert c Hc. apply forallb_forall. vm_compute. reflexivity.
  - intros x c E. apply N. left. rewrite E. apply in_or_app. right. left. reflexivity.
  - intros c x E. apply N. right. rewrite E. left. reflexivity.
  - intros c Hc. apply N. left. exact Hc.
  - intros c Hc. apply N. right. exact Hc.
Qed.

Lemma c66_found_lemma :
  forall word a k b, length k = 40 -> (forall c, In c k -> key_character c) -> ends_in_word word k ->
  (forall x c, a = x ++ [c] -> ~ key_character c) -> ~ starts_with_word word b ->
  (forall x y z, a = x ++ y ++ z -> length y = 40 -> exists c, In c y /\ ~ key_character c) ->
  extract_aws_secret word (a ++ k ++ b) = k.
Proof.
  intros word a k b Hl Hk He Ha Hb Hn. symmetry. eapply secret_of_unique; [|apply extract_spec]. left. exists a, b.
  split; [reflexivity|]. split; [split; [exact Hl|split; [exact Hk|left; auto]]|].
  intros a' k' b' E (Hl' & Hk' & _). destruct (Nat.le_gt_cases (length a) (length a')) as [L|L]; [exact L|]. exfalso.
  destruct (window_split _ _ _ _ _ _ E L) as [(x & ->)|(y & z & -> & Hy & ->)].
  - destruct (Hn a' k' x eq_refl Hl') as (c & Hc & Hnc). exact (Hnc (Hk' c Hc)).
  - destruct y as [|c y _] using rev_ind; [destruct (Hy eq_refl)|].
    apply (Ha (a' ++ y) c); [rewrite app_assoc; reflexivity|]. apply Hk'. apply in_or_app. left. apply in_or_app. right. left. reflexivity.
Qed.

