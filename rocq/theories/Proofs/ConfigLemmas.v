(* Reading back written configurations *)
From Verif Require Export Spec.Builder Proofs.Text Proofs.Binary.
From Coq Require Import Lia ZifyN.

Lemma read_decimal : forall limit n, (N.of_nat n < limit)%N -> read_number limit (decimal n) = Some (N.of_nat n).
Proof.
  intros limit n H. destruct (decimal_reads n) as (A & B & C & _). unfold read_number.
  fold (decimal_value (decimal n)). rewrite C. destruct (decimal n) as [|x t] eqn:E; [contradiction|].
  cbn [negb andb]. replace (forallb is_ascii_digit (x :: t)) with true.
  - cbn [andb]. apply N.ltb_lt in H. rewrite H. reflexivity.
  - symmetry. apply forallb_forall. intros c K. destruct (B c K) as [L U]. unfold is_ascii_digit, in_range.
    apply andb_true_iff. split; apply N.leb_le; assumption.
Qed.
Lemma de_ser_num : forall limit n, (n < limit)%N -> de_num limit (ser_num n) = Some n.
Proof. intros limit n H. cbn [de_num ser_num]. rewrite read_decimal; rewrite N2Nat.id; [reflexivity|assumption]. Qed.
Lemma de_ser_nat : forall n, fits u64_limit n -> de_usize (ser_nat n) = Some n.
Proof. intros n H. unfold de_usize. cbn [de_num ser_nat]. rewrite read_decimal by exact H. cbn [option_map]. rewrite Nat2N.id. reflexivity. Qed.

Lemma all_some_iff : forall A (l : list (option A)) r, all_some l = Some r <-> l = map Some r.
Proof.
  intros A. induction l as [|[x|] l IH]; intros r; cbn [all_some].
  - destruct r; split; intros H; try reflexivity; try discriminate H.
  - destruct (all_some l) as [r'|] eqn:E; cbn [obind].
    + destruct (IH r') as [K _]. specialize (K eq_refl). split.
      * intros H. injection H as <-. cbn [map]. rewrite K. reflexivity.
      * intros H. destruct r as [|y r]; [discriminate H|]. cbn [map] in H. injection H as <- H.
        apply IH in H. injection H as ->. reflexivity.
    + split; [discriminate|]. intros H. destruct r as [|y r]; [discriminate H|]. cbn [map] in H. injection H as _ H.
      apply IH in H. discriminate H.
  - split; [discriminate|]. destruct r; discriminate.
Qed.
Lemma de_ser_list : forall A (f : A -> json) g l, (forall x, In x l -> g (f x) = Some x) -> de_list g (ser_list f l) = Some l.
Proof.
  intros A f g l H. cbn [de_list ser_list]. apply all_some_iff. rewrite map_map. apply map_ext_in. exact H.
Qed.
Lemma de_strs : forall l, de_list de_str (ser_list JString l) = Some l.
Proof. intros l. apply de_ser_list. reflexivity. Qed.

Lemma de_label_iff : forall j k v, de_label j = Some (k, v) <-> j = JArray [JString k; JString v].
Proof.
  intros j k v. split.
  - unfold de_label. destruct (de_list de_str j) as [l|] eqn:E; [|discriminate]. cbn [obind].
    destruct l as [|a [|b [|c l]]]; try discriminate. intros H. injection H as -> ->.
    destruct j; try discriminate E. cbn [de_list] in E. apply all_some_iff in E. cbn [map] in E.
    destruct l as [|x [|y [|z l]]]; try discriminate E. cbn [map] in E. injection E as E1 E2.
    destruct x; try discriminate E1. destruct y; try discriminate E2. injection E1 as ->. injection E2 as ->. reflexivity.
  - intros ->. reflexivity.
Qed.
Lemma de_labels_iff : forall j l, de_labels j = Some l <-> j = ser_labels l.
Proof.
  intros j l. split.
  - unfold de_labels. destruct j; try discriminate. cbn [de_list]. intros H. apply all_some_iff in H.
    unfold ser_labels, ser_list. f_equal. revert l H.
    match goal with |- forall l, map de_label ?x = _ -> _ => induction x as [|j js IH] end; intros l H; destruct l as [|[k v] l];
      try discriminate H; [reflexivity|].
    cbn [map] in H. injection H as H1 H2. apply de_label_iff in H1. subst j. cbn [map fst snd]. f_equal. exact (IH _ H2).
  - intros ->. apply de_ser_list. intros [k v] _. apply de_label_iff. reflexivity.
Qed.

Lemma req_hit : forall A k (f : json -> option A) m j, jfield k m = Some (Some j) -> required k f m = f j.
Proof. intros A k f m j H. unfold required. rewrite H. reflexivity. Qed.
Ltac req := repeat match goal with
  | |- context [required ?k ?f ?m] => rewrite (req_hit _ k f m _ eq_refl); cbn [snd]
  end.
Lemma default_hit : forall A k d (f : json -> option A) m j, jfield k m = Some (Some j) -> j <> JNull -> default_on_null k d f m = f j.
Proof. intros A k d f m j H N. unfold default_on_null. rewrite H. destruct j; try reflexivity. contradiction. Qed.
Ltac dec := repeat (match goal with |- context [str_eqb (chars ?a) (chars ?b)] =>
  let v := eval vm_compute in (str_eqb (chars a) (chars b)) in change (str_eqb (chars a) (chars b)) with v end; cbn iota).

Lemma de_ser_action : forall u a, (u = false -> a <> ActUtf16Hash) -> (forall d n, a = ActPartialRedact d n -> fits u64_limit n) ->
  de_action u (ser_action a) = Some a.
Proof.
  intros u a Hu H. unfold de_action. destruct a as [|s| | |d n].
  - reflexivity.
  - cbn [ser_action de_object obind]. unfold de_tag. req. cbn [de_str obind].
    dec. req. reflexivity.
  - reflexivity.
  - destruct u; [reflexivity|]. exfalso. exact (Hu eq_refl eq_refl).
  - cbn [ser_action de_object obind]. unfold de_tag. req. cbn [de_str obind].
    dec. req.
    assert (E : de_direction (ser_direction d) = Some d) by (destruct d; reflexivity). rewrite E. cbn [obind].
    req. rewrite de_ser_nat by exact (H d n eq_refl). reflexivity.
Qed.
Lemma de_ser_segment : forall s, (forall i, s = Index i -> fits u64_limit i) -> de_segment (ser_segment s) = Some s.
Proof.
  intros [f|i] H; unfold de_segment; cbn [ser_segment de_object obind]; unfold de_tag; req; cbn [de_str obind].
  - dec. req. reflexivity.
  - dec. req.
    rewrite de_ser_nat by exact (H i eq_refl). reflexivity.
Qed.
Lemma de_ser_path : forall p, indices_fit p -> de_path (ser_path p) = Some p.
Proof.
  intros p H. unfold de_path. cbn [ser_path de_object obind]. req. apply de_ser_list.
  intros s K. apply de_ser_segment. intros i ->. exact (H i K).
Qed.
Lemma de_ser_scope : forall s, scope_fits s -> de_scope (ser_scope s) = Some s.
Proof.
  intros [i e|ps] H; unfold de_scope; cbn [ser_scope de_object obind]; unfold de_tag; req; cbn [de_str obind].
  - dec. req. cbn [de_object obind]. destruct H as [Hi He].
    req. rewrite de_ser_list by (intros p K; apply de_ser_path; exact (Hi p K)). cbn [obind].
    req. rewrite de_ser_list by (intros p K; apply de_ser_path; exact (He p K)). reflexivity.
  - dec. req.
    rewrite de_ser_list by (intros p K; apply de_ser_path; exact (H p K)). reflexivity.
Qed.
Lemma de_ser_keywords : forall k, fits u64_limit (kc_look_ahead k) -> de_keywords (ser_keywords k) = Some k.
Proof.
  intros [n i e] H. unfold de_keywords. cbn [ser_keywords de_object obind kc_look_ahead kc_included kc_excluded] in *. req.
  rewrite de_ser_nat by exact H. cbn [obind].
  rewrite (default_hit _ _ _ _ _ (ser_list JString i)) by (reflexivity || discriminate). rewrite de_strs. cbn [obind].
  rewrite (default_hit _ _ _ _ _ (ser_list JString e)) by (reflexivity || discriminate). rewrite de_strs. reflexivity.
Qed.
Lemma de_ser_validator : forall v, de_validator (ser_validator v) = Some v.
Proof. intros []; reflexivity. Qed.
Lemma de_ser_duration : forall n, (n < u64_limit)%N -> de_duration (ser_duration n) = Some n.
Proof.
  intros n H. unfold de_duration. cbn [ser_duration de_object obind]. req. rewrite de_ser_num by exact H. cbn [obind].
  req. rewrite de_ser_num by reflexivity. reflexivity.
Qed.
Lemma de_ser_range : forall r, (fst r < u16_limit /\ snd r < u16_limit)%N -> de_range (ser_range r) = Some r.
Proof.
  intros [a b] [Ha Hb]. unfold de_range. cbn [ser_range de_object obind fst snd] in *. req. rewrite de_ser_num by exact Ha. cbn [obind].
  req. rewrite de_ser_num by exact Hb. reflexivity.
Qed.
Lemma de_ser_header : forall h, de_header (ser_header h) = Some h.
Proof.
  intros [k v]. unfold de_header. cbn [ser_header de_object obind fst snd]. req. cbn [de_str obind]. req. reflexivity.
Qed.
Lemma de_ser_http : forall c, validation_fits (MVCustomHttp c) -> de_http (ser_http c) = Some c.
Proof.
  intros [es m hs v i t] (Ht & Hv & Hi). unfold de_http.
  cbn [ser_http de_object obind hc_endpoints hc_method hc_headers hc_valid hc_invalid hc_timeout] in *.
  req. rewrite de_strs. cbn [obind]. req.
  assert (E : de_method (JString (method_name m)) = Some m) by (destruct m; reflexivity). rewrite E. cbn [obind].
  req. rewrite de_ser_list by (intros; apply de_ser_header). cbn [obind].
  req. rewrite de_ser_list by (intros r K; apply de_ser_range; exact (Hv r K)). cbn [obind].
  req. rewrite de_ser_list by (intros r K; apply de_ser_range; exact (Hi r K)). cbn [obind].
  req. cbn [de_object obind]. req. rewrite de_ser_duration by exact Ht. reflexivity.
Qed.
Lemma de_ser_validation : forall t, validation_fits t -> de_validation (ser_validation t) = Some t.
Proof.
  intros [a|c] H; unfold de_validation; cbn [ser_validation].
  - dec. destruct a as [|c|]; [reflexivity| |reflexivity].
    cbn [ser_aws_type de_aws_type]. dec. cbn iota.
    destruct c as [e t]. unfold de_aws. cbn [ser_aws de_object obind aws_sts_endpoint aws_timeout]. req. cbn [de_str obind].
    change (optional _ _ _) with (Some (@None unit)). cbn [obind]. req. rewrite de_ser_duration by exact H. reflexivity.
  - dec. cbn iota.
    rewrite de_ser_http by exact H. reflexivity.
Qed.
Lemma optional_ser : forall A k (f : A -> json) g m o, jfield k m = Some (Some (ser_option f o)) ->
  (forall x, f x <> JNull) -> (forall x, o = Some x -> g (f x) = Some x) -> optional k g m = Some o.
Proof.
  intros A k f g m o H N G. unfold optional. rewrite H. destruct o as [x|]; [|reflexivity]. cbn [ser_option].
  rewrite (G x eq_refl). cbn [option_map]. specialize (N x). destruct (f x); try reflexivity. exfalso. apply N. reflexivity.
Qed.

Lemma de_ser_config : forall u c, config_fits u c -> de_config u (ser_config c) = Some c.
Proof.
  intros u [p a s k v l t] [Hu Ha Hs Hk Ht]. unfold de_config.
  cbn [ser_config de_object obind cf_pattern cf_action cf_scope cf_keywords cf_validator cf_labels cf_validation] in *.
  req. cbn [de_str obind]. req. rewrite de_ser_action by assumption. cbn [obind].
  change (with_default _ _ _ _) with (de_scope (ser_scope s)). rewrite de_ser_scope by assumption. cbn [obind].
  erewrite (optional_ser _ _ ser_keywords de_keywords); [|reflexivity|discriminate|intros x E; apply de_ser_keywords; exact (Hk x E)].
  cbn [obind].
  erewrite (optional_ser _ _ ser_validator de_validator); [|reflexivity|discriminate|intros x E; apply de_ser_validator].
  cbn [obind].
  rewrite (default_hit _ _ _ _ _ (ser_labels l)) by (reflexivity || discriminate). rewrite (proj2 (de_labels_iff _ _) eq_refl). cbn [obind].
  erewrite (optional_ser _ _ ser_validation de_validation); [|reflexivity| |intros x E; apply de_ser_validation; exact (Ht x E)].
  - reflexivity.
  - intros []; discriminate.
Qed.

(* ---- Go ---- *)
Lemma pick_validator : forall s v, pick s (map (fun v => (validator_name v, v)) all_validators) = Some v <-> s = validator_name v.
Proof.
  intros s v. split.
  - unfold all_validators. cbn [map pick].
    repeat match goal with |- context [str_eqb s (validator_name ?x)] =>
      destruct (str_eqb s (validator_name x)) eqn:?; [intros H; injection H as <-; apply str_eqb_eq; assumption|] end.
    discriminate.
  - intros ->. destruct v; reflexivity.
Qed.
Lemma validator_means : forall s v, go_validator_means s (Some v) <-> s = validator_name v.
Proof. intros s v. split; [intros H; inversion H; reflexivity|intros ->; destruct v; constructor]. Qed.

Lemma go_action_read : forall a x, (ga_count a < u32_limit)%N -> de_action false (go_action_json a) = Some x <-> go_action_means a x.
Proof.
  intros [t r n d] x H. cbn [ga_count] in H. unfold go_action_json. cbn [ga_type ga_redaction ga_count ga_direction].
  assert (Hn : (n < u64_limit)%N) by (unfold u32_limit, u64_limit in *; lia).
  split.
  - destruct (str_eqb t (chars "Redact")) eqn:E1; [|destruct (str_eqb t (chars "PartialRedact")) eqn:E2].
    + apply str_eqb_eq in E1. subst t. unfold de_action. cbn [de_object obind]. unfold de_tag. req. cbn [de_str obind].
      dec. req.
      cbn [de_str option_map]. intros K. injection K as <-. apply (gm_redact {| ga_type := chars "Redact"; ga_redaction := r; ga_count := n; ga_direction := d |}). reflexivity.
    + apply str_eqb_eq in E2. subst t. unfold de_action. cbn [de_object obind]. unfold de_tag. req. cbn [de_str obind].
      dec. req. unfold de_direction. cbn [de_str obind pick].
      destruct (str_eqb d (chars "FirstCharacters")) eqn:E3; [|destruct (str_eqb d (chars "LastCharacters")) eqn:E4]; cbn [obind];
        [| |discriminate]; req; unfold de_usize; rewrite de_ser_num by exact Hn; cbn [option_map obind]; intros K; injection K as <-.
      * apply str_eqb_eq in E3. exact (gm_first {| ga_type := chars "PartialRedact"; ga_redaction := r; ga_count := n; ga_direction := d |} eq_refl E3).
      * apply str_eqb_eq in E4. exact (gm_last {| ga_type := chars "PartialRedact"; ga_redaction := r; ga_count := n; ga_direction := d |} eq_refl E4).
    + unfold de_action. cbn [de_object obind]. unfold de_tag. req. cbn [de_str obind].
      destruct (str_eqb t (chars "None")) eqn:E3; [intros K; injection K as <-; apply gm_none, str_eqb_eq; exact E3|].
      rewrite E1. destruct (str_eqb t (chars "Hash")) eqn:E4; [intros K; injection K as <-; apply gm_hash, str_eqb_eq; exact E4|].
      destruct (str_eqb t (chars "Utf16Hash")); [discriminate|]. rewrite E2. discriminate.
  - intros K. inversion K as [T|T|T|T D|T D]; cbn [ga_type ga_redaction ga_count ga_direction] in *; subst.
    + reflexivity.
    + reflexivity.
    + reflexivity.
    + dec. cbn iota.
      unfold de_action. cbn [de_object obind]. unfold de_tag. req. cbn [de_str obind].
      dec. req. unfold de_direction. cbn [de_str obind pick].
      dec. cbn [obind]. req. unfold de_usize. rewrite de_ser_num by exact Hn. reflexivity.
    + dec. cbn iota.
      unfold de_action. cbn [de_object obind]. unfold de_tag. req. cbn [de_str obind].
      dec. req. unfold de_direction. cbn [de_str obind pick].
      dec. cbn iota.
      cbn [obind]. req. unfold de_usize. rewrite de_ser_num by exact Hn. reflexivity.
Qed.

Lemma go_keywords_read : forall k, (gk_look_ahead k < u32_limit)%N -> de_keywords (go_keywords_json k) = Some (go_keywords_mean k).
Proof.
  intros [n i e] H. cbn [gk_look_ahead] in H. assert (Hn : (n < u64_limit)%N) by (unfold u32_limit, u64_limit in *; lia).
  unfold de_keywords. cbn [go_keywords_json de_object obind gk_look_ahead gk_included gk_excluded]. req.
  unfold de_usize. rewrite de_ser_num by exact Hn. cbn [option_map obind].
  assert (D : forall k m o, jfield k m = Some (Some (go_slice_json o)) -> default_on_null k [] (de_list de_str) m = Some (slice_elements o)).
  { intros k m o K. unfold default_on_null. rewrite K. destruct o as [l|]; [|reflexivity]. cbn [go_slice_json ser_option ser_list].
    change (de_list de_str (ser_list JString l) = Some l). apply de_strs. }
  erewrite D by reflexivity. cbn [obind]. erewrite D by reflexivity. reflexivity.
Qed.

Lemma go_rule_read : forall g c, go_rule_fits g -> go_create_rule false g = Some c <-> go_rule_means g c.
Proof.
  intros [id p a k v] c [Hc Hk]. cbn [gr_action gr_keywords] in *. unfold go_create_rule, go_rule_json.
  cbn [gr_id gr_pattern gr_action gr_keywords gr_validator].
  set (kf := match k with Some k => [(chars "proximity_keywords", go_keywords_json k)] | None => [] end).
  set (vf := match v with [] => [] | n :: l => [(chars "validator", go_validator_json (n :: l))] end).
  set (m := [(chars "id", JString id); (chars "pattern", JString p); (chars "match_action", go_action_json a)] ++ kf ++ vf).
  assert (F1 : jfield (chars "pattern") m = Some (Some (JString p))) by (subst m kf vf; destruct k, v; reflexivity).
  assert (F2 : jfield (chars "match_action") m = Some (Some (go_action_json a))) by (subst m kf vf; destruct k, v; reflexivity).
  assert (F3 : jfield (chars "scope") m = Some None) by (subst m kf vf; destruct k, v; reflexivity).
  assert (F4 : jfield (chars "proximity_keywords") m = Some (option_map go_keywords_json k)) by (subst m kf vf; destruct k, v; reflexivity).
  assert (F5 : jfield (chars "validator") m = Some (match v with [] => None | _ => Some (go_validator_json v) end)) by (subst m kf vf; destruct k, v; reflexivity).
  assert (F6 : jfield (chars "labels") m = Some None) by (subst m kf vf; destruct k, v; reflexivity).
  assert (F7 : jfield (chars "match_validation_type") m = Some None) by (subst m kf vf; destruct k, v; reflexivity).
  unfold de_config. cbn [de_object obind].
  rewrite (req_hit _ _ _ _ _ F1). cbn [de_str obind]. rewrite (req_hit _ _ _ _ _ F2).
  assert (G3 : with_default (chars "scope") (ScopeExclude []) de_scope m = Some (ScopeExclude [])) by (unfold with_default; rewrite F3; reflexivity).
  assert (G4 : optional (chars "proximity_keywords") de_keywords m = Some (option_map go_keywords_mean k)).
  { unfold optional. rewrite F4. destruct k as [k|]; [|reflexivity]. cbn [option_map]. rewrite go_keywords_read by exact (Hk k eq_refl). reflexivity. }
  assert (G5 : forall w, optional (chars "validator") de_validator m = Some w <-> go_validator_means v w).
  { intros w. unfold optional. rewrite F5. destruct v as [|c0 v0] eqn:Ev.
    - split; [intros K; injection K as <-; constructor|]. intros K. destruct w as [w|]; [|reflexivity].
      apply validator_means in K. destruct w; discriminate K.
    - rewrite <- Ev in *. change (de_validator (go_validator_json v)) with
        (pick v (map (fun v => (validator_name v, v)) all_validators)).
      destruct w as [w|].
      + rewrite validator_means. rewrite <- pick_validator. destruct (pick v _) as [w'|]; cbn [option_map]; split; intros K; try discriminate K;
        injection K as ->; reflexivity.
      + split; [destruct (pick v _); discriminate|]. intros K. inversion K. subst v. discriminate. }
  assert (G6 : default_on_null (chars "labels") [] de_labels m = Some []) by (unfold default_on_null; rewrite F6; reflexivity).
  assert (G7 : optional (chars "match_validation_type") de_validation m = Some None) by (unfold optional; rewrite F7; reflexivity).
  rewrite G3, G4, G6, G7. cbn [obind]. pose proof (fun x => go_action_read a x Hc) as GA. split.
  - destruct (de_action false (go_action_json a)) as [x|] eqn:EA; [|discriminate]. cbn [obind].
    destruct (optional (chars "validator") de_validator m) as [w|] eqn:EV; [|discriminate]. cbn [obind]. intros K. injection K as <-.
    constructor; cbn; try reflexivity.
    + apply GA. reflexivity.
    + apply G5. reflexivity.
  - intros [M1 M2 M3 M4 M5 M6 M7]. apply GA in M2. apply G5 in M5. rewrite M2. cbn [obind]. rewrite M5. cbn [obind].
    destruct c as [cp ca cs ck cv cl ct]. cbn [cf_pattern cf_action cf_scope cf_keywords cf_validator cf_labels cf_validation gr_pattern gr_keywords] in *.
    subst. reflexivity.
Qed.
