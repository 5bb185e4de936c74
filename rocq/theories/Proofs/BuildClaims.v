(* Building scanners, error codes, labels and configurations (C59, C60, C63, C67, C68): proofs of the statements of Thm/Build.v *)
From Coq Require Import Lia Permutation.
From Verif Require Export Proofs.BuilderLemmas Examples.Build.

Lemma build_spec : forall en b, exists r, build en b = Ret r /\
  (forall e, r = Err e <-> first_rule_error en (bu_rules b) e) /\
  (forall t, r = Ok t -> (forall c e, In c (bu_rules b) -> ~ rule_error en c e) /\
     exists vs xs, build_validators (map cf_validation (bu_rules b)) [] false =
         Ok (vs, existsb (fun o => match o with Some t => can_create_match_validator t | None => false end) (map cf_validation (bu_rules b))) /\
       convert_rules en (bu_rules b) 0 (bu_labels b) = Ret (Ok xs) /\ length xs = length (bu_rules b) /\
       (forall j c, nth_error (bu_rules b) j = Some c -> exists rr, action_validate (cf_action c) = true /\
          nth_error xs j = Some (regex_compiled (cf_action c) (cf_scope c) (cf_validation c) rr, bu_labels b ++ cf_labels c) /\
          compiled_from en c j rr) /\
       t = {| bt_scanner := {| sc_rules := map fst xs; sc_kw_paths := bu_kw_paths b; sc_wild := bu_wild b;
                               sc_multipass := bu_multipass b;
                               sc_return_matches := existsb (fun o => match o with Some t => can_create_match_validator t | None => false end) (map cf_validation (bu_rules b)) |};
              bt_validators := vs; bt_labels := bu_labels b; bt_rule_labels := map snd xs |}).
Proof.
  intros en b. unfold build. destruct (validators_ok (map cf_validation (bu_rules b))) as [vs V]. rewrite V.
  destruct (convert_rules_spec en (bu_labels b) (bu_rules b) 0) as (r & R & E & O). rewrite R. cbn [bind]. destruct r as [xs|e0].
  - destruct (O xs eq_refl) as (L & N & X). eexists. split; [reflexivity|]. split.
    + intros e. split; [discriminate|]. intros K. apply E in K. discriminate K.
    + intros t K. injection K as <-. split; [exact N|]. exists vs, xs. split; [reflexivity|]. split; [reflexivity|]. split; [exact L|]. split; [exact X|reflexivity].
  - eexists. split; [reflexivity|]. split; [|discriminate]. intros e. rewrite <- E. split; intros K; injection K as ->; reflexivity.
Qed.
Lemma built_spec : forall en b t, build en b = Ret (Ok t) -> (forall c e, In c (bu_rules b) -> ~ rule_error en c e) /\
     exists vs xs, build_validators (map cf_validation (bu_rules b)) [] false =
         Ok (vs, existsb (fun o => match o with Some t => can_create_match_validator t | None => false end) (map cf_validation (bu_rules b))) /\
       length xs = length (bu_rules b) /\
       (forall j c, nth_error (bu_rules b) j = Some c -> exists rr, action_validate (cf_action c) = true /\
          nth_error xs j = Some (regex_compiled (cf_action c) (cf_scope c) (cf_validation c) rr, bu_labels b ++ cf_labels c) /\
          compiled_from en c j rr) /\
       t = {| bt_scanner := {| sc_rules := map fst xs; sc_kw_paths := bu_kw_paths b; sc_wild := bu_wild b;
                               sc_multipass := bu_multipass b;
                               sc_return_matches := existsb (fun o => match o with Some t => can_create_match_validator t | None => false end) (map cf_validation (bu_rules b)) |};
              bt_validators := vs; bt_labels := bu_labels b; bt_rule_labels := map snd xs |}.
Proof.
  intros en b t H. destruct (build_spec en b) as (r & R & _ & O). rewrite H in R. injection R as <-.
  destruct (O t eq_refl) as (A & vs & xs & B & _ & C & D & F). split; [exact A|]. exists vs, xs. auto.
Qed.
Lemma can_create_makes : forall t, can_create_match_validator t = true <-> exists v, makes t v.
Proof.
  intros [[|c|]|c]; cbn; split; try discriminate; try (intros [v []]); try reflexivity; eexists; reflexivity.
Qed.
Lemma jfield_perm : forall k m m', Permutation m m' -> jfield k m = jfield k m'.
Proof.
  intros k m m' H. unfold jfield.
  assert (P : Permutation (filter (fun e => str_eqb (fst e) k) m) (filter (fun e => str_eqb (fst e) k) m')).
  { clear - H. induction H as [|x l l' H IH|x y l|l l' l'' H1 IH1 H2 IH2]; cbn [filter].
    - constructor.
    - destruct (str_eqb (fst x) k); [constructor|]; exact IH.
    - destruct (str_eqb (fst x) k), (str_eqb (fst y) k); try reflexivity. apply perm_swap.
    - exact (Permutation_trans IH1 IH2). }
  destruct (filter (fun e => str_eqb (fst e) k) m) as [|x [|y l]].
  - apply Permutation_nil in P. rewrite P. reflexivity.
  - apply Permutation_length_1_inv in P. rewrite P. reflexivity.
  - pose proof (Permutation_length P) as L. destruct (filter (fun e => str_eqb (fst e) k) m') as [|x' [|y' l']]; cbn [length] in L; try discriminate L. reflexivity.
Qed.
Lemma de_config_fields : forall u m m', (forall k, In k [chars "pattern"; chars "match_action"; chars "scope"; chars "proximity_keywords";
    chars "validator"; chars "labels"; chars "match_validation_type"] -> jfield k m = jfield k m') ->
  de_config u (JObject m) = de_config u (JObject m').
Proof.
  intros u m m' H. unfold de_config, required, optional, with_default, default_on_null. cbn [de_object obind].
  rewrite !(H _ (or_introl eq_refl)), !(H _ (or_intror (or_introl eq_refl))), !(H _ (or_intror (or_intror (or_introl eq_refl)))),
    !(H _ (or_intror (or_intror (or_intror (or_introl eq_refl))))), !(H _ (or_intror (or_intror (or_intror (or_intror (or_introl eq_refl)))))),
    !(H _ (or_intror (or_intror (or_intror (or_intror (or_intror (or_introl eq_refl))))))),
    !(H _ (or_intror (or_intror (or_intror (or_intror (or_intror (or_intror (or_introl eq_refl)))))))).
  reflexivity.
Qed.
Lemma go_all : forall rules, (forall g, In g rules -> go_rule_fits g) ->
  match all_some (map (go_create_rule false) rules) with
  | Some cs => Forall2 go_rule_means rules cs
  | None => exists g, In g rules /\ forall c, ~ go_rule_means g c
  end.
Proof.
  induction rules as [|g rules IH]; intros H; cbn [map all_some]; [constructor|].
  pose proof (fun c => go_rule_read g c (H g (or_introl eq_refl))) as G. destruct (go_create_rule false g) as [c|].
  - specialize (IH (fun g' K => H g' (or_intror K))). destruct (all_some (map (go_create_rule false) rules)) as [cs|]; cbn [obind].
    + constructor; [apply G; reflexivity|exact IH].
    + destruct IH as (g' & K & N). exists g'. split; [right; exact K|exact N].
  - exists g. split; [left; reflexivity|]. intros c K. apply G in K. discriminate K.
Qed.
Lemma go_means_fun : forall g c c', go_rule_fits g -> go_rule_means g c -> go_rule_means g c' -> c = c'.
Proof. intros g c c' F H K. apply go_rule_read in H; [|exact F]. apply go_rule_read in K; [|exact F]. rewrite H in K. injection K as ->. reflexivity. Qed.
Lemma go_means_all_fun : forall rules cs cs', (forall g, In g rules -> go_rule_fits g) -> Forall2 go_rule_means rules cs -> Forall2 go_rule_means rules cs' -> cs = cs'.
Proof.
  intros rules cs cs' F H. revert cs'. induction H as [|g c rules cs H HS IH]; intros cs' K; inversion K as [|g' c' r' l' K1 K2]; subst; [reflexivity|].
  f_equal; [exact (go_means_fun g c c' (F g (or_introl eq_refl)) H K1)|]. apply IH; [intros g' I; apply F; right; exact I|exact K2].
Qed.

Lemma c60_result_lemma :
  forall en b, exists r, build en b = Ret r /\
  ((exists t, r = Ok t) <-> forall c e, In c (bu_rules b) -> ~ rule_error en c e) /\
  (forall e, r = Err e <-> first_rule_error en (bu_rules b) e).
Proof.
  intros en b. destruct (build_spec en b) as (r & R & E & O). exists r. split; [exact R|]. split; [|exact E]. split.
  - intros [t ->]. exact (proj1 (O t eq_refl)).
  - intros N. destruct r as [t|e]; [exists t; reflexivity|]. exfalso. destruct (proj1 (E e) eq_refl) as (i & c & I & K & _).
    exact (N c e (nth_error_In _ _ I) K).
Qed.

Lemma c60_one_error_lemma :
  forall en, (forall c e e', rule_error en c e -> rule_error en c e' -> e = e') /\
  (forall cs e e', first_rule_error en cs e -> first_rule_error en cs e' -> e = e').
Proof.
  intros en. split; [exact (rule_error_fun en)|]. intros cs e e' H K.
  destruct (convert_rules_spec en [] cs 0) as (r & _ & E & _). apply E in H. apply E in K. rewrite H in K. injection K as ->. reflexivity.
Qed.

Lemma c60_scanner_lemma :
  forall en b t, build en b = Ret (Ok t) ->
  length (sc_rules (bt_scanner t)) = length (bu_rules b) /\
  sc_kw_paths (bt_scanner t) = bu_kw_paths b /\ sc_wild (bt_scanner t) = bu_wild b /\ sc_multipass (bt_scanner t) = bu_multipass b /\
  forall i c, nth_error (bu_rules b) i = Some c -> exists rr,
    nth_error (sc_rules (bt_scanner t)) i = Some (regex_compiled (cf_action c) (cf_scope c) (cf_validation c) rr) /\
    compiled_from en c i rr.
Proof.
  intros en b t H. destruct (built_spec en b t H) as (_ & vs & xs & _ & L & X & ->). cbn. rewrite map_length. split; [exact L|].
  split; [reflexivity|]. split; [reflexivity|]. split; [reflexivity|]. intros i c K. destruct (X i c K) as (rr & _ & A & B).
  exists rr. split; [|exact B]. rewrite nth_error_map, A. reflexivity.
Qed.

Lemma c60_behaves_lemma :
  forall en fold b t, build en b = Ret (Ok t) ->
  (forall c k inc pinc exc, In c (bu_rules b) -> cf_keywords c = Some k ->
     compile_keywords_proximity_config k = Ret (Ok (Some (inc, pinc), exc)) -> earliest (en_earliest en inc) (kw_occurs fold inc)) ->
  forall i c re at_, nth_error (bu_rules b) i = Some c -> pattern_regex en (cf_pattern c) re -> leftmost re at_ ->
  exists rr occ, regex_rule_at (bt_scanner t) i rr at_ occ /\ rr_find rr = re /\
    forall k inc pinc exc, cf_keywords c = Some k -> compile_keywords_proximity_config k = Ret (Ok (Some (inc, pinc), exc)) ->
      occ = kw_occurs fold inc.
Proof.
  intros en fold b t H HK i c re at_ Hc (p & P1 & P2) Hl.
  destruct (built_spec en b t H) as (_ & vs & xs & _ & L & X & ->). destruct (X i c Hc) as (rr & AV & Hx & [F1 F2 F3 F4 F5]).
  assert (Hr : nth_error (map fst xs) i = Some (regex_compiled (cf_action c) (cf_scope c) (cf_validation c) rr))
    by (rewrite nth_error_map, Hx; reflexivity).
  destruct F2 as (p' & P1' & P2'). rewrite P1 in P1'. injection P1' as <-. rewrite P2 in P2'. injection P2' as P2'. subst re.
  destruct (rr_included rr) as [ik|] eqn:RI.
  - destruct (proj1 (F4 ik) eq_refl) as (k & inc & pinc & exc & K1 & K2 & ->).
    exists rr, (kw_occurs fold inc). split; [|split; [reflexivity|]].
    + exists (cf_action c), (cf_scope c), (cf_validation c). split; [exact Hr|]. split; [exact F1|]. split; [exact AV|].
      split; [exact Hl|]. intros ik E. rewrite RI in E. injection E as <-. cbn [ik_find ik_look_ahead]. split.
      * exact (HK c k inc pinc exc (nth_error_In _ _ Hc) K1 K2).
      * destruct (c28_accepted_configurations_lemma k) as (res & R & A & _). rewrite K2 in R. injection R as <-.
        exact (proj1 (proj1 (proj1 A (ex_intro _ _ eq_refl)))).
    + intros k' inc' pinc' exc' K1' K2'. rewrite K1 in K1'. injection K1' as <-. rewrite K2 in K2'. injection K2' as -> _ _. reflexivity.
  - exists rr, (fun _ _ _ => False). split; [|split; [reflexivity|]].
    + exists (cf_action c), (cf_scope c), (cf_validation c). split; [exact Hr|]. split; [exact F1|]. split; [exact AV|].
      split; [exact Hl|]. intros ik E. rewrite RI in E. discriminate E.
    + intros k inc pinc exc K1 K2. exfalso. assert (E : None = Some {| ik_look_ahead := kc_look_ahead k; ik_find := en_earliest en inc; ik_path_match := en_path en pinc |}).
      { apply F4. exists k, inc, pinc, exc. auto. } discriminate E.
Qed.

Lemma c60_matches_returned_lemma :
  forall en b t, build en b = Ret (Ok t) ->
  (sc_return_matches (bt_scanner t) = true <->
   exists c ty v, In c (bu_rules b) /\ cf_validation c = Some ty /\ makes ty v) /\
  (forall k v, assoc internal_eqb k (bt_validators t) = Some v <-> first_of_kind (map cf_validation (bu_rules b)) k v).
Proof.
  intros en b t H. destruct (built_spec en b t H) as (_ & vs & xs & V & _ & _ & ->). cbn [bt_scanner sc_return_matches bt_validators]. split.
  - rewrite existsb_exists. split.
    + intros ([ty|] & K1 & K2); [|discriminate K2]. apply in_map_iff in K1 as (c & E & K1). apply can_create_makes in K2 as [v K2].
      exists c, ty, v. auto.
    + intros (c & ty & v & K1 & K2 & K3). exists (Some ty). split; [rewrite <- K2; apply in_map; exact K1|]. apply can_create_makes. exists v. exact K3.
  - exact (built_first _ _ _ _ V).
Qed.

Lemma c59_refuted_lemma :
  error_code EInvalidMatchValidator = err_panic /\
  forall address message, native_create_scanner address message (Ret (Err EInvalidMatchValidator)) = Ret ((-5)%Z, None) /\
    native_create_scanner address message Panic = Ret ((-5)%Z, Some message) /\
    go_created_of (-5) None = GoErrPanic None.
Proof.
  split; [reflexivity|]. intros address message. repeat split.
Qed.

Lemma c59_codes_lemma :
  forall en b address message, (0 <= address)%Z -> exists code,
  native_create_scanner address message (build en b) = Ret (code, None) /\
  (code = (-2)%Z <-> exists e, first_rule_error en (bu_rules b) (EInvalidRegex e)) /\
  (code = (-3)%Z <-> exists e, first_rule_error en (bu_rules b) (EInvalidKeywords e)) /\
  (code = (-4)%Z <-> first_rule_error en (bu_rules b) EInvalidMatchAction) /\
  (code = address <-> forall c e, In c (bu_rules b) -> ~ rule_error en c e) /\
  In code [(-2)%Z; (-3)%Z; (-4)%Z; address] /\ ~ first_rule_error en (bu_rules b) EInvalidMatchValidator.
Proof.
  intros en b address message Ha. destruct (build_spec en b) as (r & R & E & O). rewrite R. destruct r as [t|e].
  - exists address. split; [reflexivity|]. destruct (O t eq_refl) as (N & _).
    split; [split; [lia|intros [e K]; apply E in K; discriminate K]|]. split; [split; [lia|intros [e K]; apply E in K; discriminate K]|].
    split; [split; [lia|intros K; apply E in K; discriminate K]|]. split; [split; [intros _; exact N|reflexivity]|].
    split; [cbn; auto|]. intros K. apply E in K. discriminate K.
  - exists (error_code e). split; [reflexivity|]. pose proof (proj1 (E e) eq_refl) as F.
    assert (NV : ~ first_rule_error en (bu_rules b) EInvalidMatchValidator).
    { intros (i & c & _ & K & _). inversion K. }
    assert (NF : ~ forall c e, In c (bu_rules b) -> ~ rule_error en c e).
    { intros N. destruct F as (i & c & I & K & _). exact (N c e (nth_error_In _ _ I) K). }
    assert (U : forall e', first_rule_error en (bu_rules b) e' -> e' = e) by (intros e' K; apply E in K; injection K as ->; reflexivity).
    destruct e as [e|e| |]; cbn [error_code].
    + split; [split; [intros _; exists e; exact F|reflexivity]|]. split; [split; [discriminate|intros [e' K]; discriminate (U _ K)]|].
      split; [split; [discriminate|intros K; discriminate (U _ K)]|]. split; [split; [intros K; exfalso; lia|intros K; contradiction]|]. split; [cbn; auto|exact NV].
    + split; [split; [discriminate|intros [e' K]; discriminate (U _ K)]|]. split; [split; [intros _; exists e; exact F|reflexivity]|].
      split; [split; [discriminate|intros K; discriminate (U _ K)]|]. split; [split; [intros K; exfalso; lia|intros K; contradiction]|]. split; [cbn; auto|exact NV].
    + split; [split; [discriminate|intros [e' K]; discriminate (U _ K)]|]. split; [split; [discriminate|intros [e' K]; discriminate (U _ K)]|].
      split; [split; [intros _; exact F|reflexivity]|]. split; [split; [intros K; exfalso; lia|intros K; contradiction]|]. split; [cbn; auto|exact NV].
    + contradiction.
Qed.

Lemma c59_go_lemma :
  forall en rules address message, (0 <= address)%Z -> (forall g, In g rules -> go_rule_fits g) ->
  exists r, go_create_scanner en false address message rules = Ret r /\
  (r = GoErrRule <-> exists g, In g rules /\ forall c, ~ go_rule_means g c) /\
  (forall m, r <> GoErrPanic m) /\ r <> GoErrUnknown /\
  forall cs, Forall2 go_rule_means rules cs ->
    (r = GoErrInvalidRegex <-> exists e, first_rule_error en cs (EInvalidRegex e)) /\
    (r = GoErrInvalidKeywords <-> exists e, first_rule_error en cs (EInvalidKeywords e)) /\
    (r = GoErrInvalidMatchAction <-> first_rule_error en cs EInvalidMatchAction) /\
    (r = GoScanner address <-> forall c e, In c cs -> ~ rule_error en c e).
Proof.
  intros en rules address message Ha HF. unfold go_create_scanner. pose proof (go_all rules HF) as G.
  destruct (all_some (map (go_create_rule false) rules)) as [cs|].
  - destruct (c59_codes_lemma en (builder_new cs) address message Ha) as (code & C & C2 & C3 & C4 & C5 & CI & _). rewrite C. cbn [bind fst snd].
    cbn [builder_new bu_rules] in *. exists (go_created_of code None). split; [reflexivity|].
    assert (GC : go_created_of (-2) None = GoErrInvalidRegex /\ go_created_of (-3) None = GoErrInvalidKeywords /\ go_created_of (-4) None = GoErrInvalidMatchAction /\
      go_created_of address None = GoScanner address).
    { repeat split. unfold go_created_of. replace (address <? 0)%Z with false; [reflexivity|]. symmetry. apply Z.ltb_ge. exact Ha. }
    destruct GC as (G2 & G3 & G4 & G5).
    split.
    { split.
      - intros K. exfalso. destruct CI as [<-|[<-|[<-|[<-|[]]]]]; try discriminate K. rewrite G5 in K. discriminate K.
      - intros (g & I & N). exfalso. clear - G I N. induction G as [|g' c' rules cs H HS IH]; [destruct I|]. destruct I as [->|I]; [exact (N _ H)|auto]. }
    split. { intros m K. destruct CI as [<-|[<-|[<-|[<-|[]]]]]; try discriminate K. rewrite G5 in K. discriminate K. }
    split. { intros K. destruct CI as [<-|[<-|[<-|[<-|[]]]]]; try discriminate K. rewrite G5 in K. discriminate K. }
    intros cs' H. rewrite <- (go_means_all_fun rules cs cs' HF G H). rewrite <- C2, <- C3, <- C4, <- C5.
    destruct CI as [<-|[<-|[<-|[<-|[]]]]]; [rewrite G2|rewrite G3|rewrite G4|rewrite G5]; repeat split; intros K; try discriminate K; try reflexivity; exfalso; lia.
  - exists GoErrRule. split; [reflexivity|]. split; [split; [intros _; exact G|reflexivity]|]. split; [discriminate|]. split; [discriminate|].
    intros cs H. exfalso. destruct G as (g & I & N). induction H as [|g' c' rules cs H HS IH]; [destruct I|].
    destruct I as [->|I]; [exact (N _ H)|]. apply IH; [intros g0 K; apply HF; right; exact K|exact I].
Qed.

Lemma c63_combined_lemma :
  forall s r, length (clone_with_labels s r) = length s + length r /\
  forall i x, nth_error (clone_with_labels s r) i = Some x <->
    (i < length s /\ nth_error s i = Some x) \/ (length s <= i /\ nth_error r (i - length s) = Some x).
Proof.
  intros s r. unfold clone_with_labels. split; [apply app_length|]. intros i x. split.
  - intros H. destruct (Nat.lt_ge_cases i (length s)) as [L|L].
    + left. split; [exact L|]. rewrite nth_error_app1 in H by exact L. exact H.
    + right. split; [exact L|]. rewrite nth_error_app2 in H by exact L. exact H.
  - intros [[L H]|[L H]]; [rewrite nth_error_app1 by exact L|rewrite nth_error_app2 by exact L]; exact H.
Qed.

Lemma c63_rule_labels_lemma :
  forall en b t, build en b = Ret (Ok t) -> bt_labels t = bu_labels b /\ length (bt_rule_labels t) = length (bu_rules b) /\
  forall i c, nth_error (bu_rules b) i = Some c -> nth_error (bt_rule_labels t) i = Some (bu_labels b ++ cf_labels c).
Proof.
  intros en b t H. destruct (built_spec en b t H) as (_ & vs & xs & _ & L & X & ->). cbn. rewrite map_length. split; [reflexivity|]. split; [exact L|].
  intros i c K. destruct (X i c K) as (rr & _ & A & _). rewrite nth_error_map, A. reflexivity.
Qed.

Lemma c63_serialized_lemma :
  forall j l,
  (j = ser_labels l <-> exists js, j = JArray js /\ Forall2 (fun x kv => x = JArray [JString (fst kv); JString (snd kv)]) js l) /\
  (de_labels j = Some l <-> j = ser_labels l).
Proof.
  intros j l. split; [|apply de_labels_iff]. unfold ser_labels, ser_list. split.
  - intros ->. eexists. split; [reflexivity|]. induction l as [|kv l IH]; constructor; [reflexivity|exact IH].
  - intros (js & -> & H). f_equal. induction H as [|x kv js l E _ IH]; [reflexivity|]. cbn [map]. rewrite <- E, IH. reflexivity.
Qed.

Lemma c67_round_trip_lemma :
  forall utf16 c, config_fits utf16 c -> de_config utf16 (ser_config c) = Some c.
Proof.
  exact de_ser_config.
Qed.

Lemma c67_injective_lemma :
  forall c c', config_fits true c -> config_fits true c' -> ser_config c = ser_config c' -> c = c'.
Proof.
  intros c c' H H' E. apply de_ser_config in H. apply de_ser_config in H'. rewrite E in H. rewrite H in H'. injection H' as ->. reflexivity.
Qed.

Lemma c67_fields_lemma :
  forall utf16 m m', Permutation m m' -> de_config utf16 (JObject m) = de_config utf16 (JObject m') /\
  forall k j, ~ In k [chars "pattern"; chars "match_action"; chars "scope"; chars "proximity_keywords"; chars "validator";
                      chars "labels"; chars "match_validation_type"] ->
    de_config utf16 (JObject ((k, j) :: m)) = de_config utf16 (JObject m').
Proof.
  intros u m m' P. split.
  - apply de_config_fields. intros k _. apply jfield_perm. exact P.
  - intros k j N. apply de_config_fields. intros k' I. rewrite <- (jfield_perm k' m m' P). unfold jfield. cbn [filter fst].
    destruct (str_eqb k k') eqn:E; [|reflexivity]. apply str_eqb_eq in E. subst k'. contradiction.
Qed.

Lemma c67_defaults_lemma :
  forall utf16 p a, utf16 = true \/ a <> ActUtf16Hash -> (forall d n, a = ActPartialRedact d n -> fits u64_limit n) ->
  de_config utf16 (JObject [(chars "pattern", JString p); (chars "match_action", ser_action a)]) =
    Some {| cf_pattern := p; cf_action := a; cf_scope := ScopeExclude []; cf_keywords := None; cf_validator := None;
            cf_labels := []; cf_validation := None |} /\
  forall m, (forall j, ~ In (chars "pattern", j) m) \/ (forall j, ~ In (chars "match_action", j) m) -> de_config utf16 (JObject m) = None.
Proof.
  intros u p a Hu Ha.
  assert (A : de_action u (ser_action a) = Some a).
  { apply de_ser_action; [|exact Ha]. intros ->. destruct Hu as [Hu|Hu]; [discriminate Hu|exact Hu]. }
  split.
  - unfold de_config. cbn [de_object obind]. req. cbn [de_str obind]. rewrite A. reflexivity.
  - assert (M : forall k m, (forall j : json, ~ In (k, j) m) -> jfield k m = Some None).
    { intros k m H. unfold jfield. replace (filter (fun e : str * json => str_eqb (fst e) k) m) with (@nil (str * json)); [reflexivity|].
      symmetry. clear - H. induction m as [|[k' j] m IH]; [reflexivity|]. cbn [filter fst]. destruct (str_eqb k' k) eqn:E.
      - apply str_eqb_eq in E. subst k'. exfalso. exact (H j (or_introl eq_refl)).
      - apply IH. intros j' K. exact (H j' (or_intror K)). }
    intros m [H|H]; apply M in H; unfold de_config; cbn [de_object obind].
    + unfold required at 1. rewrite H. reflexivity.
    + destruct (required (chars "pattern") de_str m) as [s|]; [|reflexivity]. cbn [obind]. unfold required at 1. rewrite H. reflexivity.
Qed.

Lemma c68_go_rule_lemma :
  forall g c, go_rule_fits g -> (go_create_rule false g = Some c <-> go_rule_means g c).
Proof.
  exact go_rule_read.
Qed.

Lemma c68_nil_slices_lemma :
  forall n i e, (n < u32_limit)%N ->
  de_keywords (go_keywords_json (go_create_keywords n i e)) = Some {| kc_look_ahead := N.to_nat n; kc_included := slice_elements i; kc_excluded := slice_elements e |} /\
  de_keywords (go_keywords_json {| gk_look_ahead := n; gk_included := i; gk_excluded := e |}) = de_keywords (go_keywords_json (go_create_keywords n i e)).
Proof.
  intros n i e H. rewrite !go_keywords_read by exact H. unfold go_create_keywords, go_keywords_mean. cbn [gk_look_ahead gk_included gk_excluded].
  destruct i, e; split; reflexivity.
Qed.

