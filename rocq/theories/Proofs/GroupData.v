(* Data shared by rules *)
From Verif Require Export Spec.GroupData.

(* two computations that end alike *)
Definition alike {A B} (R : A -> B -> Prop) (x : outcome A) (y : outcome B) : Prop :=
  match x, y with
  | Ret a, Ret b => R a b
  | Panic, Panic => True
  | Diverge, Diverge => True
  | _, _ => False
  end.
Lemma alike_bind : forall A B A' B' (R : A -> B -> Prop) (R' : A' -> B' -> Prop) x y (f : A -> outcome A') (g : B -> outcome B'),
  alike R x y -> (forall a b, R a b -> alike R' (f a) (g b)) -> alike R' (bind x f) (bind y g).
Proof. intros A B A' B' R R' [a| |] [b| |] f g X F; cbn in *; try tauto. exact (F a b X). Qed.
Lemma alike_same : forall A A' B' (R' : A' -> B' -> Prop) (x : outcome A) f g,
  (forall a, alike R' (f a) (g a)) -> alike R' (bind x f) (bind x g).
Proof. intros A A' B' R' [a| |] f g F; cbn; auto. Qed.
Lemma alike_foldM : forall A S T (R : S -> T -> Prop) (f : S -> A -> outcome S) (g : T -> A -> outcome T),
  (forall s t a, R s t -> alike R (f s a) (g t a)) ->
  forall l s t, R s t -> alike R (foldM f l s) (foldM g l t).
Proof.
  intros A S T R f g F. induction l as [|a l IH]; intros s t X; cbn [foldM]; [exact X|].
  apply (alike_bind _ _ _ _ R); [exact (F s t a X)|]. intros s' t' X'. exact (IH s' t' X').
Qed.
Lemma alike_eq : forall A (x y : outcome A), alike eq x y -> x = y.
Proof. intros A [a| |] [b| |]; cbn; intro X; try contradiction; congruence. Qed.

(* visitors that go alike *)
Lemma alike_combinations : forall S T (R : S -> T -> Prop) (cv : content_visitor S) (cw : content_visitor T),
  (forall p c idx excl s t, R s t -> alike (fun a b => R (fst a) (fst b) /\ snd a = snd b) (cv p c idx excl s) (cw p c idx excl t)) ->
  forall tree n wild ops s t, R s t ->
  alike (fun a b => R (fst a) (fst b) /\ snd a = snd b)
    (visit_string_rule_combinations tree n wild ops cv s) (visit_string_rule_combinations tree n wild ops cw t).
Proof.
  intros S T R cv cw C tree n wild ops s t X. unfold visit_string_rule_combinations.
  apply (alike_bind _ _ _ _ (fun a b => fst (fst a) = fst (fst b) /\ R (snd (fst a)) (snd (fst b)) /\ snd a = snd b)).
  - apply alike_foldM; [|cbn; auto]. intros [[v s1] log] [[w t1] log'] op (V & X1 & L). cbn [fst snd] in *. subst w log'.
    destruct op as [seg| |c]; cbn [run_op].
    + apply alike_same. intro v'. cbn. auto.
    + apply alike_same. intro v'. cbn. auto.
    + unfold visit_string. destruct (visit_rule_indices (vs_nodes v) (vs_bools v)) as [[idx b]| |]; cbn [bind]; try exact I.
      specialize (C (vs_path v) c idx (is_excluded (vs_nodes v)) s1 t1 X1).
      destruct (cv (vs_path v) c idx (is_excluded (vs_nodes v)) s1) as [[s2 m]| |], (cw (vs_path v) c idx (is_excluded (vs_nodes v)) t1) as [[t2 m']| |];
        cbn in *; try tauto. destruct C as (X2 & ->). auto.
  - intros [[v s1] log] [[w t1] log'] (V & X1 & L). cbn in *. auto.
Qed.

(* maps keyed by types *)
Lemma tm_insert_get : forall V (m : type_map V) t a t', tm_get (tm_insert m t a) t' = if (t =? t')%N then Some a else tm_get m t'.
Proof. reflexivity. Qed.
Lemma tm_entry_spec : forall V (m : type_map V) t new,
  snd (tm_entry m t new) = (match tm_get m t with Some a => a | None => {| any_type := t; any_value := new |} end) /\
  forall t', t' <> t -> tm_get (fst (tm_entry m t new)) t' = tm_get m t'.
Proof.
  intros V m t new. unfold tm_entry. destruct (tm_get m t) as [a|]; cbn [fst snd]; split; auto.
  intros t' N. rewrite tm_insert_get. rewrite (proj2 (N.eqb_neq t t') (fun H => N (eq_sym H))). reflexivity.
Qed.
Lemma downcast_same : forall V t (v : V), downcast t {| any_type := t; any_value := v |} = Some v.
Proof. intros V t v. unfold downcast. cbn. rewrite N.eqb_refl. reflexivity. Qed.

Lemma last_call_snoc : forall V P (calls : list (call V)) c,
  last_call P (calls ++ [c]) = if P c then Some c else last_call P calls.
Proof. intros V P calls c. unfold last_call. rewrite rev_app_distr. cbn [rev app filter]. destruct (P c); reflexivity. Qed.

(* the map holds what the calls have left *)
Definition left_by {V} (key : data_rule V -> N) (out : call V -> V) (calls : list (call V)) (m : type_map V) : Prop :=
  forall t, tm_get m t = option_map (fun c => {| any_type := t; any_value := out c |}) (last_call (fun c => (key (ca_rule c) =? t)%N) calls).
Lemma left_by_nothing : forall V key out, @left_by V key out [] [].
Proof. intros V key out t. reflexivity. Qed.
Lemma left_by_entry : forall V key out calls (m : type_map V) t new, left_by key out calls m ->
  downcast t (snd (tm_entry m t new)) =
    Some (match last_call (fun c => (key (ca_rule c) =? t)%N) calls with Some c => out c | None => new end).
Proof.
  intros V key out calls m t new L. rewrite (proj1 (tm_entry_spec _ m t new)), (L t).
  destruct (last_call (fun c => (key (ca_rule c) =? t)%N) calls) as [c|]; cbn [option_map]; apply downcast_same.
Qed.
Lemma left_by_write : forall V key out calls (m : type_map V) c new, left_by key out calls m ->
  left_by key out (calls ++ [c])
    (tm_insert (fst (tm_entry m (key (ca_rule c)) new)) (key (ca_rule c)) {| any_type := key (ca_rule c); any_value := out c |}).
Proof.
  intros V key out calls m c new L t. rewrite tm_insert_get, last_call_snoc.
  destruct (N.eqb_spec (key (ca_rule c)) t) as [<-|N]; [reflexivity|].
  rewrite (proj2 (tm_entry_spec _ m _ new) t (fun H => N (eq_sym H))). apply L.
Qed.

(* the configs of a built scanner *)
Definition config_entry {V} (rules : list (data_rule V)) (t : N) : option (any V) :=
  match filter (fun r => (dr_config r =? t)%N) rules with
  | [] => None
  | r :: g => Some {| any_type := t; any_value := fold_left (fun v r' => dr_process r' v) (r :: g) (dr_new_config r) |}
  end.
Lemma configs_built : forall V (rules done : list (data_rule V)) m,
  (forall t, tm_get m t = config_entry done t) ->
  exists m', foldM dyn_process_scanner_config rules m = Ret m' /\ forall t, tm_get m' t = config_entry (done ++ rules) t.
Proof.
  intros V rules. induction rules as [|r rules IH]; intros done m L.
  - exists m. rewrite app_nil_r. auto.
  - cbn [foldM]. unfold dyn_process_scanner_config at 1.
    destruct (tm_entry m (dr_config r) (dr_new_config r)) as (m1, a) eqn:E1.
    pose proof (tm_entry_spec _ m (dr_config r) (dr_new_config r)) as (A & O). rewrite E1 in A, O. cbn [fst snd] in A, O.
    assert (D : downcast (dr_config r) a = Some (match filter (fun r' => (dr_config r' =? dr_config r)%N) done with
        | [] => dr_new_config r | r1 :: g => fold_left (fun v r' => dr_process r' v) (r1 :: g) (dr_new_config r1) end)).
    { rewrite A, (L (dr_config r)). unfold config_entry. destruct (filter _ done); apply downcast_same. }
    rewrite D. cbn [unwrap bind].
    replace (done ++ r :: rules) with ((done ++ [r]) ++ rules) by (rewrite <- app_assoc; reflexivity).
    apply IH. intro t. rewrite tm_insert_get. unfold config_entry. rewrite filter_app. cbn [filter].
    destruct (N.eqb_spec (dr_config r) t) as [<-|N].
    + destruct (filter (fun r' => (dr_config r' =? dr_config r)%N) done) as [|r1 g]; [reflexivity|].
      cbn [app]. f_equal. f_equal. change (r1 :: g ++ [r]) with ((r1 :: g) ++ [r]). rewrite fold_left_app. reflexivity.
    + rewrite app_nil_r, (O t (fun H => N (eq_sym H))). exact (L t).
Qed.
Lemma scanner_built : forall V (rules : list (data_rule V)) kw wild mp ret, exists configs,
  build_data_scanner rules kw wild mp ret = Ret {| ds_rules := rules; ds_kw_paths := kw; ds_wild := wild; ds_multipass := mp;
    ds_return_matches := ret; ds_configs := configs |} /\ forall t, tm_get configs t = config_entry rules t.
Proof.
  intros V rules kw wild mp ret. destruct (configs_built V rules [] [] (fun t => eq_refl)) as (m & E & L).
  exists m. unfold build_data_scanner. rewrite E. split; [reflexivity|exact L].
Qed.
Lemma config_found : forall V (rules : list (data_rule V)) r, In r rules ->
  exists a, config_entry rules (dr_config r) = Some a /\ downcast (dr_config r) a = Some (config_in rules r).
Proof.
  intros V rules r M. unfold config_entry, config_in.
  assert (K : In r (filter (fun r' => (dr_config r' =? dr_config r)%N) rules)) by (apply filter_In; rewrite N.eqb_refl; auto).
  destruct (filter (fun r' => (dr_config r' =? dr_config r)%N) rules) as [|r1 g]; [destruct K|].
  eexists. split; [reflexivity|]. apply downcast_same.
Qed.

(* the scan *)
Definition told {V} (a : list (nat * nat * nat) * excluded_set * type_map V * type_map V)
    (b : list (nat * nat * nat) * excluded_set * list (call V) * list (call V)) : Prop :=
  let '(f1, x1, d, c) := a in let '(f2, x2, in_string, in_event) := b in
  f1 = f2 /\ x1 = x2 /\ left_by dr_data ca_data in_string d /\ left_by dr_cache ca_cache in_event c.
Lemma rule_told : forall V fuel (s : data_scanner V) blocked p content excl,
  (forall t, tm_get (ds_configs s) t = config_entry (ds_rules s) t) ->
  forall a b i, told a b ->
  alike told (visit_data_rule fuel s blocked p content excl a i) (told_rule fuel (ds_rules s) (ds_kw_paths s) blocked p content excl b i).
Proof.
  intros V fuel s blocked p content excl C [[[f1 x1] d] c] [[[f2 x2] us] ue] i (-> & -> & D & K). cbn [visit_data_rule told_rule].
  destruct (existsb (Nat.eqb i) blocked); [cbn; auto|].
  destruct (nth_error (ds_rules s) i) as [r|] eqn:N; cbn [unwrap bind]; [|exact I].
  unfold dyn_string_matches.
  destruct (config_found V (ds_rules s) r (nth_error_In _ _ N)) as (a & A & AD).
  pose proof (left_by_entry V dr_data ca_data us d (dr_data r) (dr_new_data r) D) as E1.
  pose proof (left_by_entry V dr_cache ca_cache ue c (dr_cache r) (dr_new_cache r) K) as E2.
  pose proof (fun d' c' => left_by_write V dr_data ca_data us d (Build_call r d' c') (dr_new_data r) D) as W1.
  pose proof (fun d' c' => left_by_write V dr_cache ca_cache ue c (Build_call r d' c') (dr_new_cache r) K) as W2.
  cbn [ca_rule ca_data ca_cache] in W1, W2.
  destruct (tm_entry d (dr_data r) (dr_new_data r)) as (d1, a1). destruct (tm_entry c (dr_cache r) (dr_new_cache r)) as (c1, a2).
  cbn [fst snd] in *. rewrite E1. cbn [unwrap bind]. rewrite (C (dr_config r)), A. cbn [unwrap bind]. rewrite AD. cbn [unwrap bind].
  rewrite E2. cbn [unwrap bind]. unfold data_after, cache_after.
  match goal with |- alike _ (bind (bind ?o _) _) _ => destruct o as [[[[ms x'] d'] c']| |]; cbn [bind]; try exact I end.
  cbn. split; [reflexivity|]. split; [reflexivity|]. split; [apply W1|apply W2].
Qed.
Lemma scan_told : forall V I fuel h srt (rules : list (data_rule V)) kw wild mp ret blocked e,
  (let* s := build_data_scanner rules kw wild mp ret in data_scan I fuel h srt s blocked e) =
  told_scan I fuel h srt rules kw wild mp ret blocked e.
Proof.
  intros V I fuel h srt rules kw wild mp ret blocked e. destruct (scanner_built V rules kw wild mp ret) as (configs & -> & C).
  cbn [bind]. unfold data_scan, told_scan. cbn [ds_rules ds_wild ds_plain]. set (s := {| ds_rules := rules; ds_kw_paths := kw; ds_wild := wild;
    ds_multipass := mp; ds_return_matches := ret; ds_configs := configs |}).
  apply alike_eq.
  apply (alike_bind _ _ _ _ (fun a b => (fst (fst a) = fst (fst b) /\ left_by dr_cache ca_cache (snd (fst b)) (snd (fst a))) /\ snd a = snd b)).
  - apply (alike_combinations (scan_state (ev_enc I) * type_map V) (scan_state (ev_enc I) * list (call V))
      (fun a b => fst a = fst b /\ left_by dr_cache ca_cache (snd b) (snd a))); [|split; [reflexivity|apply left_by_nothing]].
    intros p c idx excl [[l x] caches] [[l' x'] ue] (Q & K). cbn [fst snd] in Q, K. inversion Q; subst l' x'. unfold visit_data_content, told_content.
    apply (alike_bind _ _ _ _ told).
    + apply alike_foldM; [|cbn; auto using left_by_nothing]. intros a b i T. exact (rule_told V fuel s blocked p c excl C a b i T).
    + intros [[[f1 x1] d] ca] [[[f2 x2] us] ue'] (-> & -> & D & K'). destruct (attach_indices _ _); cbn; auto.
  - intros [[[l x] ca] log] [[[l' x'] ue] log'] ((Q & _) & L). cbn [fst snd] in *. inversion Q; subst. destruct (process_all _ _ _ _ _ _ _); reflexivity.
Qed.

(* rules that ignore the data *)
Lemma pairs_length : forall A B (R : A -> B -> Prop) l l', Forall2 R l l' -> length l = length l'.
Proof. induction 1; cbn; congruence. Qed.
Definition same_view (a b : rule) : Prop :=
  rule_action a = rule_action b /\ rule_validation a = rule_validation b /\ rule_multipass a = rule_multipass b.
Lemma views : forall rs rs', Forall2 same_view rs rs' -> forall i,
  match nth_error rs i, nth_error rs' i with
  | Some a, Some b => same_view a b
  | None, None => True
  | _, _ => False
  end.
Proof.
  induction 1 as [|a b rs rs' V F IH]; intros [|i]; cbn [nth_error]; auto. exact (IH i).
Qed.
Lemma mutating_view : forall rs rs', Forall2 same_view rs rs' -> forall i, mutating_at rs i = mutating_at rs' i.
Proof.
  intros rs rs' F i. unfold mutating_at. pose proof (views rs rs' F i) as K.
  destruct (nth_error rs i) as [a|], (nth_error rs' i) as [b|]; try contradiction; [|reflexivity]. destruct K as (-> & _). reflexivity.
Qed.
Lemma retain_view : forall E rs rs', Forall2 same_view rs rs' -> forall (l acc : list (internal_match E)), retain_loop rs acc l = retain_loop rs' acc l.
Proof.
  intros E rs rs' F. induction l as [|m l IH]; intro acc; cbn [retain_loop]; [reflexivity|].
  rewrite (mutating_view rs rs' F). apply IH.
Qed.
Lemma sorted_view : forall E srt rs rs', extensional_sort srt -> Forall2 same_view rs rs' -> forall ms : list (internal_match E),
  sort_and_remove_overlapping_rules srt rs ms = sort_and_remove_overlapping_rules srt rs' ms.
Proof.
  intros E srt rs rs' X F ms. unfold sort_and_remove_overlapping_rules, check_rule_indices. rewrite (pairs_length _ _ _ _ _ F).
  destruct (forallb (fun m => im_rule m <? length rs') ms); cbn [bind]; [|reflexivity].
  rewrite (X _ (overlap_compare rs) (overlap_compare rs') ms); [rewrite (retain_view E rs rs' F); reflexivity|].
  intros a b. unfold overlap_compare. rewrite !(mutating_view rs rs' F). reflexivity.
Qed.
Lemma retained_view : forall E rs rs' x content, Forall2 same_view rs rs' -> forall ms : list (internal_match E),
  multipass_retain rs x content ms = multipass_retain rs' x content ms.
Proof.
  intros E rs rs' x content F. induction ms as [|m ms IH]; cbn [multipass_retain]; [reflexivity|].
  pose proof (views rs rs' F (im_rule m)) as K.
  destruct (nth_error rs (im_rule m)) as [a|], (nth_error rs' (im_rule m)) as [b|]; try contradiction; cbn [unwrap bind]; [|reflexivity].
  destruct K as (_ & _ & ->). rewrite IH. reflexivity.
Qed.
Section View.
Variables (rs rs' : list rule) (kw wild mp ret kw' wild' : bool).
Let s := {| sc_rules := rs; sc_kw_paths := kw; sc_wild := wild; sc_multipass := mp; sc_return_matches := ret |}.
Let s' := {| sc_rules := rs'; sc_kw_paths := kw'; sc_wild := wild'; sc_multipass := mp; sc_return_matches := ret |}.
Hypothesis F : Forall2 same_view rs rs'.
Lemma actions_view : forall E h p ms content delta cdelta,
  @apply_match_actions_loop E h s p content delta cdelta ms = apply_match_actions_loop h s' p content delta cdelta ms.
Proof.
  induction ms as [|m ms IH]; intros content delta cdelta; cbn [apply_match_actions_loop]; [reflexivity|].
  assert (K : apply_match_actions_for_string h s p content delta cdelta m = apply_match_actions_for_string h s' p content delta cdelta m).
  { unfold apply_match_actions_for_string. cbn [s s' sc_rules sc_return_matches]. pose proof (views rs rs' F (im_rule m)) as K.
    destruct (nth_error rs (im_rule m)) as [a|], (nth_error rs' (im_rule m)) as [b|]; try contradiction; cbn [unwrap bind]; [|reflexivity].
    destruct K as (-> & -> & _). reflexivity. }
  rewrite K. destruct (apply_match_actions_for_string h s' p content delta cdelta m) as [[[[c' d'] cd'] o]| |]; cbn [bind]; try reflexivity.
  rewrite IH. reflexivity.
Qed.
Lemma all_view : forall I h srt x, extensional_sort srt -> forall l e, process_all I h srt s x e l = process_all I h srt s' x e l.
Proof.
  intros I h srt x X. induction l as [|(p, ms) l IH]; intro e; cbn [process_all]; [reflexivity|].
  destruct (ev_get I e p) as [content| |]; cbn [bind]; try reflexivity.
  assert (K : process_string h srt s x p ms content = process_string h srt s' x p ms content).
  { unfold process_string. cbn [s s' sc_rules sc_multipass].
    rewrite (retained_view _ rs rs' x content F). destruct (if mp then multipass_retain rs' x content ms else Ret ms) as [ms1| |]; cbn [bind]; try reflexivity.
    rewrite (sorted_view _ srt rs rs' X F). destruct (sort_and_remove_overlapping_rules srt rs' ms1) as [ms2| |]; cbn [bind]; try reflexivity.
    unfold apply_match_actions. rewrite actions_view. destruct (apply_match_actions_loop h s' p content 0 (enc_zero_shift (ev_enc I)) ms2) as [res| |]; cbn [bind]; try reflexivity.
    f_equal. f_equal. f_equal. induction ms2 as [|m ms2 IHm]; [reflexivity|]. cbn [existsb]. rewrite (mutating_view rs rs' F), IHm. reflexivity. }
  rewrite K. destruct (process_string h srt s' x p ms content) as [[[c' mu] out]| |]; cbn [bind]; try reflexivity. rewrite IH. reflexivity.
Qed.
End View.

Lemma ignoring_nth : forall V (ds : list (data_rule V)) rules, Forall2 ignores_data ds rules -> forall i,
  match nth_error ds i, nth_error rules i with
  | Some a, Some b => ignores_data a b
  | None, None => True
  | _, _ => False
  end.
Proof. induction 1 as [|a b ds rules X F IH]; intros [|i]; cbn [nth_error]; auto. exact (IH i). Qed.
Lemma ignoring_scopes : forall V (ds : list (data_rule V)) rules, Forall2 ignores_data ds rules -> map dr_scope ds = map rule_scope rules.
Proof. induction 1 as [|a b ds rules X F IH]; cbn [map]; [reflexivity|]. destruct X as (_ & -> & _). rewrite IH. reflexivity. Qed.
Lemma ignoring_views : forall V (ds : list (data_rule V)) rules, Forall2 ignores_data ds rules -> Forall2 same_view (map dr_plain ds) rules.
Proof.
  induction 1 as [|a b ds rules X F IH]; cbn [map]; constructor; [|exact IH]. destruct X as (A & _ & W & M & _). repeat split; assumption.
Qed.
Lemma told_ignoring : forall V I fuel h srt (ds : list (data_rule V)) rules kw wild mp ret blocked e, extensional_sort srt -> Forall2 ignores_data ds rules ->
  told_scan I fuel h srt ds kw wild mp ret blocked e =
  scan I fuel h srt {| sc_rules := rules; sc_kw_paths := kw; sc_wild := wild; sc_multipass := mp; sc_return_matches := ret |} blocked e.
Proof.
  intros V I fuel h srt ds rules kw wild mp ret blocked e X F. unfold told_scan, scan, sc_tree. cbn [sc_rules sc_wild].
  rewrite (ignoring_scopes V ds rules F), (pairs_length _ _ _ _ _ F).
  set (s := {| sc_rules := rules; sc_kw_paths := kw; sc_wild := wild; sc_multipass := mp; sc_return_matches := ret |}).
  apply alike_eq.
  apply (alike_bind _ _ _ _ (fun a b => fst (fst a) = fst b /\ snd a = snd b)).
  - apply (alike_combinations (scan_state (ev_enc I) * list (call V)) (scan_state (ev_enc I)) (fun a b => fst a = b)); [|reflexivity].
    intros p c idx excl [[l x] ue] [l' x'] Q. cbn [fst] in Q. inversion Q; subst l' x'. unfold told_content, visit_content. cbn [fst snd].
    apply (alike_bind _ _ _ _ (fun a b => fst (fst a) = b)).
    + apply (alike_foldM _ _ _ (fun (a : list (nat * nat * nat) * excluded_set * list (call V) * list (call V)) b => fst (fst a) = b)); [|reflexivity].
      intros [[[f1 x1] us] ue1] [f2 x2] i Q1. cbn [fst] in Q1. inversion Q1; subst f2 x2. unfold told_rule, visit_content_rule.
      destruct (existsb (Nat.eqb i) blocked); [reflexivity|]. cbn [s sc_rules sc_kw_paths fst snd]. pose proof (ignoring_nth V ds rules F i) as K.
      destruct (nth_error ds i) as [d|], (nth_error rules i) as [r|]; try contradiction; cbn [unwrap bind]; [|exact Logic.I].
      destruct K as (_ & _ & _ & _ & K). destruct (K fuel c p excl [] kw x1 (data_after us d) (config_in ds d) (cache_after ue1 d)) as (gd & ca & ->).
      destruct (rule_string_matches r fuel c p excl [] kw x1) as [[ms x2]| |]; cbn; reflexivity.
    + intros [[[f1 x1] us] ue1] [f2 x2] Q1. cbn [fst] in Q1. inversion Q1; subst f2 x2. destruct (attach_indices _ _); cbn; auto.
  - intros [[[l x] ue] log] [[l' x'] log'] (Q & L). cbn [fst snd] in *. inversion Q; subst.
    rewrite (all_view (map dr_plain ds) rules kw wild mp ret kw wild (ignoring_views V ds rules F) I h srt _ X).
    fold s. destruct (process_all I h srt s x' (ev_visited I e log') l'); reflexivity.
Qed.
Lemma regex_ignores : forall V (u : V) a s v r, ignores_data (regex_data_rule u a s v r) (regex_compiled a s v r).
Proof.
  intros V u a s v r. repeat (split; [reflexivity|]). intros fuel content p excl tp kw x gd gc ca. exists gd, ca.
  cbn [regex_data_rule dr_string_matches regex_compiled rule_string_matches].
  destruct (regex_string_matches fuel r content p (excl (rr_index r)) tp kw x) as [[ms x']| |]; reflexivity.
Qed.
