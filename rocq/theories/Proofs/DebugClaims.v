(* Builds with debug assertions (C97): proofs of the statements of Thm/Debug.v *)
From Coq Require Import Lia.
From Verif Require Import Proofs.Text Proofs.TruePos Proofs.Search Proofs.KeywordSearch Proofs.Regex Proofs.GroupData.
From Verif Require Export Proofs.RegexScan Proofs.RedactionClaims Spec.Debug Spec.GroupData Examples.Keywords.

Lemma slice_asserted : forall A s a b (f : str -> outcome A),
  (let* _ := debug_assert (is_char_boundary s a) in
   let* _ := debug_assert (is_char_boundary s b) in
   let* t := slice s a b in f t) = (let* t := slice s a b in f t).
Proof.
  intros A s a b f. destruct (slice s a b) as [t| |] eqn:E.
  - apply slice_part in E as (p & q & -> & Ha & Hb).
    assert (is_char_boundary (p ++ t ++ q) a = true) as ->
      by (apply is_char_boundary_spec; exists p, (t ++ q); auto).
    assert (is_char_boundary (p ++ t ++ q) b = true) as ->
      by (apply is_char_boundary_spec; exists (p ++ t), q; rewrite <- app_assoc; auto).
    reflexivity.
  - destruct (is_char_boundary s a); [|reflexivity]. destruct (is_char_boundary s b); reflexivity.
  - exfalso. unfold slice, slice_to, slice_from in E. destruct (a <=? b); [|discriminate].
    destruct (split_at s b) as [[p q]|]; cbn in E; [|discriminate].
    destruct (split_at p a) as [[p' q']|]; discriminate.
Qed.

Lemma apply_asserted : forall E h sc p content delta (cdelta : enc_shift E) (m : internal_match E),
  apply_match_actions_for_string_debug h sc p content delta cdelta m =
  apply_match_actions_for_string h sc p content delta cdelta m.
Proof.
  intros E h sc p content delta cdelta m.
  unfold apply_match_actions_for_string_debug, apply_match_actions_for_string.
  destruct (unwrap (nth_error (sc_rules sc) (im_rule m))) as [r| |]; cbn [bind]; try reflexivity.
  destruct (as_usize (Z.of_nat (enc_get_index E (im_cstart m) (im_start m)) + enc_get_shift E cdelta delta)) as [cs| |];
    cbn [bind]; try reflexivity.
  destruct (as_usize (Z.of_nat (im_start m) + delta)) as [a| |]; cbn [bind];
  [destruct (as_usize (Z.of_nat (im_end m) + delta)) as [b| |]; cbn [bind]|..]; try reflexivity.
  rewrite !slice_asserted. reflexivity.
Qed.

Lemma loop_asserted : forall E h sc p (ms : list (internal_match E)) content delta cdelta,
  apply_match_actions_loop_debug h sc p content delta cdelta ms =
  apply_match_actions_loop h sc p content delta cdelta ms.
Proof.
  intros E h sc p ms. induction ms as [|m ms IH]; intros content delta cdelta; [reflexivity|].
  cbn [apply_match_actions_loop apply_match_actions_loop_debug]. rewrite apply_asserted.
  destruct (apply_match_actions_for_string h sc p content delta cdelta m) as [[[[c d] cd] o]| |];
    cbn [bind]; try reflexivity.
  rewrite IH. reflexivity.
Qed.

Lemma process_asserted : forall I h srt sc x l e,
  process_all_debug I h srt sc x e l = process_all I h srt sc x e l.
Proof.
  intros I h srt sc x l. induction l as [|[p ms] l IH]; intros e; [reflexivity|].
  cbn [process_all process_all_debug]. destruct (ev_get I e p) as [c| |]; cbn [bind]; try reflexivity.
  unfold process_string_debug, apply_match_actions_debug, process_string, apply_match_actions.
  destruct (if sc_multipass sc then multipass_retain (sc_rules sc) x c ms else Ret ms) as [ms1| |];
    cbn [bind]; try reflexivity.
  destruct (sort_and_remove_overlapping_rules srt (sc_rules sc) ms1) as [ms2| |]; cbn [bind]; try reflexivity.
  rewrite loop_asserted.
  destruct (apply_match_actions_loop h sc p c 0 (enc_zero_shift (ev_enc I)) ms2) as [[c' os]| |]; cbn; try reflexivity.
  rewrite IH. reflexivity.
Qed.

Section Apart.
Variable r : regex_rule.
Variable at_ : str -> nat -> option nat.
Hypothesis Hlm : leftmost (rr_find r) at_.
Variable ik : included_keywords.
Variable occ : str -> nat -> nat -> Prop.
Hypothesis Hea : earliest (ik_find ik) occ.
Hypothesis Hla : 1 <= ik_look_ahead ik.

Lemma within_asserted : forall s k a n, boundary s k -> boundary s a -> k < a ->
  is_index_within_prefix_debug s k a n = is_index_within_prefix s k a n.
Proof.
  intros s k a n Hk Ha Hlt. unfold is_index_within_prefix_debug, debug_assert.
  apply is_char_boundary_spec in Hk, Ha. apply Nat.ltb_lt in Hlt. rewrite Hk, Ha, Hlt. reflexivity.
Qed.

Lemma kw_inner_asserted : forall s k excl, boundary s k -> (forall b, ~ true_positive r at_ false s k b) ->
  forall fuel start kstart x, nbytes s + 1 - start <= fuel -> boundary s start -> k <= start ->
  kw_inner_debug fuel r ik s excl k start kstart x = kw_inner fuel r ik s excl k start kstart x.
Proof.
  intros s k excl Hk Hno. induction fuel as [|fuel IH]; intros start kstart x Hf Hst Hks; [reflexivity|].
  cbn [kw_inner kw_inner_debug]. destruct excl.
  - destruct (tp_next_excluded r at_ Hlm false s (no_check r at_ s) _ start (Nat.le_refl _) Hst)
      as (st & ms & ts & _ & _ & Hrun).
    rewrite Hrun by exact Hf. reflexivity.
  - destruct (tp_next_included r at_ Hlm false s (no_check r at_ s) _ start (Nat.le_refl _) Hst)
      as (om & st & Hrun & Hom).
    rewrite Hrun by exact Hf. cbn [bind]. destruct om as [[a b]|]; [|reflexivity].
    destruct Hom as (-> & Hsa & Htp & _). destruct (tp_range r at_ Hlm _ _ _ _ Htp) as (Hab & Ha & Hb & Hle).
    assert (a <> k) by (intros ->; exact (Hno b Htp)). cbn [fst].
    rewrite within_asserted by (auto; lia).
    destruct (is_index_within_prefix s k a (ik_look_ahead ik)) as [[|]| |]; cbn [bind]; try reflexivity.
    rewrite IH by (auto; lia). reflexivity.
Qed.

Lemma kw_outer_asserted : forall s excl, (forall k ke b, occ s k ke -> ~ true_positive r at_ false s k b) ->
  forall fuel i x, nbytes s + 1 - i <= fuel -> boundary s i ->
  kw_outer_debug fuel r ik s excl i x = kw_outer fuel r ik s excl i x.
Proof.
  intros s excl Hno. induction fuel as [|fuel IH]; intros i x Hf Hi; [reflexivity|].
  cbn [kw_outer kw_outer_debug]. pose proof (keyword_next_spec ik occ Hea Hla s i Hi) as Hkn.
  destruct (ik_find ik s i) as [[k ke]|] eqn:Ef; [|rewrite Hkn; reflexivity].
  destruct Hkn as (i1 & -> & Hki & Hbi1 & _). cbn [bind].
  destruct (ea_some _ _ Hea _ _ _ _ Hi Ef) as (Hik & Hocc & _).
  destruct (ea_range _ _ Hea _ _ _ Hocc) as (_ & Hbk & _).
  rewrite kw_inner_asserted; [|exact Hbk|intros b; apply (Hno k ke b Hocc)|lia|exact Hbk|lia].
  destruct excl.
  - cbn [kw_inner].
    destruct (tp_next_excluded r at_ Hlm false s (no_check r at_ s) _ k (Nat.le_refl _) Hbk)
      as (st & ms & ts & _ & _ & Hrun).
    rewrite Hrun by lia. reflexivity.
  - destruct (kw_inner_included r at_ Hlm ik Hla s k Hbk _ k (Nat.le_refl _) Hbk (Nat.le_refl _))
      as (ms & rest & cur & Hch & _ & _ & Hcur & Hinner).
    rewrite Hinner by lia. cbn [bind]. destruct rest as [|[a0 b0] rest]; [reflexivity|].
    assert (Hbcur : boundary s cur).
    { destruct Hcur as [->|[(b' & Hin)|(a & b & r' & E & Hb & _)]].
      - apply boundary_zero.
      - destruct (chain_in r at_ Hlm false s _ k cur b' Hch) as [_ Htp]; [apply in_or_app; left; exact Hin|].
        destruct (tp_range r at_ Hlm _ _ _ _ Htp) as (_ & H & _). exact H.
      - exact Hb. }
    rewrite IH; [reflexivity|lia|]. apply boundary_max; assumption.
Qed.
End Apart.

Lemma rule_asserted : forall r at_ occ c, regex_ok r at_ occ -> ~ keyword_begins_match r at_ occ c ->
  forall fuel p excl tp kw x, nbytes c + 2 <= fuel ->
  regex_string_matches_debug fuel r c p excl tp kw x = regex_string_matches fuel r c p excl tp kw x.
Proof.
  intros r at_ occ c Hok Hno fuel p excl tp kw x Hf. unfold regex_string_matches_debug, regex_string_matches.
  destruct (rr_included r) as [ik|] eqn:Ei; [|reflexivity].
  unfold matches_with_included_keywords_debug, matches_with_included_keywords.
  destruct (existsb (Nat.eqb (rr_index r)) tp); [reflexivity|].
  destruct (ro_keywords _ _ _ Hok ik Ei) as [Hea Hla].
  rewrite (kw_outer_asserted r at_ (ro_find _ _ _ Hok) ik occ Hea Hla c excl); [reflexivity| |lia|apply boundary_zero].
  intros k ke b Ho Ht. apply Hno. split; [congruence|]. eauto.
Qed.

Lemma debug_similar : forall qs sc scd, debug_build qs sc scd -> similar sc scd.
Proof.
  intros qs sc scd [H0 H1 H2 H3 H4 H5]. split; auto. unfold same_rules. rewrite H0, H1.
  clear. induction qs as [|[[[a s] v] r] qs IH]; constructor; cbn; auto.
Qed.

Lemma apart_scanner : forall qs sc scd strs, debug_build qs sc scd -> keywords_apart qs strs -> regex_scanner sc strs.
Proof.
  intros qs sc scd strs D K i r Hr. rewrite (db_release _ _ _ D), nth_error_map in Hr.
  destruct (nth_error qs i) as [[[[a s] v] rr]|] eqn:E; [|discriminate]. injection Hr as <-.
  destruct (K i a s v rr E) as (Hi & Ha & at_ & occ & Hok & Hstr). exists rr, at_, occ. split.
  - exists a, s, v. rewrite (db_release _ _ _ D), nth_error_map, E. auto.
  - intros p c Hin. exact (proj1 (Hstr p c Hin)).
Qed.

Lemma debug_meets : forall qs sc scd strs, debug_build qs sc scd -> keywords_apart qs strs ->
  scanner_meets scd (finders sc) strs.
Proof.
  intros qs sc scd strs D K i rd Hrd.
  pose proof (regex_scanner_meets sc strs (apart_scanner _ _ _ _ D K)) as M.
  rewrite (db_debug _ _ _ D), nth_error_map in Hrd.
  destruct (nth_error qs i) as [[[[a s] v] rr]|] eqn:E; [|discriminate]. injection Hrd as <-.
  assert (Hn : nth_error (sc_rules sc) i = Some (regex_compiled a s v rr))
    by (rewrite (db_release _ _ _ D), nth_error_map, E; reflexivity).
  destruct (K i a s v rr E) as (Hi & Ha & at_ & occ & Hok & Hstr).
  specialize (M i _ Hn). destruct M as [M1 M2 M3 M4 M5]. split; auto.
  intros fuel content p excl kw x Hd Hf. rewrite <- (M2 fuel content p excl kw x Hd Hf).
  destruct Hd as (q & Hin). destruct (Hstr q content Hin) as [_ Hno].
  cbn [debug_rule rule_string_matches regex_compiled regex_compiled_debug].
  exact (rule_asserted rr at_ occ content Hok Hno fuel p (excl (rr_index rr)) [] kw x Hf).
Qed.

Lemma debug_setting : forall qs I w srt sc scd e strs holds fuel, debug_build qs sc scd -> keywords_apart qs strs ->
  scan_setting I w srt sc (finders sc) e strs holds fuel -> scan_setting I w srt scd (finders sc) e strs holds fuel.
Proof.
  intros qs I w srt sc scd e strs holds fuel D K [S1 S2 S3 S4 S5 S6]. split; auto. eapply debug_meets; eauto.
Qed.

Lemma scan_asserted : forall I fuel h srt sc blocked e,
  scan_debug I fuel h srt sc blocked e = scan I fuel h srt sc blocked e.
Proof.
  intros. unfold scan_debug, scan.
  destruct (visit_string_rule_combinations (sc_tree sc) (length (sc_rules sc)) (sc_wild sc) (ev_ops I e)
    (visit_content fuel srt sc blocked) ([], [])) as [[[found x] log]| |]; cbn [bind]; try reflexivity.
  apply process_asserted.
Qed.

(* one rule: "key" and three digits, after the keyword "key" *)
Definition dbg_rule (word : str) : rule_parts :=
  (ActRedact (text "[R]"), everywhere, None,
   keyword_rule 0 (fun p q => if str_eqb (firstn 3 q) (text "key") then Some 6 else None) [word] 10).
Definition dbg_scanner (r : rule) : scanner := {|
  sc_rules := [r]; sc_kw_paths := false; sc_wild := false; sc_multipass := false; sc_return_matches := true |}.

Lemma c97_refuted_lemma :
  exists qs sc scd s,
  debug_build qs sc scd /\ regex_scanner sc [([], s)] /\
  (exists e' o, scan string_event 100 ex_hash isort sc [] s = Ret (e', [o])) /\
  scan_debug string_event 100 ex_hash isort scd [] s = Panic.
Proof.
  exists [dbg_rule (text "key")], (dbg_scanner (release_rule (dbg_rule (text "key")))),
    (dbg_scanner (debug_rule (dbg_rule (text "key")))), (text "my key123 ").
  split; [|split; [|split]].
  - split; reflexivity.
  - intros i r H. destruct i as [|[|i]]; try discriminate. injection H as <-.
    eexists _, _, _. split.
    + eexists _, _, _. split; [reflexivity|]. split; [reflexivity|]. split; [reflexivity|]. apply keyword_ok. lia.
    + intros p c _ H. discriminate H.
  - eexists _, _. vm_compute. reflexivity.
  - vm_compute. reflexivity.
Qed.

Lemma c97_panics_lemma :
  forall rr at_ occ ik, regex_ok rr at_ occ -> rr_included rr = Some ik ->
  forall c k ke b, ik_find ik c 0 = Some (k, ke) -> true_positive rr at_ false c k b ->
  forall fuel p kw x, nbytes c + 2 <= fuel ->
  regex_string_matches_debug fuel rr c p false [] kw x = Panic.
Proof.
  intros rr at_ occ ik Hok Hi c k ke b Hf Htp fuel p kw x Hfu.
  destruct (ro_keywords _ _ _ Hok ik Hi) as [Hea Hla]. pose proof (ro_find _ _ _ Hok) as Hlm.
  unfold regex_string_matches_debug. rewrite Hi. unfold matches_with_included_keywords_debug. cbn [existsb].
  pose proof (keyword_next_spec ik occ Hea Hla c 0 (boundary_zero c)) as Hkn. rewrite Hf in Hkn.
  destruct Hkn as (i1 & Hkn & _).
  destruct (tp_range rr at_ Hlm _ _ _ _ Htp) as (_ & Hbk & _).
  destruct fuel as [|fuel]; [lia|]. cbn [kw_outer_debug]. rewrite Hkn. cbn [bind kw_inner_debug].
  destruct (tp_next_included rr at_ Hlm false c (no_check rr at_ c) _ k (Nat.le_refl _) Hbk) as (om & st & Hrun & Hom).
  rewrite Hrun by lia. cbn [bind]. destruct om as [[a b']|].
  - destruct Hom as (_ & Hka & _ & Hmin).
    assert (a = k) as ->.
    { destruct (le_lt_dec a k); [lia|]. exfalso. apply (Hmin k b); [lia|exact Htp]. }
    cbn [fst]. unfold is_index_within_prefix_debug. rewrite Nat.ltb_irrefl. reflexivity.
  - exfalso. exact (Hom k b (Nat.le_refl _) Htp).
Qed.

Lemma c97_apart_lemma :
  forall qs sc scd, debug_build qs sc scd ->
  forall I w srt e strs holds fuel, keywords_apart qs strs ->
  scan_setting I w srt sc (finders sc) e strs holds fuel ->
  forall h blocked, exists e1 e2 outs,
    scan I fuel h srt sc blocked e = Ret (e1, outs) /\
    scan_debug I fuel h srt scd blocked e = Ret (e2, outs) /\
    exists l, holds e1 l /\ holds e2 l.
Proof.
  intros qs sc scd D I w srt e strs holds fuel K S h blocked.
  pose proof (debug_setting _ _ _ _ _ _ _ _ _ _ D K S) as S2.
  destruct (scan_returns _ _ _ _ _ _ _ _ _ S h blocked) as (e1 & o1 & H1).
  destruct (scan_returns _ _ _ _ _ _ _ _ _ S2 h blocked) as (e2 & o2 & H2).
  destruct (c07_discovery_order_irrelevant_lemma _ _ _ _ _ _ _ _ _ _ _ _ _ S S2 (debug_similar _ _ _ D)
    (fun i => fun c p ex kw => conj (fun ab => iff_refl _) (fun t => iff_refl _)) _ _ _ _ _ _ H1 H2) as (-> & l & L1 & L2).
  exists e1, e2, o2. rewrite scan_asserted. eauto.
Qed.

Lemma c97_scanner_assertions_lemma :
  forall I fuel h srt sc blocked e,
  scan_debug I fuel h srt sc blocked e = scan I fuel h srt sc blocked e.
Proof.
  exact scan_asserted.
Qed.

(* -- a debug build does as the release build does, or panics for the reason [P] -- *)
Section Refines.
Variable P : Prop.
Definition refines {A} (d r : outcome A) : Prop := d = r \/ (d = Panic /\ P).
Lemma refines_refl : forall A (o : outcome A), refines o o.
Proof. intros A o. left. reflexivity. Qed.
Lemma refines_bind : forall A B (d r : outcome A) (f g : A -> outcome B), refines d r -> (forall a, refines (f a) (g a)) ->
  refines (bind d f) (bind r g).
Proof.
  intros A B d r f g [->|(-> & Q)] H; [|right; split; [reflexivity|exact Q]].
  destruct r as [a| |]; cbn [bind]; [apply H|left; reflexivity|left; reflexivity].
Qed.
Lemma refines_foldM : forall A S (f g : S -> A -> outcome S) l, (forall s x, In x l -> refines (f s x) (g s x)) ->
  forall s, refines (foldM f l s) (foldM g l s).
Proof.
  intros A S f g l. induction l as [|x l IH]; intros H s; cbn [foldM]; [apply refines_refl|].
  apply refines_bind; [apply H; left; reflexivity|]. intros s'. apply IH. intros s2 y Hy. apply H. right. exact Hy.
Qed.
Lemma refines_combinations : forall S t n wild ops (cv cv' : content_visitor S) s,
  (forall p c rules excl st, In (OpString c) ops -> refines (cv p c rules excl st) (cv' p c rules excl st)) ->
  refines (visit_string_rule_combinations t n wild ops cv s) (visit_string_rule_combinations t n wild ops cv' s).
Proof.
  intros S t n wild ops cv cv' s H. unfold visit_string_rule_combinations.
  apply refines_bind; [|intros [[v s'] log]; apply refines_refl].
  apply refines_foldM. intros [[v st] log] op Hop. unfold run_op. destruct op as [seg| |c]; try apply refines_refl.
  apply refines_bind; [|intros [[v' s'] mm]; apply refines_refl].
  unfold visit_string. apply refines_bind; [apply refines_refl|]. intros [rules b].
  apply refines_bind; [apply H, Hop|]. intros [s' mm]. apply refines_refl.
Qed.

Variables (qs : list rule_parts) (sc scd : scanner).
Hypothesis D : debug_build qs sc scd.
Lemma debug_tree : sc_tree scd = sc_tree sc.
Proof.
  unfold sc_tree. rewrite (db_release _ _ _ D), (db_debug _ _ _ D). f_equal. rewrite !map_map. apply map_ext. intros [[[a s] v] r]. reflexivity.
Qed.
Lemma debug_length : length (sc_rules scd) = length (sc_rules sc).
Proof. rewrite (db_release _ _ _ D), (db_debug _ _ _ D), !map_length. reflexivity. Qed.
Lemma debug_process : forall I h srt x l e, extensional_sort srt -> process_all I h srt scd x e l = process_all I h srt sc x e l.
Proof.
  intros I h srt x l e X. destruct D as [D0 D1 D2 D3 D4 D5]. destruct sc as [r1 k1 w1 m1 t1], scd as [r2 k2 w2 m2 t2].
  cbn [sc_rules sc_kw_paths sc_wild sc_multipass sc_return_matches] in *. subst. apply all_view; [|exact X].
  clear. induction qs as [|[[[a s] v] r] l IH]; cbn [map]; constructor; [repeat split|exact IH].
Qed.
Lemma debug_scan : forall I fuel h srt blocked e, extensional_sort srt ->
  (forall i a s v rr p c excl kw x, nth_error qs i = Some (a, s, v, rr) -> ~ In i blocked -> In (OpString c) (ev_ops I e) ->
    refines (regex_string_matches_debug fuel rr c p excl [] kw x) (regex_string_matches fuel rr c p excl [] kw x)) ->
  refines (scan_debug I fuel h srt scd blocked e) (scan I fuel h srt sc blocked e).
Proof.
  intros I fuel h srt blocked e X H. rewrite scan_asserted. unfold scan. rewrite debug_tree, debug_length, <- (db_wild _ _ _ D).
  apply refines_bind; [|intros [[found x] log]; rewrite debug_process by exact X; apply refines_refl].
  apply refines_combinations. intros p c rules excl st Hc. unfold visit_content.
  apply refines_bind; [|intros [ms x']; apply refines_refl].
  apply refines_foldM. intros st' i _. unfold visit_content_rule.
  destruct (existsb (Nat.eqb i) blocked) eqn:Eb; [apply refines_refl|].
  rewrite (db_release _ _ _ D), (db_debug _ _ _ D), !nth_error_map, <- (db_kw _ _ _ D).
  destruct (nth_error qs i) as [[[[a s] v] rr]|] eqn:E; cbn [option_map unwrap bind]; [|apply refines_refl].
  apply refines_bind; [|intros [ms x']; apply refines_refl].
  apply (H i a s v rr); [exact E| |exact Hc].
  intros Hin. assert (existsb (Nat.eqb i) blocked = true) as K by (apply existsb_exists; exists i; split; [exact Hin|apply Nat.eqb_refl]). congruence.
Qed.
End Refines.

Lemma within_refines : forall s k a n, refines True (is_index_within_prefix_debug s k a n) (is_index_within_prefix s k a n).
Proof.
  intros s k a n. unfold is_index_within_prefix_debug, debug_assert.
  destruct (k <? a); cbn [bind]; [|right; auto]. destruct (is_char_boundary s k); cbn [bind]; [|right; auto].
  destruct (is_char_boundary s a); cbn [bind]; [left; reflexivity|right; auto].
Qed.
Lemma inner_refines : forall r ik s excl k fuel start kstart x,
  refines True (kw_inner_debug fuel r ik s excl k start kstart x) (kw_inner fuel r ik s excl k start kstart x).
Proof.
  intros r ik s excl k. induction fuel as [|fuel IH]; intros start kstart x; [apply refines_refl|].
  cbn [kw_inner kw_inner_debug]. apply refines_bind; [apply refines_refl|]. intros [[[m|] st] x']; [|apply refines_refl].
  apply refines_bind; [apply within_refines|]. intros [|]; [|apply refines_refl].
  apply refines_bind; [apply IH|]. intros [[[c ms] ks] x'']. apply refines_refl.
Qed.
Lemma outer_refines : forall r ik s excl fuel kstart x,
  refines True (kw_outer_debug fuel r ik s excl kstart x) (kw_outer fuel r ik s excl kstart x).
Proof.
  intros r ik s excl. induction fuel as [|fuel IH]; intros kstart x; [apply refines_refl|].
  cbn [kw_outer kw_outer_debug]. apply refines_bind; [apply refines_refl|]. intros [[k ks]|]; [|apply refines_refl].
  apply refines_bind; [apply inner_refines|]. intros [[[c ms] ks'] x']. destruct c; [|apply refines_refl].
  apply refines_bind; [apply IH|]. intros rest. apply refines_refl.
Qed.
Lemma matches_refines : forall (P : Prop) fuel r c p excl kw x,
  (forall ik, rr_included r = Some ik -> refines P (kw_outer_debug fuel r ik c excl 0 x) (kw_outer fuel r ik c excl 0 x)) ->
  refines P (regex_string_matches_debug fuel r c p excl [] kw x) (regex_string_matches fuel r c p excl [] kw x).
Proof.
  intros P fuel r c p excl kw x H. unfold regex_string_matches_debug, regex_string_matches.
  destruct (rr_included r) as [ik|] eqn:Ei; [|apply refines_refl].
  unfold matches_with_included_keywords_debug, matches_with_included_keywords. cbn [existsb].
  apply refines_bind; [apply H; reflexivity|]. intros [ms x1]. apply refines_refl.
Qed.

Lemma c97_refines_lemma :
  forall qs sc scd, debug_build qs sc scd ->
  forall I fuel h srt blocked e, extensional_sort srt ->
  scan_debug I fuel h srt scd blocked e = scan I fuel h srt sc blocked e \/
  scan_debug I fuel h srt scd blocked e = Panic.
Proof.
  intros qs sc scd D I fuel h srt blocked e X.
  destruct (debug_scan True qs sc scd D I fuel h srt blocked e X) as [K|(K & _)]; auto.
  intros i a s v rr p c excl kw x _ _ _. apply matches_refines. intros ik _. apply outer_refines.
Qed.

Section Cause.
Variable r : regex_rule.
Variable at_ : str -> nat -> option nat.
Hypothesis Hlm : leftmost (rr_find r) at_.
Variable ik : included_keywords.
Variable occ : str -> nat -> nat -> Prop.
Hypothesis Hea : earliest (ik_find ik) occ.
Hypothesis Hla : 1 <= ik_look_ahead ik.
Lemma inner_cause : forall (P : Prop) s k excl, boundary s k -> (forall b, true_positive r at_ false s k b -> P) ->
  forall fuel start kstart x, nbytes s + 1 - start <= fuel -> boundary s start -> k <= start ->
  refines P (kw_inner_debug fuel r ik s excl k start kstart x) (kw_inner fuel r ik s excl k start kstart x).
Proof.
  intros P s k excl Hk HP. induction fuel as [|fuel IH]; intros start kstart x Hf Hst Hks; [apply refines_refl|].
  cbn [kw_inner kw_inner_debug]. destruct excl.
  - destruct (tp_next_excluded r at_ Hlm false s (no_check r at_ s) _ start (Nat.le_refl _) Hst)
      as (st & ms & ts & _ & _ & Hrun).
    rewrite Hrun by exact Hf. apply refines_refl.
  - destruct (tp_next_included r at_ Hlm false s (no_check r at_ s) _ start (Nat.le_refl _) Hst)
      as (om & st & Hrun & Hom).
    rewrite Hrun by exact Hf. cbn [bind]. destruct om as [[a b]|]; [|apply refines_refl].
    destruct Hom as (-> & Hsa & Htp & _). destruct (tp_range r at_ Hlm _ _ _ _ Htp) as (Hab & Ha & Hb & Hle). cbn [fst].
    destruct (Nat.eq_dec a k) as [->|Hne].
    { right. split; [|exact (HP b Htp)]. unfold is_index_within_prefix_debug. rewrite Nat.ltb_irrefl. reflexivity. }
    rewrite within_asserted by (auto; lia).
    destruct (is_index_within_prefix s k a (ik_look_ahead ik)) as [[|]| |]; cbn [bind]; try apply refines_refl.
    apply refines_bind; [apply IH; auto; lia|]. intros [[[c ms] ks] x'']. apply refines_refl.
Qed.
Lemma outer_cause : forall (P : Prop) s excl, (forall k ke b, occ s k ke -> true_positive r at_ false s k b -> P) ->
  forall fuel i x, nbytes s + 1 - i <= fuel -> boundary s i ->
  refines P (kw_outer_debug fuel r ik s excl i x) (kw_outer fuel r ik s excl i x).
Proof.
  intros P s excl HP. induction fuel as [|fuel IH]; intros i x Hf Hi; [apply refines_refl|].
  cbn [kw_outer kw_outer_debug]. pose proof (keyword_next_spec ik occ Hea Hla s i Hi) as Hkn.
  destruct (ik_find ik s i) as [[k ke]|] eqn:Ef; [|rewrite Hkn; apply refines_refl].
  destruct Hkn as (i1 & -> & Hki & Hbi1 & _). cbn [bind].
  destruct (ea_some _ _ Hea _ _ _ _ Hi Ef) as (Hik & Hocc & _).
  destruct (ea_range _ _ Hea _ _ _ Hocc) as (_ & Hbk & _).
  destruct (inner_cause P s k excl Hbk (fun b => HP k ke b Hocc) (S fuel) k i1 x ltac:(lia) Hbk (Nat.le_refl _)) as [->|(-> & Q)];
    [|right; split; [reflexivity|exact Q]].
  destruct excl.
  - cbn [kw_inner].
    destruct (tp_next_excluded r at_ Hlm false s (no_check r at_ s) _ k (Nat.le_refl _) Hbk)
      as (st & ms & ts & _ & _ & Hrun).
    rewrite Hrun by lia. apply refines_refl.
  - destruct (kw_inner_included r at_ Hlm ik Hla s k Hbk _ k (Nat.le_refl _) Hbk (Nat.le_refl _))
      as (ms & rest & cur & Hch & _ & _ & Hcur & Hinner).
    rewrite Hinner by lia. cbn [bind]. destruct rest as [|[a0 b0] rest]; [apply refines_refl|].
    assert (Hbcur : boundary s cur).
    { destruct Hcur as [->|[(b' & Hin)|(a & b & r' & E & Hb & _)]].
      - apply boundary_zero.
      - destruct (chain_in r at_ Hlm false s _ k cur b' Hch) as [_ Htp]; [apply in_or_app; left; exact Hin|].
        destruct (tp_range r at_ Hlm _ _ _ _ Htp) as (_ & H & _). exact H.
      - exact Hb. }
    apply refines_bind; [|intros rr; apply refines_refl]. apply IH; [lia|]. apply boundary_max; assumption.
Qed.
End Cause.

Lemma c97_cause_lemma :
  forall qs sc scd, debug_build qs sc scd ->
  forall ats occs, (forall i a s v rr, nth_error qs i = Some (a, s, v, rr) -> regex_ok rr (ats i) (occs i)) ->
  forall I fuel h srt blocked e, extensional_sort srt -> (forall c, In (OpString c) (ev_ops I e) -> nbytes c + 2 <= fuel) ->
  scan_debug I fuel h srt scd blocked e = scan I fuel h srt sc blocked e \/
  (scan_debug I fuel h srt scd blocked e = Panic /\
   exists i a s v rr c, nth_error qs i = Some (a, s, v, rr) /\ ~ In i blocked /\ In (OpString c) (ev_ops I e) /\
     keyword_begins_match rr (ats i) (occs i) c).
Proof.
  intros qs sc scd D ats occs Hok I fuel h srt blocked e X Hf.
  apply (debug_scan _ qs sc scd D I fuel h srt blocked e X).
  intros i a s v rr p c excl kw x Hq Hb Hc. apply matches_refines. intros ik Ei.
  pose proof (Hok i a s v rr Hq) as K. destruct (ro_keywords _ _ _ K ik Ei) as [Hea Hla].
  apply (outer_cause rr (ats i) (ro_find _ _ _ K) ik (occs i) Hea Hla); [|specialize (Hf c Hc); lia|apply boundary_zero].
  intros k ke b Ho Ht. exists i, a, s, v, rr, c. split; [exact Hq|]. split; [exact Hb|]. split; [exact Hc|]. split; [congruence|]. eauto.
Qed.

