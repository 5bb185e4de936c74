(* Collections, caches and long histories of the regex store *)
From Coq Require Import Lia ZifyN.
From Verif Require Import Proofs.Text.
From Verif Require Export Proofs.RegexStore.
Ltac Zify.zify_post_hook ::= Z.div_mod_to_equations.

(* ---- a collection ---- *)
(* during the collection that began in [p1] *)
Record collecting {R} (p1 p : process R) : Prop := {
  cg_todo : exists l todo, p_lock p = Some l /\ lk_phase l = Collecting todo /\
    forall q k w, indexed p q k -> stored p k w -> In q todo \/ live p1 (wr_regex w);
  cg_handles : incl (p_handles p) (p_handles p1)
}.
Lemma collecting_step : forall R (cs : R -> N) p1 a p p', consistent cs p -> collecting p1 p -> a <> AFinishGc ->
  perform cs a p = Some (Ret p') -> collecting p1 p' /\ ((forall n, a <> ADrop n) -> p_handles p' = p_handles p).
Proof.
  intros R cs p1 a p p' H ((l & todo & E1 & E2 & Hl) & Hh) Ha E. destruct a as [q f|n|n| | |n| |n m]; cbn [perform] in E.
  - rewrite E1 in E. discriminate.
  - rewrite E1 in E. discriminate.
  - rewrite E1 in E. destruct l as [q x ph]. cbn [lk_phase] in E2. subst ph. destruct (nth_error todo n) as [v|] eqn:Ev; [|discriminate].
    destruct (co_lock _ _ H _ _ E1 eq_refl) as (T1 & T2).
    assert (In v (map fst (rs_index (p_store p)))) as Hv by (apply T2; exact (nth_error_In _ _ Ev)).
    apply in_map_iff in Hv as ([v0 k] & E0 & Hv). cbn in E0. subst v0. unfold gc_visit in E.
    rewrite (assoc_complete _ _ _ (co_index _ _ H) Hv) in E. destruct (co_stored _ _ H _ _ Hv) as (w & Hw).
    rewrite (proj2 (slot_get_holds _ _ _ _) Hw) in E. cbn [unwrap bind] in E.
    destruct (alive_in (p_handles p) (wr_regex w)) eqn:Ea.
    + injection E as <-. split; [split; [|exact Hh]|reflexivity]. eexists _, (remove_nth n todo). split; [reflexivity|]. split; [reflexivity|].
      intros q' k' w' Hi Hs. destruct (Hl q' k' w' Hi Hs) as [K|K]; [|right; exact K].
      destruct (remove_nth_other _ _ _ q' v Ev K) as [->|K']; [|left; exact K']. right.
      pose proof (nodup_map_inj _ _ _ _ _ _ (co_index _ _ H) Hi Hv eq_refl) as Ek. injection Ek as ->.
      destruct (holds_same_slot _ _ _ _ _ _ Hs Hw eq_refl) as (_ & ->). apply alive_spec in Ea as (h & K1 & K2). exists h. split; [exact (Hh _ K1)|exact K2].
    + destruct (slot_remove_spec _ _ _ _ (co_free _ _ H) Hw) as (m' & Er & _ & _ & _ & Hst & _). rewrite Er in E. cbn [bind] in E. injection E as <-.
      split; [split; [|exact Hh]|reflexivity]. eexists _, (remove_nth n todo). split; [reflexivity|]. split; [reflexivity|].
      intros q' k' w' Hi Hs. apply remove_entry_in in Hi as (Hi & Hne). cbn [fst] in Hne. apply Hst in Hs as (Hs & _).
      destruct (Hl q' k' w' Hi Hs) as [K|K]; [|right; exact K]. left.
      destruct (remove_nth_other _ _ _ q' v Ev K) as [->|K']; [destruct (Hne eq_refl)|exact K'].
  - destruct (Ha eq_refl).
  - rewrite E1 in E. destruct l as [q x ph]. cbn [lk_phase] in E2. subst ph. discriminate.
  - destruct (nth_error (p_handles p) n) as [h|]; [|discriminate]. injection E as <-. split; [|intros K; destruct (K n eq_refl)].
    split; [eexists _, _; split; [exact E1|]; split; [exact E2|exact Hl]|]. intros h' K. apply Hh. exact (remove_nth_in _ _ _ _ K).
  - injection E as <-. split; [|reflexivity]. split; [eexists _, _; split; [exact E1|]; split; [exact E2|exact Hl]|exact Hh].
  - destruct (nth_error (p_handles p) n) as [h|]; [|discriminate]. destruct (nth_error (p_caches p) m) as [c|]; [|discriminate].
    destruct (entry_or_insert (h_key h) (h_regex h) c) as [[y c']| |]; try discriminate. injection E as <-. split; [|reflexivity].
    split; [eexists _, _; split; [exact E1|]; split; [exact E2|exact Hl]|exact Hh].
Qed.
Lemma collecting_run : forall R (cs : R -> N) p1 acts p p', consistent cs p -> collecting p1 p ->
  (forall a, In a acts -> a <> AFinishGc) -> run cs acts p = Some (Ret p') -> collecting p1 p' /\
  ((forall a, In a acts -> forall n, a <> ADrop n) -> p_handles p' = p_handles p).
Proof.
  intros R cs p1 acts. induction acts as [|a acts IH]; intros p p' H Hc Ha E; cbn [run] in E; [injection E as <-; auto|].
  destruct (perform cs a p) as [[p2| |]|] eqn:Ep; try discriminate.
  destruct (collecting_step _ _ _ _ _ _ H Hc (Ha a (or_introl eq_refl)) Ep) as (Hc2 & Hd).
  destruct (IH p2 p' (step_consistent _ _ _ _ _ H Ep) Hc2 (fun x Hx => Ha x (or_intror Hx)) E) as (K1 & K2). split; [exact K1|].
  intros K. rewrite K2 by (intros x Hx; apply K; right; exact Hx). apply Hd. apply K. left. reflexivity.
Qed.

(* ---- versions ---- *)
Definition versions_ok (slots : list (slot weak_regex)) (n : nat) : Prop :=
  forall i s, nth_error slots i = Some s ->
  match sl_value s with
  | Some _ => N.odd (sl_version s) = true /\ (sl_version s + 1 <= 2 * N.of_nat n)%N
  | None => N.odd (sl_version s) = false /\ (sl_version s <= 2 * N.of_nat n)%N
  end.
Definition cache_ok (slots : list (slot weak_regex)) (c : secondary_map nat) : Prop :=
  forall i v r, nth_error c i = Some (Some (v, r)) ->
  exists s, nth_error slots i = Some s /\ N.odd v = true /\ (v <= sl_version s)%N /\
    forall w, sl_value s = Some w -> v = sl_version s -> wr_regex w = r.

Lemma lor_1_even : forall v, N.odd v = false -> N.lor v 1 = (v + 1)%N.
Proof. intros [|[p|p|]] H; try discriminate; reflexivity. Qed.
Lemma odd_succ : forall v, N.odd (v + 1) = negb (N.odd v).
Proof. intros v. rewrite N.add_1_r, N.odd_succ, <- N.negb_odd. reflexivity. Qed.

Lemma versions_insert : forall w m k m' n, free_ok m -> slot_insert w m = (k, m') -> versions_ok (sm_slots m) n ->
  versions_ok (sm_slots m') (S n).
Proof.
  intros w m k m' n (F1 & F2) H Hv.
  assert (versions_ok (sm_slots m) (S n)) as Hv'.
  { intros i s Hs. specialize (Hv i s Hs). destruct (sl_value s); (split; [apply Hv|destruct Hv; lia]). }
  unfold slot_insert in H. destruct (sm_free m) as [|i free] eqn:Ef; injection H as <- <-; cbn [sm_slots].
  - intros j s Hs. destruct (Nat.lt_ge_cases j (length (sm_slots m))) as [L|L].
    + rewrite nth_error_app1 in Hs by exact L. exact (Hv' j s Hs).
    + rewrite nth_error_app2 in Hs by exact L. destruct (j - length (sm_slots m)) as [|[|d]]; cbn in Hs; try discriminate.
      injection Hs as <-. cbn. split; [reflexivity|lia].
  - destruct (F2 i (or_introl eq_refl)) as (s0 & Es & Ev). rewrite Es. intros j s Hs. rewrite nth_set_nth in Hs.
    destruct ((j =? i) && (j <? length (sm_slots m))) eqn:Ej; [|exact (Hv' j s Hs)]. injection Hs as <-. cbn [sl_value sl_version].
    specialize (Hv i s0 Es). rewrite Ev in Hv. destruct Hv as (V1 & V2). rewrite (lor_1_even _ V1), odd_succ, V1. split; [reflexivity|lia].
Qed.
Lemma cache_insert : forall w m k m' c n, free_ok m -> slot_insert w m = (k, m') -> versions_ok (sm_slots m) n ->
  cache_ok (sm_slots m) c -> cache_ok (sm_slots m') c.
Proof.
  intros w m k m' c n (F1 & F2) H Hv Hc i v r Hi. destruct (Hc i v r Hi) as (s & Es & V1 & V2 & V3).
  unfold slot_insert in H. destruct (sm_free m) as [|j free] eqn:Ef; injection H as <- <-; cbn [sm_slots].
  - exists s. split; [|auto]. rewrite nth_error_app1; [exact Es|]. apply nth_error_Some. congruence.
  - destruct (F2 j (or_introl eq_refl)) as (s0 & Es0 & Ev0). rewrite Es0. rewrite nth_set_nth.
    destruct ((i =? j) && (i <? length (sm_slots m))) eqn:Ej; [|exists s; auto].
    apply andb_true_iff in Ej as (Ej & _). apply Nat.eqb_eq in Ej. subst i. rewrite Es0 in Es. injection Es as ->.
    specialize (Hv j s Es0). rewrite Ev0 in Hv. destruct Hv as (P1 & _).
    eexists. split; [reflexivity|]. cbn [sl_version sl_value]. rewrite (lor_1_even _ P1). split; [exact V1|]. split; [lia|].
    intros w' _ E. lia.
Qed.
Lemma versions_remove : forall m k w m' n, free_ok m -> holds m k w -> slot_remove k m = (Some w, m') ->
  (N.of_nat n <= 1073741824)%N -> versions_ok (sm_slots m) n -> versions_ok (sm_slots m') n.
Proof.
  intros m k w m' n F H E Hn Hv. destruct (slot_remove_spec _ _ _ _ F H) as (m1 & E1 & _ & _ & _ & _ & (s & Es & Ev & Em)).
  rewrite E in E1. injection E1 as <-. rewrite Em. intros i s' Hs. rewrite nth_set_nth in Hs.
  destruct ((i =? sk_index k) && (i <? length (sm_slots m))) eqn:Ej; [|exact (Hv i s' Hs)]. injection Hs as <-. cbn [sl_version sl_value].
  specialize (Hv _ _ Es). rewrite Ev in Hv. destruct H as (s1 & K1 & K2 & _). rewrite Es in K1. injection K1 as <-. rewrite K2 in Hv.
  destruct Hv as (V1 & V2). unfold wrapping_u32, u32_max_plus_1. rewrite N.mod_small by lia. rewrite odd_succ, V1. split; [reflexivity|lia].
Qed.
Lemma cache_remove : forall m k w m' c n, free_ok m -> holds m k w -> slot_remove k m = (Some w, m') ->
  (N.of_nat n <= 1073741824)%N -> versions_ok (sm_slots m) n -> cache_ok (sm_slots m) c -> cache_ok (sm_slots m') c.
Proof.
  intros m k w m' c n F H E Hn Hv Hc i v r Hi. destruct (slot_remove_spec _ _ _ _ F H) as (m1 & E1 & _ & _ & _ & _ & (s & Es & Ev & Em)).
  rewrite E in E1. injection E1 as <-. rewrite Em. destruct (Hc i v r Hi) as (s' & Es' & V1 & V2 & V3). rewrite nth_set_nth.
  destruct ((i =? sk_index k) && (i <? length (sm_slots m))) eqn:Ej; [|exists s'; auto].
  apply andb_true_iff in Ej as (Ej & _). apply Nat.eqb_eq in Ej. subst i. rewrite Es in Es'. injection Es' as <-.
  specialize (Hv _ _ Es). rewrite Ev in Hv. destruct H as (s1 & K1 & K2 & _). rewrite Es in K1. injection K1 as <-. rewrite K2 in *.
  eexists. split; [reflexivity|]. cbn [sl_version sl_value]. unfold wrapping_u32, u32_max_plus_1. rewrite N.mod_small by lia.
  split; [exact V1|]. split; [lia|]. discriminate.
Qed.

Record caches_right {R} (p : process R) : Prop := {
  cr_versions : versions_ok (sm_slots (rs_keys (p_store p))) (length (p_heap p));
  cr_caches : forall c, In c (p_caches p) -> cache_ok (sm_slots (rs_keys (p_store p))) c;
  cr_uses : forall r c, In (r, c) (p_uses p) -> r = c
}.
Lemma caches_right_new : forall R, caches_right (@process_new R).
Proof.
  intros R. constructor.
  - intros i s Hs. destruct i as [|[|i]]; cbn in Hs; try discriminate. injection Hs as <-. cbn. split; [reflexivity|lia].
  - intros c [].
  - intros r c [].
Qed.

Lemma is_older_false : forall a b, (b <= a)%N -> (a - b < 2147483648)%N -> (a < 4294967296)%N -> is_older_version a b = false.
Proof.
  intros a b H1 H2 H3. unfold is_older_version, wrapping_u32, u32_max_plus_1. apply N.leb_gt.
  replace (a + 4294967296 - b)%N with ((a - b) + 1 * 4294967296)%N by lia. rewrite N.mod_add by discriminate. rewrite N.mod_small by lia. exact H2.
Qed.
Lemma nth_extended : forall A (m : list (option A)) n i y,
  nth_error (m ++ repeat None n) i = Some (Some y) -> nth_error m i = Some (Some y).
Proof.
  intros A m n i y H. destruct (Nat.lt_ge_cases i (length m)) as [L|L]; [rewrite nth_error_app1 in H by exact L; exact H|].
  rewrite nth_error_app2 in H by exact L. apply nth_error_In, repeat_spec in H. discriminate.
Qed.
Lemma entry_right : forall slots c k r s w n, nth_error slots (sk_index k) = Some s -> sl_version s = sk_version k ->
  sl_value s = Some w -> wr_regex w = r -> versions_ok slots n -> (N.of_nat n <= 1073741824)%N -> cache_ok slots c ->
  exists c', entry_or_insert k r c = Ret (r, c') /\ cache_ok slots c'.
Proof.
  intros slots c k r s w n E1 E2 E3 E4 Hv Hn Hc. unfold entry_or_insert. set (m := c ++ repeat None (S (sk_index k) - length c)).
  assert (cache_ok slots m) as Hm by (intros i v r' Hi; apply Hc; eapply nth_extended; exact Hi).
  pose proof (Hv _ _ E1) as Hs. rewrite E3, E2 in Hs. destruct Hs as (O & V).
  assert (cache_ok slots (set_nth (sk_index k) (Some (sk_version k, r)) m)) as Hset.
  { intros i v r' Hi. rewrite nth_set_nth in Hi. destruct ((i =? sk_index k) && (i <? length m)) eqn:Ei; [|exact (Hm i v r' Hi)].
    apply andb_true_iff in Ei as (Ei & _). apply Nat.eqb_eq in Ei. subst i. injection Hi as <- <-. exists s. split; [exact E1|]. split; [exact O|].
    split; [lia|]. intros w' Ew _. congruence. }
  destruct (nth_error m (sk_index k)) as [[[v r']|]|] eqn:Em.
  - destruct (Hm _ _ _ Em) as (s' & K1 & K2 & K3 & K4). rewrite E1 in K1. injection K1 as <-. rewrite E2 in K3, K4.
    destruct (N.eqb_spec (sk_version k) v) as [Ev|Ev].
    + exists m. split; [|exact Hm]. rewrite <- E4. rewrite (K4 w E3 (eq_sym Ev)). reflexivity.
    + rewrite is_older_false by lia. eexists. split; [reflexivity|exact Hset].
  - rewrite is_older_false by lia. eexists. split; [reflexivity|exact Hset].
  - rewrite is_older_false by lia. eexists. split; [reflexivity|exact Hset].
Qed.

Lemma heap_grows : forall R (cs : R -> N) a p p', perform cs a p = Some (Ret p') -> length (p_heap p) <= length (p_heap p').
Proof.
  intros R cs a p p' E. destruct a as [q f|n|n| | |n| |n m]; cbn [perform] in E.
  - destruct (p_lock p); [discriminate|]. destruct (store_get _ _ _) as [[r k]|]; [injection E as <-; apply le_n|].
    destruct (f q); injection E as <-; apply le_n.
  - destruct (p_lock p); [discriminate|]. destruct (nth_error (p_calls p) n) as [[q x]|]; [|discriminate]. injection E as <-. apply le_n.
  - destruct (p_lock p) as [[q x [todo|]]|]; try discriminate. destruct (nth_error todo n) as [v|]; [|discriminate].
    destruct (gc_visit _ _ _) as [[s d]| |]; try discriminate. injection E as <-. apply le_n.
  - destruct (p_lock p) as [[q x [[|? ?]|]]|]; try discriminate. injection E as <-. apply le_n.
  - destruct (p_lock p) as [[q x [todo|]]|]; try discriminate. destruct (store_insert _ _ _ _ _) as [[[[s [r k]] b] d]| |]; try discriminate.
    injection E as <-. cbn [p_heap]. destruct b; [rewrite app_length; cbn; lia|apply le_n].
  - destruct (nth_error (p_handles p) n); [|discriminate]. injection E as <-. apply le_n.
  - injection E as <-. apply le_n.
  - destruct (nth_error (p_handles p) n) as [h|]; [|discriminate]. destruct (nth_error (p_caches p) m) as [c|]; [|discriminate].
    destruct (entry_or_insert _ _ _) as [[y c']| |]; try discriminate. injection E as <-. apply le_n.
Qed.

Lemma use_right : forall R (cs : R -> N) n m p o, consistent cs p -> caches_right p -> (N.of_nat (length (p_heap p)) <= 1073741824)%N ->
  perform cs (AUse n m) p = Some o -> exists p' h, o = Ret p' /\ caches_right p' /\ nth_error (p_handles p) n = Some h /\
    p_uses p' = (h_regex h, h_regex h) :: p_uses p.
Proof.
  intros R cs n m p o H [V C U] Hn E. cbn [perform] in E. destruct (nth_error (p_handles p) n) as [h|] eqn:Eh; [|discriminate].
  destruct (nth_error (p_caches p) m) as [c|] eqn:Ec; [|discriminate]. destruct (co_handles _ _ H h (nth_error_In _ _ Eh)) as (_ & w & (s & K1 & K2 & K3) & Kr).
  destruct (entry_right _ c _ _ _ _ _ K1 K2 K3 Kr V Hn (C c (nth_error_In _ _ Ec))) as (c' & Ee & Hc'). rewrite Ee in E. cbn [bind] in E. injection E as <-.
  eexists _, h. split; [reflexivity|]. split; [|split; [reflexivity|reflexivity]]. constructor; cbn [with_caches p_store p_heap p_caches p_uses].
  - exact V.
  - intros c0 Hc0. apply In_nth_error in Hc0 as (i & Hi). rewrite nth_set_nth in Hi.
    destruct ((i =? m) && (i <? length (p_caches p))); [injection Hi as <-; exact Hc'|]. exact (C _ (nth_error_In _ _ Hi)).
  - intros r c0 [K|K]; [injection K as <- <-; reflexivity|exact (U _ _ K)].
Qed.
Lemma caches_right_step : forall R (cs : R -> N) a p p', consistent cs p -> caches_right p -> (N.of_nat (length (p_heap p')) <= 1073741824)%N ->
  perform cs a p = Some (Ret p') -> caches_right p'.
Proof.
  intros R cs a p p' H Hr Hn E. pose proof (heap_grows _ _ _ _ _ E) as Hg. pose proof Hr as [V C U]. destruct a as [q f|n|n| | |n| |n m].
  - cbn [perform] in E. destruct (p_lock p); [discriminate|]. destruct (store_get _ _ _) as [[r k]|]; [injection E as <-; constructor; assumption|].
    destruct (f q); injection E as <-; constructor; assumption.
  - cbn [perform] in E. destruct (p_lock p); [discriminate|]. destruct (nth_error (p_calls p) n) as [[q x]|]; [|discriminate]. injection E as <-. constructor; assumption.
  - cbn [perform] in E. destruct (p_lock p) as [[q x [todo|]]|]; try discriminate. destruct (nth_error todo n) as [v|]; [|discriminate].
    unfold gc_visit in E. destruct (assoc str_eqb v (rs_index (p_store p))) as [k|]; [|injection E as <-; constructor; assumption].
    destruct (slot_get k (rs_keys (p_store p))) as [w|] eqn:Eg; [|discriminate]. cbn [unwrap bind] in E.
    destruct (alive_in _ _); [injection E as <-; constructor; assumption|]. apply slot_get_holds in Eg.
    destruct (slot_remove_spec _ _ _ _ (co_free _ _ H) Eg) as (m' & Er & _). rewrite Er in E. cbn [bind] in E. injection E as <-.
    constructor; cbn [with_stats with_store p_store p_heap p_caches p_uses rs_keys].
    + exact (versions_remove _ _ _ _ _ (co_free _ _ H) Eg Er Hn V).
    + intros c Hc. exact (cache_remove _ _ _ _ _ _ (co_free _ _ H) Eg Er Hn V (C c Hc)).
    + exact U.
  - cbn [perform] in E. destruct (p_lock p) as [[q x [[|? ?]|]]|]; try discriminate. injection E as <-. constructor; assumption.
  - cbn [perform] in E. destruct (p_lock p) as [[q x [todo|]]|] eqn:El; try discriminate. unfold store_insert in E.
    destruct (store_get _ _ _) as [[r k]|] eqn:Eg; [injection E as <-; constructor; assumption|].
    destruct (slot_insert {| wr_regex := length (p_heap p); wr_cache_size := cs x |} (rs_keys (p_store p))) as [k keys] eqn:Ei.
    unfold index_insert in E. pose proof (versions_insert _ _ _ _ _ (co_free _ _ H) Ei V) as V'.
    assert (forall c, In c (p_caches p) -> cache_ok (sm_slots keys) c) as C' by (intros c Hc; exact (cache_insert _ _ _ _ _ _ (co_free _ _ H) Ei V (C c Hc))).
    destruct (slot_insert_spec _ _ _ _ _ (co_free _ _ H) Ei) as (F & _ & _ & Hf & Ho).
    destruct (assoc str_eqb q (rs_index (p_store p))) as [old|] eqn:Ea.
    + destruct (co_stored _ _ H _ _ (assoc_in _ _ _ Ea)) as (w & Hw).
      assert (holds keys old w) as Hw' by (apply Ho; [intros E0; exact (Hf _ _ E0 Hw)|exact Hw]).
      destruct (slot_remove_spec _ _ _ _ F Hw') as (m' & Er & _). rewrite Er in E.
      destruct (alive_in _ _); [discriminate|]. cbn [bind] in E. injection E as <-. cbn [p_heap] in Hn. rewrite app_length in Hn. cbn in Hn.
      constructor; cbn [p_store p_heap p_caches p_uses rs_keys].
      * rewrite app_length. cbn [length]. rewrite Nat.add_1_r. refine (versions_remove _ _ _ _ _ F Hw' Er _ V'). lia.
      * intros c Hc. refine (cache_remove _ _ _ _ _ _ F Hw' Er _ V' (C' c Hc)). lia.
      * exact U.
    + cbn [bind] in E. injection E as <-. constructor; cbn [p_store p_heap p_caches p_uses rs_keys]; [|exact C'|exact U].
      rewrite app_length. cbn [length]. rewrite Nat.add_1_r. exact V'.
  - cbn [perform] in E. destruct (nth_error (p_handles p) n); [|discriminate]. injection E as <-. constructor; assumption.
  - cbn [perform] in E. injection E as <-. constructor; cbn [with_caches p_caches p_store p_heap p_uses]; [exact V| |exact U].
    intros c [<-|Hc]; [|exact (C c Hc)]. intros i v r Hi. destruct i; discriminate.
  - destruct (use_right _ _ _ _ _ _ H Hr ltac:(lia) E) as (p'' & h & K & K' & _). injection K as ->. exact K'.
Qed.
Lemma caches_right_run : forall R (cs : R -> N) acts p p', consistent cs p -> caches_right p ->
  run cs acts p = Some (Ret p') -> (N.of_nat (length (p_heap p')) <= 1073741824)%N -> caches_right p'.
Proof.
  intros R cs acts. induction acts as [|a acts IH]; intros p p' H Hr E Hn; cbn [run] in E; [injection E as <-; exact Hr|].
  destruct (perform cs a p) as [[p1| |]|] eqn:Ep; try discriminate.
  pose proof (step_consistent _ _ _ _ _ H Ep) as H1.
  assert (length (p_heap p1) <= length (p_heap p')) as L.
  { clear - E. revert p1 E. induction acts as [|b acts IH]; intros p1 E; cbn [run] in E; [injection E as <-; apply le_n|].
    destruct (perform cs b p1) as [[p2| |]|] eqn:Eb; try discriminate. pose proof (heap_grows _ _ _ _ _ Eb). specialize (IH p2 E). lia. }
  refine (IH p1 p' H1 _ E Hn). refine (caches_right_step _ cs a p p1 H Hr _ Ep). lia.
Qed.
