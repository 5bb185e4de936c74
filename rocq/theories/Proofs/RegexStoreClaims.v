(* The regex store, its caches and the statistics (C43-C47): proofs of the statements of Thm/RegexStore.v *)
From Coq Require Import Lia.
From Verif Require Import Proofs.Text.
From Verif Require Export Proofs.RegexProvenance Proofs.StatsLemmas Model.RegexFactories Examples.Store.

Lemma NoDup_map_inj : forall A B (f : A -> B) l, NoDup l -> (forall x y, In x l -> In y l -> f x = f y -> x = y) -> NoDup (map f l).
Proof.
  intros A B f l H. induction H as [|x l Hx Hl IH]; intros Hf; cbn [map]; [constructor|].
  constructor; [|apply IH; intros a b Ha Hb; apply Hf; right; assumption].
  intros K. apply in_map_iff in K as (y & E & Hy). apply Hx. rewrite <- (Hf y x (or_intror Hy) (or_introl eq_refl) E). exact Hy.
Qed.
Definition entry_regex {R} (p : process R) (e : str * slot_key) : nat :=
  match slot_get (snd e) (rs_keys (p_store p)) with Some w => wr_regex w | None => 0 end.
Lemma entry_regex_stored : forall R (p : process R) q k w, stored p k w -> entry_regex p (q, k) = wr_regex w.
Proof. intros R p q k w H. unfold entry_regex. cbn [snd]. rewrite (proj2 (slot_get_holds _ _ _ _) H). reflexivity. Qed.
Lemma begun : forall R (cs : R -> N) n p p1 q x todo, perform cs (ABegin n) p = Some (Ret p1) ->
  p_lock p1 = Some {| lk_pattern := q; lk_regex := x; lk_phase := Collecting todo |} -> collecting p1 p1 /\ p_handles p1 = p_handles p.
Proof.
  intros R cs n p p1 q x todo E El. cbn [perform] in E. destruct (p_lock p); [discriminate|].
  destruct (nth_error (p_calls p) n) as [[q' x']|]; [|discriminate]. injection E as <-. cbn [with_calls with_store p_lock] in El.
  split; [|reflexivity]. split; [|apply incl_refl]. eexists _, todo. cbn [with_calls with_store p_lock]. rewrite El. split; [reflexivity|]. split; [reflexivity|].
  intros q0 k0 w0 Hi _. left. unfold indexed in Hi. cbn [with_calls with_store p_store rs_index] in Hi.
  destruct (gc_frequency <=? rs_gc_counter (p_store p) + 1)%N; [|discriminate]. injection El as _ _ <-. cbn [rs_index].
  exact (in_map fst _ _ Hi).
Qed.
Lemma finished : forall R (cs : R -> N) p1 p2 p3, consistent cs p2 -> collecting p1 p2 -> perform cs AFinishGc p2 = Some (Ret p3) ->
  p_store p3 = p_store p2 /\ p_handles p3 = p_handles p2 /\ p_total_regexes p3 = N.of_nat (sm_len (rs_keys (p_store p3))) /\
  (forall k w, stored p3 k w -> live p1 (wr_regex w)).
Proof.
  intros R cs p1 p2 p3 H ((l & todo & E1 & E2 & Hl) & _) E. cbn [perform] in E. rewrite E1 in E. destruct l as [q x ph]. cbn [lk_phase] in E2. subst ph.
  destruct todo as [|t todo]; [|discriminate]. injection E as <-. repeat split. intros k w Hs. destruct (co_indexed _ _ H k w Hs) as (q' & Hi).
  destruct (Hl q' k w Hi Hs) as [[]|K]. exact K.
Qed.
Lemma stat_values : forall acts pre s s', stat_run acts s = Some s' ->
  (forall v, In v (st_gauge s :: st_pending s) -> was_count pre v) -> st_count s = balance pre ->
  forall v, In v (st_gauge s' :: st_pending s') -> was_count (pre ++ acts) v.
Proof.
  assert (forall A i (l : list A) x, In x (drop_nth i l) -> In x l) as Hd.
  { intros A i. induction i as [|i IH]; intros [|y l] x H; cbn [drop_nth] in H; try (destruct H; fail); [right; exact H|].
    destruct H as [<-|H]; [left; reflexivity|right; exact (IH _ _ H)]. }
  assert (forall a b, balance (a ++ b) = (balance a + balance b)%Z) as Hb.
  { intros a b. unfold balance. rewrite map_app. induction (map _ a) as [|z l IH]; [reflexivity|]. cbn. rewrite IH. lia. }
  intros acts. induction acts as [|a acts IH]; intros pre s s' H Hv Hc v Hin; cbn [stat_run] in H.
  - injection H as <-. rewrite app_nil_r. exact (Hv v Hin).
  - destruct (stat_step a s) as [s1|] eqn:Es; [|discriminate].
    replace (pre ++ a :: acts) with ((pre ++ [a]) ++ acts) by (rewrite <- app_assoc; reflexivity).
    assert (forall v, In v (st_gauge s :: st_pending s) -> was_count (pre ++ [a]) v) as Hv'.
    { intros v0 K. destruct (Hv v0 K) as (a0 & b0 & -> & ->). exists a0, (b0 ++ [a]). rewrite app_assoc. auto. }
    assert (st_count s1 = balance (pre ++ [a])) as Hc'.
    { rewrite Hb, <- Hc. destruct a as [d|n]; cbn [stat_step] in Es; [injection Es as <-; unfold balance; cbn; lia|].
      destruct (nth_error (st_pending s) n) as [v0|]; [|discriminate]. injection Es as <-. unfold balance. cbn. lia. }
    refine (IH _ s1 s' H _ Hc' v Hin). intros v0 K. destruct a as [d|n]; cbn [stat_step] in Es.
    + injection Es as <-. cbn [st_gauge st_pending] in K. cbn [st_count] in Hc'. destruct K as [K|K]; [apply Hv'; left; exact K|].
      apply in_app_or in K as [K|[<-|[]]]; [apply Hv'; right; exact K|]. exists (pre ++ [SAdd d]), []. rewrite app_nil_r. auto.
    + destruct (nth_error (st_pending s) n) as [v1|] eqn:En; [|discriminate]. injection Es as <-. cbn [st_gauge st_pending] in K.
      destruct K as [<-|K]; apply Hv'; right; [exact (nth_error_In _ _ En)|exact (Hd _ _ _ _ K)].
Qed.

Lemma c43_no_panic_lemma :
  forall R (cache_size : R -> N) p a o, reachable cache_size p -> perform cache_size a p = Some o ->
    (forall n m, a <> AUse n m) -> exists p', o = Ret p'.
Proof.
  intros R cs p a o Hr E Ha. destruct (perform_consistent _ _ _ _ _ (reachable_consistent _ _ _ Hr) E Ha) as (p' & -> & _). eauto.
Qed.

Lemma c43_bijection_lemma :
  forall R (cache_size : R -> N) p, reachable cache_size p -> bijection p.
Proof.
  intros R cs p Hr. exact (consistent_bijection _ _ _ (reachable_consistent _ _ _ Hr)).
Qed.

Lemma c43_one_live_regex_lemma :
  forall R (cache_size : R -> N) p h1 h2, reachable cache_size p -> In h1 (p_handles p) -> In h2 (p_handles p) ->
    (h_pattern h1 = h_pattern h2 -> h1 = h2) /\
    (h_pattern h1 <> h_pattern h2 -> h_regex h1 <> h_regex h2 /\ h_key h1 <> h_key h2).
Proof.
  intros R cs p h1 h2 Hr H1 H2. pose proof (reachable_consistent _ _ _ Hr) as H. pose proof (consistent_bijection _ _ _ H) as B.
  destruct (co_handles _ _ H _ H1) as (I1 & w1 & S1 & R1), (co_handles _ _ H _ H2) as (I2 & w2 & S2 & R2). split.
  - intros E. rewrite <- E in I2. pose proof (bj_key _ B _ _ _ I1 I2) as K. rewrite <- K in S2.
    destruct (holds_same_slot _ _ _ _ _ _ S1 S2 eq_refl) as (_ & <-). destruct h1, h2. cbn in *. subst. reflexivity.
  - intros E. assert (h_key h1 <> h_key h2) as K by (intros K; rewrite K in I1; exact (E (bj_pattern _ B _ _ _ I1 I2))).
    split; [|exact K]. intros K'. apply K. apply (co_regex _ _ H _ _ _ _ S1 S2). congruence.
Qed.

Lemma c43_lookup_lemma :
  forall R (cache_size : R -> N) p q factory p', reachable cache_size p ->
    perform cache_size (ALookup q factory) p = Some (Ret p') ->
    (forall h, In h (p_handles p) -> h_pattern h = q -> p' = with_handles p (h :: p_handles p)) /\
    (p_handles p' <> p_handles p -> exists h, In h (p_handles p) /\ h_pattern h = q /\ p' = with_handles p (h :: p_handles p)).
Proof.
  intros R cs p q f p' Hr E. pose proof (reachable_consistent _ _ _ Hr) as H. pose proof (consistent_bijection _ _ _ H) as B.
  cbn [perform] in E. destruct (p_lock p); [discriminate|]. destruct (store_get (alive_in (p_handles p)) (p_store p) q) as [[r k]|] eqn:Eg.
  - injection E as <-. destruct (store_get_some _ _ _ _ _ _ H Eg) as (Hi & (h0 & Hh0 & Er) & w & Hs & Hw).
    destruct (co_handles _ _ H _ Hh0) as (I0 & w0 & S0 & R0).
    assert (h_key h0 = k) as Ek by (apply (co_regex _ _ H _ _ _ _ S0 Hs); congruence).
    assert (h_pattern h0 = q) as Eq by (rewrite Ek in I0; exact (bj_pattern _ B _ _ _ I0 Hi)).
    assert ({| h_pattern := q; h_regex := r; h_key := k |} = h0) as -> by (destruct h0; cbn in *; subst; reflexivity).
    split; [|intros _; exists h0; auto]. intros h Hh Ehq.
    rewrite (proj1 (c43_one_live_regex_lemma _ _ _ _ _ Hr Hh Hh0) ltac:(congruence)). reflexivity.
  - split.
    + intros h Hh <-. exfalso. destruct (co_handles _ _ H _ Hh) as (I0 & w0 & S0 & R0). apply (store_get_none _ _ _ _ _ _ H Eg I0 S0). exists h. auto.
    + intros K. exfalso. apply K. destruct (f q); injection E as <-; reflexivity.
Qed.

Lemma c43_insertion_lemma :
  forall R (cache_size : R -> N) p q x p', reachable cache_size p ->
    p_lock p = Some {| lk_pattern := q; lk_regex := x; lk_phase := Inserting |} ->
    perform cache_size AInsert p = Some (Ret p') -> exists h, p_handles p' = h :: p_handles p /\ h_pattern h = q /\
      (In h (p_handles p) /\ p_heap p' = p_heap p \/
       (forall h', In h' (p_handles p) -> h_pattern h' <> q) /\ h_regex h = length (p_heap p) /\ p_heap p' = p_heap p ++ [x]).
Proof.
  intros R cs p q x p' Hr El E. pose proof (reachable_consistent _ _ _ Hr) as H. pose proof (consistent_bijection _ _ _ H) as B.
  cbn [perform] in E. rewrite El in E. unfold store_insert in E. destruct (store_get (alive_in (p_handles p)) (p_store p) q) as [[r k]|] eqn:Eg.
  - injection E as <-. eexists. split; [reflexivity|]. split; [reflexivity|]. left. split; [|reflexivity].
    destruct (store_get_some _ _ _ _ _ _ H Eg) as (Hi & (h0 & Hh0 & Er) & w & Hs & Hw).
    destruct (co_handles _ _ H _ Hh0) as (I0 & w0 & S0 & R0).
    assert (h_key h0 = k) as Ek by (apply (co_regex _ _ H _ _ _ _ S0 Hs); congruence).
    assert (h_pattern h0 = q) as Eq by (rewrite Ek in I0; exact (bj_pattern _ B _ _ _ I0 Hi)).
    assert ({| h_pattern := q; h_regex := r; h_key := k |} = h0) as -> by (destruct h0; cbn in *; subst; reflexivity). exact Hh0.
  - destruct (slot_insert _ _) as [k keys]. destruct (index_insert _ _ _) as [old index].
    assert (forall h', In h' (p_handles p) -> h_pattern h' <> q) as Hn.
    { intros h' Hh' <-. destruct (co_handles _ _ H _ Hh') as (I0 & w0 & S0 & R0). apply (store_get_none _ _ _ _ _ _ H Eg I0 S0). exists h'. auto. }
    destruct (match old with Some o => slot_remove o keys | None => (None, keys) end) as [[w|] keys'];
      [destruct (alive_in _ _); [discriminate|]|]; cbn [bind] in E; injection E as <-; eexists; (split; [reflexivity|]; split; [reflexivity|]; right; auto).
Qed.

Lemma c43_collection_lemma :
  forall R (cache_size : R -> N) p n p1 q x todo acts p2 p3, reachable cache_size p ->
    perform cache_size (ABegin n) p = Some (Ret p1) ->
    p_lock p1 = Some {| lk_pattern := q; lk_regex := x; lk_phase := Collecting todo |} ->
    run cache_size acts p1 = Some (Ret p2) -> (forall a, In a acts -> a <> AFinishGc) ->
    perform cache_size AFinishGc p2 = Some (Ret p3) ->
    (forall k w, stored p3 k w -> live p (wr_regex w)) /\
    (forall r, live p3 r -> exists k w, stored p3 k w /\ wr_regex w = r) /\
    p_total_regexes p3 = N.of_nat (sm_len (rs_keys (p_store p3))) /\
    ((forall a, In a acts -> forall n, a <> ADrop n) ->
       exists l, NoDup l /\ (forall r, In r l <-> live p3 r) /\ sm_len (rs_keys (p_store p3)) = length l).
Proof.
  intros R cs p n p1 q x todo acts p2 p3 Hr E1 El E2 Ha E3.
  pose proof (reachable_consistent _ _ _ Hr) as H. pose proof (step_consistent _ _ _ _ _ H E1) as H1.
  pose proof (run_consistent _ _ _ _ _ H1 E2) as H2. pose proof (step_consistent _ _ _ _ _ H2 E3) as H3.
  destruct (begun _ _ _ _ _ _ _ _ E1 El) as (Hc & Hh1). destruct (collecting_run _ _ _ _ _ _ H1 Hc Ha E2) as (Hc2 & Hd).
  destruct (finished _ _ _ _ _ H2 Hc2 E3) as (Es & Eh & Et & Hl).
  assert (forall k w, stored p3 k w -> live p (wr_regex w)) as K1 by (intros k w K; destruct (Hl k w K) as (h & A & B); rewrite Hh1 in A; exists h; auto).
  assert (forall r, live p3 r -> exists k w, stored p3 k w /\ wr_regex w = r) as K2
    by (intros r (h & A & <-); destruct (co_handles _ _ H3 _ A) as (_ & w & B & C); eauto).
  split; [exact K1|]. split; [exact K2|]. split; [exact Et|]. intros Hn. specialize (Hd Hn).
  exists (map (entry_regex p3) (rs_index (p_store p3))). split; [|split].
  - apply NoDup_map_inj; [exact (NoDup_map_inv _ _ (co_index _ _ H3))|].
    intros [q1 k1] [q2 k2] I1 I2 E. destruct (co_stored _ _ H3 _ _ I1) as (w1 & S1), (co_stored _ _ H3 _ _ I2) as (w2 & S2).
    rewrite (entry_regex_stored _ _ _ _ _ S1), (entry_regex_stored _ _ _ _ _ S2) in E. pose proof (co_regex _ _ H3 _ _ _ _ S1 S2 E) as <-.
    f_equal. exact (bj_pattern _ (consistent_bijection _ _ _ H3) _ _ _ I1 I2).
  - intros r. split.
    + intros K. apply in_map_iff in K as ([q0 k] & <- & Hi). destruct (co_stored _ _ H3 _ _ Hi) as (w & Hs).
      rewrite (entry_regex_stored _ _ _ _ _ Hs). destruct (Hl k w Hs) as (h & A & B). exists h. split; [|exact B]. rewrite Eh, Hd. exact A.
    + intros K. destruct (K2 r K) as (k & w & Hs & <-). destruct (co_indexed _ _ H3 _ _ Hs) as (q0 & Hi).
      rewrite <- (entry_regex_stored _ _ q0 _ _ Hs). apply in_map. exact Hi.
  - rewrite map_length. symmetry. exact (co_size _ _ H3).
Qed.

Lemma c44_caches_lemma :
  forall R (cache_size : R -> N) p n m o, reachable cache_size p -> (N.of_nat (length (p_heap p)) <= 2 ^ 30)%N ->
    perform cache_size (AUse n m) p = Some o ->
    exists p' h, o = Ret p' /\ nth_error (p_handles p) n = Some h /\ p_uses p' = (h_regex h, h_regex h) :: p_uses p.
Proof.
  intros R cs p n m o (acts & Hr) Hn E. pose proof (run_consistent _ _ _ _ _ (consistent_new _ cs) Hr) as H.
  pose proof (caches_right_run _ _ _ _ _ (consistent_new _ cs) (caches_right_new _) Hr Hn) as Hc.
  destruct (use_right _ _ _ _ _ _ H Hc Hn E) as (p' & h & -> & _ & Eh & Eu). eauto.
Qed.

Lemma c44_uses_lemma :
  forall R (cache_size : R -> N) p r c, reachable cache_size p -> (N.of_nat (length (p_heap p)) <= 2 ^ 30)%N ->
    In (r, c) (p_uses p) -> r = c.
Proof.
  intros R cs p r c (acts & Hr) Hn. pose proof (caches_right_run _ _ _ _ _ (consistent_new _ cs) (caches_right_new _) Hr Hn) as Hc.
  exact (cr_uses _ Hc r c).
Qed.

Lemma c44_panic_refuted_lemma :
  exists (cache_size : unit -> N) acts, run cache_size acts process_new = Some Panic.
Proof.
  exists no_size. exact too_old.
Qed.

Lemma c44_wrong_cache_refuted_lemma :
  exists (cache_size : unit -> N) acts p r c, run cache_size acts process_new = Some (Ret p) /\ In (r, c) (p_uses p) /\ r <> c.
Proof.
  exists no_size. exact wrong_cache.
Qed.

Lemma c45_provenance_lemma :
  forall R (cache_size : R -> N) acts p h, run cache_size acts process_new = Some (Ret p) -> In h (p_handles p) ->
    exists x, gives p h x /\ compiled_for acts (h_pattern h) x.
Proof.
  intros R cs acts p h E Hh. pose proof (run_consistent _ _ _ _ _ (consistent_new _ cs) E) as H.
  destruct (co_handles _ _ H _ Hh) as (_ & w & Hs & Hr). destruct (co_heap _ _ H _ _ Hs) as (x & Hx & _). exists x.
  assert (gives p h x) as Hg by (unfold gives; rewrite <- Hr; exact Hx). split; [exact Hg|].
  refine (handle_provenance _ cs (compiled_for acts) acts p h x _ E Hh Hg). intros q f y Hi Hy. exists f. auto.
Qed.

Lemma c45_transparent_lemma :
  forall R (cache_size : R -> N) g acts p, run cache_size acts process_new = Some (Ret p) -> agree g acts ->
    (forall h, In h (p_handles p) -> exists x, gives p h x /\ g (h_pattern h) = Some x) /\
    (forall q p', perform cache_size (ALookup q g) p = Some (Ret p') ->
       match g q with
       | None => p' = p
       | Some x => (exists h, p' = with_handles p (h :: p_handles p) /\ h_pattern h = q /\ gives p' h x) \/
                   p' = with_calls p ((q, x) :: p_calls p)
       end).
Proof.
  intros R cs g acts p E Hg.
  assert (forall h, In h (p_handles p) -> exists x, gives p h x /\ g (h_pattern h) = Some x) as K.
  { intros h Hh. destruct (c45_provenance_lemma _ _ _ _ _ E Hh) as (x & Hx & f & Hi & Hf). exists x. split; [exact Hx|]. rewrite <- (Hg _ _ Hi). exact Hf. }
  split; [exact K|]. intros q p' Ep. assert (reachable cs p) as Hr by (exists acts; exact E).
  destruct (c43_lookup_lemma _ _ _ _ _ _ Hr Ep) as (_ & L2). cbn [perform] in Ep. destruct (p_lock p); [discriminate|].
  destruct (store_get _ _ _) as [[r k]|].
  - injection Ep as <-. destruct L2 as (h & Hh & Hq & Ep).
    + cbn [with_handles p_handles]. intros X. apply (f_equal (@length _)) in X. cbn in X. lia.
    + destruct (K h Hh) as (x & Hx & Hgx). rewrite <- Hq, Hgx. left. exists h. split; [congruence|]. split; [reflexivity|exact Hx].
  - destruct (g q); injection Ep as <-; [right; reflexivity|reflexivity].
Qed.

Lemma c45_refuted_lemma :
  let lookup_of (acts : list (action compiled_regex)) (q : str) (x : compiled_regex) :=
      exists p h, run regex_size acts process_new = Some (Ret p) /\ hd_error (p_handles p) = Some h /\ h_pattern h = q /\ gives p h x in
    let rule_request := ALookup [233%N] (rule_factory any_text) in
    let keyword_request := ALookup (keywords_text [[KwLit 233]]) keyword_factory in
    keyword_content_pattern [233%N] = Ret [KwLit 233] /\
    lookup_of [rule_request; ABegin 0; AInsert] [233%N] {| cr_text := [233%N]; cr_case_insensitive := false |} /\
    lookup_of [keyword_request; ABegin 0; AInsert; rule_request] [233%N] {| cr_text := [233%N]; cr_case_insensitive := true |} /\
    lookup_of [rule_request; ABegin 0; AInsert; keyword_request] [233%N] {| cr_text := [233%N]; cr_case_insensitive := false |}.
Proof.
  cbv zeta. split; [reflexivity|]. split; [|split]; (eexists _, _; split; [vm_compute; reflexivity|]; split; [reflexivity|]; split; vm_compute; reflexivity).
Qed.

Lemma c45_acceptance_refuted_lemma :
  let q := keywords_text [[KwBoundary; KwLit 97; KwBoundary]] in
    keyword_content_pattern (chars "a") = Ret [KwBoundary; KwLit 97; KwBoundary] /\
    q = chars "(?-u:\b)a(?-u:\b)" /\ rule_factory any_text q = None /\
    exists p p', run regex_size [ALookup q keyword_factory; ABegin 0; AInsert] process_new = Some (Ret p) /\
      perform regex_size (ALookup q (rule_factory any_text)) p = Some (Ret p') /\ length (p_handles p') = S (length (p_handles p)).
Proof.
  cbv zeta. split; [reflexivity|]. split; [reflexivity|]. split; [vm_compute; reflexivity|]. eexists _, _. split; [vm_compute; reflexivity|]. split; vm_compute; reflexivity.
Qed.

Lemma c46_refuted_lemma :
  exists p, run regex_size rule_requests process_new = Some (Ret p) /\ stored_size p = 20%Z /\ p_cache_size p = (- 10)%Z.
Proof.
  eexists. split; [vm_compute; reflexivity|]. split; vm_compute; reflexivity.
Qed.

Lemma c46_exact_lemma :
  forall R (cache_size : R -> N) p, reachable cache_size p ->
    p_cache_size p = (stored_size p - created_size cache_size p)%Z.
Proof.
  intros R cs p Hr. exact (co_bytes _ _ (reachable_consistent _ _ _ Hr)).
Qed.

Lemma c46_regex_count_lemma :
  forall R (cache_size : R -> N) p, reachable cache_size p -> not_collecting p ->
    p_total_regexes p = N.of_nat (length (rs_index (p_store p))).
Proof.
  intros R cs p Hr Hn. pose proof (reachable_consistent _ _ _ Hr) as H. rewrite (co_size _ _ H). exact (co_gauge _ _ H Hn).
Qed.

Lemma c47_refuted_lemma :
  exists acts s, stat_run acts stats_new = Some s /\ quiescent s /\ st_gauge s <> balance acts.
Proof.
  exists [SAdd 1%Z; SAdd 1%Z; SSet 1; SSet 0]. eexists. split; [vm_compute; reflexivity|]. split; [reflexivity|]. vm_compute. discriminate.
Qed.

Lemma c47_counter_lemma :
  forall acts s, stat_run acts stats_new = Some s -> st_count s = balance acts.
Proof.
  intros acts s H. exact (count_run _ _ _ H).
Qed.

Lemma c47_in_order_lemma :
  forall acts s, stat_run acts stats_new = Some s -> quiescent s -> in_order acts \/ sequential acts -> st_gauge s = balance acts.
Proof.
  intros acts s H Hq Ho. assert (in_order acts) as Ha.
  { destruct Ho as [Ho|Ho]; [exact Ho|]. clear H Hq. induction Ho as [|d acts _ IH]; [intros n []|].
    intros n [K|[K|K]]; [discriminate|congruence|exact (IH n K)]. }
  pose proof (fifo_run acts stats_new s Ha H eq_refl) as K. rewrite Hq in K. cbn [last] in K. rewrite K. exact (count_run _ _ _ H).
Qed.

Lemma c47_some_count_lemma :
  forall acts s, stat_run acts stats_new = Some s -> exists before after, acts = before ++ after /\ st_gauge s = balance before.
Proof.
  intros acts s H. refine (stat_values acts [] stats_new s H _ eq_refl (st_gauge s) (or_introl eq_refl)).
  intros v [<-|[]]. exists [], []. split; reflexivity.
Qed.

