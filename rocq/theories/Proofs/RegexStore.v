(* Invariants of the regex store *)
From Coq Require Import Lia.
From Verif Require Import Proofs.Text Proofs.ValidateMatches.
From Verif Require Export Spec.RegexStore.

(* ---- lists ---- *)
Lemma set_nth_length : forall A i (x : A) l, length (set_nth i x l) = length l.
Proof. intros A i x l. revert i. induction l as [|y l IH]; intros [|i]; cbn; auto. Qed.
Lemma nth_set_nth : forall A i (x : A) l j,
  nth_error (set_nth i x l) j = if (j =? i) && (j <? length l) then Some x else nth_error l j.
Proof.
  intros A i x l. revert i. induction l as [|y l IH]; intros i j.
  - cbn. rewrite andb_false_r. destruct i, j; reflexivity.
  - destruct i as [|i], j as [|j]; cbn [set_nth nth_error length]; try reflexivity.
    rewrite IH. reflexivity.
Qed.
Lemma nth_set_same : forall A i (x : A) l y, nth_error l i = Some y -> nth_error (set_nth i x l) i = Some x.
Proof.
  intros A i x l y H. rewrite nth_set_nth, Nat.eqb_refl. assert (i < length l) as L by (apply nth_error_Some; congruence).
  apply Nat.ltb_lt in L. rewrite L. reflexivity.
Qed.
Lemma nth_set_other : forall A i (x : A) l j, j <> i -> nth_error (set_nth i x l) j = nth_error l j.
Proof. intros A i x l j H. rewrite nth_set_nth. apply Nat.eqb_neq in H. rewrite H. reflexivity. Qed.
Lemma sum_app : forall A (f : A -> Z) a b, sum f (a ++ b) = (sum f a + sum f b)%Z.
Proof. intros A f a b. unfold sum. rewrite map_app. induction (map f a) as [|x l IH]; cbn; [reflexivity|]. rewrite IH. lia. Qed.
Lemma sum_cons : forall A (f : A -> Z) x l, sum f (x :: l) = (f x + sum f l)%Z.
Proof. reflexivity. Qed.
Lemma sum_set_nth : forall A (f : A -> Z) i x l y, nth_error l i = Some y ->
  sum f (set_nth i x l) = (sum f l - f y + f x)%Z.
Proof.
  intros A f i x l. revert i. induction l as [|z l IH]; intros [|i] y H; try discriminate; cbn [nth_error set_nth] in *.
  - injection H as ->. rewrite !sum_cons. lia.
  - rewrite !sum_cons, (IH i y H). lia.
Qed.
Lemma remove_nth_in : forall A i (l : list A) x, In x (remove_nth i l) -> In x l.
Proof.
  intros A i l. revert i. induction l as [|y l IH]; intros [|i] x H; cbn in *; auto.
  destruct H as [H|H]; [left; exact H|right; exact (IH i x H)].
Qed.
Lemma remove_nth_other : forall A i (l : list A) x y, nth_error l i = Some y -> In x l -> x = y \/ In x (remove_nth i l).
Proof.
  intros A i l. revert i. induction l as [|z l IH]; intros [|i] x y H Hx; try discriminate; cbn [nth_error remove_nth] in *.
  - injection H as ->. destruct Hx as [Hx|Hx]; [left; auto|right; exact Hx].
  - destruct Hx as [Hx|Hx]; [right; left; exact Hx|]. destruct (IH i x y H Hx) as [K|K]; [left; exact K|right; right; exact K].
Qed.
Lemma remove_nth_nodup : forall A i (l : list A) y, NoDup l -> nth_error l i = Some y ->
  NoDup (remove_nth i l) /\ ~ In y (remove_nth i l).
Proof.
  intros A i l. revert i. induction l as [|z l IH]; intros [|i] y Hn H; try discriminate; cbn [nth_error remove_nth] in *;
    apply NoDup_cons_iff in Hn as (N1 & N2).
  - injection H as ->. auto.
  - destruct (IH i y N2 H) as (K1 & K2). split.
    + constructor; [|exact K1]. intros K. apply N1. exact (remove_nth_in _ _ _ _ K).
    + intros [->|K]; [|exact (K2 K)]. apply N1. exact (nth_error_In _ _ H).
Qed.

(* ---- the index ---- *)
Lemma assoc_in : forall q (l : list (str * slot_key)) k, assoc str_eqb q l = Some k -> In (q, k) l.
Proof.
  intros q l k. induction l as [|[q' k'] l IH]; cbn [assoc]; [discriminate|]. destruct (str_eqb q q') eqn:E.
  - apply str_eqb_eq in E. subst q'. intros H. injection H as ->. left. reflexivity.
  - intros H. right. exact (IH H).
Qed.
Lemma assoc_complete : forall q (l : list (str * slot_key)) k, NoDup (map fst l) -> In (q, k) l -> assoc str_eqb q l = Some k.
Proof.
  intros q l k. induction l as [|[q' k'] l IH]; intros Hn Hi; [destruct Hi|]. cbn [map fst] in Hn.
  apply NoDup_cons_iff in Hn as (N1 & N2). cbn [assoc]. destruct Hi as [E|Hi].
  - injection E as -> ->. rewrite str_eqb_refl. reflexivity.
  - destruct (str_eqb q q') eqn:E; [|exact (IH N2 Hi)]. apply str_eqb_eq in E. subst q'. destruct N1.
    apply in_map_iff. exists (q, k). auto.
Qed.
Lemma assoc_none : forall q (l : list (str * slot_key)), assoc str_eqb q l = None -> forall k, ~ In (q, k) l.
Proof.
  intros q l. induction l as [|[q' k'] l IH]; intros H k Hi; [destruct Hi|]. cbn [assoc] in H.
  destruct (str_eqb q q') eqn:E; [discriminate|]. destruct Hi as [Hi|Hi]; [|exact (IH H k Hi)].
  injection Hi as -> ->. rewrite str_eqb_refl in E. discriminate.
Qed.
Lemma remove_entry_in : forall q l e, In e (remove_entry q l) <-> In e l /\ fst e <> q.
Proof.
  intros q l e. unfold remove_entry. rewrite filter_In, negb_true_iff. rewrite str_eqb_neq. reflexivity.
Qed.
Lemma remove_entry_nodup : forall B (f : str * slot_key -> B) q l, NoDup (map f l) -> NoDup (map f (remove_entry q l)).
Proof.
  intros B f q l. unfold remove_entry. induction l as [|e l IH]; cbn [map filter]; intros H; [constructor|].
  apply NoDup_cons_iff in H as (N1 & N2). destruct (negb (str_eqb (fst e) q)); [|exact (IH N2)]. cbn [map]. constructor; [|exact (IH N2)].
  intros K. apply N1. apply in_map_iff in K as (x & Ex & Hx). apply filter_In in Hx as (Hx & _). rewrite <- Ex. apply in_map. exact Hx.
Qed.
Lemma remove_entry_absent : forall q l, (forall k, ~ In (q, k) l) -> remove_entry q l = l.
Proof.
  intros q l H. unfold remove_entry. induction l as [|[q' k'] l IH]; [reflexivity|]. cbn [filter fst].
  assert (str_eqb q' q = false) as -> by (apply str_eqb_neq; intros ->; exact (H k' (or_introl eq_refl))). cbn [negb].
  f_equal. apply IH. intros k K. exact (H k (or_intror K)).
Qed.
Lemma remove_entry_length : forall q l k, NoDup (map fst l) -> In (q, k) l -> length l = S (length (remove_entry q l)).
Proof.
  intros q l k Hn Hi. induction l as [|[q' k'] l IH]; [destruct Hi|]. cbn [map fst] in Hn. apply NoDup_cons_iff in Hn as (N1 & N2).
  unfold remove_entry. cbn [filter fst]. fold (remove_entry q l). destruct (str_eqb q' q) eqn:E.
  - apply str_eqb_eq in E. subst q'. cbn [negb length]. rewrite remove_entry_absent; [reflexivity|].
    intros k0 K. apply N1. apply in_map_iff. exists (q, k0). auto.
  - cbn [negb length]. destruct Hi as [Hi|Hi]; [injection Hi as -> ->; rewrite str_eqb_refl in E; discriminate|]. rewrite <- (IH N2 Hi). reflexivity.
Qed.

(* ---- slot maps ---- *)
Definition holds {A} (m : slot_map A) (k : slot_key) (w : A) : Prop :=
  exists s, nth_error (sm_slots m) (sk_index k) = Some s /\ sl_version s = sk_version k /\ sl_value s = Some w.
Lemma slot_get_holds : forall A (m : slot_map A) k w, slot_get k m = Some w <-> holds m k w.
Proof.
  intros A m k w. unfold slot_get, holds. destruct (nth_error (sm_slots m) (sk_index k)) as [s|].
  - destruct (N.eqb_spec (sl_version s) (sk_version k)) as [E|E]; split.
    + intros H. exists s. auto.
    + intros (s' & E1 & _ & E2). injection E1 as <-. exact E2.
    + discriminate.
    + intros (s' & E1 & E2 & _). injection E1 as <-. contradiction.
  - split; [discriminate|]. intros (s & E & _). discriminate.
Qed.
Lemma holds_same_slot : forall A (m : slot_map A) k k' w w', holds m k w -> holds m k' w' ->
  sk_index k = sk_index k' -> k = k' /\ w = w'.
Proof.
  intros A m k k' w w' (s & E1 & E2 & E3) (s' & E1' & E2' & E3') E. rewrite E in E1. rewrite E1' in E1. injection E1 as ->.
  destruct k, k'. cbn in *. split; congruence.
Qed.
(* free slots are vacant *)
Definition free_ok {A} (m : slot_map A) : Prop :=
  NoDup (sm_free m) /\
  forall i, In i (sm_free m) -> exists s, nth_error (sm_slots m) i = Some s /\ sl_value s = None.

Lemma slot_insert_spec : forall A (x : A) m k m', free_ok m -> slot_insert x m = (k, m') ->
  free_ok m' /\ sm_len m' = S (sm_len m) /\ holds m' k x /\
  (forall k' w, sk_index k' = sk_index k -> ~ holds m k' w) /\
  (forall k' w, sk_index k' <> sk_index k -> holds m' k' w <-> holds m k' w).
Proof.
  intros A x m k m' (F1 & F2) H. unfold slot_insert in H. destruct (sm_free m) as [|i free] eqn:Ef; injection H as <- <-.
  - cbn [sm_slots sm_free sm_len sk_index]. assert (forall j, j <> length (sm_slots m) ->
      nth_error (sm_slots m ++ [{| sl_version := 1%N; sl_value := Some x |}]) j = nth_error (sm_slots m) j) as Hn.
    { intros j Hj. destruct (Nat.lt_ge_cases j (length (sm_slots m))) as [L|L]; [apply nth_error_app1; exact L|].
      rewrite nth_error_app2 by exact L. rewrite (proj2 (nth_error_None _ _) L).
      destruct (j - length (sm_slots m)) as [|d] eqn:E; [lia|]. destruct d; reflexivity. }
    split; [split; [constructor|intros j []]|]. split; [reflexivity|]. split; [|split].
    + eexists. cbn [sm_slots sk_index sk_version]. rewrite nth_error_app2, Nat.sub_diag by lia. split; [reflexivity|]. split; reflexivity.
    + intros k' w E (s & E1 & _). rewrite E in E1. assert (length (sm_slots m) < length (sm_slots m)) as L by (apply nth_error_Some; congruence). lia.
    + intros k' w E. unfold holds. cbn [sm_slots]. rewrite (Hn _ E). reflexivity.
  - destruct (F2 i (or_introl eq_refl)) as (s & Es & Ev). rewrite Es. cbn [sk_index].
    apply NoDup_cons_iff in F1 as (F1 & F1').
    split; [split; [exact F1'|]|].
    { intros j Hj. destruct (F2 j (or_intror Hj)) as (s' & Es' & Ev'). exists s'. cbn [sm_slots]. split; [|exact Ev'].
      rewrite nth_set_other; [exact Es'|]. intros ->. exact (F1 Hj). }
    split; [reflexivity|]. split; [|split].
    + eexists. cbn [sm_slots sk_index sk_version]. split; [eapply nth_set_same; exact Es|]. split; reflexivity.
    + intros k' w E (s' & E1 & _ & E3). rewrite E, Es in E1. injection E1 as <-. congruence.
    + intros k' w E. unfold holds. cbn [sm_slots]. rewrite nth_set_other by exact E. reflexivity.
Qed.
Lemma slot_remove_spec : forall A (m : slot_map A) k w, free_ok m -> holds m k w -> exists m',
  slot_remove k m = (Some w, m') /\ free_ok m' /\ sm_len m' = pred (sm_len m) /\
  (forall w', ~ holds m' k w') /\
  (forall k' w', holds m' k' w' <-> holds m k' w' /\ sk_index k' <> sk_index k) /\
  exists s, nth_error (sm_slots m) (sk_index k) = Some s /\ sl_value s = Some w /\
    sm_slots m' = set_nth (sk_index k) {| sl_version := wrapping_u32 (sk_version k + 1); sl_value := None |} (sm_slots m).
Proof.
  intros A m k w (F1 & F2) H. unfold slot_remove. rewrite (proj2 (slot_get_holds _ _ _ _) H). eexists. split; [reflexivity|].
  destruct H as (s & E1 & E2 & E3).
  assert (forall k' w', holds {| sm_slots := set_nth (sk_index k) {| sl_version := wrapping_u32 (sk_version k + 1); sl_value := None |} (sm_slots m);
      sm_free := sk_index k :: sm_free m; sm_len := pred (sm_len m) |} k' w' <-> holds m k' w' /\ sk_index k' <> sk_index k) as Hh.
  { intros k' w'. unfold holds at 1. cbn [sm_slots]. destruct (Nat.eq_dec (sk_index k') (sk_index k)) as [E|E].
    - rewrite E, (nth_set_same _ _ _ _ _ E1). split; [|intros (_ & K); contradiction]. intros (s' & K1 & _ & K3). injection K1 as <-. discriminate.
    - rewrite nth_set_other by exact E. split; [intros K; split; [exact K|exact E]|]. intros (K & _). exact K. }
  split; [split; cbn [sm_free sm_slots]|].
  - constructor; [|exact F1]. intros K. destruct (F2 _ K) as (s' & K1 & K2). congruence.
  - intros i [<-|Hi]; [eexists; split; [eapply nth_set_same; exact E1|reflexivity]|].
    destruct (F2 _ Hi) as (s' & K1 & K2). exists s'. split; [|exact K2]. rewrite nth_set_other; [exact K1|]. intros ->. congruence.
  - split; [reflexivity|]. split; [|split].
    + intros w' K. apply Hh in K as (_ & K). exact (K eq_refl).
    + exact Hh.
    + exists s. auto.
Qed.

(* ---- the invariant ---- *)
Lemma alive_spec : forall R (p : process R) r, alive_in (p_handles p) r = true <-> live p r.
Proof.
  intros R p r. unfold alive_in, live. rewrite existsb_exists. split; intros (h & H1 & H2); exists h; (split; [exact H1|]).
  - apply Nat.eqb_eq. exact H2.
  - apply Nat.eqb_eq. exact H2.
Qed.

Record consistent {R} (cache_size : R -> N) (p : process R) : Prop := {
  co_free : free_ok (rs_keys (p_store p));
  co_index : NoDup (map fst (rs_index (p_store p)));
  co_stored : forall q k, indexed p q k -> exists w, stored p k w;
  co_slots : NoDup (map (fun e => sk_index (snd e)) (rs_index (p_store p)));
  co_indexed : forall k w, stored p k w -> exists q, indexed p q k;
  co_size : length (rs_index (p_store p)) = sm_len (rs_keys (p_store p));
  co_handles : forall h, In h (p_handles p) -> indexed p (h_pattern h) (h_key h) /\
                 exists w, stored p (h_key h) w /\ wr_regex w = h_regex h;
  co_heap : forall k w, stored p k w -> exists x, nth_error (p_heap p) (wr_regex w) = Some x /\ wr_cache_size w = cache_size x;
  co_regex : forall k k' w w', stored p k w -> stored p k' w' -> wr_regex w = wr_regex w' -> k = k';
  co_lock : forall l todo, p_lock p = Some l -> lk_phase l = Collecting todo ->
              NoDup todo /\ incl todo (map fst (rs_index (p_store p)));
  co_gauge : not_collecting p -> p_total_regexes p = N.of_nat (sm_len (rs_keys (p_store p)));
  co_bytes : p_cache_size p = (stored_size p - created_size cache_size p)%Z
}.

Lemma consistent_new : forall R (cache_size : R -> N), consistent cache_size process_new.
Proof.
  intros R cs.
  assert (forall k w, ~ stored (@process_new R) k w) as N.
  { intros k w (s & E1 & _ & E2). cbn in E1. destruct (sk_index k) as [|[|n]]; cbn in E1; try discriminate. injection E1 as <-. discriminate. }
  constructor; cbn.
  - split; [constructor|intros i []].
  - constructor.
  - intros q k [].
  - constructor.
  - intros k w K. destruct (N _ _ K).
  - reflexivity.
  - intros h [].
  - intros k w K. destruct (N _ _ K).
  - intros k k' w w' K. destruct (N _ _ K).
  - discriminate.
  - reflexivity.
  - reflexivity.
Qed.

Lemma nodup_map_inj : forall A B (f : A -> B) l x y, NoDup (map f l) -> In x l -> In y l -> f x = f y -> x = y.
Proof.
  intros A B f l. induction l as [|z l IH]; intros x y Hn Hx Hy E; [destruct Hx|]. cbn [map] in Hn. apply NoDup_cons_iff in Hn as (N1 & N2).
  destruct Hx as [->|Hx], Hy as [->|Hy]; [reflexivity| | |exact (IH _ _ N2 Hx Hy E)]; destruct N1.
  - rewrite E. apply in_map. exact Hy.
  - rewrite <- E. apply in_map. exact Hx.
Qed.
Lemma consistent_bijection : forall R (cs : R -> N) p, consistent cs p -> bijection p.
Proof.
  intros R cs p H. constructor.
  - intros q k1 k2 H1 H2. pose proof (nodup_map_inj _ _ _ _ _ _ (co_index _ _ H) H1 H2 eq_refl) as E. congruence.
  - intros q1 q2 k H1 H2. pose proof (nodup_map_inj _ _ _ _ _ _ (co_slots _ _ H) H1 H2 eq_refl) as E. congruence.
  - exact (co_stored _ _ H).
  - exact (co_indexed _ _ H).
  - exact (co_size _ _ H).
Qed.

(* what a look-up gives *)
Lemma store_get_some : forall R (cs : R -> N) p q r k, consistent cs p ->
  store_get (alive_in (p_handles p)) (p_store p) q = Some (r, k) ->
  indexed p q k /\ live p r /\ exists w, stored p k w /\ wr_regex w = r.
Proof.
  intros R cs p q r k H E. unfold store_get in E.
  destruct (assoc str_eqb q (rs_index (p_store p))) as [k'|] eqn:Ea; [|discriminate].
  destruct (slot_get k' (rs_keys (p_store p))) as [w|] eqn:Eg; [|discriminate].
  destruct (alive_in (p_handles p) (wr_regex w)) eqn:El; [|discriminate]. injection E as <- <-.
  split; [exact (assoc_in _ _ _ Ea)|]. split; [apply alive_spec; exact El|]. exists w. split; [|reflexivity].
  apply slot_get_holds. exact Eg.
Qed.
Lemma store_get_none : forall R (cs : R -> N) p q k w, consistent cs p ->
  store_get (alive_in (p_handles p)) (p_store p) q = None -> indexed p q k -> stored p k w -> ~ live p (wr_regex w).
Proof.
  intros R cs p q k w H E Hi Hs Hl. unfold store_get in E. rewrite (assoc_complete _ _ _ (co_index _ _ H) Hi) in E.
  rewrite (proj2 (slot_get_holds _ _ _ _) Hs) in E. apply alive_spec in Hl. rewrite Hl in E. discriminate.
Qed.

Lemma sum_slot_insert : forall w (m : slot_map weak_regex) k m', free_ok m -> slot_insert w m = (k, m') ->
  sum slot_size (sm_slots m') = (sum slot_size (sm_slots m) + Z.of_N (wr_cache_size w))%Z.
Proof.
  intros w m k m' (F1 & F2) H. unfold slot_insert in H. destruct (sm_free m) as [|i free] eqn:Ef; injection H as <- <-; cbn [sm_slots].
  - rewrite sum_app. f_equal. unfold sum. cbn. lia.
  - destruct (F2 i (or_introl eq_refl)) as (s & Es & Ev). rewrite (sum_set_nth _ _ _ _ _ _ Es).
    assert (slot_size s = 0%Z) as -> by (unfold slot_size; rewrite Ev; reflexivity). cbn [slot_size sl_value]. lia.
Qed.

(* an entry that is not live can be removed *)
Lemma consistent_remove : forall R (cs : R -> N) p q k w keys c lock delta total,
  consistent cs p -> indexed p q k -> stored p k w -> ~ live p (wr_regex w) ->
  slot_remove k (rs_keys (p_store p)) = (Some w, keys) -> delta = (- Z.of_N (wr_cache_size w))%Z ->
  (forall l todo, lock = Some l -> lk_phase l = Collecting todo ->
     NoDup todo /\ incl todo (map fst (rs_index (p_store p))) /\ ~ In q todo) ->
  ((forall l, lock = Some l -> forall todo, lk_phase l <> Collecting todo) -> total = N.of_nat (pred (sm_len (rs_keys (p_store p))))) ->
  consistent cs (with_stats (with_store p {| rs_index := remove_entry q (rs_index (p_store p)); rs_keys := keys; rs_gc_counter := c |} lock)
    total (p_cache_size p + delta)).
Proof.
  intros R cs p q k w keys c lock delta total H Hi Hs Hl Er -> Hlock Htotal.
  destruct (slot_remove_spec _ _ _ _ (co_free _ _ H) Hs) as (m' & Er' & F & L & N & Hh & (s & Es & Ev & Em)).
  rewrite Er in Er'. injection Er' as <-.
  set (p' := with_stats _ _ _).
  assert (forall k' w', stored p' k' w' <-> stored p k' w' /\ sk_index k' <> sk_index k) as Hst by (intros k' w'; apply Hh).
  assert (forall q' k', indexed p' q' k' <-> indexed p q' k' /\ q' <> q) as Hin by (intros q' k'; apply remove_entry_in).
  constructor; cbn [p' with_stats with_store p_store p_handles p_heap p_lock p_total_regexes p_cache_size rs_keys rs_index].
  - exact F.
  - apply remove_entry_nodup. exact (co_index _ _ H).
  - intros q' k' K. apply Hin in K as (K1 & K2). destruct (co_stored _ _ H _ _ K1) as (w' & K3). exists w'. apply Hst. split; [exact K3|].
    intros E. apply K2. pose proof (nodup_map_inj _ _ _ _ _ _ (co_slots _ _ H) K1 Hi E) as K. congruence.
  - apply remove_entry_nodup. exact (co_slots _ _ H).
  - intros k' w' K. apply Hst in K as (K1 & K2). destruct (co_indexed _ _ H _ _ K1) as (q' & K3). exists q'. apply Hin. split; [exact K3|].
    intros ->. apply K2. pose proof (nodup_map_inj _ _ _ _ _ _ (co_index _ _ H) K3 Hi eq_refl) as K. congruence.
  - rewrite L, <- (co_size _ _ H), (remove_entry_length _ _ _ (co_index _ _ H) Hi). reflexivity.
  - intros h Hh'. destruct (co_handles _ _ H h Hh') as (K1 & w' & K2 & K3).
    assert (sk_index (h_key h) <> sk_index k) as Ne.
    { intros E. destruct (holds_same_slot _ _ _ _ _ _ K2 Hs E) as (_ & ->). apply Hl. exists h. auto. }
    split; [|exists w'; split; [apply Hst; split; [exact K2|exact Ne]|exact K3]]. apply Hin. split; [exact K1|].
    intros E. apply Ne. rewrite E in K1. pose proof (nodup_map_inj _ _ _ _ _ _ (co_index _ _ H) K1 Hi eq_refl) as K. congruence.
  - intros k' w' K. apply Hst in K as (K1 & _). exact (co_heap _ _ H _ _ K1).
  - intros k1 k2 w1 w2 K1 K2 E. apply Hst in K1 as (K1 & _). apply Hst in K2 as (K2 & _). exact (co_regex _ _ H _ _ _ _ K1 K2 E).
  - intros l todo El Ep. destruct (Hlock l todo El Ep) as (T1 & T2 & T3). split; [exact T1|]. intros q' K.
    pose proof (T2 q' K) as K'. apply in_map_iff in K' as ([q0 k0] & E0 & K0). cbn in E0. subst q0. apply in_map_iff. exists (q', k0).
    split; [reflexivity|]. apply remove_entry_in. split; [exact K0|]. cbn. intros ->. exact (T3 K).
  - intros Hn. rewrite L. apply Htotal. exact Hn.
  - rewrite (co_bytes _ _ H). unfold stored_size, created_size, p'. cbn [with_stats with_store p_store rs_keys p_heap p_cache_size]. rewrite Em, (sum_set_nth _ _ _ _ _ _ Es).
    assert (slot_size s = Z.of_N (wr_cache_size w)) as -> by (unfold slot_size; rewrite Ev; reflexivity). cbn [slot_size sl_value]. lia.
Qed.

(* the entry of a new regex *)
Lemma consistent_insert : forall R (cs : R -> N) p q x k keys c ph,
  consistent cs p -> (forall k', ~ indexed p q k') ->
  p_lock p = Some {| lk_pattern := q; lk_regex := x; lk_phase := ph |} ->
  slot_insert {| wr_regex := length (p_heap p); wr_cache_size := cs x |} (rs_keys (p_store p)) = (k, keys) ->
  consistent cs {|
    p_store := {| rs_index := (q, k) :: rs_index (p_store p); rs_keys := keys; rs_gc_counter := c |};
    p_lock := None; p_heap := p_heap p ++ [x];
    p_handles := {| h_pattern := q; h_regex := length (p_heap p); h_key := k |} :: p_handles p;
    p_calls := p_calls p; p_caches := p_caches p; p_uses := p_uses p;
    p_total_regexes := N.of_nat (sm_len keys); p_cache_size := p_cache_size p |}.
Proof.
  intros R cs p q x k keys c ph H Hq Hl Ei.
  destruct (slot_insert_spec _ _ _ _ _ (co_free _ _ H) Ei) as (F & L & Hk & Hf & Ho).
  pose proof (sum_slot_insert _ _ _ _ (co_free _ _ H) Ei) as Hsum. cbn [wr_cache_size] in Hsum.
  set (w := {| wr_regex := length (p_heap p); wr_cache_size := cs x |}) in *.
  set (p' := {| p_store := _ |}).
  assert (forall k' w', stored p' k' w' <-> (k' = k /\ w' = w) \/ stored p k' w' /\ sk_index k' <> sk_index k) as Hst.
  { intros k' w'. destruct (Nat.eq_dec (sk_index k') (sk_index k)) as [E|E].
    - split; [|intros [(-> & ->)|(_ & K)]; [exact Hk|contradiction]].
      intros K. left. exact (holds_same_slot _ _ _ _ _ _ K Hk E).
    - split; [|intros [(-> & _)|(K & _)]; [destruct (E eq_refl)|apply (proj2 (Ho k' w' E)); exact K]].
      intros K. right. split; [apply (proj1 (Ho k' w' E)); exact K|exact E]. }
  assert (forall k' w', stored p k' w' -> sk_index k' <> sk_index k) as Hne by (intros k' w' K E; exact (Hf _ _ E K)).
  assert (forall k' w', stored p k' w' -> exists y, nth_error (p_heap p ++ [x]) (wr_regex w') = Some y /\ wr_cache_size w' = cs y) as Hheap.
  { intros k' w' K. destruct (co_heap _ _ H _ _ K) as (y & E1 & E2). exists y. split; [|exact E2].
    rewrite nth_error_app1; [exact E1|]. apply nth_error_Some. congruence. }
  constructor; cbn [p' p_store p_handles p_heap p_lock p_total_regexes p_cache_size rs_keys rs_index].
  - exact F.
  - cbn [map fst]. constructor; [|exact (co_index _ _ H)]. intros K. apply in_map_iff in K as ([q0 k0] & E & K). cbn in E. subst q0. exact (Hq _ K).
  - intros q' k' [E|K].
    + injection E as <- <-. exists w. exact Hk.
    + destruct (co_stored _ _ H _ _ K) as (w' & K'). exists w'. apply Hst. right. split; [exact K'|exact (Hne _ _ K')].
  - cbn [map snd]. constructor; [|exact (co_slots _ _ H)]. intros K. apply in_map_iff in K as ([q0 k0] & E & K). cbn in E.
    destruct (co_stored _ _ H _ _ K) as (w' & K'). exact (Hne _ _ K' E).
  - intros k' w' K. apply Hst in K as [(-> & ->)|(K & _)]; [exists q; left; reflexivity|].
    destruct (co_indexed _ _ H _ _ K) as (q' & K'). exists q'. right. exact K'.
  - cbn [length]. rewrite L, (co_size _ _ H). reflexivity.
  - intros h [<-|Hh].
    + cbn. split; [left; reflexivity|]. exists w. split; [exact Hk|reflexivity].
    + destruct (co_handles _ _ H h Hh) as (K1 & w' & K2 & K3). split; [right; exact K1|]. exists w'. split; [|exact K3].
      apply Hst. right. split; [exact K2|exact (Hne _ _ K2)].
  - intros k' w' K. apply Hst in K as [(_ & ->)|(K & _)]; [|exact (Hheap _ _ K)].
    exists x. cbn. rewrite nth_error_app2, Nat.sub_diag by lia. split; reflexivity.
  - assert (forall k' w', stored p k' w' -> wr_regex w' <> length (p_heap p)) as Hn.
    { intros k' w' K E. destruct (co_heap _ _ H _ _ K) as (y & E1 & _). rewrite E in E1.
      assert (length (p_heap p) < length (p_heap p)) by (apply nth_error_Some; congruence). lia. }
    intros k1 k2 w1 w2 K1 K2 E. apply Hst in K1 as [(-> & ->)|(K1 & _)]; apply Hst in K2 as [(-> & ->)|(K2 & _)].
    + reflexivity.
    + destruct (Hn _ _ K2). symmetry. exact E.
    + destruct (Hn _ _ K1). exact E.
    + exact (co_regex _ _ H _ _ _ _ K1 K2 E).
  - discriminate.
  - reflexivity.
  - rewrite (co_bytes _ _ H). unfold stored_size, created_size, p'. cbn [p_store rs_keys p_heap p_cache_size]. rewrite Hsum, sum_app. assert (sum (fun x0 => Z.of_N (cs x0)) [x] = Z.of_N (cs x)) as -> by (unfold sum; cbn; lia). lia.
Qed.

Lemma assoc_remove_entry : forall q l, assoc str_eqb q (remove_entry q l) = None.
Proof.
  intros q l. destruct (assoc str_eqb q (remove_entry q l)) as [k|] eqn:E; [|reflexivity]. apply assoc_in in E.
  apply remove_entry_in in E as (_ & E). destruct (E eq_refl).
Qed.

Theorem perform_consistent : forall R (cs : R -> N) a p o, consistent cs p -> perform cs a p = Some o ->
  (forall n m, a <> AUse n m) -> exists p', o = Ret p' /\ consistent cs p'.
Proof.
  intros R cs a p o H E Ha. destruct a as [q f|n|n| | |n| |n m]; cbn [perform] in E.
  - (* ALookup *)
    destruct (p_lock p) as [l|] eqn:El; [discriminate|].
    destruct (store_get (alive_in (p_handles p)) (p_store p) q) as [[r k]|] eqn:Eg.
    + injection E as <-. eexists. split; [reflexivity|]. destruct (store_get_some _ _ _ _ _ _ H Eg) as (K1 & _ & w & K2 & K3).
      destruct H. constructor; try assumption.
      intros h [<-|Hh]; [cbn; split; [exact K1|exists w; auto]|]. apply co_handles0. exact Hh.
    + destruct (f q) as [x|]; injection E as <-; (eexists; split; [reflexivity|]); [|exact H].
      destruct H. constructor; assumption.
  - (* ABegin *)
    destruct (p_lock p) as [l|] eqn:El; [discriminate|]. destruct (nth_error (p_calls p) n) as [[q x]|]; [|discriminate]. injection E as <-.
    eexists. split; [reflexivity|]. destruct H. constructor; try assumption; cbn [with_calls with_store p_lock p_store rs_index].
    + intros l todo K1 K2. injection K1 as <-. cbn [lk_phase] in K2. destruct (gc_frequency <=? rs_gc_counter (p_store p) + 1)%N; [|discriminate].
      injection K2 as <-. split; [exact co_index0|]. intros y Hy. exact Hy.
    + intros _. apply co_gauge0. intros l. rewrite El. discriminate.
  - (* AVisit *)
    destruct (p_lock p) as [[q x [todo|]]|] eqn:El; try discriminate. destruct (nth_error todo n) as [v|] eqn:Ev; [|discriminate].
    destruct (co_lock _ _ H _ _ El eq_refl) as (T1 & T2). destruct (remove_nth_nodup _ _ _ _ T1 Ev) as (T3 & T4).
    assert (In v (map fst (rs_index (p_store p)))) as Hv by (apply T2; exact (nth_error_In _ _ Ev)).
    apply in_map_iff in Hv as ([v0 k] & E0 & Hv). cbn in E0. subst v0. unfold gc_visit in E.
    rewrite (assoc_complete _ _ _ (co_index _ _ H) Hv) in E. destruct (co_stored _ _ H _ _ Hv) as (w & Hw).
    rewrite (proj2 (slot_get_holds _ _ _ _) Hw) in E. cbn [unwrap bind] in E.
    destruct (alive_in (p_handles p) (wr_regex w)) eqn:Ea.
    + injection E as <-. eexists. split; [reflexivity|]. destruct H. constructor; try assumption; cbn [with_stats with_store p_lock p_store].
      * intros l todo0 K1 K2. injection K1 as <-. injection K2 as <-. split; [exact T3|]. intros y Hy. apply T2. exact (remove_nth_in _ _ _ _ Hy).
      * intros K. destruct (K _ eq_refl (remove_nth n todo) eq_refl).
      * cbn [p_cache_size]. rewrite Z.add_0_r. exact co_bytes0.
    + destruct (slot_remove_spec _ _ _ _ (co_free _ _ H) Hw) as (m' & Er & _). rewrite Er in E. cbn [bind] in E. injection E as <-.
      eexists. split; [reflexivity|]. eapply consistent_remove; eauto.
      * intros K. apply alive_spec in K. congruence.
      * intros l todo0 K1 K2. injection K1 as <-. injection K2 as <-. split; [exact T3|]. split; [|exact T4].
        intros y Hy. apply T2. exact (remove_nth_in _ _ _ _ Hy).
      * intros K. destruct (K _ eq_refl (remove_nth n todo) eq_refl).
  - (* AFinishGc *)
    destruct (p_lock p) as [[q x [[|? ?]|]]|] eqn:El; try discriminate. injection E as <-. eexists. split; [reflexivity|].
    destruct H. constructor; try assumption; cbn [with_stats with_store p_lock p_store p_total_regexes].
    + intros l todo K1 K2. injection K1 as <-. discriminate.
    + reflexivity.
  - (* AInsert *)
    destruct (p_lock p) as [[q x [todo|]]|] eqn:El; try discriminate. unfold store_insert in E.
    assert (p_total_regexes p = N.of_nat (sm_len (rs_keys (p_store p)))) as Hg.
    { apply (co_gauge _ _ H). intros l K todo. rewrite El in K. injection K as <-. discriminate. }
    destruct (store_get (alive_in (p_handles p)) (p_store p) q) as [[r k]|] eqn:Eg.
    + injection E as <-. eexists. split; [reflexivity|]. destruct (store_get_some _ _ _ _ _ _ H Eg) as (K1 & _ & w & K2 & K3).
      destruct H. constructor; try assumption; cbn [p_lock p_cache_size]; try discriminate.
      * intros h [<-|Hh]; [cbn; split; [exact K1|exists w; auto]|]. apply co_handles0. exact Hh.
      * intros _. exact Hg.
      * rewrite Z.add_0_r. exact co_bytes0.
    + destruct (slot_insert {| wr_regex := length (p_heap p); wr_cache_size := cs x |} (rs_keys (p_store p))) as [k keys] eqn:Ei.
      unfold index_insert in E. destruct (assoc str_eqb q (rs_index (p_store p))) as [old|] eqn:Ea.
      * (* an old entry is replaced: first the new entry is made, then the old one removed;
           the result is that of the reverse order on the index, but not on the slots *)
        pose proof (assoc_in _ _ _ Ea) as Hold. destruct (co_stored _ _ H _ _ Hold) as (w & Hw).
        pose proof (store_get_none _ _ _ _ _ _ H Eg Hold Hw) as Hdead.
        destruct (slot_insert_spec _ _ _ _ _ (co_free _ _ H) Ei) as (F & L & Hk & Hf & Ho).
        assert (sk_index old <> sk_index k) as Hne by (intros E0; exact (Hf _ _ E0 Hw)).
        assert (holds keys old w) as Hw' by (apply Ho; [exact Hne|exact Hw]).
        destruct (slot_remove_spec _ _ _ _ F Hw') as (m' & Er & F' & L' & N' & Hh & (s & Es & Ev & Em)).
        rewrite Er in E. destruct (alive_in (p_handles p) (wr_regex w)) eqn:Eal; [apply alive_spec in Eal; contradiction|].
        cbn [bind] in E. injection E as <-. eexists. split; [reflexivity|].
        pose proof (sum_slot_insert _ _ _ _ (co_free _ _ H) Ei) as Hsum. cbn [wr_cache_size] in Hsum.
        set (wn := {| wr_regex := length (p_heap p); wr_cache_size := cs x |}) in *.
        set (p' := {| p_store := _ |}).
        assert (forall k' w', stored p' k' w' <-> (k' = k /\ w' = wn) \/ stored p k' w' /\ sk_index k' <> sk_index k /\ sk_index k' <> sk_index old) as Hst.
        { intros k' w'. transitivity (holds keys k' w' /\ sk_index k' <> sk_index old); [apply Hh|].
          destruct (Nat.eq_dec (sk_index k') (sk_index k)) as [E0|E0].
          - split.
            + intros (K & _). left. exact (holds_same_slot _ _ _ _ _ _ K Hk E0).
            + intros [(-> & ->)|(_ & K & _)]; [split; [exact Hk|congruence]|contradiction].
          - split.
            + intros (K1 & K2). right. split; [apply Ho; assumption|auto].
            + intros [(-> & _)|(K1 & _ & K2)]; [destruct (E0 eq_refl)|]. split; [apply Ho; assumption|exact K2]. }
        assert (forall q' k', indexed p' q' k' <-> (q' = q /\ k' = k) \/ indexed p q' k' /\ q' <> q) as Hin.
        { intros q' k'. unfold indexed, p'. cbn [p_store rs_index In]. rewrite remove_entry_in. cbn [fst]. split.
          - intros [K|K]; [left; split; congruence|right; exact K].
          - intros [(-> & ->)|K]; [left; reflexivity|right; exact K]. }
        assert (forall k' w', stored p k' w' -> sk_index k' <> sk_index k) as Hfresh by (intros k' w' K E0; exact (Hf _ _ E0 K)).
        assert (forall q' k', indexed p q' k' -> q' <> q -> sk_index k' <> sk_index old) as Hother.
        { intros q' k' K1 K2 E0. apply K2. pose proof (nodup_map_inj _ _ _ _ _ _ (co_slots _ _ H) K1 Hold E0) as K. congruence. }
        constructor; cbn [p' p_store p_handles p_heap p_lock p_total_regexes p_cache_size rs_keys rs_index].
        -- exact F'.
        -- cbn [map fst]. constructor; [|apply remove_entry_nodup; exact (co_index _ _ H)]. intros K. apply in_map_iff in K as (e & E0 & K).
           apply remove_entry_in in K as (_ & K). contradiction.
        -- intros q' k' K. apply Hin in K as [(-> & ->)|(K1 & K2)].
           ++ exists wn. apply Hst. left. auto.
           ++ destruct (co_stored _ _ H _ _ K1) as (w' & K3). exists w'. apply Hst. right. split; [exact K3|]. split; [exact (Hfresh _ _ K3)|exact (Hother _ _ K1 K2)].
        -- cbn [map snd]. constructor; [|apply remove_entry_nodup; exact (co_slots _ _ H)]. intros K. apply in_map_iff in K as ([q' k'] & E0 & K).
           apply remove_entry_in in K as (K & _). cbn in E0. destruct (co_stored _ _ H _ _ K) as (w' & K3). exact (Hfresh _ _ K3 E0).
        -- intros k' w' K. apply Hst in K as [(-> & ->)|(K1 & K2 & K3)]; [exists q; apply Hin; auto|].
           destruct (co_indexed _ _ H _ _ K1) as (q' & K4). exists q'. apply Hin. right. split; [exact K4|]. intros ->. apply K3.
           pose proof (nodup_map_inj _ _ _ _ _ _ (co_index _ _ H) K4 Hold eq_refl) as K. congruence.
        -- cbn [length]. rewrite L', L. cbn [pred]. rewrite <- (co_size _ _ H). symmetry. apply (remove_entry_length _ _ _ (co_index _ _ H) Hold).
        -- intros h [<-|Hh0].
           ++ cbn. split; [left; reflexivity|]. exists wn. split; [apply Hst; left; auto|reflexivity].
           ++ destruct (co_handles _ _ H h Hh0) as (K1 & w' & K2 & K3).
              assert (sk_index (h_key h) <> sk_index old) as Ne.
              { intros E0. destruct (holds_same_slot _ _ _ _ _ _ K2 Hw E0) as (_ & ->). apply Hdead. exists h. auto. }
              split; [|exists w'; split; [apply Hst; right; split; [exact K2|split; [exact (Hfresh _ _ K2)|exact Ne]]|exact K3]].
              apply Hin. right. split; [exact K1|]. intros E0. apply Ne. rewrite E0 in K1.
              pose proof (nodup_map_inj _ _ _ _ _ _ (co_index _ _ H) K1 Hold eq_refl) as K. congruence.
        -- intros k' w' K. apply Hst in K as [(_ & ->)|(K & _)].
           ++ exists x. cbn. rewrite nth_error_app2, Nat.sub_diag by lia. split; reflexivity.
           ++ destruct (co_heap _ _ H _ _ K) as (y & E1 & E2). exists y. split; [|exact E2]. rewrite nth_error_app1; [exact E1|]. apply nth_error_Some. congruence.
        -- assert (forall k' w', stored p k' w' -> wr_regex w' <> length (p_heap p)) as Hn.
           { intros k' w' K E0. destruct (co_heap _ _ H _ _ K) as (y & E1 & _). rewrite E0 in E1.
             assert (length (p_heap p) < length (p_heap p)) by (apply nth_error_Some; congruence). lia. }
           intros k1 k2 w1 w2 K1 K2 E0. apply Hst in K1 as [(-> & ->)|(K1 & _)]; apply Hst in K2 as [(-> & ->)|(K2 & _)].
           ++ reflexivity.
           ++ destruct (Hn _ _ K2). symmetry. exact E0.
           ++ destruct (Hn _ _ K1). exact E0.
           ++ exact (co_regex _ _ H _ _ _ _ K1 K2 E0).
        -- discriminate.
        -- reflexivity.
        -- rewrite (co_bytes _ _ H). unfold stored_size, created_size, p'. cbn [p_store rs_keys p_heap p_cache_size].
           rewrite Em, (sum_set_nth _ _ _ _ _ _ Es), Hsum, sum_app.
           assert (slot_size s = Z.of_N (wr_cache_size w)) as -> by (unfold slot_size; rewrite Ev; reflexivity). cbn [slot_size sl_value].
           assert (sum (fun x0 => Z.of_N (cs x0)) [x] = Z.of_N (cs x)) as -> by (unfold sum; cbn; lia). lia.
      * cbn [bind] in E. injection E as <-. eexists. split; [reflexivity|]. rewrite Z.add_0_r.
        rewrite remove_entry_absent by (exact (assoc_none _ _ Ea)). eapply consistent_insert; eauto. exact (assoc_none _ _ Ea).
  - (* ADrop *)
    destruct (nth_error (p_handles p) n) as [h|] eqn:Eh; [|discriminate]. injection E as <-. eexists. split; [reflexivity|].
    destruct H. constructor; try assumption. intros h' Hh'. apply co_handles0. exact (remove_nth_in _ _ _ _ Hh').
  - (* ANewCaches *)
    injection E as <-. eexists. split; [reflexivity|]. destruct H. constructor; assumption.
  - destruct (Ha n m eq_refl).
Qed.
Lemma use_consistent : forall R (cs : R -> N) n m p p', consistent cs p -> perform cs (AUse n m) p = Some (Ret p') -> consistent cs p'.
Proof.
  intros R cs n m p p' H E. cbn [perform] in E. destruct (nth_error (p_handles p) n) as [h|]; [|discriminate].
  destruct (nth_error (p_caches p) m) as [c|]; [|discriminate]. destruct (entry_or_insert (h_key h) (h_regex h) c) as [[x c']| |]; try discriminate.
  injection E as <-. destruct H. constructor; assumption.
Qed.
Lemma step_consistent : forall R (cs : R -> N) a p p', consistent cs p -> perform cs a p = Some (Ret p') -> consistent cs p'.
Proof.
  intros R cs a p p' H E. destruct a as [q f|n|n| | |n| |n m];
    try (destruct (perform_consistent _ _ _ _ _ H E) as (p'' & E' & H'); [discriminate|congruence]).
  exact (use_consistent _ _ _ _ _ _ H E).
Qed.
Lemma run_consistent : forall R (cs : R -> N) acts p p', consistent cs p -> run cs acts p = Some (Ret p') -> consistent cs p'.
Proof.
  intros R cs acts. induction acts as [|a acts IH]; intros p p' H E; cbn [run] in E; [injection E as <-; exact H|].
  destruct (perform cs a p) as [[p1| |]|] eqn:Ep; try discriminate. eapply IH; [|exact E]. exact (step_consistent _ _ _ _ _ H Ep).
Qed.
Lemma reachable_consistent : forall R (cs : R -> N) p, reachable cs p -> consistent cs p.
Proof. intros R cs p (acts & E). eapply run_consistent; [apply consistent_new|exact E]. Qed.
