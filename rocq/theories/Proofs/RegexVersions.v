(* Long histories of the regex store: one pattern that is requested and dropped again and
   again *)
From Coq Require Import Lia ZifyN.
From Verif Require Export Proofs.RegexCaches.
Ltac Zify.zify_post_hook ::= Z.div_mod_to_equations.

Lemma run_app : forall R (cs : R -> N) a b p p', run cs a p = Some (Ret p') -> run cs (a ++ b) p = run cs b p'.
Proof.
  intros R cs a. induction a as [|x a IH]; intros b p p' H; cbn [run app] in *; [injection H as ->; reflexivity|].
  destruct (perform cs x p) as [[p1| |]|]; try discriminate. exact (IH b p1 p' H).
Qed.

Definition one_pattern : str := [97%N].
Definition no_size (x : unit) : N := 0.
Definition always (q : str) : option unit := Some tt.
Definition key_version (k : N) : N := wrapping_u32 (2 * k).
Lemma key_version_even : forall k, N.odd (key_version k) = false.
Proof.
  intros k. unfold key_version, wrapping_u32, u32_max_plus_1. rewrite <- N.bit0_odd. change 4294967296%N with (2 ^ 32)%N.
  rewrite N.mod_pow2_bits_low by reflexivity. apply N.testbit_even_0.
Qed.
Lemma key_version_next : forall k, wrapping_u32 (key_version k + 1 + 1) = key_version (k + 1).
Proof.
  intros k. unfold key_version, wrapping_u32, u32_max_plus_1. rewrite <- N.add_assoc. rewrite N.add_mod_idemp_l by discriminate. f_equal. lia.
Qed.
Definition occupied (k : N) (r : nat) : slot weak_regex :=
  {| sl_version := key_version k + 1; sl_value := Some {| wr_regex := r; wr_cache_size := 0 |} |}.
Definition vacant (k : N) : slot weak_regex := {| sl_version := key_version k; sl_value := None |}.

(* the regex [r] is alive in slot 1 or slot 2, used for the [ko]th time; the other slot is
   free *)
Definition St (ctr : N) (first : bool) (ko kf : N) (heap : list unit) (r : nat)
  (caches : list (secondary_map nat)) (uses : list (nat * nat)) : process unit :=
  let i := if first then 1 else 2 in
  let k := {| sk_index := i; sk_version := key_version ko + 1 |} in
  {| p_store := {| rs_index := [(one_pattern, k)];
                   rs_keys := {| sm_slots := {| sl_version := 0; sl_value := None |} ::
                                   (if first then [occupied ko r; vacant kf] else [vacant kf; occupied ko r]);
                                 sm_free := [if first then 2 else 1]; sm_len := 1 |};
                   rs_gc_counter := ctr |};
     p_lock := None; p_heap := heap; p_handles := [{| h_pattern := one_pattern; h_regex := r; h_key := k |}];
     p_calls := []; p_caches := caches; p_uses := uses; p_total_regexes := 1; p_cache_size := 0 |}.

Lemma cycle : forall ctr first ko kf heap r c u, (ctr + 1 < 1000)%N ->
  run no_size [ADrop 0; ALookup one_pattern always; ABegin 0; AInsert] (St ctr first ko kf heap r c u)
  = Some (Ret (St (ctr + 1) (negb first) kf (ko + 1) (heap ++ [tt]) (length heap) c u)).
Proof.
  intros ctr first ko kf heap r c u H. assert ((1000 <=? ctr + 1)%N = false) as Hg by (apply N.leb_gt; exact H).
  unfold St. destruct first.
  - cbn. unfold store_get. cbn. rewrite N.eqb_refl. cbn. unfold gc_frequency. rewrite Hg. cbn. unfold store_insert, store_get. cbn.
    rewrite N.eqb_refl. cbn. unfold slot_remove, slot_get. cbn. rewrite N.eqb_refl. cbn. rewrite (lor_1_even _ (key_version_even kf)), key_version_next. reflexivity.
  - cbn. unfold store_get. cbn. rewrite N.eqb_refl. cbn. unfold gc_frequency. rewrite Hg. cbn. unfold store_insert, store_get. cbn.
    rewrite N.eqb_refl. cbn. unfold slot_remove, slot_get. cbn. rewrite N.eqb_refl. cbn. rewrite (lor_1_even _ (key_version_even kf)), key_version_next. reflexivity.
Qed.
Lemma cycle_gc : forall ctr first ko kf heap r c u, (1000 <= ctr + 1)%N ->
  run no_size [ADrop 0; ALookup one_pattern always; ABegin 0; AVisit 0; AFinishGc; AInsert] (St ctr first ko kf heap r c u)
  = Some (Ret (St 0 first (ko + 1) kf (heap ++ [tt]) (length heap) c u)).
Proof.
  intros ctr first ko kf heap r c u H. assert ((1000 <=? ctr + 1)%N = true) as Hg by (apply N.leb_le; exact H).
  unfold St. destruct first.
  - cbn. unfold store_get. cbn. rewrite N.eqb_refl. cbn. unfold gc_frequency. rewrite Hg. cbn. unfold gc_visit. cbn. rewrite N.eqb_refl. cbn.
    unfold slot_remove, slot_get. cbn. rewrite N.eqb_refl. cbn. rewrite key_version_next, (lor_1_even _ (key_version_even (ko + 1))). reflexivity.
  - cbn. unfold store_get. cbn. rewrite N.eqb_refl. cbn. unfold gc_frequency. rewrite Hg. cbn. unfold gc_visit. cbn. rewrite N.eqb_refl. cbn.
    unfold slot_remove, slot_get. cbn. rewrite N.eqb_refl. cbn. rewrite key_version_next, (lor_1_even _ (key_version_even (ko + 1))). reflexivity.
Qed.

Lemma advance : forall ctr ko kf heap r c u, (ctr < 1000)%N -> heap <> [] -> exists acts ctr' kf' heap' r',
  run no_size acts (St ctr true ko kf heap r c u) = Some (Ret (St ctr' true (ko + 1) kf' heap' r' c u)) /\
  (ctr' < 1000)%N /\ heap' <> [] /\ r' <> 0.
Proof.
  intros ctr ko kf heap r c u H Hh.
  assert (forall h : list unit, h <> [] -> length h <> 0 /\ h ++ [tt] <> []) as K by (intros [|x h] K; [destruct (K eq_refl)|split; discriminate]).
  destruct (N.lt_ge_cases (ctr + 1) 1000) as [L|L].
  - destruct (N.lt_ge_cases (ctr + 1 + 1) 1000) as [L'|L'].
    + exists (([ADrop 0; ALookup one_pattern always; ABegin 0; AInsert]) ++ [ADrop 0; ALookup one_pattern always; ABegin 0; AInsert]).
      eexists _, _, _, _. rewrite (run_app _ _ _ _ _ _ (cycle ctr true ko kf heap r c u L)).
      split; [exact (cycle _ _ _ _ _ _ _ _ L')|]. split; [exact L'|]. destruct (K _ (proj2 (K _ Hh))). auto.
    + exists ((([ADrop 0; ALookup one_pattern always; ABegin 0; AInsert]) ++ [ADrop 0; ALookup one_pattern always; ABegin 0; AVisit 0; AFinishGc; AInsert])
        ++ [ADrop 0; ALookup one_pattern always; ABegin 0; AInsert]).
      eexists _, _, _, _. rewrite <- app_assoc, (run_app _ _ _ _ _ _ (cycle ctr true ko kf heap r c u L)), (run_app _ _ _ _ _ _ (cycle_gc _ _ _ _ _ _ _ _ L')).
      split; [refine (cycle _ _ _ _ _ _ _ _ _); reflexivity|]. split; [reflexivity|]. destruct (K _ (proj2 (K _ (proj2 (K _ Hh))))). auto.
  - eexists _, _, _, _, _. split; [exact (cycle_gc _ _ _ _ _ _ _ _ L)|]. split; [reflexivity|]. destruct (K _ Hh). auto.
Qed.
Lemma advances : forall d ctr ko kf heap r c u, (ctr < 1000)%N -> heap <> [] -> r <> 0 -> exists acts ctr' kf' heap' r',
  run no_size acts (St ctr true ko kf heap r c u) = Some (Ret (St ctr' true (ko + N.of_nat d) kf' heap' r' c u)) /\ r' <> 0.
Proof.
  intros d. induction d as [|d IH]; intros ctr ko kf heap r c u H Hh Hr.
  - exists [], ctr, kf, heap, r. cbn [run N.of_nat]. rewrite N.add_0_r. auto.
  - destruct (advance ctr ko kf heap r c u H Hh) as (a1 & ctr1 & kf1 & heap1 & r1 & E1 & H1 & Hh1 & Hr1).
    destruct (IH ctr1 (ko + 1)%N kf1 heap1 r1 c u H1 Hh1 Hr1) as (a2 & ctr2 & kf2 & heap2 & r2 & E2 & Hr2).
    exists (a1 ++ a2), ctr2, kf2, heap2, r2. split; [|exact Hr2]. rewrite (run_app _ _ _ _ _ _ E1), E2. replace (ko + N.of_nat (S d))%N with (ko + 1 + N.of_nat d)%N by lia. reflexivity.
Qed.

Definition first_actions : list (action unit) :=
  [ANewCaches; ALookup one_pattern always; ABegin 0; AInsert; AUse 0 0;
   ADrop 0; ALookup one_pattern always; ABegin 0; AInsert; ADrop 0; ALookup one_pattern always; ABegin 0; AInsert].
Lemma first_run : run no_size first_actions process_new
  = Some (Ret (St 3 true 1 1 [tt; tt; tt] 2 [[None; Some (1%N, 0)]] [(0, 0)])).
Proof. vm_compute. reflexivity. Qed.

(* the version of slot 1 can be any odd number, with the first cache still there *)
Lemma any_version : forall k, (1 <= k)%N -> exists acts ctr kf heap r,
  run no_size acts process_new = Some (Ret (St ctr true k kf heap r [[None; Some (1%N, 0)]] [(0, 0)])) /\ r <> 0.
Proof.
  intros k H. destruct (advances (N.to_nat (k - 1)) 3 1 1 [tt; tt; tt] 2 [[None; Some (1%N, 0)]] [(0, 0)] ltac:(reflexivity) ltac:(discriminate) ltac:(discriminate))
    as (a & ctr & kf & heap & r & E & Hr).
  exists (first_actions ++ a), ctr, kf, heap, r. split; [|exact Hr]. rewrite (run_app _ _ _ _ _ _ first_run), E. replace (1 + N.of_nat (N.to_nat (k - 1)))%N with k by lia. reflexivity.
Qed.
Lemma too_old : exists acts, run no_size acts process_new = Some Panic.
Proof.
  destruct (any_version (2 ^ 30) ltac:(discriminate)) as (a & ctr & kf & heap & r & E & Hr).
  exists (a ++ [AUse 0 0]). rewrite (run_app _ _ _ _ _ _ E). reflexivity.
Qed.
Lemma wrong_cache : exists acts p r c, run no_size acts process_new = Some (Ret p) /\ In (r, c) (p_uses p) /\ r <> c.
Proof.
  destruct (any_version (2 ^ 31) ltac:(discriminate)) as (a & ctr & kf & heap & r & E & Hr).
  exists (a ++ [AUse 0 0]). eexists _, r, 0. rewrite (run_app _ _ _ _ _ _ E). split; [reflexivity|]. split; [left; reflexivity|exact Hr].
Qed.
