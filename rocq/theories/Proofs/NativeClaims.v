(* Handles of the native library (C71, C72, C73): proofs of the statements of Thm/Native.v *)
From Coq Require Import Lia.
From Verif Require Export Proofs.Native Examples.Native.

Lemma scanner_stays : forall bd sc ms cl c r cl' a t, ideal bd sc ms cl c r cl' -> cl_handle cl a = Some (HScanner t) ->
  c <> CDelete (as_int a) -> cl_handle cl' a = Some (HScanner t).
Proof.
  intros bd sc ms cl c r cl' a t H K D.
  destruct H; try assumption; cbn [scanning cl_handle]; rewrite ?hold_there; try assumption; cbn [scanning cl_handle];
    try match goal with F : fresh cl ?x |- a <> ?x => destruct F as [_ F]; intros ->; congruence end;
    try (intros ->; congruence).
Qed.
Lemma scanner_stays_long : forall w later tr cl cl' a t,
  ideally (nw_build w) (nw_scan w) (nw_message w) tr cl -> ideally (nw_build w) (nw_scan w) (nw_message w) (later ++ tr) cl' ->
  cl_handle cl a = Some (HScanner t) -> (forall r, ~ In (CDelete (as_int a), r) later) -> cl_handle cl' a = Some (HScanner t).
Proof.
  intros w later. induction later as [|[c r] later IH]; intros tr cl cl' a t A B H N.
  - cbn in B. assert (U : forall tr cl1 cl2, ideally (nw_build w) (nw_scan w) (nw_message w) tr cl1 ->
      ideally (nw_build w) (nw_scan w) (nw_message w) tr cl2 -> cl1 = cl2).
    { clear. induction tr as [|[c r] tr IH]; intros cl1 cl2 A B; inversion A; subst; inversion B; subst; [reflexivity|].
      match goal with X : ideally _ _ _ tr ?a, Y : ideally _ _ _ tr ?b |- _ => pose proof (IH _ _ X Y) end. subst. eapply ideal_unique; eassumption. }
    rewrite <- (U _ _ _ A B). exact H.
  - inversion B as [|? cl0 ? ? ? B0 I0]; subst. apply (scanner_stays _ _ _ _ _ _ _ a t I0); [|intros ->; apply (N r); left; reflexivity].
    apply (IH tr cl cl0 a t A B0 H). intros r' I. apply (N r'). right. exact I.
Qed.
Definition step_null (m : machine) : Prop := delete_scanner m 0 = Undefined /\ forall u e n, start_scan m u 0 e n = Undefined.
Lemma null_scanner : forall m cl, related m cl -> step_null m.
Proof.
  intros m cl R. assert (L : forall c t, load (ma_heap m) 0 = Some c -> ce_object c <> ObScanner t).
  { intros c t L E. assert (V : cl_handle cl 0 = Some (HScanner t)).
    { rewrite (rl_handle _ _ R). unfold view, obj_at. rewrite L. cbn. rewrite E. reflexivity. }
    destruct (rl_address _ _ R 0%N); [congruence|lia]. }
  split.
  - unfold delete_scanner. change (pointer 0) with 0%N. destruct (existsb _ _); [reflexivity|].
    destruct (load (ma_heap m) 0) as [c|]; [|reflexivity]. cbn. specialize (L c). destruct (ce_object c); try reflexivity. exfalso. exact (L t eq_refl eq_refl).
  - intros u e n. unfold start_scan. change (pointer 0) with 0%N. destruct (load (ma_heap m) 0) as [c|]; [|reflexivity]. specialize (L c).
    destruct (load (ma_heap m) e) as [d|]; [|reflexivity]. destruct (ce_object c); try reflexivity. exfalso. exact (L t eq_refl eq_refl).
Qed.

Lemma c71_safe_lemma :
  forall w tr m cl c, sane_world w -> reaches w tr m cl -> careful cl c ->
  (step w m c = Never /\ never_returns w cl c) \/
  exists r m' cl', step w m c = Done r m' /\ ideal (nw_build w) (nw_scan w) (nw_message w) cl c r cl' /\ reaches w ((c, r) :: tr) m' cl'.
Proof.
  intros w tr m cl c S R C. exact (reached_step w tr m cl c S R C).
Qed.

Lemma c71_handles_lemma :
  forall a, (a < 18446744073709551616)%N ->
  pointer (handle_of a) = a /\ (-9223372036854775808 <= handle_of a < 9223372036854775808)%Z /\
  ((handle_of a < 0)%Z <-> (9223372036854775808 <= a)%N).
Proof.
  intros a L. assert (P : pointer (handle_of a) = a).
  { unfold pointer, handle_of. destruct (Z.ltb_spec (Z.of_N a) 9223372036854775808).
    - rewrite Z.mod_small by lia. apply N2Z.id.
    - replace (Z.of_N a - 18446744073709551616)%Z with (Z.of_N a + (-1) * 18446744073709551616)%Z by lia.
      rewrite Z.mod_add by lia. rewrite Z.mod_small by lia. apply N2Z.id. }
  split; [exact P|]. unfold handle_of. destruct (Z.ltb_spec (Z.of_N a) 9223372036854775808); lia.
Qed.

Lemma c71_library_lemma :
  forall alloc capacity message en fuel hs srt,
  (forall hp a, alloc hp = Some a -> address a /\ load hp a = None) -> (forall b, (N.of_nat (length b) <= capacity b)%N) ->
  sane_world (library alloc capacity message en fuel hs srt).
Proof.
  intros alloc capacity message en fuel hs srt A C. split; [exact A|exact C|].
  intros t d b H. cbn [library nw_scan] in H. unfold native_scan in H.
  destruct (decode_event d) as [ops| |]; [|discriminate H..]. cbn [bind] in H.
  destruct (scan _ _ _ _ _ _ _) as [[e ms]| |]; [|discriminate H..]. cbn [bind fst snd] in H. injection H as H. unfold encode_response in H.
  destruct ms as [|x ms]; [discriminate H|]. injection H as <-. intros E. apply app_eq_nil in E. destruct E as [_ E].
  discriminate E.
Qed.

Lemma c71_scanner_is_independent_lemma :
  forall w tr m cl later m' cl' a t, reaches w tr m cl -> cl_handle cl a = Some (HScanner t) ->
  reaches w (later ++ tr) m' cl' -> (forall r, ~ In (CDelete (as_int a), r) later) -> cl_handle cl' a = Some (HScanner t).
Proof.
  intros w tr m cl later m' cl' a t [_ A] H [_ B] N. exact (scanner_stays_long w later tr cl cl' a t A B H N).
Qed.

Lemma c72_all_freed_lemma :
  forall w tr m cl, sane_world w -> reaches w tr m cl -> (forall a, cl_handle cl a = None) ->
  m = {| ma_heap := []; ma_scans := [] |}.
Proof.
  intros w tr m cl S R H. exact (all_freed m cl (reached_related _ _ _ _ S R) H).
Qed.

Lemma c72_create_lemma :
  forall w conf l tr m cl, sane_world w -> reaches w tr m cl ->
  (go_create w conf m l = Never /\ (out_of_memory w \/ exists configs, all_some (map conf l) = Some configs /\ nw_build w configs false = Diverge)) \/
  exists r m' tr' cl', go_create w conf m l = Done r m' /\ reaches w (tr' ++ tr) m' cl' /\
    created w cl (all_some (map conf l)) r cl'.
Proof.
  exact go_create_fine.
Qed.

Lemma c72_same_result_lemma :
  forall alloc capacity message en fuel hs srt utf16 l tr m cl r m',
  let w := library alloc capacity message en fuel hs srt in
  sane_world w -> reaches w tr m cl -> go_create w (go_create_rule utf16) m l = Done r m' ->
  exists a s, fresh cl a /\ c_string message s /\ go_create_scanner en utf16 (as_int a) s l = Ret r.
Proof.
  intros alloc capacity message en fuel hs srt utf16 l tr m cl r m' w S R H.
  assert (FR : exists a, fresh cl a).
  { unfold go_create, run_int in H. destruct (reached_step w _ _ _ CList S R (ca_list _)) as [[N0 _]|(r0 & m0 & cl0 & E0 & I0 & R0)].
    - rewrite N0 in H. discriminate H.
    - inversion I0; subst. eexists; eassumption. }
  destruct (go_create_fine w (go_create_rule utf16) l tr m cl S R) as [[N _]|(r1 & m1 & tr1 & cl1 & E & _ & C)]; [congruence|].
  rewrite H in E. injection E as <- <-. unfold created in C. unfold go_create_scanner. destruct FR as [a0 F0].
  destruct (all_some (map (go_create_rule utf16) l)) as [configs|].
  - change (nw_build w configs false) with (build en (builder_new configs)) in C. unfold native_create_scanner.
    destruct (build en (builder_new configs)) as [[t|e]| |].
    + destruct C as (a & F & -> & _). exists a, (c_message message). split; [exact F|]. split; [apply c_message_string|]. cbn.
      unfold go_created_of. destruct (Z.ltb_spec (as_int a) 0) as [K|K]; [unfold as_int in K; lia|reflexivity].
    + destruct C as [-> _]. exists a0, (c_message message). split; [exact F0|]. split; [apply c_message_string|reflexivity].
    + destruct C as (s & Cs & -> & _). exists a0, s. split; [exact F0|]. split; [exact Cs|reflexivity].
    + contradiction.
  - destruct C as [-> _]. exists a0, (c_message message). split; [exact F0|]. split; [apply c_message_string|reflexivity].
Qed.

Lemma c72_scan_lemma :
  forall w tr m cl u a t encoded, sane_world w -> reaches w tr m cl -> address a -> cl_handle cl a = Some (HScanner t) ->
  cl_scan cl u = None ->
  (go_low_level_scan w m u (as_int a) encoded = Never /\ (out_of_memory w \/ nw_scan w t encoded = Diverge)) \/
  exists r m' tr' cl', go_low_level_scan w m u (as_int a) encoded = Done r m' /\ reaches w (tr' ++ tr) m' cl' /\ equivalent cl' cl /\
    low_level_scan (nw_scan w t) encoded = r.
Proof.
  exact go_scan_fine.
Qed.

Lemma c72_scan_events_lemma :
  forall w tr m cl u a t, sane_world w -> reaches w tr m cl -> address a -> cl_handle cl a = Some (HScanner t) ->
  cl_scan cl u = None ->
  (forall event, (go_scan_map w m u (as_int a) event = Never /\ exists encoded, go_encode (GMap event) = Ok encoded /\ (out_of_memory w \/ nw_scan w t encoded = Diverge)) \/
   exists m' tr' cl', go_scan_map w m u (as_int a) event = Done (go_scan_events_map (nw_scan w t) event) m' /\
     reaches w (tr' ++ tr) m' cl' /\ equivalent cl' cl) /\
  (forall event, (go_scan_string w m u (as_int a) event = Never /\ (out_of_memory w \/ nw_scan w t (go_encode_string event) = Diverge)) \/
   exists m' tr' cl', go_scan_string w m u (as_int a) event = Done (go_scan (nw_scan w t) event) m' /\
     reaches w (tr' ++ tr) m' cl' /\ equivalent cl' cl).
Proof.
  intros w tr m cl u a t S R A H U. split; intros event.
  - unfold go_scan_map, go_scan_events_map. destruct (go_encode (GMap event)) as [encoded|x] eqn:E.
    + destruct (c72_scan_lemma w tr m cl u a t encoded S R A H U) as [[N O]|(r & m' & tr' & cl' & D & R' & Q & L)].
      * left. split; [rewrite N; reflexivity|]. exists encoded. auto.
      * right. exists m', tr', cl'. rewrite D, L. auto.
    + right. exists m, [], cl. split; [reflexivity|]. split; [exact R|]. split; reflexivity.
  - unfold go_scan_string, go_scan.
    destruct (c72_scan_lemma w tr m cl u a t (go_encode_string event) S R A H U) as [[N O]|(r & m' & tr' & cl' & D & R' & Q & L)].
    + left. split; [rewrite N; reflexivity|exact O].
    + right. exists m', tr', cl'. rewrite D, L. auto.
Qed.

Lemma c73_deleted_refuted_lemma :
  forall w tr m cl a t, sane_world w -> reaches w tr m cl -> address a -> cl_handle cl a = Some (HScanner t) ->
  (forall u d, cl_scan cl u <> Some (a, d)) ->
  exists m', go_delete w m (as_int a) = Done 0%Z m' /\ go_delete w m' 0%Z = Undefined /\
    forall u encoded, go_low_level_scan w m' u 0%Z encoded = Undefined \/ go_low_level_scan w m' u 0%Z encoded = Never.
Proof.
  intros w tr m cl a t S R A H N. unfold go_delete, run_unit.
  destruct (reached_step w _ _ _ (CDelete (as_int a)) S R (ca_delete _ _ _ A H N)) as [[E _]|(r & m' & cl' & E & I & R')].
  { exfalso. cbn [step] in E. unfold delete_scanner in E. destruct (existsb _ _); [discriminate E|]. unfold defined in E. destruct (obind _ _); discriminate E. }
  rewrite E. cbn [after]. exists m'. split; [reflexivity|].
  destruct (null_scanner _ _ (reached_related _ _ _ _ S R')) as [D _]. cbn [step]. rewrite D. split; [reflexivity|].
  intros u encoded. unfold go_low_level_scan, run_int.
  destruct (reached_step w _ _ _ (CBytes encoded) S R' (ca_bytes _ _)) as [[E2 _]|(r2 & m2 & cl2 & E2 & I2 & R2)]; rewrite E2; cbn [after]; [right; reflexivity|].
  inversion I2; subst. cbn [after]. destruct (null_scanner _ _ (reached_related _ _ _ _ S R2)) as [_ D2]. cbn [step]. rewrite D2. left. reflexivity.
Qed.

Lemma c73_busy_refuted_lemma :
  forall w tr m cl u a d, sane_world w -> reaches w tr m cl -> cl_scan cl u = Some (a, d) -> address a ->
  go_delete w m (as_int a) = Undefined.
Proof.
  intros w tr m cl u a d S R H A. pose proof (reached_related _ _ _ _ S R) as RL. rewrite (rl_scan _ _ RL) in H.
  unfold go_delete, run_unit. cbn [step]. unfold delete_scanner. rewrite (pointer_as_int a A).
  replace (existsb _ (ma_scans m)) with true; [reflexivity|]. symmetry. apply existsb_exists.
  clear RL. induction (ma_scans m) as [|[k x] l IH]; cbn in H; [discriminate H|]. destruct (k =? u).
  - injection H as ->. exists (k, (a, d)). split; [left; reflexivity|]. cbn. apply N.eqb_refl.
  - destruct (IH H) as (y & I & E). exists y. split; [right; exact I|exact E].
Qed.

Lemma c73_stale_refuted_lemma :
  exists w calls, sane_world w /\
  calls = [CRule (Some zero_redact); CFreeRule 2; CRule (Some bad_keywords); CFreeRule 2; CList; CAppend 2 1] /\
  run w start calls = ([RInt 2; RUnit; RInt 2; RUnit; RInt 1], Undefined) /\
  fst (run w start [CRule (Some zero_redact); CFreeRule 2; CRule (Some bad_keywords); CList; CAppend 2 3]) = [RInt 2; RUnit; RInt 2; RInt 3; RUnit].
Proof.
  eexists small_world, _. split; [exact small_sane|]. split; [reflexivity|]. split; vm_compute; reflexivity.
Qed.

