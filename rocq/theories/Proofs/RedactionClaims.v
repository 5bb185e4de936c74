(* Redaction, reported positions and overlap resolution (C01-C10, C62, C64): proofs of the statements of Thm/Redaction.v *)
From Coq Require Import Lia.
From Verif Require Import Proofs.Text Proofs.Apply Proofs.Overlap Proofs.RegexScan.

Lemma candidate_range_lt : forall I w srt sc fs e strs holds fuel,
  scan_setting I w srt sc fs e strs holds fuel ->
  forall blocked p c i a b, In (p, c) strs -> candidate sc fs blocked p c (i, a, b) ->
  a < b /\ exists t, part_at c a b t.
Proof. intros. eapply candidate_part; eauto. Qed.

(* the cuts behind a scanned string *)
Lemma scanned_cuts : forall sc fs blocked E w h strs p c c' os,
  string_scanned sc fs blocked E w h strs p c c' os ->
  exists (cands kept : list (internal_match E)) g0 cs,
    (forall k, In k (map key cands) <-> candidate sc fs blocked p c k /\ ~ suppressed sc fs blocked strs c k) /\
    resolved (sc_rules sc) cands kept /\
    cut_by sc fs blocked h p c c' os g0 cs /\ length kept = length os /\
    (forall k m o u, nth_error kept k = Some m -> nth_error os k = Some o -> nth_error cs k = Some u ->
       rm_rule o = im_rule m /\ rm_path o = p /\
       im_start m = nbytes (original g0 (firstn k cs)) /\
       im_end m = nbytes (original g0 (firstn k cs) ++ cut_old u) /\
       rm_start o = weight w (rewritten g0 (firstn k cs)) /\
       rm_end o = weight w (rewritten g0 (firstn k cs) ++ cut_new u) /\
       rm_shift o = (Z.of_nat (weight w (rewritten g0 (firstn k cs) ++ cut_new u))
                     - Z.of_nat (weight w (original g0 (firstn k cs) ++ cut_old u)))%Z /\
       rm_value o = (if sc_return_matches sc then Some (cut_old u) else None) /\
       exists r, rule_of sc o r /\ rm_kind o = replacement_type (rule_action r) /\
         rm_status o = match rule_validation r with Some _ => NotChecked | None => NotAvailable end).
Proof.
  intros sc fs blocked E w h strs p c c' os (cands & kept & g0 & cs & Hc & Hr & Ho & Hw & Hl & Hlo & Hk).
  exists cands, kept, g0, cs. split; [exact Hc|]. split; [exact Hr|]. split; [|split; [congruence|]].
  - split; [exact Ho|]. split; [exact Hw|]. split; [congruence|].
    intros k o u Hok Huk.
    destruct (nth_error kept k) as [m|] eqn:Em.
    2:{ apply nth_error_None in Em. assert (k < length cs) by (apply nth_error_Some; congruence). lia. }
    destruct (Hk k m o Em Hok) as (v & r & Hv & Hrr & Hs & He & Hnew & Hrule & _).
    assert (v = u) by congruence. subst v. exists r. unfold rule_of. rewrite Hrule.
    split; [exact Hrr|]. split; [|exact Hnew].
    rewrite Hs, He. assert (Hin : In (key m) (map key cands)).
    { apply in_map. apply (rs_genuine _ _ _ Hr). eapply nth_error_In; exact Em. }
    apply Hc in Hin as [Hin _]. exact Hin.
  - intros k m o u Em Hok Huk.
    destruct (Hk k m o Em Hok) as (v & r & Hv & Hrr & Hs & He & Hnew & Hrule & Hp & Hkd & Hst & Hen & Hsh & Hva & Hsta).
    assert (v = u) by congruence. subst v. repeat split; try congruence.
    exists r. unfold rule_of. rewrite Hrule. auto.
Qed.

Lemma nth_in_both : forall A B (l : list A) (l' : list B) k x, length l = length l' ->
  nth_error l k = Some x -> exists y, nth_error l' k = Some y.
Proof.
  intros A B l l' k x Hl Hx. destruct (nth_error l' k) as [y|] eqn:E; [eauto|].
  apply nth_error_None in E. assert (k < length l) by (apply nth_error_Some; congruence). lia.
Qed.

Lemma combine_unique : forall (l : list (path * str)) (r : list (str * list rule_match)) p c1 c2 x1 y1 z,
  NoDup (map fst l) -> In ((p, c1), (x1, y1)) (combine l r) -> In ((p, c2), z) (combine l r) ->
  c1 = c2 /\ y1 = snd z.
Proof.
  induction l as [|[q d] l IH]; intros [|u r] p c1 c2 x1 y1 z Hnd H1 H2; try (destruct H1; fail).
  simpl in *. inversion Hnd as [|? ? Hn Hnd']; subst. destruct H1 as [E1|H1], H2 as [E2|H2].
  - injection E1 as -> -> ->. injection E2 as -> <-. auto.
  - injection E1 as -> -> ->. exfalso. apply Hn. apply in_map_iff. exists (p, c2). split; [reflexivity|]. eapply in_combine_l; exact H2.
  - injection E2 as -> -> <-. exfalso. apply Hn. apply in_map_iff. exists (p, c1). split; [reflexivity|]. eapply in_combine_l; exact H1.
  - eapply IH; eauto.
Qed.

Lemma weight_cuts : forall w cs g,
  (Z.of_nat (weight w (rewritten g cs)) - Z.of_nat (weight w (original g cs)))%Z =
  fold_right Z.add 0%Z (map (fun u => Z.of_nat (weight w (cut_new u)) - Z.of_nat (weight w (cut_old u)))%Z cs).
Proof.
  intros w. induction cs as [|u cs IH]; intros g.
  - unfold rewritten, original. simpl. lia.
  - rewrite rewritten_cons, original_cons. rewrite !weight_app. simpl. specialize (IH (cut_gap u)). lia.
Qed.

Lemma sum_snoc : forall l (x : Z), fold_right Z.add 0%Z (l ++ [x]) = (fold_right Z.add 0%Z l + x)%Z.
Proof. induction l; simpl; intros; [lia|]. rewrite IHl. lia. Qed.

Lemma shift_is_sum : forall w g cs k u, nth_error cs k = Some u ->
  (Z.of_nat (weight w (rewritten g (firstn k cs) ++ cut_new u))
   - Z.of_nat (weight w (original g (firstn k cs) ++ cut_old u)))%Z =
  fold_right Z.add 0%Z
    (map (fun u => Z.of_nat (weight w (cut_new u)) - Z.of_nat (weight w (cut_old u)))%Z (firstn (S k) cs)).
Proof.
  intros w g cs k u Hu. rewrite (firstn_S_nth _ _ _ _ Hu), map_app. simpl. rewrite sum_snoc, <- (weight_cuts w (firstn k cs) g).
  rewrite !weight_app. lia.
Qed.

Lemma c01_redaction_is_substitution_lemma :
  forall I w srt sc fs e strs holds fuel,
  scan_setting I w srt sc fs e strs holds fuel ->
  forall h blocked e' outs, scan I fuel h srt sc blocked e = Ret (e', outs) ->
  scan_result I strs holds e' outs (fun p c c' os =>
    exists g0 cs, cut_by sc fs blocked h p c c' os g0 cs).
Proof.
  intros I w srt sc fs e strs holds fuel Hset h blocked e' outs Hs.
  eapply result_weaken; [|eapply scan_scanned; eauto]. intros p c c' os _ H.
  destruct (scanned_cuts _ _ _ _ _ _ _ _ _ _ _ H) as (cands & kept & g0 & cs & _ & _ & Hcut & _).
  exists g0, cs. exact Hcut.
Qed.

Lemma c01_simple_event_lemma :
  forall srt sc e fuel,
  sorter_ok srt -> distinct_keys e -> regex_scanner sc (simple_strings e) ->
  enough_fuel fuel (simple_strings e) ->
  forall h blocked e' outs, scan simple_event_impl fuel h srt sc blocked e = Ret (e', outs) ->
  exists f : path -> str -> str,
    e' = simple_map f e /\
    forall p c, holds_at e p c -> exists os g0 cs,
      cut_by sc (finders sc) blocked h p c (f p c) os g0 cs /\
      forall o, In o outs /\ rm_path o = p <-> In o os.
Proof.
  intros srt sc e fuel H1 H2 H3 H4 h blocked e' outs Hs.
  pose proof (simple_setting srt sc e fuel H1 H2 H3 H4) as Hset.
  destruct (scan_scanned _ _ _ _ _ _ _ _ _ Hset h blocked e' outs Hs) as (res & Hl & Hout & (f & Hf & Hstr) & Hall).
  exists f. split; [exact Hf|]. intros p c Hp. apply simple_strings_holds in Hp.
  pose proof (simple_distinct e H2) as Hnd.
  assert (Hfst : forall x, In x (combine (simple_strings e) res) -> In (fst x) (simple_strings e)).
  { intros [x y] Hx. apply in_combine_l in Hx. exact Hx. }
  assert (Hget : forall (l : list (path * str)) (r : list (str * list rule_match)), length r = length l ->
            In (p, c) l -> exists c' os, In ((p, c), (c', os)) (combine l r)).
  { induction l as [|x l IH]; intros [|[c' os] r] Hlen Hin; try discriminate; [destruct Hin|].
    simpl. destruct Hin as [->|Hin]; [eauto|]. destruct (IH r) as (c2 & os2 & H); auto. eauto. }
  destruct (Hget _ res Hl Hp) as (c' & os & Hin).
  specialize (Hall _ _ _ _ Hin) as Hsc.
  destruct (scanned_cuts _ _ _ _ _ _ _ _ _ _ _ Hsc) as (cands & kept & g0 & cs & _ & _ & Hcut & Hlk & Hk).
  assert (Hc' : c' = f p c).
  { assert (Hin2 : In (p, c') (map (fun pc => (fst pc, f (fst pc) (snd pc))) (simple_strings e))).
    { rewrite <- Hstr, map_map. apply in_map_iff. exists ((p, c), (c', os)). auto. }
    apply in_map_iff in Hin2 as ([p2 c2] & E & Hin2). simpl in E. inversion E; subst p2 c'.
    assert (c2 = c); [|congruence].
    clear - Hnd Hin2 Hp. revert Hnd Hin2 Hp. generalize (simple_strings e) as l. induction l as [|[x y] l IH]; intros Hnd H1 H2; [destruct H1|].
    simpl in Hnd. inversion Hnd as [|? ? Hn Hnd']; subst. destruct H1 as [E1|H1], H2 as [E2|H2].
    - congruence.
    - inversion E1; subst. exfalso. apply Hn. apply in_map_iff. exists (p, c). auto.
    - inversion E2; subst. exfalso. apply Hn. apply in_map_iff. exists (p, c2). auto.
    - auto. }
  subst c'. exists os, g0, cs. split; [exact Hcut|].
  intros o. split.
  - intros [Ho Hpo]. subst outs. apply in_flat_map in Ho as ([c2 os2] & Hres & Ho).
    (* the string this report belongs to *)
    assert (Hex : exists p2 c0, In ((p2, c0), (c2, os2)) (combine (simple_strings e) res)).
    { clear - Hl Hres. revert Hl Hres. generalize (simple_strings e) as l. induction res as [|x r IH]; intros [|[a b] l] Hl H; try discriminate; [destruct H|].
      simpl. destruct H as [->|H]; [eauto|]. destruct (IH l) as (p2 & c0 & H'); auto. eauto. }
    destruct Hex as (p2 & c0 & Hin2). specialize (Hall _ _ _ _ Hin2) as Hsc2.
    destruct (scanned_cuts _ _ _ _ _ _ _ _ _ _ _ Hsc2) as (cands2 & kept2 & g2 & cs2 & _ & _ & Hcut2 & Hlk2 & Hk2).
    simpl in Ho. apply In_nth_error in Ho as (k & Hko).
    destruct (nth_in_both _ _ os2 kept2 k o (eq_sym Hlk2) Hko) as (m & Hm).
    destruct Hcut2 as (_ & _ & Hlc & _).
    destruct (nth_in_both _ _ os2 cs2 k o (eq_sym Hlc) Hko) as (u & Hu).
    destruct (Hk2 k m o u Hm Hko Hu) as (_ & Hp2 & _). subst p p2.
    (* same path, same position *)
    assert (os2 = os); [|subst; eapply nth_error_In; exact Hko].
    exact (proj2 (combine_unique _ _ _ _ _ _ _ _ Hnd Hin2 Hin)).
  - intros Ho. split.
    + subst outs. apply in_flat_map. exists (f p c, os). split; [eapply in_combine_r; exact Hin|exact Ho].
    + apply In_nth_error in Ho as (k & Hko).
      destruct (nth_in_both _ _ os kept k o (eq_sym Hlk) Hko) as (m & Hm).
      destruct Hcut as (_ & _ & Hlc & _).
      destruct (nth_in_both _ _ os cs k o (eq_sym Hlc) Hko) as (u & Hu).
      destruct (Hk k m o u Hm Hko Hu) as (_ & Hp2 & _). exact Hp2.
Qed.

Lemma c02_reported_ranges_lemma :
  forall I w srt sc fs e strs holds fuel,
  scan_setting I w srt sc fs e strs holds fuel ->
  forall h blocked e' outs, scan I fuel h srt sc blocked e = Ret (e', outs) ->
  scan_result I strs holds e' outs (fun p c c' os =>
    exists g0 cs, cut_by sc fs blocked h p c c' os g0 cs /\
      forall k o u, nth_error os k = Some o -> nth_error cs k = Some u ->
        exists q, c' = rewritten g0 (firstn k cs) ++ cut_new u ++ q /\
          rm_start o = weight w (rewritten g0 (firstn k cs)) /\
          rm_end o = weight w (rewritten g0 (firstn k cs) ++ cut_new u)).
Proof.
  intros I w srt sc fs e strs holds fuel Hset h blocked e' outs Hs.
  eapply result_weaken; [|eapply scan_scanned; eauto]. intros p c c' os _ H.
  destruct (scanned_cuts _ _ _ _ _ _ _ _ _ _ _ H) as (cands & kept & g0 & cs & _ & _ & Hcut & Hlk & Hk).
  exists g0, cs. split; [exact Hcut|]. intros k o u Ho Hu.
  destruct (nth_in_both _ _ os kept k o (eq_sym Hlk) Ho) as (m & Hm).
  destruct (Hk k m o u Hm Ho Hu) as (_ & _ & _ & _ & H1 & H2 & _).
  destruct (rewritten_nth g0 cs k u Hu) as (q & Hq). exists q.
  destruct Hcut as (_ & -> & _). auto.
Qed.

Lemma c03_shift_is_accumulated_change_lemma :
  forall I w srt sc fs e strs holds fuel,
  scan_setting I w srt sc fs e strs holds fuel ->
  forall h blocked e' outs, scan I fuel h srt sc blocked e = Ret (e', outs) ->
  scan_result I strs holds e' outs (fun p c c' os =>
    exists g0 cs, cut_by sc fs blocked h p c c' os g0 cs /\
      forall k o u, nth_error os k = Some o -> nth_error cs k = Some u ->
        rm_shift o = fold_right Z.add 0%Z
          (map (fun u => Z.of_nat (weight w (cut_new u)) - Z.of_nat (weight w (cut_old u)))%Z
               (firstn (S k) cs)) /\
        Z.of_nat (weight w (original g0 (firstn k cs) ++ cut_old u)) =
          (Z.of_nat (rm_end o) - rm_shift o)%Z).
Proof.
  intros I w srt sc fs e strs holds fuel Hset h blocked e' outs Hs.
  eapply result_weaken; [|eapply scan_scanned; eauto]. intros p c c' os _ H.
  destruct (scanned_cuts _ _ _ _ _ _ _ _ _ _ _ H) as (cands & kept & g0 & cs & _ & _ & Hcut & Hlk & Hk).
  exists g0, cs. split; [exact Hcut|]. intros k o u Ho Hu.
  destruct (nth_in_both _ _ os kept k o (eq_sym Hlk) Ho) as (m & Hm).
  destruct (Hk k m o u Hm Ho Hu) as (_ & _ & _ & _ & H1 & H2 & H3 & _).
  split; [rewrite H3; apply shift_is_sum; exact Hu|]. rewrite H2, H3. lia.
Qed.

Lemma c04_match_value_is_original_text_lemma :
  forall I w srt sc fs e strs holds fuel,
  scan_setting I w srt sc fs e strs holds fuel ->
  forall h blocked e' outs, scan I fuel h srt sc blocked e = Ret (e', outs) ->
  scan_result I strs holds e' outs (fun p c c' os =>
    exists g0 cs, cut_by sc fs blocked h p c c' os g0 cs /\
      forall k o u, nth_error os k = Some o -> nth_error cs k = Some u ->
        rm_value o = if sc_return_matches sc then Some (cut_old u) else None).
Proof.
  intros I w srt sc fs e strs holds fuel Hset h blocked e' outs Hs.
  eapply result_weaken; [|eapply scan_scanned; eauto]. intros p c c' os _ H.
  destruct (scanned_cuts _ _ _ _ _ _ _ _ _ _ _ H) as (cands & kept & g0 & cs & _ & _ & Hcut & Hlk & Hk).
  exists g0, cs. split; [exact Hcut|]. intros k o u Ho Hu.
  destruct (nth_in_both _ _ os kept k o (eq_sym Hlk) Ho) as (m & Hm).
  destruct (Hk k m o u Hm Ho Hu) as (_ & _ & _ & _ & _ & _ & _ & H4 & _). exact H4.
Qed.

Lemma c05_sorted_disjoint_genuine_lemma :
  forall I w srt sc fs e strs holds fuel,
  scan_setting I w srt sc fs e strs holds fuel ->
  forall h blocked e' outs, scan I fuel h srt sc blocked e = Ret (e', outs) ->
  scan_result I strs holds e' outs (fun p c c' os =>
    (exists ranges, reports_from sc fs blocked p c os ranges /\
       StronglySorted (fun x y => fst x < snd x /\ snd x <= fst y) ranges) /\
    (forall o, In o os -> rm_path o = p) /\
    forall i j oi oj, i < j -> nth_error os i = Some oi -> nth_error os j = Some oj ->
      rm_end oi <= rm_start oj).
Proof.
  intros I w srt sc fs e strs holds fuel Hset h blocked e' outs Hs.
  eapply result_weaken; [|eapply scan_scanned; eauto]. intros p c c' os Hpc H.
  destruct (scanned_cuts _ _ _ _ _ _ _ _ _ _ _ H) as (cands & kept & g0 & cs & Hc & Hr & Hcut & Hlk & Hk).
  destruct Hcut as (_ & _ & Hlc & Hcut).
  assert (Hsep : separated kept).
  { eapply resolved_separated; [|exact Hr]. intros m Hm. apply (in_map key) in Hm. apply Hc in Hm as [Hm _].
    destruct (candidate_range_lt _ _ _ _ _ _ _ _ _ Hset _ _ _ _ _ _ Hpc Hm). assumption. }
  assert (Hne : forall m, In m kept -> im_start m < im_end m).
  { intros m Hm. apply (rs_genuine _ _ _ Hr) in Hm. apply (in_map key) in Hm. apply Hc in Hm as [Hm _].
    destruct (candidate_range_lt _ _ _ _ _ _ _ _ _ Hset _ _ _ _ _ _ Hpc Hm). assumption. }
  split; [|split].
  - exists (map (fun m => (im_start m, im_end m)) kept). split.
    + unfold reports_from.
      assert (Hgen : forall k m o, nth_error kept k = Some m -> nth_error os k = Some o ->
                candidate sc fs blocked p c (rm_rule o, im_start m, im_end m)).
      { intros k m o Hm Ho. destruct (nth_in_both _ _ os cs k o (eq_sym Hlc) Ho) as (u & Hu).
        destruct (Hk k m o u Hm Ho Hu) as (_ & _ & E1 & E2 & _). rewrite E1, E2.
        destruct (Hcut k o u Ho Hu) as (r & _ & Hcd & _). exact Hcd. }
      clear - Hgen Hlk. revert os Hgen Hlk. induction kept as [|m kept IH]; intros [|o os] Hgen Hl; try discriminate; constructor.
      * simpl. apply (Hgen 0); reflexivity.
      * apply IH; [|simpl in Hl; lia]. intros k m' o' H1 H2. apply (Hgen (S k)); auto.
    + clear - Hsep Hne. induction kept as [|m kept IH]; simpl; [constructor|]. constructor.
      * apply IH; [eapply separated_tail; exact Hsep|]. intros x Hx. apply Hne. right. exact Hx.
      * apply Forall_forall. intros ab Hab. apply in_map_iff in Hab as (x & <- & Hx). simpl.
        split; [apply Hne; left; reflexivity|]. eapply separated_head; eauto.
  - intros o Ho. apply In_nth_error in Ho as (k & Ho).
    destruct (nth_in_both _ _ os kept k o (eq_sym Hlk) Ho) as (m & Hm).
    destruct (nth_in_both _ _ os cs k o (eq_sym Hlc) Ho) as (u & Hu).
    destruct (Hk k m o u Hm Ho Hu) as (_ & E & _). exact E.
  - intros i j oi oj Hij Hoi Hoj.
    destruct (nth_in_both _ _ os kept i oi (eq_sym Hlk) Hoi) as (mi & Hmi).
    destruct (nth_in_both _ _ os kept j oj (eq_sym Hlk) Hoj) as (mj & Hmj).
    destruct (nth_in_both _ _ os cs i oi (eq_sym Hlc) Hoi) as (ui & Hui).
    destruct (nth_in_both _ _ os cs j oj (eq_sym Hlc) Hoj) as (uj & Huj).
    destruct (Hk i mi oi ui Hmi Hoi Hui) as (_ & _ & _ & _ & _ & E1 & _).
    destruct (Hk j mj oj uj Hmj Hoj Huj) as (_ & _ & _ & _ & E2 & _).
    rewrite E1, E2. destruct (firstn_firstn_split _ cs (S i) j) as (q & Hq); [lia|].
    rewrite Hq, (firstn_S_nth _ _ _ _ Hui), <- app_assoc, rewritten_app. simpl. rewrite !weight_app. lia.
Qed.

Lemma reported_keys : forall E (kept : list (internal_match E)) os, length kept = length os ->
  (forall k m o, nth_error kept k = Some m -> nth_error os k = Some o -> rm_rule o = im_rule m) ->
  reported os (map (fun m => (im_start m, im_end m)) kept) = map key kept.
Proof.
  intros E. induction kept as [|m kept IH]; intros [|o os] Hl H; try discriminate; [reflexivity|].
  unfold reported in *. simpl. f_equal.
  - rewrite (H 0 m o eq_refl eq_refl). reflexivity.
  - apply IH; [simpl in Hl; lia|]. intros k m' o' H1 H2. exact (H (S k) m' o' H1 H2).
Qed.

Lemma scanned_keys : forall sc fs blocked E w h strs p c c' os,
  string_scanned sc fs blocked E w h strs p c c' os ->
  exists cands kept : list (internal_match E),
    (forall k, In k (map key cands) <-> candidate sc fs blocked p c k /\ ~ suppressed sc fs blocked strs c k) /\
    resolved (sc_rules sc) cands kept /\ length kept = length os /\
    reported os (map (fun m => (im_start m, im_end m)) kept) = map key kept /\
    reports_from sc fs blocked p c os (map (fun m => (im_start m, im_end m)) kept).
Proof.
  intros sc fs blocked E w h strs p c c' os H.
  destruct (scanned_cuts _ _ _ _ _ _ _ _ _ _ _ H) as (cands & kept & g0 & cs & Hc & Hr & (_ & _ & Hlc & Hcut) & Hlk & Hk).
  exists cands, kept. split; [exact Hc|]. split; [exact Hr|]. split; [exact Hlk|]. split.
  - apply reported_keys; [exact Hlk|]. intros k m o Hm Ho.
    destruct (nth_in_both _ _ os cs k o (eq_sym Hlc) Ho) as (u & Hu).
    destruct (Hk k m o u Hm Ho Hu) as (E1 & _). exact E1.
  - assert (Hgen : forall k m o, nth_error kept k = Some m -> nth_error os k = Some o ->
                candidate sc fs blocked p c (rm_rule o, im_start m, im_end m)).
    { intros k m o Hm Ho. destruct (nth_in_both _ _ os cs k o (eq_sym Hlc) Ho) as (u & Hu).
      destruct (Hk k m o u Hm Ho Hu) as (_ & _ & E1 & E2 & _). rewrite E1, E2.
      destruct (Hcut k o u Ho Hu) as (r & _ & Hcd & _). exact Hcd. }
    clear - Hgen Hlk. revert os Hgen Hlk. unfold reports_from.
    induction kept as [|m kept IH]; intros [|o os] Hgen Hl; try discriminate; constructor.
    + simpl. apply (Hgen 0); reflexivity.
    + apply IH; [|simpl in Hl; lia]. intros k m' o' H1 H2. apply (Hgen (S k)); auto.
Qed.

Lemma in_keys : forall E (l : list (internal_match E)) k, In k (map key l) <-> exists m, In m l /\ key m = k.
Proof. intros. rewrite in_map_iff. split; intros (m & H1 & H2); eauto. Qed.

Lemma c06_greedy_by_priority_lemma :
  forall I w srt sc fs e strs holds fuel,
  scan_setting I w srt sc fs e strs holds fuel ->
  forall h blocked e' outs, scan I fuel h srt sc blocked e = Ret (e', outs) ->
  scan_result I strs holds e' outs (fun p c c' os =>
    exists ranges, reports_from sc fs blocked p c os ranges /\
      (forall k, In k (reported os ranges) ->
         candidate sc fs blocked p c k /\ ~ suppressed sc fs blocked strs c k) /\
      forall k, candidate sc fs blocked p c k -> ~ suppressed sc fs blocked strs c k ->
        (In k (reported os ranges) <->
         ~ exists k', In k' (reported os ranges) /\ beats sc k' k /\ share_byte k' k)).
Proof.
  intros I w srt sc fs e strs holds fuel Hset h blocked e' outs Hs.
  eapply result_weaken; [|eapply scan_scanned; eauto]. intros p c c' os _ H.
  destruct (scanned_keys _ _ _ _ _ _ _ _ _ _ _ H) as (cands & kept & Hc & Hr & Hlk & Hrep & Hfrom).
  eexists. split; [exact Hfrom|]. rewrite Hrep. split.
  - intros k Hk. apply Hc. apply in_keys in Hk as (m & Hm & <-). apply in_map. apply (rs_genuine _ _ _ Hr). exact Hm.
  - intros k Hk Hns.
    assert (Hin : In k (map key cands)) by (apply Hc; auto).
    apply in_keys in Hin as (m & Hm & <-). pose proof (rs_iff _ _ _ Hr m Hm) as Hiff.
    rewrite in_keys, Hiff. split; intros Hn Hex; apply Hn.
    + destruct Hex as (k' & Hk' & Hb & Hsh). apply in_keys in Hk' as (o & Ho & <-). exists o. split; [exact Ho|]. split; [exact Hb|exact Hsh].
    + destruct Hex as (o & Ho & Hb & Hsh). exists (key o). split; [apply in_map; exact Ho|]. split; [exact Hb|exact Hsh].
Qed.

Lemma c06_mutating_never_lost_lemma :
  forall I w srt sc fs e strs holds fuel,
  scan_setting I w srt sc fs e strs holds fuel ->
  forall h blocked e' outs, scan I fuel h srt sc blocked e = Ret (e', outs) ->
  scan_result I strs holds e' outs (fun p c c' os =>
    exists ranges, reports_from sc fs blocked p c os ranges /\
      forall k, candidate sc fs blocked p c k -> ~ suppressed sc fs blocked strs c k ->
        ~ In k (reported os ranges) ->
        exists k', In k' (reported os ranges) /\ share_byte k' k /\
          (mutating_rule sc (fst (fst k)) -> mutating_rule sc (fst (fst k')))).
Proof.
  intros I w srt sc fs e strs holds fuel Hset h blocked e' outs Hs.
  eapply result_weaken; [|eapply scan_scanned; eauto]. intros p c c' os _ H.
  destruct (scanned_keys _ _ _ _ _ _ _ _ _ _ _ H) as (cands & kept & Hc & Hr & Hlk & Hrep & Hfrom).
  eexists. split; [exact Hfrom|]. rewrite Hrep. intros k Hk Hns Hnot.
  assert (Hin : In k (map key cands)) by (apply Hc; auto).
  apply in_keys in Hin as (m & Hm & <-).
  assert (Hdec : (exists o, In o kept /\ outranks (sc_rules sc) o m /\ overlaps o m) \/
                 ~ (exists o, In o kept /\ outranks (sc_rules sc) o m /\ overlaps o m)).
  { clear. assert (Hall : forall l : list (internal_match (ev_enc I)),
      (exists o, In o l /\ outranks (sc_rules sc) o m /\ overlaps o m) \/
      ~ (exists o, In o l /\ outranks (sc_rules sc) o m /\ overlaps o m)); [|apply Hall].
    intros l. induction l as [|o l IH]; [right; intros (o & [] & _)|].
    destruct IH as [(x & Hx & H)|IH]; [left; exists x; split; [right; exact Hx|exact H]|].
    assert (Hm : forall y : internal_match (ev_enc I), mutates (sc_rules sc) y \/ ~ mutates (sc_rules sc) y).
    { intros y. destruct (mutating_at (sc_rules sc) (im_rule y)) eqn:Em.
      - left. apply mutating_at_spec. exact Em.
      - right. apply mutating_at_false. exact Em. }
    assert (Ho : overlaps o m \/ ~ overlaps o m).
    { destruct (le_lt_dec (im_end o) (im_start m)) as [Hle|Hlt]; [right; intros (i & ? & ?); lia|].
      destruct (le_lt_dec (im_end m) (im_start o)) as [Hle2|Hlt2]; [right; intros (i & ? & ?); lia|].
      destruct (le_lt_dec (im_end o) (im_start o)); [right; intros (i & ? & ?); lia|].
      destruct (le_lt_dec (im_end m) (im_start m)); [right; intros (i & ? & ?); lia|].
      left. exists (Nat.max (im_start o) (im_start m)). lia. }
    assert (Hb : outranks (sc_rules sc) o m \/ ~ outranks (sc_rules sc) o m).
    { unfold outranks. destruct (Hm o) as [M1|M1], (Hm m) as [M2|M2].
      2:{ left. left. auto. } 2:{ right. intros [[? _]|[Hiff _]]; [auto|apply M1, Hiff, M2]. }
      all: destruct (lt_eq_lt_dec (im_start o) (im_start m)) as [[S1|S1]|S1];
        [left; right; split; [tauto|left; assumption]| |right; intros [[? ?]|[_ ?]]; [tauto|lia]];
        destruct (lt_eq_lt_dec (im_end m) (im_end o)) as [[S2|S2]|S2];
        [left; right; split; [tauto|lia]| |right; intros [[? ?]|[_ ?]]; [tauto|lia]];
        destruct (le_lt_dec (im_rule m) (im_rule o));
        [right; intros [[? ?]|[_ ?]]; [tauto|lia]|left; right; split; [tauto|lia]]. }
    destruct Ho as [Ho|Ho], Hb as [Hb|Hb]; [left; exists o; split; [left; reflexivity|auto]|..];
      right; intros (x & [<-|Hx] & H1 & H2); try tauto; apply IH; exists x; auto. }
  destruct Hdec as [(o & Ho & Hb & Hov)|Hno].
  - exists (key o). split; [apply in_map; exact Ho|]. split; [exact Hov|].
    intros Hmut. destruct Hb as [[Hmo _]|[Hiff _]]; [exact Hmo|]. apply Hiff. exact Hmut.
  - exfalso. apply Hnot. apply (rs_iff _ _ _ Hr m Hm) in Hno as (o & Ho & <-). apply in_map. exact Ho.
Qed.

Lemma simple_map_ext_in : forall e f g, (forall p c, In (p, c) (simple_strings e) -> f p c = g p c) ->
  simple_map f e = simple_map g e.
Proof.
  fix IH 1. intros [s|l|m] f g H.
  - simpl. rewrite (H [] s); [reflexivity|left; reflexivity].
  - rewrite !simple_map_list. f_equal.
    assert (Hin : forall p c, In (p, c) (list_strs simple_strings 0 l) -> f p c = g p c) by exact H.
    clear H. revert Hin. generalize 0 as i. induction l as [|d l IHl]; intros i Hin; [reflexivity|].
    cbn [list_map_at]. f_equal.
    + apply IH. intros p c Hp. apply Hin. simpl. apply in_or_app. left. apply in_pre. eauto.
    + apply IHl. intros p c Hp. apply Hin. simpl. apply in_or_app. right. exact Hp.
  - rewrite !simple_map_map. f_equal.
    assert (Hin : forall p c, In (p, c) (first_strs simple_strings m) \/ In (p, c) (others_strs simple_strings m) ->
              f p c = g p c).
    { intros p c Hp. apply H. cbn [simple_strings]. apply in_or_app. exact Hp. }
    clear H. induction m as [|[k d] m IHm]; [reflexivity|].
    cbn [map_map_at]. f_equal.
    + f_equal. apply IH. intros p c Hp. apply Hin. simpl.
      destruct (str_eqb k first_visit_key); [left|right]; apply in_or_app; left; apply in_pre; eauto.
    + apply IHm. intros p c Hp. apply Hin. simpl. destruct Hp as [Hp|Hp]; [left|right]; apply in_or_app; right; exact Hp.
Qed.

Lemma simple_holds_fun : forall e0 e1 e2 l1 l2, NoDup (map fst (simple_strings e0)) ->
  simple_holds e0 e1 l1 -> simple_holds e0 e2 l2 -> map fst l1 = map fst l2 -> e1 = e2.
Proof.
  intros e0 e1 e2 l1 l2 Hnd (f & -> & Hf) (g & -> & Hg) Hl. apply simple_map_ext_in.
  rewrite Hl, Hg in Hf. clear - Hf Hnd. revert Hf. generalize (simple_strings e0) as l.
  induction l as [|[q d] l IH]; intros Hf p c Hin; [destruct Hin|].
  simpl in Hf. injection Hf as H1 H2. destruct Hin as [E|Hin]; [injection E as <- <-; congruence|auto].
Qed.

Lemma same_results : forall (strs : list (path * str)) (r1 r2 : list (str * list rule_match)),
  length r1 = length strs -> length r2 = length strs ->
  (forall p c c1 o1 c2 o2, In ((p, c), (c1, o1), (c2, o2)) (combine (combine strs r1) r2) -> c1 = c2 /\ o1 = o2) ->
  r1 = r2.
Proof.
  induction strs as [|[p c] strs IH]; intros [|[c1 o1] r1] [|[c2 o2] r2] H1 H2 H; try discriminate; [reflexivity|].
  destruct (H p c c1 o1 c2 o2) as [-> ->]; [left; reflexivity|]. f_equal.
  apply IH; [simpl in H1; lia|simpl in H2; lia|]. intros. eapply H. right. eassumption.
Qed.

Lemma in_combine3 : forall (strs : list (path * str)) (r1 r2 : list (str * list rule_match)) x y z,
  length r1 = length strs -> length r2 = length strs ->
  In (x, y, z) (combine (combine strs r1) r2) -> In (x, y) (combine strs r1) /\ In (x, z) (combine strs r2).
Proof.
  induction strs as [|pc strs IH]; intros [|u r1] [|v r2] x y z H1 H2 Hin; try discriminate; [destruct Hin|].
  simpl in *. destruct Hin as [E|Hin]; [injection E as <- <- <-; auto|].
  destruct (IH r1 r2 x y z) as [G1 G2]; auto.
Qed.

Lemma same_candidates : forall sc1 sc2 fs1 fs2 blocked, similar sc1 sc2 ->
  (forall i, same_finder (fs1 i) (fs2 i)) -> forall p c k,
  candidate sc1 fs1 blocked p c k -> candidate sc2 fs2 blocked p c k.
Proof.
  intros sc1 sc2 fs1 fs2 blocked Hsim Hf p c [[i a] b] (r & Hr & Hb & Hi & Hx & Hin).
  pose proof (similar_nth _ _ Hsim i) as Hn. rewrite Hr in Hn.
  destruct (nth_error (sc_rules sc2) i) as [r2|] eqn:Hr2; [|contradiction].
  destruct Hn as (_ & Hsc & _). exists r2. rewrite <- Hsc, <- (sm_wild _ _ Hsim), <- (sm_kw _ _ Hsim).
  split; [exact Hr2|]. split; [exact Hb|]. split; [exact Hi|]. split; [exact Hx|]. apply Hf. exact Hin.
Qed.

Lemma same_suppressed : forall sc1 sc2 fs1 fs2 blocked strs, similar sc1 sc2 ->
  (forall i, same_finder (fs1 i) (fs2 i)) -> forall c k,
  suppressed sc1 fs1 blocked strs c k -> suppressed sc2 fs2 blocked strs c k.
Proof.
  intros sc1 sc2 fs1 fs2 blocked strs Hsim Hf c [[i a] b] (Hm & (r & Hr & Hrm) & (t & Ht & (j & rj & q & d & Hin & Hj & Hb & Hi & Hx & Hfd))).
  split; [rewrite <- (sm_multipass _ _ Hsim); exact Hm|]. split.
  - pose proof (similar_nth _ _ Hsim i) as Hn. rewrite Hr in Hn.
    destruct (nth_error (sc_rules sc2) i) as [r2|]; [|contradiction]. exists r2. split; [reflexivity|].
    destruct Hn as (_ & _ & _ & <-). exact Hrm.
  - exists t. split; [exact Ht|].
    pose proof (similar_nth _ _ Hsim j) as Hn. rewrite Hj in Hn.
    destruct (nth_error (sc_rules sc2) j) as [r2|] eqn:Hr2; [|contradiction]. destruct Hn as (_ & Hsc & _).
    exists j, r2, q, d. rewrite <- Hsc, <- (sm_wild _ _ Hsim), <- (sm_kw _ _ Hsim).
    split; [exact Hin|]. split; [exact Hr2|]. split; [exact Hb|]. split; [exact Hi|]. split; [exact Hx|].
    apply Hf. exact Hfd.
Qed.

Lemma similar_sym : forall s1 s2, similar s1 s2 -> similar s2 s1.
Proof.
  intros s1 s2 [H1 H2 H3 H4 H5]. split; auto. unfold same_rules in *. clear - H1.
  induction H1 as [|a b l l' (Ha & Hb & Hc & Hd) H IH]; constructor; auto.
Qed.

Lemma c07_discovery_order_irrelevant_lemma :
  forall I w srt1 srt2 sc1 sc2 fs1 fs2 e strs holds fuel1 fuel2,
  scan_setting I w srt1 sc1 fs1 e strs holds fuel1 ->
  scan_setting I w srt2 sc2 fs2 e strs holds fuel2 ->
  similar sc1 sc2 -> (forall i, same_finder (fs1 i) (fs2 i)) ->
  forall h blocked e1 outs1 e2 outs2,
  scan I fuel1 h srt1 sc1 blocked e = Ret (e1, outs1) ->
  scan I fuel2 h srt2 sc2 blocked e = Ret (e2, outs2) ->
  outs1 = outs2 /\ exists l, holds e1 l /\ holds e2 l.
Proof.
  intros I w srt1 srt2 sc1 sc2 fs1 fs2 e strs holds fuel1 fuel2 S1 S2 Hsim Hf h blocked e1 outs1 e2 outs2 H1 H2.
  destruct (scan_scanned _ _ _ _ _ _ _ _ _ S1 _ _ _ _ H1) as (r1 & L1 & -> & Hh1 & Hall1).
  destruct (scan_scanned _ _ _ _ _ _ _ _ _ S2 _ _ _ _ H2) as (r2 & L2 & -> & Hh2 & Hall2).
  assert (r1 = r2).
  { apply (same_results strs); auto. intros p c c1 o1 c2 o2 Hin.
    destruct (in_combine3 _ _ _ _ _ _ L1 L2 Hin) as [Hi1 Hi2].
    eapply (string_scanned_unique sc1 sc2 fs1 fs2 blocked blocked Hsim); [| |exact (Hall1 _ _ _ _ Hi1)|exact (Hall2 _ _ _ _ Hi2)].
    - assert (Hf' : forall i, same_finder (fs2 i) (fs1 i)).
      { intros i x y z t. destruct (Hf i x y z t) as [G1 G2]. split; intros; symmetry; auto. }
      intros k. split; intros [Hc Hn]; (split; [eapply same_candidates; eauto using similar_sym|]);
        intros Hs; apply Hn; eapply same_suppressed; eauto using similar_sym.
    - intros i a b Hc. eapply (candidate_part _ _ _ _ _ _ _ _ _ S1); [|exact Hc]. eapply in_combine_l; exact Hi1. }
  subst r2. split; [reflexivity|eauto].
Qed.

Lemma c07_simple_event_lemma :
  forall srt1 srt2 sc1 sc2 e fuel1 fuel2,
  sorter_ok srt1 -> sorter_ok srt2 -> distinct_keys e ->
  regex_scanner sc1 (simple_strings e) -> regex_scanner sc2 (simple_strings e) ->
  enough_fuel fuel1 (simple_strings e) -> enough_fuel fuel2 (simple_strings e) ->
  similar sc1 sc2 -> (forall i, same_finder (finders sc1 i) (finders sc2 i)) ->
  forall h blocked,
    scan simple_event_impl fuel1 h srt1 sc1 blocked e = scan simple_event_impl fuel2 h srt2 sc2 blocked e.
Proof.
  intros srt1 srt2 sc1 sc2 e fuel1 fuel2 Hs1 Hs2 Hd Hr1 Hr2 Hf1 Hf2 Hsim Hf h blocked.
  pose proof (simple_setting _ _ _ _ Hs1 Hd Hr1 Hf1) as S1.
  pose proof (simple_setting _ _ _ _ Hs2 Hd Hr2 Hf2) as S2.
  destruct (scan_returns _ _ _ _ _ _ _ _ _ S1 h blocked) as (e1 & o1 & H1).
  destruct (scan_returns _ _ _ _ _ _ _ _ _ S2 h blocked) as (e2 & o2 & H2).
  destruct (c07_discovery_order_irrelevant_lemma _ _ _ _ _ _ _ _ _ _ _ _ _ S1 S2 Hsim Hf _ _ _ _ _ _ H1 H2) as (-> & l & L1 & L2).
  rewrite H1, H2. f_equal. f_equal. eapply simple_holds_fun; [apply simple_distinct; exact Hd|exact L1|exact L2|reflexivity].
Qed.

Lemma c07_overlap_resolution_lemma :
  forall E srt1 srt2 rules (ms1 ms2 out1 out2 : list (internal_match E)),
  sorter_ok srt1 -> sorter_ok srt2 ->
  (forall m, In m ms1 -> im_start m < im_end m) ->
  (forall k, In k (map key ms1) <-> In k (map key ms2)) ->
  sort_and_remove_overlapping_rules srt1 rules ms1 = Ret out1 ->
  sort_and_remove_overlapping_rules srt2 rules ms2 = Ret out2 ->
  map key out1 = map key out2.
Proof.
  intros E srt1 srt2 rules ms1 ms2 out1 out2 S1 S2 Hne Hk H1 H2.
  assert (Hne2 : forall m, In m ms2 -> nonempty m).
  { intros m Hm. apply (in_map key) in Hm. apply Hk in Hm. apply in_keys in Hm as (m' & Hm' & Ek).
    specialize (Hne _ Hm'). unfold key in Ek. injection Ek as E1 E2 E3. unfold nonempty. congruence. }
  assert (Hrules : forall (ms out : list (internal_match E)) srt, sort_and_remove_overlapping_rules srt rules ms = Ret out ->
            forall m, In m ms -> im_rule m < length rules).
  { intros ms out srt H m Hm. unfold sort_and_remove_overlapping_rules, check_rule_indices in H.
    destruct (forallb (fun m0 => im_rule m0 <? length rules) ms) eqn:Ef; [|discriminate H].
    rewrite forallb_forall in Ef. apply Nat.ltb_lt. apply Ef. exact Hm. }
  destruct (sort_and_remove_spec rules srt1 ms1 S1 (Hrules _ _ _ H1) Hne) as (o1 & G1 & R1).
  destruct (sort_and_remove_spec rules srt2 ms2 S2 (Hrules _ _ _ H2) Hne2) as (o2 & G2 & R2).
  rewrite H1 in G1. rewrite H2 in G2. injection G1 as ->. injection G2 as ->.
  exact (resolved_unique rules ms1 ms2 _ _ Hne Hne2 Hk R1 R2).
Qed.

Lemma c08_unredacted_string_unchanged_lemma :
  forall I w srt sc fs e strs holds fuel,
  scan_setting I w srt sc fs e strs holds fuel ->
  forall h blocked e' outs, scan I fuel h srt sc blocked e = Ret (e', outs) ->
  scan_result I strs holds e' outs (fun p c c' os =>
    (forall o r, In o os -> rule_of sc o r -> rule_action r = ActNone) ->
    c' = c /\
    forall o, In o os -> rm_shift o = 0%Z /\ exists before m after,
      c = before ++ m ++ after /\
      candidate sc fs blocked p c (rm_rule o, nbytes before, nbytes (before ++ m)) /\
      rm_start o = weight w before /\ rm_end o = weight w (before ++ m)).
Proof.
  intros I w srt sc fs e strs holds fuel Hset h blocked e' outs Hs.
  eapply result_weaken; [|eapply scan_scanned; eauto]. intros p c c' os _ H Hnone.
  destruct (scanned_cuts _ _ _ _ _ _ _ _ _ _ _ H) as (cands & kept & g0 & cs & _ & _ & Hcut & Hlk & Hk).
  destruct Hcut as (Hc & Hc' & Hlc & Hcut).
  assert (Hsame : forall u, In u cs -> cut_new u = cut_old u).
  { intros u Hu. apply In_nth_error in Hu as (k & Hu). destruct (nth_in_both _ _ cs os k u Hlc Hu) as (o & Ho).
    destruct (Hcut k o u Ho Hu) as (r & Hr & _ & Hnew). rewrite Hnew, (Hnone o r); [reflexivity| |exact Hr].
    eapply nth_error_In; exact Ho. }
  assert (Hfst : forall k, rewritten g0 (firstn k cs) = original g0 (firstn k cs)).
  { intros k. apply rewritten_same. intros u Hu. apply Hsame. rewrite <- (firstn_skipn k cs). apply in_or_app. left. exact Hu. }
  split.
  - rewrite Hc', Hc. apply rewritten_same. exact Hsame.
  - intros o Ho. apply In_nth_error in Ho as (k & Ho).
    destruct (nth_in_both _ _ os kept k o (eq_sym Hlk) Ho) as (m & Hm).
    destruct (nth_in_both _ _ os cs k o (eq_sym Hlc) Ho) as (u & Hu).
    destruct (Hk k m o u Hm Ho Hu) as (_ & _ & _ & _ & E1 & E2 & E3 & _).
    assert (Hu' : cut_new u = cut_old u) by (apply Hsame; eapply nth_error_In; exact Hu).
    rewrite (Hfst k) in E1. rewrite (Hfst k), Hu' in E2. rewrite (Hfst k), Hu' in E3. split; [rewrite E3; lia|].
    destruct (original_nth g0 cs k u Hu) as (q & Hq). exists (original g0 (firstn k cs)), (cut_old u), q.
    split; [congruence|]. destruct (Hcut k o u Ho Hu) as (r & _ & Hcd & _). auto.
Qed.

Lemma c08_detect_only_scanner_lemma :
  forall srt sc e fuel,
  sorter_ok srt -> distinct_keys e -> regex_scanner sc (simple_strings e) ->
  enough_fuel fuel (simple_strings e) ->
  (forall r, In r (sc_rules sc) -> rule_action r = ActNone) ->
  forall h blocked e' outs, scan simple_event_impl fuel h srt sc blocked e = Ret (e', outs) -> e' = e.
Proof.
  intros srt sc e fuel H1 H2 H3 H4 Hnone h blocked e' outs Hs.
  pose proof (simple_setting srt sc e fuel H1 H2 H3 H4) as Hset.
  destruct (c08_unredacted_string_unchanged_lemma _ _ _ _ _ _ _ _ _ Hset h blocked e' outs Hs) as (res & Hl & _ & (f & -> & Hf) & Hall).
  apply simple_map_id. intros p c Hin.
  assert (Hc : forall x y z, In ((x, y), z) (combine (simple_strings e) res) -> fst z = y).
  { intros x y [c' os] Hx. destruct (Hall x y c' os Hx) as [E _]; [|exact E].
    intros o r _ Hr. apply Hnone. eapply nth_error_In; exact Hr. }
  rewrite map_map in Hf. simpl in Hf. clear - Hf Hc Hl Hin. revert res Hl Hf Hc.
  generalize dependent (simple_strings e). induction l as [|[q d] l IH]; intros Hin [|[c' os] res] Hl Hf Hc; try discriminate; [destruct Hin|].
  simpl in Hf. injection Hf as G1 G2.
  destruct Hin as [E|Hin].
  - injection E as <- <-. rewrite <- G1. apply (Hc q d (c', os)). left. reflexivity.
  - eapply (IH Hin res); [simpl in Hl; lia|exact G2|]. intros x y z Hx. apply (Hc x y z). right. exact Hx.
Qed.

Lemma c09_partial_redaction_lemma :
  forall h d n m, 1 <= n ->
  exists before gone after,
    m = before ++ gone ++ after /\
    get_replacement h (ActPartialRedact d n) m =
      Ret (Some {| rep_start := nbytes before; rep_end := nbytes (before ++ gone);
                   rep_text := repeat 42%N n |}) /\
    (length m <= n -> gone = m) /\
    (n < length m -> length gone = n /\
       match d with FirstCharacters => before = [] | LastCharacters => after = [] end).
Proof.
  intros h d n m Hn. destruct d.
  - exists [], (firstn n m), (skipn n m). simpl. rewrite firstn_skipn. split; [reflexivity|]. split; [|split].
    + unfold partial_redaction_first. destruct (n <? length m) eqn:E; cbn [bind]; rewrite !nbytes_blen.
      * unfold char_indices. apply Nat.ltb_lt in E. unfold iter_nth. rewrite char_indices_nth.
        destruct (nth_error m n) as [c|] eqn:Ec; [|apply nth_error_None in Ec; lia]. reflexivity.
      * apply Nat.ltb_ge in E. rewrite firstn_all2 by exact E. reflexivity.
    + intros Hl. apply firstn_all2. exact Hl.
    + intros Hl. split; [apply firstn_length_le; lia|reflexivity].
  - exists (firstn (length m - n) m), (skipn (length m - n) m), []. rewrite app_nil_r, firstn_skipn.
    split; [reflexivity|]. split; [|split].
    + cbn [get_replacement]. unfold partial_redaction_last. rewrite !nbytes_blen. destruct (n <? length m) eqn:E; cbn [bind].
      * apply Nat.ltb_lt in E. destruct n as [|n]; [lia|]. destruct (char_indices_nth_back m n) as (x & Hx & _); [lia|].
        rewrite Hx. cbn [bind unwrap fst]. reflexivity.
      * apply Nat.ltb_ge in E. replace (length m - n) with 0 by lia. reflexivity.
    + intros Hl. replace (length m - n) with 0 by lia. reflexivity.
    + intros Hl. split; [rewrite skipn_length; lia|reflexivity].
Qed.

Lemma c10_scan_returns_partial_lemma :
  forall srt sc e fuel,
  sorter_ok srt -> distinct_keys e -> regex_scanner sc (simple_strings e) ->
  enough_fuel fuel (simple_strings e) ->
  forall h blocked, exists e' outs, scan simple_event_impl fuel h srt sc blocked e = Ret (e', outs).
Proof.
  intros srt sc e fuel H1 H2 H3 H4 h blocked.
  exact (scan_returns _ _ _ _ _ _ _ _ _ (simple_setting srt sc e fuel H1 H2 H3 H4) h blocked).
Qed.

Lemma scanned_mutating : forall sc fs blocked E w h strs p c c' os,
  string_scanned sc fs blocked E w h strs p c c' os ->
  (forall i a b, candidate sc fs blocked p c (i, a, b) -> a < b) ->
  exists g0 cs, cut_by sc fs blocked h p c c' os g0 cs /\
      forall i a b, candidate sc fs blocked p c (i, a, b) -> ~ suppressed sc fs blocked strs c (i, a, b) ->
        mutating_rule sc i ->
        exists k o u r, nth_error os k = Some o /\ nth_error cs k = Some u /\ rule_of sc o r /\
          rule_action r <> ActNone /\ cut_new u = redacted h (rule_action r) (cut_old u) /\
          exists n, a <= n < b /\
            nbytes (original g0 (firstn k cs)) <= n < nbytes (original g0 (firstn k cs) ++ cut_old u).
Proof.
  intros sc fs blocked E w h strs p c c' os H Hrange.
  destruct (scanned_cuts _ _ _ _ _ _ _ _ _ _ _ H) as (cands & kept & g0 & cs & Hc & Hr & Hcut & Hlk & Hk).
  exists g0, cs. split; [exact Hcut|]. destruct Hcut as (_ & _ & Hlc & Hcut).
  intros i a b Hcand Hns Hmut.
  assert (Hin : In (i, a, b) (map key cands)) by (apply Hc; auto).
  apply in_keys in Hin as (m & Hm & Ek). unfold key in Ek. injection Ek as Ei Ea Eb.
  assert (Hcov : exists o, In o kept /\ mutates (sc_rules sc) o /\ overlaps o m).
  { assert (Hnn : ~ ~ exists o, In o kept /\ mutates (sc_rules sc) o /\ overlaps o m).
    { intros Hno. assert (Hex : exists o, In o kept /\ key o = key m).
      { apply (rs_iff _ _ _ Hr m Hm). intros (o & Ho & Hb & Hov). apply Hno. exists o. split; [exact Ho|]. split; [|exact Hov].
        destruct Hb as [[Hb _]|[Hb _]]; [exact Hb|]. apply Hb. unfold mutates. rewrite Ei. exact Hmut. }
      destruct Hex as (o & Ho & Eo). apply Hno. exists o. split; [exact Ho|]. unfold key in Eo. injection Eo as O1 O2 O3. split.
      - unfold mutates. rewrite O1, Ei. exact Hmut.
      - pose proof (Hrange i a b Hcand) as Hlt.
        exists (im_start m). lia. }
    assert (Hdec : (exists o, In o kept /\ mutates (sc_rules sc) o /\ overlaps o m) \/
                   ~ (exists o, In o kept /\ mutates (sc_rules sc) o /\ overlaps o m)).
    { clear. induction kept as [|o kept IH]; [right; intros (o & [] & _)|].
      destruct IH as [(x & Hx & H)|IH]; [left; exists x; split; [right; exact Hx|exact H]|].
      assert (Hmd : mutates (sc_rules sc) o \/ ~ mutates (sc_rules sc) o).
      { destruct (mutating_at (sc_rules sc) (im_rule o)) eqn:Em; [left; apply mutating_at_spec|right; apply mutating_at_false]; exact Em. }
      assert (Ho : overlaps o m \/ ~ overlaps o m).
      { destruct (le_lt_dec (im_end o) (im_start m)) as [Hle|Hlt]; [right; intros (i & ? & ?); lia|].
        destruct (le_lt_dec (im_end m) (im_start o)) as [Hle2|Hlt2]; [right; intros (i & ? & ?); lia|].
        destruct (le_lt_dec (im_end o) (im_start o)); [right; intros (i & ? & ?); lia|].
        destruct (le_lt_dec (im_end m) (im_start m)); [right; intros (i & ? & ?); lia|].
        left. exists (Nat.max (im_start o) (im_start m)). lia. }
      destruct Hmd as [Hmd|Hmd], Ho as [Ho|Ho]; [left; exists o; split; [left; reflexivity|auto]|..];
        right; intros (x & [<-|Hx] & H1 & H2); try tauto; apply IH; exists x; auto. }
    tauto. }
  destruct Hcov as (o' & Ho' & Hmo & (n & Hn1 & Hn2)).
  apply In_nth_error in Ho' as (k & Hko).
  destruct (nth_in_both _ _ kept os k o' Hlk Hko) as (o & Ho).
  destruct (nth_in_both _ _ os cs k o (eq_sym Hlc) Ho) as (u & Hu).
  destruct (Hk k o' o u Hko Ho Hu) as (E1 & _ & E2 & E3 & _).
  destruct (Hcut k o u Ho Hu) as (r & Hrr & _ & Hnew).
  exists k, o, u, r. split; [exact Ho|]. split; [exact Hu|]. split; [exact Hrr|]. split; [|split; [exact Hnew|]].
  - destruct Hmo as (r' & Hr' & Hne). unfold rule_of in Hrr. rewrite E1, Hr' in Hrr. injection Hrr as <-. exact Hne.
  - exists n. rewrite <- E2, <- E3. lia.
Qed.

Lemma c62_no_mutating_candidate_survives_lemma :
  forall I w srt sc fs e strs holds fuel,
  scan_setting I w srt sc fs e strs holds fuel ->
  forall h blocked e' outs, scan I fuel h srt sc blocked e = Ret (e', outs) ->
  scan_result I strs holds e' outs (fun p c c' os =>
    exists g0 cs, cut_by sc fs blocked h p c c' os g0 cs /\
      forall i a b, candidate sc fs blocked p c (i, a, b) -> ~ suppressed sc fs blocked strs c (i, a, b) ->
        mutating_rule sc i ->
        exists k o u r, nth_error os k = Some o /\ nth_error cs k = Some u /\ rule_of sc o r /\
          rule_action r <> ActNone /\ cut_new u = redacted h (rule_action r) (cut_old u) /\
          exists n, a <= n < b /\
            nbytes (original g0 (firstn k cs)) <= n < nbytes (original g0 (firstn k cs) ++ cut_old u)).
Proof.
  intros I w srt sc fs e strs holds fuel Hset h blocked e' outs Hs.
  eapply result_weaken; [|eapply scan_scanned; eauto]. intros p c c' os Hpc H.
  apply (scanned_mutating _ _ _ _ _ _ _ _ _ _ _ H). intros i a b K. apply (candidate_part _ _ _ _ _ _ _ _ _ Hset blocked p c i a b Hpc K).
Qed.

Lemma c64_reported_metadata_lemma :
  forall I w srt sc fs e strs holds fuel,
  scan_setting I w srt sc fs e strs holds fuel ->
  forall h blocked e' outs, scan I fuel h srt sc blocked e = Ret (e', outs) ->
  scan_result I strs holds e' outs (fun p c c' os =>
    forall o, In o os -> exists r, rule_of sc o r /\ rm_path o = p /\ announced (rule_action r) (rm_kind o) /\
      (rm_status o = NotChecked <-> rule_validation r <> None) /\
      (rm_status o = NotAvailable <-> rule_validation r = None)).
Proof.
  intros I w srt sc fs e strs holds fuel Hset h blocked e' outs Hs.
  eapply result_weaken; [|eapply scan_scanned; eauto]. intros p c c' os _ H.
  destruct (scanned_cuts _ _ _ _ _ _ _ _ _ _ _ H) as (cands & kept & g0 & cs & _ & _ & Hcut & Hlk & Hk).
  intros o Ho. apply In_nth_error in Ho as (k & Ho).
  destruct (nth_in_both _ _ os kept k o (eq_sym Hlk) Ho) as (m & Hm).
  destruct Hcut as (_ & _ & Hlc & _).
  destruct (nth_in_both _ _ os cs k o (eq_sym Hlc) Ho) as (u & Hu).
  destruct (Hk k m o u Hm Ho Hu) as (_ & Hp & _ & _ & _ & _ & _ & _ & r & Hr & Hkind & Hst).
  exists r. split; [exact Hr|]. split; [exact Hp|]. rewrite Hkind, Hst. split.
  - destruct (rule_action r) as [|t| | |d n]; [..|destruct d]; constructor.
  - destruct (rule_validation r); split; split; congruence.
Qed.

