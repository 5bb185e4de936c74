(* Regex rules meet the contract of the scanner *)
From Coq Require Import Lia.
From Verif Require Import Proofs.Text Proofs.KeywordSearch.
From Verif Require Export Spec.Regex.

Definition regex_finder (r : regex_rule) : finder := fun c p e kw =>
  match regex_string_matches (nbytes c + 2) r c p e [] kw [] with
  | Ret x => x
  | _ => ([], [])
  end.

Lemma texts_in : forall s ms ts, texts_of s ms ts ->
  forall t, In t ts <-> exists a b, In (a, b) ms /\ part_at s a b t.
Proof.
  intros s ms ts H. induction H as [|[a b] t ms ts Hp H IH]; intros t'.
  - simpl. split; [intros []|intros (a & b & [] & _)].
  - simpl. rewrite IH. split.
    + intros [<-|(a' & b' & Hin & Hp')].
      * exists a, b. auto.
      * exists a', b'. auto.
    + intros (a' & b' & [E|Hin] & Hp').
      * inversion E; subst. left. eapply part_at_unique; eauto.
      * right. eauto.
Qed.

Section Regex.
Variable r : regex_rule.
Variable at_ : str -> nat -> option nat.
Variable occ : str -> nat -> nat -> Prop.
Hypothesis Hok : regex_ok r at_ occ.

Let Hlm := ro_find _ _ _ Hok.

(* what a run gives, for every fuel that is large enough and every set [x] *)
Definition gives (c : str) (p : path) (e kw : bool) (ms : list (nat * nat)) (new : list str) : Prop :=
  forall fuel x, nbytes c + 2 <= fuel ->
    regex_string_matches fuel r c p e [] kw x = Ret (ms, new ++ x).

Lemma gives_finder : forall c p e kw ms new, gives c p e kw ms new ->
  regex_finder r c p e kw = (ms, new).
Proof.
  intros c p e kw ms new H. unfold regex_finder. rewrite H by lia. rewrite app_nil_r. reflexivity.
Qed.

Lemma gives_plain : forall c p kw, rr_included r = None -> checkable r at_ c ->
  exists ms, scan_chain r at_ true c 0 ms /\ gives c p false kw ms [].
Proof.
  intros c p kw Hi Hc.
  destruct (tp_all_included r at_ Hlm true c (fun _ => Hc) _ 0 (Nat.le_refl _) (boundary_zero c)) as (ms & Hch & Hrun).
  exists ms. split; [exact Hch|]. intros fuel x Hf. unfold regex_string_matches. rewrite Hi.
  apply Hrun. lia.
Qed.

Lemma gives_plain_excluded : forall c p kw, rr_included r = None -> checkable r at_ c ->
  exists ms ts, scan_chain r at_ true c 0 ms /\ texts_of c ms ts /\ gives c p true kw [] (rev ts).
Proof.
  intros c p kw Hi Hc.
  destruct (tp_all_excluded r at_ Hlm true c (fun _ => Hc) 0 (boundary_zero c)) as (ms & ts & Hch & Hts & Hrun).
  exists ms, ts. split; [exact Hch|]. split; [exact Hts|]. intros fuel x Hf.
  unfold regex_string_matches. rewrite Hi. apply Hrun. lia.
Qed.

(* the path search adds everything or nothing *)
Definition path_enabled (ik : included_keywords) (kw : bool) (p : path) : bool :=
  kw && ik_path_match ik (sanitize p).

Lemma gives_keyword : forall c p e kw ik, rr_included r = Some ik ->
  forall ms new ms0 new0,
    (forall fuel x, nbytes c + 1 <= fuel -> kw_outer fuel r ik c e 0 x = Ret (ms, new ++ x)) ->
    (forall fuel x, nbytes c + 1 <= fuel -> tp_all fuel r c false e 0 x = Ret (ms0, new0 ++ x)) ->
    (rr_find r c 0 = None -> ms0 = [] /\ new0 = []) ->
    gives c p e kw (ms ++ if path_enabled ik kw p then ms0 else [])
                   ((if path_enabled ik kw p then new0 else []) ++ new).
Proof.
  intros c p e kw ik Hi ms new ms0 new0 H1 H2 H3 fuel x Hf. unfold regex_string_matches. rewrite Hi.
  unfold matches_with_included_keywords. cbn [existsb]. rewrite H1 by lia. cbn [bind].
  unfold path_enabled. destruct kw; cbn [andb]; [|rewrite app_nil_r; reflexivity].
  destruct (rr_find r c 0) as [m|] eqn:Ef.
  - destruct (ik_path_match ik (sanitize p)).
    + rewrite H2 by lia. cbn [bind fst snd]. rewrite app_assoc. reflexivity.
    + rewrite app_nil_r. reflexivity.
  - destruct (H3 eq_refl) as [-> ->]. destruct (ik_path_match ik (sanitize p)); rewrite app_nil_r; reflexivity.
Qed.

Lemma no_match_chain : forall c ms, rr_find r c 0 = None -> scan_chain r at_ false c 0 ms -> ms = [].
Proof.
  intros c [|[a b] ms] Hn H; [reflexivity|]. simpl in H. destruct H as (_ & (Hat & _) & _).
  rewrite (lm_none _ _ Hlm c 0 (boundary_zero c) Hn a) in Hat by lia. discriminate.
Qed.

Lemma path_enabled_spec : forall ik kw p, path_enabled ik kw p = true <-> keyword_in_path ik kw p.
Proof. intros. unfold path_enabled, keyword_in_path. rewrite andb_true_iff. reflexivity. Qed.

Lemma kw_included : forall c ik, rr_included r = Some ik ->
  exists ms ms0,
    (forall a b, In (a, b) ms -> true_positive r at_ false c a b /\
       exists k ke, occ c k ke /\ near_keyword (ik_look_ahead ik) c k a) /\
    (forall a b k ke, true_positive r at_ false c a b -> occ c k ke -> ke <= a ->
       near_keyword (ik_look_ahead ik) c k a ->
       exists a' b', In (a', b') ms /\ a' <= a /\ (a < b' \/ k < a')) /\
    scan_chain r at_ false c 0 ms0 /\
    forall p kw, gives c p false kw (ms ++ if path_enabled ik kw p then ms0 else []) [].
Proof.
  intros c ik Hi. destruct (ro_keywords _ _ _ Hok ik Hi) as [Hea Hla].
  destruct (kw_outer_included r at_ Hlm ik occ Hea Hla c _ 0 (Nat.le_refl _) (boundary_zero c))
    as (ms & Hs & Hc & Hrun).
  destruct (tp_all_included r at_ Hlm false c (no_check r at_ c) _ 0 (Nat.le_refl _) (boundary_zero c))
    as (ms0 & Hch & Hrun0).
  exists ms, ms0. split; [exact Hs|]. split; [|split; [exact Hch|]].
  - intros a b k ke H1 H2 H3 H4. exact (Hc a b k ke H1 H2 (Nat.le_0_l _) H3 H4).
  - intros p kw. pose proof (gives_keyword c p false kw ik Hi ms [] ms0 []) as G.
    assert (E : (if path_enabled ik kw p then @nil str else []) ++ [] = []) by (destruct (path_enabled ik kw p); reflexivity).
    rewrite E in G. apply G.
    + intros fuel x Hf. apply Hrun. lia.
    + intros fuel x Hf. apply Hrun0. lia.
    + intros Hn. split; [exact (no_match_chain c ms0 Hn Hch)|reflexivity].
Qed.

Lemma kw_excluded : forall c ik, rr_included r = Some ik ->
  exists ts ms0 ts0,
    match ik_find ik c 0 with
    | None => ts = []
    | Some (k, _) => exists ms, scan_chain r at_ false c k ms /\ texts_of c ms ts
    end /\
    scan_chain r at_ false c 0 ms0 /\ texts_of c ms0 ts0 /\
    forall p kw, gives c p true kw [] ((if path_enabled ik kw p then rev ts0 else []) ++ rev ts).
Proof.
  intros c ik Hi. destruct (ro_keywords _ _ _ Hok ik Hi) as [Hea Hla].
  destruct (kw_outer_excluded r at_ Hlm ik occ Hea Hla c) as (ts & Hrun & Hts).
  destruct (tp_all_excluded r at_ Hlm false c (no_check r at_ c) 0 (boundary_zero c)) as (ms0 & ts0 & Hch & Hts0 & Hrun0).
  exists ts, ms0, ts0. split; [exact Hts|]. split; [exact Hch|]. split; [exact Hts0|].
  intros p kw. pose proof (gives_keyword c p true kw ik Hi [] (rev ts) [] (rev ts0)) as G.
  assert (E : [] ++ (if path_enabled ik kw p then @nil (nat * nat) else []) = []) by (destruct (path_enabled ik kw p); reflexivity).
  rewrite E in G. apply G.
  - intros fuel x Hf. apply Hrun. lia.
  - intros fuel x Hf. apply Hrun0. lia.
  - intros Hn. split; [reflexivity|]. rewrite (no_match_chain c ms0 Hn Hch) in Hts0. inversion Hts0. reflexivity.
Qed.

Lemma regex_finder_finds : regex_finds r at_ occ (regex_finder r).
Proof.
  split.
  - intros c p kw Hi Hc. destruct (gives_plain c p kw Hi Hc) as (ms & Hch & Hg).
    rewrite (gives_finder _ _ _ _ _ _ Hg). exact Hch.
  - intros c p kw Hi Hc. destruct (gives_plain_excluded c p kw Hi Hc) as (ms & ts & Hch & Hts & Hg).
    exists ms. split; [exact Hch|]. intros t. rewrite (gives_finder _ _ _ _ _ _ Hg). simpl.
    rewrite <- in_rev. apply texts_in. exact Hts.
  - intros ik c p kw a b Hi. destruct (kw_included c ik Hi) as (ms & ms0 & Hs & _ & Hch & Hg).
    rewrite (gives_finder _ _ _ _ _ _ (Hg p kw)). simpl. intros Hin. apply in_app_or in Hin as [Hin|Hin].
    + destruct (Hs a b Hin) as [H1 H2]. split; [exact H1|left; exact H2].
    + destruct (path_enabled ik kw p) eqn:Ep; [|destruct Hin].
      destruct (chain_in r at_ Hlm _ _ _ _ _ _ Hch Hin) as [_ H]. split; [exact H|].
      right. apply path_enabled_spec. exact Ep.
  - intros ik c p kw a b k ke Hi H1 H2 H3 H4. destruct (kw_included c ik Hi) as (ms & ms0 & _ & Hc & Hch & Hg).
    rewrite (gives_finder _ _ _ _ _ _ (Hg p kw)). simpl.
    destruct (Hc a b k ke H1 H2 H3 H4) as (a' & b' & Hin & H). exists a', b'. split; [apply in_or_app; auto|exact H].
  - intros ik c p kw a b Hi Hp H. destruct (kw_included c ik Hi) as (ms & ms0 & _ & _ & Hch & Hg).
    rewrite (gives_finder _ _ _ _ _ _ (Hg p kw)). simpl.
    apply path_enabled_spec in Hp. rewrite Hp.
    destruct (chain_complete r at_ _ _ _ _ _ _ Hch (Nat.le_0_l a) H) as (a' & b' & Hin & Hr).
    exists a', b'. split; [apply in_or_app; auto|exact Hr].
  - intros ik c p q e kw Hi Hp.
    assert (E : path_enabled ik kw p = false).
    { destruct (path_enabled ik kw p) eqn:E; [|reflexivity]. apply path_enabled_spec in E. contradiction. }
    assert (E' : path_enabled ik false q = false) by reflexivity.
    destruct e.
    + destruct (kw_excluded c ik Hi) as (ts & ms0 & ts0 & _ & _ & _ & Hg).
      rewrite (gives_finder _ _ _ _ _ _ (Hg p kw)), (gives_finder _ _ _ _ _ _ (Hg q false)), E, E'. reflexivity.
    + destruct (kw_included c ik Hi) as (ms & ms0 & _ & _ & _ & Hg).
      rewrite (gives_finder _ _ _ _ _ _ (Hg p kw)), (gives_finder _ _ _ _ _ _ (Hg q false)), E, E'. reflexivity.
  - intros ik c p kw t Hi. destruct (kw_excluded c ik Hi) as (ts & ms0 & ts0 & Hts & Hch & Hts0 & Hg).
    rewrite (gives_finder _ _ _ _ _ _ (Hg p kw)). simpl. intros Hin. apply in_app_or in Hin as [Hin|Hin].
    + destruct (path_enabled ik kw p) eqn:Ep; [|destruct Hin].
      rewrite <- in_rev in Hin. apply (texts_in _ _ _ Hts0) in Hin as (a & b & Hin & Hp).
      destruct (chain_in r at_ Hlm _ _ _ _ _ _ Hch Hin) as [_ H]. exists a, b. split; [exact H|]. split; [exact Hp|].
      right. apply path_enabled_spec. exact Ep.
    + rewrite <- in_rev in Hin. destruct (ro_keywords _ _ _ Hok ik Hi) as [Hea Hla].
      destruct (ik_find ik c 0) as [[k ke]|] eqn:Ef.
      * destruct Hts as (ms & Hchk & Hts). apply (texts_in _ _ _ Hts) in Hin as (a & b & Hin & Hp).
        destruct (chain_in r at_ Hlm _ _ _ _ _ _ Hchk Hin) as [Hka H]. exists a, b. split; [exact H|]. split; [exact Hp|].
        left. destruct (ea_some _ _ Hea _ _ _ _ (boundary_zero c) Ef) as (_ & Hocc & _). eauto.
      * subst ts. destruct Hin.
  - intros ik c p kw k ke a b Hi Hocc Hka Htp. destruct (kw_excluded c ik Hi) as (ts & ms0 & ts0 & Hts & Hch & Hts0 & Hg).
    destruct (ro_keywords _ _ _ Hok ik Hi) as [Hea Hla].
    destruct (ik_find ik c 0) as [[k0 ke0]|] eqn:Ef.
    + destruct (ea_some _ _ Hea _ _ _ _ (boundary_zero c) Ef) as (_ & Hocc0 & Hmin).
      pose proof (Hmin k ke Hocc (Nat.le_0_l _)) as Hm. destruct (ea_range _ _ Hea _ _ _ Hocc0) as (Hlt & _).
      destruct Hts as (ms & Hchk & Hts).
      destruct (chain_complete r at_ _ _ _ _ a b Hchk) as (a' & b' & Hin & Hr); [lia|exact Htp|].
      destruct (chain_in r at_ Hlm _ _ _ _ _ _ Hchk Hin) as [_ Htp'].
      destruct (at_part r at_ Hlm c a' b') as (t & Ht); [destruct Htp'; assumption|].
      exists a', b', t. split; [exact Hr|]. split; [exact Htp'|]. split; [exact Ht|].
      rewrite (gives_finder _ _ _ _ _ _ (Hg p kw)). simpl. apply in_or_app. right. rewrite <- in_rev.
      apply (texts_in _ _ _ Hts). eauto.
    + pose proof (ea_none _ _ Hea _ _ (boundary_zero c) Ef _ _ Hocc). lia.
Qed.

Lemma regex_meets : forall a s v, action_validate a = true ->
  meets (scannable r at_) (rr_index r) (regex_compiled a s v r) (regex_finder r).
Proof.
  intros act sco v Hact.
  assert (Htp : forall chk c x y, true_positive r at_ chk c x y -> x < y /\ exists t, part_at c x y t).
  { intros chk c x y (H & _). destruct (at_lt r at_ Hlm c x y H). split; [assumption|].
    exact (at_part r at_ Hlm c x y H). }
  assert (Hall : forall c p e kw, scannable r at_ c -> exists ms new, gives c p e kw ms new /\
            (e = true -> ms = []) /\ (e = false -> new = []) /\
            forall x y, In (x, y) ms -> x < y /\ exists t, part_at c x y t).
  { intros c p e kw Hc. destruct (rr_included r) as [ik|] eqn:Hi.
    - destruct e.
      + destruct (kw_excluded c ik Hi) as (ts & ms0 & ts0 & _ & _ & _ & Hg).
        eexists _, _. split; [exact (Hg p kw)|]. split; [reflexivity|]. split; [discriminate|]. intros x y [].
      + destruct (kw_included c ik Hi) as (ms & ms0 & Hs & _ & Hch & Hg).
        eexists _, _. split; [exact (Hg p kw)|]. split; [discriminate|]. split; [reflexivity|].
        intros x y Hin. apply in_app_or in Hin as [Hin|Hin].
        * destruct (Hs x y Hin) as [H _]. eapply Htp; exact H.
        * destruct (path_enabled ik kw p); [|destruct Hin].
          destruct (chain_in r at_ Hlm _ _ _ _ _ _ Hch Hin) as [_ H]. eapply Htp; exact H.
    - specialize (Hc Hi). destruct e.
      + destruct (gives_plain_excluded c p kw Hi Hc) as (ms & ts & _ & _ & Hg).
        eexists _, _. split; [exact Hg|]. split; [reflexivity|]. split; [discriminate|]. intros x y [].
      + destruct (gives_plain c p kw Hi Hc) as (ms & Hch & Hg).
        eexists _, _. split; [exact Hg|]. split; [discriminate|]. split; [reflexivity|].
        intros x y Hin. destruct (chain_in r at_ Hlm _ _ _ _ _ _ Hch Hin) as [_ H]. eapply Htp; exact H. }
  split.
  - exact Hact.
  - intros fuel c p excl kw x Hc Hf. cbn [regex_compiled rule_string_matches].
    destruct (Hall c p (excl (rr_index r)) kw Hc) as (ms & new & Hg & _).
    rewrite (gives_finder _ _ _ _ _ _ Hg). cbn [fst snd]. apply Hg. exact Hf.
  - intros c p e kw x y Hc. destruct (Hall c p e kw Hc) as (ms & new & Hg & _ & _ & H).
    rewrite (gives_finder _ _ _ _ _ _ Hg). apply H.
  - intros c p kw Hc. destruct (Hall c p true kw Hc) as (ms & new & Hg & H & _).
    rewrite (gives_finder _ _ _ _ _ _ Hg). apply H. reflexivity.
  - intros c p kw Hc. destruct (Hall c p false kw Hc) as (ms & new & Hg & _ & H & _).
    rewrite (gives_finder _ _ _ _ _ _ Hg). apply H. reflexivity.
Qed.

End Regex.
