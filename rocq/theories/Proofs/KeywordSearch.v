(* The search for matches near included keywords *)
From Coq Require Import Lia.
From Verif Require Import Proofs.Text.
From Verif Require Export Proofs.TruePos.

Lemma chars_between_mono_l : forall s k k' a n n', chars_between s k a n -> chars_between s k' a n' ->
  k <= k' -> n' <= n.
Proof.
  intros s k k' a n n' (t & (p & q & -> & H1 & H2) & <-) (t' & (p' & q' & E & H1' & H2') & <-) Hle.
  rewrite nbytes_blen in *. rewrite !app_assoc in E.
  destruct (app_inj_blen (p ++ t) q (p' ++ t') q' E) as [E1 _]; [lia|].
  destruct (app_prefix_le p t p' t' E1) as (m & -> & ->); [lia|]. rewrite app_length. lia.
Qed.

Lemma chars_between_mono_r : forall s k a a' n n', chars_between s k a n -> chars_between s k a' n' ->
  a <= a' -> n <= n'.
Proof.
  intros s k a a' n n' (t & (p & q & -> & H1 & H2) & <-) (t' & (p' & q' & E & H1' & H2') & <-) Hle.
  rewrite nbytes_blen in *. destruct (app_inj_blen p (t ++ q) p' (t' ++ q') E) as [-> E1]; [lia|].
  rewrite !blen_app in *. destruct (app_prefix_le t q t' q' E1) as (m & -> & _); [lia|].
  rewrite app_length. lia.
Qed.

Lemma skip_to_max : forall c s, skip_to c s = Nat.max c s.
Proof. intros. unfold skip_to. destruct (c <? s) eqn:E; [apply Nat.ltb_lt in E|apply Nat.ltb_ge in E]; lia. Qed.

Section Keywords.
Variable r : regex_rule.
Variable at_ : str -> nat -> option nat.
Hypothesis Hlm : leftmost (rr_find r) at_.
Variable ik : included_keywords.
Variable occ : str -> nat -> nat -> Prop.
Hypothesis Hea : earliest (ik_find ik) occ.
Hypothesis Hla : 1 <= ik_look_ahead ik.

Notation TP := (true_positive r at_).
Notation chain := (scan_chain r at_).
Notation near := (near_keyword (ik_look_ahead ik)).

Lemma near_dec : forall s k a, boundary s k -> boundary s a -> k <= a ->
  exists v, is_index_within_prefix s k a (ik_look_ahead ik) = Ret v /\ (v = true <-> near s k a).
Proof.
  intros s k a Hk Ha Hle. destruct (chars_between_exists s k a Hk Ha Hle) as (n & Hn).
  exists (n <=? ik_look_ahead ik). split; [apply within_prefix_spec; exact Hn|].
  rewrite Nat.leb_le. split.
  - intros H. exists n. auto.
  - intros (m & Hm & H). rewrite (chars_between_unique _ _ _ _ _ Hn Hm). exact H.
Qed.

Lemma no_check : forall s, false = true -> checkable r at_ s.
Proof. discriminate. Qed.

Definition cursor_ok (s : str) (ms rest : list (nat * nat)) (cur : nat) : Prop :=
  cur = 0 \/ (exists b, In (cur, b) ms) \/
  (exists a b rest', rest = (a, b) :: rest' /\ boundary s cur /\ cur <= a /\
     forall k, near s k a -> cur <= k).

Lemma kw_inner_included : forall s k, boundary s k ->
  forall n start, nbytes s - start <= n -> boundary s start -> k <= start ->
  exists ms rest cur, chain false s start (ms ++ rest) /\
    (forall a b, In (a, b) ms -> near s k a) /\
    match rest with [] => True | (a, b) :: _ => ~ near s k a end /\
    cursor_ok s ms rest cur /\
    forall fuel kstart x, nbytes s + 1 - start <= fuel ->
      kw_inner fuel r ik s false k start kstart x =
      Ret (match rest with [] => false | _ => true end, ms, Nat.max kstart cur, x).
Proof.
  intros s k Hk. induction n as [n IH] using lt_wf_ind. intros start Hn Hst Hks.
  pose proof (boundary_le _ _ Hst) as Hle0.
  destruct (tp_next_included r at_ Hlm false s (no_check s) n start Hn Hst) as (om & st & Hrun & Hom).
  destruct om as [[a b]|].
  - destruct Hom as (-> & Hsa & Htp & Hno).
    destruct (tp_range r at_ Hlm _ _ _ _ Htp) as (Hab & Ha & Hb & Hle).
    destruct (near_dec s k a Hk Ha) as (v & Hv & Hiff); [lia|]. destruct v.
    + destruct (IH (nbytes s - b)) with (start := b) as (ms & rest & cur & H1 & H2 & H3 & H4 & H5);
        [lia|lia|exact Hb|lia|].
      exists ((a, b) :: ms), rest, (Nat.max a cur). split; [|split; [|split; [exact H3|split]]].
      * simpl. auto.
      * intros a' b' [E|Hin]; [|eauto]. inversion E; subst. apply Hiff. reflexivity.
      * destruct (Nat.max_spec a cur) as [[_ ->]|[_ ->]].
        { destruct H4 as [->|[(b' & Hin)|Hr]].
          - left. reflexivity.
          - right; left. exists b'. right. exact Hin.
          - right; right. exact Hr. }
        { right; left. exists b. left. reflexivity. }
      * intros fuel kstart x Hf. destruct fuel as [|fuel]; [lia|]. cbn [kw_inner].
        rewrite Hrun by exact Hf. cbn [bind fst snd]. rewrite Hv. cbn [bind].
        rewrite H5 by lia. cbn [bind]. rewrite skip_to_max, Nat.max_assoc. reflexivity.
    + destruct (prefix_start_spec s a (ik_look_ahead ik) Ha Hla) as (ps & Hps & Hbd & Hle2 & Hmin).
      destruct (chain_exists r at_ Hlm false s b (no_check s) Hb) as (ms' & Hms').
      exists [], ((a, b) :: ms'), (ps_start ps). split; [|split; [|split; [|split]]].
      * simpl. auto.
      * intros a' b' [].
      * intros Hnear. apply Hiff in Hnear. discriminate.
      * right; right. exists a, b, ms'. split; [reflexivity|]. split; [exact Hbd|]. split; [exact Hle2|].
        intros k' (m & Hm & Hml). eapply Hmin; eauto.
      * intros fuel kstart x Hf. destruct fuel as [|fuel]; [lia|]. cbn [kw_inner].
        rewrite Hrun by exact Hf. cbn [bind fst snd]. rewrite Hv. cbn [bind].
        rewrite Hps. cbn [bind]. rewrite skip_to_max. reflexivity.
  - exists [], [], 0. split; [exact Hom|]. split; [intros a b []|]. split; [exact I|].
    split; [left; reflexivity|]. intros fuel kstart x Hf. destruct fuel as [|fuel]; [lia|].
    cbn [kw_inner]. rewrite Hrun by exact Hf. rewrite Nat.max_0_r. reflexivity.
Qed.

Lemma keyword_next_spec : forall s i, boundary s i ->
  match ik_find ik s i with
  | None => keyword_next ik s i = Ret None
  | Some (k, ke) => exists i', keyword_next ik s i = Ret (Some (k, i')) /\ k < i' /\
      boundary s i' /\ forall j, k < j < nbytes s -> boundary s j -> i' <= j
  end.
Proof.
  intros s i Hi. unfold keyword_next. destruct (ik_find ik s i) as [[k ke]|] eqn:E; [|reflexivity].
  destruct (ea_some _ _ Hea _ _ _ _ Hi E) as (H1 & H2 & _).
  destruct (ea_range _ _ Hea _ _ _ H2) as (H3 & H4 & H5). apply boundary_le in H5 as H6.
  destruct (next_start_spec s k ke H4) as (o & Ho & Hspec); [lia|].
  change (get_next_regex_start s (k, ke)) with (next_char_index s k) in Ho. rewrite Ho. cbn [bind].
  destruct o as [nx|].
  - destruct Hspec as (G1 & G2 & G3 & G4). exists nx. split; [reflexivity|]. split; [exact G1|].
    split; [exact G2|]. intros j Hj Hb. destruct (le_lt_dec nx j); [lia|]. exfalso. apply (G4 j); [lia|exact Hb].
  - exists ke. split; [reflexivity|]. split; [exact H3|]. split; [exact H5|].
    intros j Hj Hb. exfalso. apply (Hspec j Hj Hb).
Qed.

Lemma boundary_max : forall s a b, boundary s a -> boundary s b -> boundary s (Nat.max a b).
Proof. intros s a b Ha Hb. destruct (Nat.max_spec a b) as [[_ ->]|[_ ->]]; auto. Qed.

Lemma kw_outer_included : forall s n i, nbytes s - i <= n -> boundary s i ->
  exists ms,
    (forall a b, In (a, b) ms -> TP false s a b /\ exists k ke, occ s k ke /\ near s k a) /\
    (forall a b k ke, TP false s a b -> occ s k ke -> i <= k -> ke <= a -> near s k a ->
       exists a' b', In (a', b') ms /\ a' <= a /\ (a < b' \/ k < a')) /\
    forall fuel x, nbytes s + 1 - i <= fuel -> kw_outer fuel r ik s false i x = Ret (ms, x).
Proof.
  intros s. induction n as [n IH] using lt_wf_ind. intros i Hn Hi.
  pose proof (boundary_le _ _ Hi) as Hle0.
  pose proof (keyword_next_spec s i Hi) as Hkn.
  destruct (ik_find ik s i) as [[k ke]|] eqn:Ef.
  - destruct Hkn as (i1 & Hkn & Hki & Hbi1 & Hnext).
    destruct (ea_some _ _ Hea _ _ _ _ Hi Ef) as (Hik & Hocc & Hmin).
    destruct (ea_range _ _ Hea _ _ _ Hocc) as (Hke & Hbk & Hbke).
    destruct (kw_inner_included s k Hbk _ k (Nat.le_refl _) Hbk (Nat.le_refl _))
      as (ms & rest & cur & Hch & Hnear & Hrest & Hcur & Hinner).
    assert (Hsound : forall a b, In (a, b) ms -> TP false s a b /\ exists k ke, occ s k ke /\ near s k a).
    { intros a b Hin. split; [|eauto].
      destruct (chain_in r at_ Hlm false s (ms ++ rest) k a b Hch) as [_ H]; [apply in_or_app; auto|exact H]. }
    destruct rest as [|[a0 b0] rest'].
    + exists ms. split; [exact Hsound|]. split.
      * intros a b k' ke' Htp Hocc' Hik' Hke' Hn'.
        pose proof (Hmin k' ke' Hocc' Hik') as Hm.
        destruct (chain_complete r at_ false s (ms ++ []) k a b Hch) as (a' & b' & Hin & Hr); [lia|exact Htp|].
        rewrite app_nil_r in Hin. exists a', b'. split; [exact Hin|]. lia.
      * intros fuel x Hf. destruct fuel as [|fuel]; [lia|]. cbn [kw_outer]. rewrite Hkn. cbn [bind].
        rewrite Hinner by lia. reflexivity.
    + assert (Hbcur : boundary s cur).
      { destruct Hcur as [->|[(b' & Hin)|(a & b & r' & E & Hb & _)]].
        - apply boundary_zero.
        - destruct (Hsound _ _ Hin) as [Htp _]. destruct (tp_range r at_ Hlm _ _ _ _ Htp) as (_ & H & _). exact H.
        - exact Hb. }
      assert (Hbm : boundary s (Nat.max i1 cur)) by (apply boundary_max; auto).
      pose proof (boundary_le _ _ Hbm) as Hle2.
      destruct (IH (nbytes s - Nat.max i1 cur)) with (i := Nat.max i1 cur) as (ms2 & Hs2 & Hc2 & Hr2);
        [lia|lia|exact Hbm|].
      exists (ms ++ ms2). split; [|split].
      * intros a b Hin. apply in_app_or in Hin as [Hin|Hin]; auto.
      * intros a b k' ke' Htp Hocc' Hik' Hke' Hn'.
        pose proof (Hmin k' ke' Hocc' Hik') as Hm.
        destruct (ea_range _ _ Hea _ _ _ Hocc') as (Hke2 & Hbk' & Hbke'). apply boundary_le in Hbke' as Hle3.
        destruct (chain_complete r at_ false s _ k a b Hch) as (a' & b' & Hin & Hr); [lia|exact Htp|].
        apply in_app_or in Hin as [Hin|Hin].
        { exists a', b'. split; [apply in_or_app; auto|]. lia. }
        (* the first match outside the prefix starts at or before [a] *)
        assert (Hch0 : chain false s k (ms ++ (a0, b0) :: rest')) by exact Hch.
        assert (H0 : a0 <= a' /\ TP false s a0 b0 /\ k <= a0 /\ (forall x y, In (x, y) ms -> x <= a0)).
        { clear - Hlm Hch Hin. revert Hch Hin. generalize k. induction ms as [|[x y] ms IHm]; intros k0 Hch Hin.
          - simpl in Hch. destruct Hch as (E1 & E2 & E3 & E4).
            split; [|split; [exact E2|split; [exact E1|intros ? ? []]]].
            destruct Hin as [E|Hin]; [inversion E; lia|].
            destruct (chain_in r at_ Hlm _ _ _ _ _ _ E4 Hin) as [G _].
            destruct (tp_range r at_ Hlm _ _ _ _ E2). lia.
          - simpl in Hch. destruct Hch as (E1 & E2 & E3 & E4).
            destruct (IHm y E4 Hin) as (F1 & F2 & F3 & F4).
            destruct (tp_range r at_ Hlm _ _ _ _ E2) as (G & _).
            split; [exact F1|]. split; [exact F2|]. split; [lia|].
            intros x' y' [E|Hx]; [inversion E; subst; lia|]. apply (F4 x' y' Hx). }
        destruct H0 as (Ha0 & Htp0 & Hk0 & Hord).
        destruct (tp_range r at_ Hlm _ _ _ _ Htp0) as (_ & Hba0 & _).
        destruct (tp_range r at_ Hlm _ _ _ _ Htp) as (_ & Hba & _).
        assert (Hnear0 : k' <= a0 -> near s k' a0).
        { intros Hle. destruct Hn' as (m & Hm1 & Hm2).
          destruct (chars_between_exists s k' a0 Hbk' Hba0 Hle) as (m0 & Hm0).
          exists m0. split; [exact Hm0|]. pose proof (chars_between_mono_r _ _ _ _ _ _ Hm0 Hm1). lia. }
        assert (Hkk : k < k').
        { destruct (le_lt_dec k' k) as [Hle|]; [|assumption]. exfalso. apply Hrest.
          destruct Hnear0 as (m0 & Hm0 & Hm0'); [lia|].
          destruct (chars_between_exists s k a0 Hbk Hba0 Hk0) as (m1 & Hm1).
          exists m1. split; [exact Hm1|]. pose proof (chars_between_mono_l _ _ _ _ _ _ Hm0 Hm1 Hle). lia. }
        assert (Hi1 : i1 <= k') by (apply Hnext; [lia|exact Hbk']).
        assert (Hcurk : cur <= k' \/ exists b', In (cur, b') ms /\ k' < cur).
        { destruct Hcur as [->|[(b'' & Hinc)|(a'' & b'' & r'' & E & _ & Hle4 & Hps)]].
          - left. lia.
          - destruct (le_lt_dec cur k'); [left; assumption|right; eauto].
          - inversion E; subst a'' b'' r''. left. destruct (le_lt_dec k' a0).
            + apply Hps. apply Hnear0. assumption.
            + lia. }
        destruct Hcurk as [Hcurk|(bc & Hinc & Hgt)].
        { destruct (Hc2 a b k' ke' Htp Hocc') as (x & y & Hxy & Hres); [lia|exact Hke'|exact Hn'|].
          exists x, y. split; [apply in_or_app; auto|exact Hres]. }
        { exists cur, bc. split; [apply in_or_app; auto|]. split; [|right; exact Hgt].
          specialize (Hord _ _ Hinc). lia. }
      * intros fuel x Hf. destruct fuel as [|fuel]; [lia|]. cbn [kw_outer]. rewrite Hkn. cbn [bind].
        rewrite Hinner by lia. cbn [bind]. rewrite Hr2 by lia. reflexivity.
  - exists []. split; [intros a b []|]. split.
    + intros a b k ke Htp Hocc Hik. exfalso.
      pose proof (ea_none _ _ Hea _ _ Hi Ef _ _ Hocc). lia.
    + intros fuel x Hf. destruct fuel as [|fuel]; [lia|]. cbn [kw_outer]. rewrite Hkn. reflexivity.
Qed.

Lemma kw_outer_excluded : forall s,
  exists ts,
    (forall fuel x, nbytes s + 1 <= fuel -> kw_outer fuel r ik s true 0 x = Ret ([], rev ts ++ x)) /\
    match ik_find ik s 0 with
    | None => ts = []
    | Some (k, _) => exists ms, chain false s k ms /\ texts_of s ms ts
    end.
Proof.
  intros s. pose proof (keyword_next_spec s 0 (boundary_zero s)) as Hkn.
  destruct (ik_find ik s 0) as [[k ke]|] eqn:Ef.
  - destruct Hkn as (i1 & Hkn & _).
    destruct (ea_some _ _ Hea _ _ _ _ (boundary_zero s) Ef) as (_ & Hocc & _).
    destruct (ea_range _ _ Hea _ _ _ Hocc) as (_ & Hbk & _).
    destruct (tp_next_excluded r at_ Hlm false s (no_check s) _ k (Nat.le_refl _) Hbk)
      as (st & ms & ts & Hch & Hts & Hrun).
    exists ts. split; [|exists ms; auto]. intros fuel x Hf. destruct fuel as [|fuel]; [lia|].
    cbn [kw_outer]. rewrite Hkn. cbn [bind]. cbn [kw_inner]. rewrite Hrun by lia. reflexivity.
  - exists []. split; [|reflexivity]. intros fuel x Hf. destruct fuel as [|fuel]; [lia|].
    cbn [kw_outer]. rewrite Hkn. reflexivity.
Qed.

End Keywords.
