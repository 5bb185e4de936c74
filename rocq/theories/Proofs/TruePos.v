(* The true positive search *)
From Coq Require Import Lia.
From Verif Require Import Proofs.Text.
From Verif Require Export Proofs.Search.

Lemma next_start_spec : forall s a b, boundary s a -> a < nbytes s ->
  exists o, get_next_regex_start s (a, b) = Ret o /\
    match o with
    | Some n => a < n /\ boundary s n /\ n < nbytes s /\ forall j, a < j < n -> ~ boundary s j
    | None => forall j, a < j < nbytes s -> ~ boundary s j
    end.
Proof.
  intros s a b Hb Hlt. apply boundary_split in Hb as (p & q & -> & <-).
  rewrite nbytes_blen, blen_app in Hlt. destruct q as [|c q]; [simpl in Hlt; lia|].
  exists (match q with [] => None | _ => Some (blen p + clen c) end). split.
  { exact (next_char_at p c q). }
  pose proof (clen_pos c) as Hc.
  assert (Hno : forall j, blen p < j < blen p + clen c -> ~ boundary (p ++ c :: q) j).
  { intros j Hj Hbd. apply boundary_split in Hbd as (p' & q' & E & L).
    destruct (app_prefix_le p (c :: q) p' q' E) as (m & -> & E2); [lia|].
    rewrite blen_app in L. destruct m as [|d m]; simpl in L; [lia|].
    simpl in E2. inversion E2; subst. lia. }
  destruct q as [|d q].
  - intros j Hj. rewrite nbytes_blen, blen_app in Hj. simpl in Hj. apply Hno. lia.
  - split; [lia|]. split; [|split].
    + apply boundary_split. exists (p ++ [c]), (d :: q). rewrite <- app_assoc, blen_app. simpl. split; [reflexivity|lia].
    + rewrite nbytes_blen, blen_app. simpl. pose proof (clen_pos d). lia.
    + exact Hno.
Qed.

Section Search.
Variable r : regex_rule.
Variable at_ : str -> nat -> option nat.
Hypothesis Hlm : leftmost (rr_find r) at_.

Notation TP := (true_positive r at_).
Notation chain := (scan_chain r at_).

Lemma at_lt : forall s a b, at_ s a = Some b -> a < b /\ b <= nbytes s.
Proof.
  intros s a b H. destruct (lm_range _ _ Hlm _ _ _ H) as (H1 & _ & H3).
  apply boundary_le in H3. lia.
Qed.

Lemma at_part : forall s a b, at_ s a = Some b -> exists t, part_at s a b t.
Proof.
  intros s a b H. destruct (lm_range _ _ Hlm _ _ _ H) as (H1 & H2 & H3).
  apply part_of_boundaries; auto. lia.
Qed.

Lemma tp_fun : forall chk s a b b', TP chk s a b -> TP chk s a b' -> b = b'.
Proof. intros chk s a b b' (H & _) (H' & _). congruence. Qed.

Lemma false_positive_spec : forall chk s a b, at_ s a = Some b ->
  (chk = true -> checkable r at_ s) ->
  exists v, is_false_positive_match r s (a, b) chk = Ret v /\ (v = false <-> TP chk s a b).
Proof.
  intros chk s a b Hat Hchk. destruct (lm_range _ _ Hlm _ _ _ Hat) as (Hlt & Ha & Hb).
  destruct (at_lt _ _ _ Hat) as [_ Hle]. destruct (at_part _ _ _ Hat) as (t & Ht).
  unfold is_false_positive_match. cbn [fst snd].
  assert (Hkw : exists v, (if chk then match rr_excluded r with
                | Some xk => contains_excluded_keyword_match xk s a | None => Ret false end
               else Ret false) = Ret v /\
            (v = false <-> (chk = true -> forall xk, rr_excluded r = Some xk -> ~ excluded_keyword_before xk s a))).
  { destruct chk.
    - destruct (rr_excluded r) as [xk|] eqn:Ex.
      + destruct (excluded_check_ok xk s a Ha) as (v & Hv & Hiff).
        { lia. }
        { exact (Hchk eq_refl xk a b Ex Hat). }
        exists v. split; [exact Hv|]. split.
        * intros -> _ xk' E X. inversion E; subst. apply Hiff in X. discriminate.
        * intros H. destruct v; [|reflexivity]. exfalso.
          apply (H eq_refl xk eq_refl). apply Hiff. reflexivity.
      + exists false. split; [reflexivity|]. split; [intros _ _ xk E; discriminate|reflexivity].
    - exists false. split; [reflexivity|]. split; [intros _ E; discriminate|reflexivity]. }
  destruct Hkw as (v & Hv & Hiff). rewrite Hv. cbn [bind].
  unfold true_positive. destruct v.
  - exists true. split; [reflexivity|]. split; [discriminate|]. intros (_ & _ & H).
    apply Hiff in H. discriminate.
  - assert (Hx : chk = true -> forall xk, rr_excluded r = Some xk -> ~ excluded_keyword_before xk s a)
      by (apply Hiff; reflexivity).
    destruct (rr_validator r) as [valid|] eqn:Ev.
    + assert (Hs : slice s a b = Ret t) by (apply slice_part; exact Ht). rewrite Hs. cbn [bind].
      exists (negb (valid t)). split; [reflexivity|]. split.
      * intros Hn. split; [exact Hat|]. split; [|exact Hx].
        intros valid' t' E Ht'. inversion E; subst. rewrite (part_at_unique _ _ _ _ _ Ht' Ht).
        destruct (valid' t); [reflexivity|discriminate].
      * intros (_ & H & _). rewrite (H valid t eq_refl Ht). reflexivity.
    + exists false. split; [reflexivity|]. split; [|reflexivity]. intros _.
      split; [exact Hat|]. split; [|exact Hx]. intros valid t' E. discriminate.
Qed.

Lemma chain_skip : forall chk s i j ms, i <= j ->
  (forall a b, i <= a < j -> ~ TP chk s a b) -> chain chk s j ms -> chain chk s i ms.
Proof.
  intros chk s i j ms Hij Hno H. destruct ms as [|[a b] ms]; simpl in *.
  - intros a b Ha. destruct (le_lt_dec j a); auto.
  - destruct H as (H1 & H2 & H3 & H4). split; [lia|]. split; [exact H2|]. split; [|exact H4].
    intros k c Hk. destruct (le_lt_dec j k); [apply H3; lia|apply Hno; lia].
Qed.

Definition texts_of (s : str) (ms : list (nat * nat)) (ts : list str) : Prop :=
  Forall2 (fun m t => part_at s (fst m) (snd m) t) ms ts.

(* in a path that is not excluded *)
Lemma tp_next_included : forall chk s, (chk = true -> checkable r at_ s) ->
  forall n start, nbytes s - start <= n -> boundary s start ->
  exists om st, (forall fuel x, nbytes s + 1 - start <= fuel ->
                  tp_next fuel r s chk false start x = Ret (om, st, x)) /\
    match om with
    | Some (a, b) => st = b /\ start <= a /\ TP chk s a b /\ (forall j c, start <= j < a -> ~ TP chk s j c)
    | None => forall a b, start <= a -> ~ TP chk s a b
    end.
Proof.
  intros chk s Hchk. induction n as [n IH] using lt_wf_ind. intros start Hn Hst.
  pose proof (boundary_le _ _ Hst) as Hle0.
  destruct (rr_find r s start) as [[a b]|] eqn:Ef.
  - destruct (lm_some _ _ Hlm _ _ _ _ Hst Ef) as (Hsa & Hat & Hno).
    destruct (lm_range _ _ Hlm _ _ _ Hat) as (Hlt & Ha & Hb). destruct (at_lt _ _ _ Hat) as [_ Hle].
    destruct (false_positive_spec chk s a b Hat Hchk) as (v & Hv & Hiff).
    destruct v.
    + destruct (next_start_spec s a b Ha) as (o & Ho & Hspec); [lia|].
      assert (Hfp : forall c, ~ TP chk s a c).
      { intros c Hc. assert (c = b) by (destruct Hc; congruence). subst. apply Hiff in Hc. discriminate. }
      destruct o as [nx|].
      * destruct Hspec as (H1 & H2 & H3 & H4).
        destruct (IH (nbytes s - nx)) with (start := nx) as (om & st & Hrun & Hom); [lia|lia|exact H2|].
        assert (Hskip : forall j c, start <= j < nx -> ~ TP chk s j c).
        { intros j c Hj Hc. destruct (Nat.eq_dec j a) as [->|Hja]; [exact (Hfp c Hc)|].
          destruct Hc as (Hc & _). destruct (le_lt_dec a j).
          - apply lm_range with (1 := Hlm) in Hc as (_ & Hbd & _). apply (H4 j); [lia|exact Hbd].
          - rewrite Hno in Hc by lia. discriminate. }
        exists om, st. split.
        { intros fuel x Hf. destruct fuel as [|fuel]; [lia|]. cbn [tp_next]. rewrite Ef, Hv. cbn [bind].
          rewrite Ho. cbn [bind]. apply Hrun. lia. }
        destruct om as [[a' b']|].
        { destruct Hom as (E1 & E2 & E3 & E4). split; [exact E1|]. split; [lia|]. split; [exact E3|].
          intros j c Hj. destruct (le_lt_dec nx j); [apply E4; lia|apply Hskip; lia]. }
        { intros a' b' Ha'. destruct (le_lt_dec nx a'); [apply Hom; lia|apply Hskip; lia]. }
      * exists None, start. split.
        { intros fuel x Hf. destruct fuel as [|fuel]; [lia|]. cbn [tp_next]. rewrite Ef, Hv. cbn [bind].
          rewrite Ho. reflexivity. }
        intros j c Hj Hc. destruct (Nat.eq_dec j a) as [->|Hja]; [exact (Hfp c Hc)|].
        destruct Hc as (Hc & _). destruct (le_lt_dec a j).
        { destruct (at_lt _ _ _ Hc). apply lm_range with (1 := Hlm) in Hc as (_ & Hbd & _).
          apply (Hspec j); [lia|exact Hbd]. }
        { rewrite Hno in Hc by lia. discriminate. }
    + exists (Some (a, b)), b. split.
      * intros fuel x Hf. destruct fuel as [|fuel]; [lia|]. cbn [tp_next]. rewrite Ef, Hv. reflexivity.
      * split; [reflexivity|]. split; [exact Hsa|]. split; [apply Hiff; reflexivity|].
        intros j c Hj (Hc & _). rewrite Hno in Hc by lia. discriminate.
  - exists None, start. split.
    + intros fuel x Hf. destruct fuel as [|fuel]; [lia|]. cbn [tp_next]. rewrite Ef. reflexivity.
    + intros a b Ha (Hc & _). rewrite (lm_none _ _ Hlm _ _ Hst Ef a Ha) in Hc. discriminate.
Qed.

(* in an excluded path: everything is remembered, nothing returned *)
Lemma tp_next_excluded : forall chk s, (chk = true -> checkable r at_ s) ->
  forall n start, nbytes s - start <= n -> boundary s start ->
  exists st ms ts, chain chk s start ms /\ texts_of s ms ts /\
    forall fuel x, nbytes s + 1 - start <= fuel ->
      tp_next fuel r s chk true start x = Ret (None, st, rev ts ++ x).
Proof.
  intros chk s Hchk. induction n as [n IH] using lt_wf_ind. intros start Hn Hst.
  pose proof (boundary_le _ _ Hst) as Hle0.
  destruct (rr_find r s start) as [[a b]|] eqn:Ef.
  - destruct (lm_some _ _ Hlm _ _ _ _ Hst Ef) as (Hsa & Hat & Hno).
    destruct (lm_range _ _ Hlm _ _ _ Hat) as (Hlt & Ha & Hb). destruct (at_lt _ _ _ Hat) as [_ Hle].
    destruct (false_positive_spec chk s a b Hat Hchk) as (v & Hv & Hiff).
    assert (Hbefore : forall j c, start <= j < a -> ~ TP chk s j c).
    { intros j c Hj (Hc & _). rewrite Hno in Hc by lia. discriminate. }
    destruct v.
    + destruct (next_start_spec s a b Ha) as (o & Ho & Hspec); [lia|].
      assert (Hfp : forall c, ~ TP chk s a c).
      { intros c Hc. assert (c = b) by (destruct Hc; congruence). subst. apply Hiff in Hc. discriminate. }
      destruct o as [nx|].
      * destruct Hspec as (H1 & H2 & H3 & H4).
        destruct (IH (nbytes s - nx)) with (start := nx) as (st & ms & ts & Hch & Hts & Hrun); [lia|lia|exact H2|].
        exists st, ms, ts. split; [|split; [exact Hts|]].
        { apply chain_skip with (j := nx); [lia| |exact Hch].
          intros j c Hj Hc. destruct (Nat.eq_dec j a) as [->|Hja]; [exact (Hfp c Hc)|].
          destruct (le_lt_dec a j).
          - destruct Hc as (Hc & _). apply lm_range with (1 := Hlm) in Hc as (_ & Hbd & _). apply (H4 j); [lia|exact Hbd].
          - apply (Hbefore j c); [lia|exact Hc]. }
        intros fuel x Hf. destruct fuel as [|fuel]; [lia|]. cbn [tp_next]. rewrite Ef, Hv. cbn [bind].
        rewrite Ho. cbn [bind]. apply Hrun. lia.
      * exists start, [], []. split; [|split; [constructor|]].
        { simpl. intros j c Hj Hc. destruct (Nat.eq_dec j a) as [->|Hja]; [exact (Hfp c Hc)|].
          destruct (le_lt_dec a j).
          - destruct Hc as (Hc & _). destruct (at_lt _ _ _ Hc). apply lm_range with (1 := Hlm) in Hc as (_ & Hbd & _).
            apply (Hspec j); [lia|exact Hbd].
          - apply (Hbefore j c); [lia|exact Hc]. }
        intros fuel x Hf. destruct fuel as [|fuel]; [lia|]. cbn [tp_next]. rewrite Ef, Hv. cbn [bind].
        rewrite Ho. reflexivity.
    + destruct (at_part _ _ _ Hat) as (t & Ht).
      destruct (IH (nbytes s - b)) with (start := b) as (st & ms & ts & Hch & Hts & Hrun); [lia|lia|exact Hb|].
      exists st, ((a, b) :: ms), (t :: ts). split; [|split; [constructor; auto|]].
      { simpl. split; [exact Hsa|]. split; [apply Hiff; reflexivity|]. split; [exact Hbefore|exact Hch]. }
      intros fuel x Hf. destruct fuel as [|fuel]; [lia|]. cbn [tp_next]. rewrite Ef, Hv. cbn [bind fst snd].
      assert (Hs : slice s a b = Ret t) by (apply slice_part; exact Ht). rewrite Hs. cbn [bind].
      rewrite Hrun by lia. cbn [rev]. rewrite <- app_assoc. reflexivity.
  - exists start, [], []. split; [|split; [constructor|]].
    + simpl. intros a b Ha (Hc & _). rewrite (lm_none _ _ Hlm _ _ Hst Ef a Ha) in Hc. discriminate.
    + intros fuel x Hf. destruct fuel as [|fuel]; [lia|]. cbn [tp_next]. rewrite Ef. reflexivity.
Qed.

Lemma tp_range : forall chk s a b, TP chk s a b -> a < b /\ boundary s a /\ boundary s b /\ b <= nbytes s.
Proof.
  intros chk s a b (H & _). destruct (lm_range _ _ Hlm _ _ _ H) as (H1 & H2 & H3).
  destruct (at_lt _ _ _ H). auto.
Qed.

Lemma tp_all_included : forall chk s, (chk = true -> checkable r at_ s) ->
  forall n start, nbytes s - start <= n -> boundary s start ->
  exists ms, chain chk s start ms /\
    forall fuel x, nbytes s + 1 - start <= fuel ->
      tp_all fuel r s chk false start x = Ret (ms, x).
Proof.
  intros chk s Hchk. induction n as [n IH] using lt_wf_ind. intros start Hn Hst.
  destruct (tp_next_included chk s Hchk n start Hn Hst) as (om & st & Hrun & Hom).
  destruct om as [[a b]|].
  - destruct Hom as (-> & Hsa & Htp & Hno).
    destruct (tp_range _ _ _ _ Htp) as (Hab & Ha & Hb & Hle).
    destruct (IH (nbytes s - b)) with (start := b) as (ms & Hch & Hall); [lia|lia|exact Hb|].
    exists ((a, b) :: ms). split; [simpl; auto|].
    intros fuel x Hf. destruct fuel as [|fuel]; [pose proof (boundary_le _ _ Hst); lia|].
    cbn [tp_all]. rewrite Hrun by exact Hf. cbn [bind]. rewrite Hall by lia. reflexivity.
  - exists []. split; [exact Hom|]. intros fuel x Hf.
    destruct fuel as [|fuel]; [pose proof (boundary_le _ _ Hst); lia|].
    cbn [tp_all]. rewrite Hrun by exact Hf. reflexivity.
Qed.

Lemma tp_all_excluded : forall chk s, (chk = true -> checkable r at_ s) ->
  forall start, boundary s start ->
  exists ms ts, chain chk s start ms /\ texts_of s ms ts /\
    forall fuel x, nbytes s + 1 - start <= fuel ->
      tp_all fuel r s chk true start x = Ret ([], rev ts ++ x).
Proof.
  intros chk s Hchk start Hst.
  destruct (tp_next_excluded chk s Hchk _ start (Nat.le_refl _) Hst) as (st & ms & ts & Hch & Hts & Hrun).
  exists ms, ts. split; [exact Hch|]. split; [exact Hts|]. intros fuel x Hf.
  destruct fuel as [|fuel]; [pose proof (boundary_le _ _ Hst); lia|].
  cbn [tp_all]. rewrite Hrun by exact Hf. reflexivity.
Qed.

(* chains *)
Lemma chain_unique : forall chk s ms start ms', chain chk s start ms -> chain chk s start ms' -> ms = ms'.
Proof.
  intros chk s. induction ms as [|[a b] ms IH]; intros start [|[a' b'] ms'] H H'; simpl in *.
  - reflexivity.
  - destruct H' as (H1 & H2 & _). exfalso. exact (H a' b' H1 H2).
  - destruct H as (H1 & H2 & _). exfalso. exact (H' a b H1 H2).
  - destruct H as (H1 & H2 & H3 & H4). destruct H' as (H1' & H2' & H3' & H4').
    assert (a = a').
    { destruct (lt_eq_lt_dec a a') as [[L|E]|L]; [|exact E|].
      - exfalso. apply (H3' a b); [lia|exact H2].
      - exfalso. apply (H3 a' b'); [lia|exact H2']. }
    subst a'. pose proof (tp_fun _ _ _ _ _ H2 H2'). subst b'. f_equal. eapply IH; eauto.
Qed.

Lemma chain_in : forall chk s ms start a b, chain chk s start ms -> In (a, b) ms ->
  start <= a /\ TP chk s a b.
Proof.
  intros chk s. induction ms as [|[a' b'] ms IH]; intros start a b H Hin; [destruct Hin|].
  simpl in H. destruct H as (H1 & H2 & H3 & H4). destruct Hin as [E|Hin].
  - inversion E; subst. auto.
  - destruct (IH _ _ _ H4 Hin). destruct (tp_range _ _ _ _ H2). split; [lia|auto].
Qed.

(* every true positive is in the chain or starts inside an element of it *)
Lemma chain_complete : forall chk s ms start a b, chain chk s start ms -> start <= a -> TP chk s a b ->
  exists a' b', In (a', b') ms /\ a' <= a < b'.
Proof.
  intros chk s. induction ms as [|[a' b'] ms IH]; intros start a b H Ha Htp; simpl in H.
  - exfalso. exact (H a b Ha Htp).
  - destruct H as (H1 & H2 & H3 & H4). destruct (le_lt_dec b' a).
    + destruct (IH b' a b H4) as (a2 & b2 & Hin & Hr); auto. exists a2, b2. simpl. auto.
    + destruct (le_lt_dec a' a); [exists a', b'; simpl; auto|].
      exfalso. apply (H3 a b); [lia|exact Htp].
Qed.

Lemma chain_exists : forall chk s start, (chk = true -> checkable r at_ s) -> boundary s start ->
  exists ms, chain chk s start ms.
Proof.
  intros chk s start Hc Hst. destruct (tp_all_included chk s Hc _ start (Nat.le_refl _) Hst) as (ms & H & _).
  eauto.
Qed.

End Search.
