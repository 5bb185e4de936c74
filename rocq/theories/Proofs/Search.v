(* Regex and keyword searches *)
From Coq Require Import Lia.
From Verif Require Import Proofs.Text.
From Verif Require Export Spec.Search.

Lemma slice_from_app : forall p q, slice_from (p ++ q) (blen p) = Ret q.
Proof. intros. apply slice_from_spec. eauto. Qed.
Lemma slice_to_app : forall p q, slice_to (p ++ q) (blen p) = Ret p.
Proof. intros. apply slice_to_spec. eauto. Qed.

Lemma remove_dashes : forall s, remove_chars excluded_keywords_removed_chars s = filter not_dash s.
Proof.
  intros s. unfold remove_chars. apply filter_ext. intros c. unfold not_dash. simpl.
  rewrite orb_false_r. reflexivity.
Qed.

Lemma next_char_at : forall before c after,
  next_char_index (before ++ c :: after) (blen before) =
  Ret (match after with [] => None | _ => Some (blen before + clen c) end).
Proof.
  intros. unfold next_char_index. rewrite slice_from_app. cbn [bind]. unfold iter_nth, char_indices.
  rewrite char_indices_nth. destruct after as [|d after]; simpl; [reflexivity|].
  rewrite Nat.add_0_r. reflexivity.
Qed.

Lemma prev_char_last : forall s, prev_char_index s (blen s) =
  Ret (match s with [] => None | _ => Some (blen (removelast s)) end).
Proof.
  intros s. unfold prev_char_index.
  pose proof (slice_to_app s []) as H. rewrite app_nil_r in H. rewrite H. cbn [bind].
  unfold iter_next_back. destruct s as [|c s]; [reflexivity|].
  destruct (char_indices_nth_back (c :: s) 0) as (d & Hd & _); [simpl; lia|]. rewrite Hd.
  cbn [option_map fst]. do 2 f_equal.
  replace (length (c :: s) - 1) with (pred (length (c :: s))) by (simpl; lia).
  rewrite <- removelast_firstn_len. reflexivity.
Qed.

Lemma blen_firstn1 : forall s, next_char_index s 0 =
  Ret (match s with x :: _ :: _ => Some (clen x) | _ => None end).
Proof.
  intros [|x [|y s]]; try reflexivity.
Qed.

Lemma split_lastn : forall A n (l : list A), l = firstn (length l - n) l ++ lastn n l.
Proof. intros. unfold lastn. symmetry. apply firstn_skipn. Qed.

Lemma excluded_window_spec : forall before c after L,
  excluded_window (before ++ c :: after) (blen before) L =
  Ret (excluded_text L before c, excluded_from L before c, excluded_to L before c).
Proof.
  intros before c after L. unfold excluded_window, get_prefix_start.
  rewrite slice_to_app. cbn [bind]. replace (L + 1) with (S L) by lia.
  set (start := match iter_nth_back (char_indices before) L with Some (i, _) => i | None => 0 end).
  assert (Hps : (match iter_nth_back (char_indices before) L with
          | Some (i, _) => {| ps_start := i; ps_used_all_chars := true |}
          | None => {| ps_start := 0; ps_used_all_chars := false |}
          end) = {| ps_start := blen (firstn (length before - S L) before);
                    ps_used_all_chars := negb (length before <? S L) |}).
  { destruct (length before <? S L) eqn:E.
    - apply Nat.ltb_lt in E. rewrite iter_nth_back_none by (unfold char_indices; rewrite char_indices_at_length; lia).
      replace (length before - S L) with 0 by lia. reflexivity.
    - apply Nat.ltb_ge in E. destruct (char_indices_nth_back before L) as (d & Hd & _); [lia|].
      rewrite Hd. reflexivity. }
  rewrite Hps. cbn [ps_start ps_used_all_chars bind]. clear start Hps.
  rewrite next_char_at. cbn [bind].
  assert (Hend : (match match after with [] => None | _ => Some (blen before + clen c) end with
                  | Some i => i | None => blen (before ++ c :: after) end) = blen before + clen c).
  { destruct after; [|reflexivity]. rewrite blen_app. simpl. lia. }
  rewrite Hend. clear Hend.
  assert (Hw : slice (before ++ c :: after) (blen (firstn (length before - S L) before)) (blen before + clen c)
               = Ret (lastn (S L) before ++ [c])).
  { apply slice_spec. exists (firstn (length before - S L) before), after. split; [|split].
    - rewrite (split_lastn _ (S L) before) at 1. rewrite <- !app_assoc. reflexivity.
    - reflexivity.
    - rewrite app_assoc, <- split_lastn, blen_app. simpl. lia. }
  rewrite Hw. cbn [bind]. rewrite remove_dashes.
  replace (filter not_dash (lastn (S L) before ++ [c])) with (excluded_text L before c)
    by (unfold excluded_text; rewrite Nat.add_1_r; reflexivity).
  unfold excluded_to, excluded_from. rewrite Nat.add_1_r.
  set (st := excluded_text L before c). rewrite prev_char_last. cbn [bind].
  destruct (length before <? S L); cbn [negb].
  - cbn [bind]. rewrite nbytes_blen. destruct st; reflexivity.
  - rewrite blen_firstn1. cbn [bind]. rewrite !nbytes_blen.
    destruct st as [|x [|y st']]; simpl; try reflexivity.
    + repeat f_equal. lia.
Qed.

Lemma removelast_blen : forall s, blen (removelast s) <= blen s.
Proof.
  induction s as [|x s IH]; simpl; [lia|]. destruct s; simpl in *; lia.
Qed.

Lemma check_span_spec : forall before c after L,
  check_span (excluded_text L before c) (excluded_from L before c) (excluded_to L before c) = Panic <->
  span_reversed L (before ++ c :: after) (blen before).
Proof.
  intros before c after L. unfold check_span, excluded_from, excluded_to. rewrite !nbytes_blen.
  set (st := excluded_text L before c).
  assert (H1 : blen (removelast st) <=? blen st = true) by (apply Nat.leb_le, removelast_blen).
  rewrite H1. cbn [andb]. split.
  - destruct (length before <? L + 1) eqn:E.
    + simpl. intros H. destruct (blen (removelast st)); discriminate H.
    + destruct (blen (firstn 1 st) <=? blen (removelast st) + 1) eqn:E2; [intros H; discriminate H|].
      intros _. apply Nat.leb_gt in E2. apply Nat.ltb_ge in E.
      destruct st as [|x [|y st']] eqn:Est.
      * simpl in E2. lia.
      * exists before, c, after, x. rewrite !nbytes_blen. simpl in *. repeat split; auto; lia.
      * simpl in E2. destruct st'; simpl in E2; lia.
  - intros (b' & c' & a' & x & Heq & Hn & Hl & Hst & Hx). rewrite nbytes_blen in Hn.
    destruct (app_inj_blen before (c :: after) b' (c' :: a') Heq) as [-> Heq2]; [lia|].
    inversion Heq2; subst c' a'. fold st in Hst. rewrite Hst. simpl.
    destruct (length b' <? L + 1) eqn:E; [apply Nat.ltb_lt in E; lia|].
    rewrite nbytes_blen in Hx. simpl in Hx.
    destruct (clen x + 0 <=? 1) eqn:E2; [apply Nat.leb_le in E2; lia|reflexivity].
Qed.

(* the excluded keyword check: panics exactly when the span is reversed, otherwise
   it is the specified test *)
Lemma excluded_check_panic : forall xk s a, boundary s a -> a < nbytes s ->
  contains_excluded_keyword_match xk s a = Panic <-> span_reversed (xk_look_ahead xk) s a.
Proof.
  intros xk s a (before & q & -> & Hb) Hlt. destruct q as [|c after].
  { rewrite app_nil_r in Hlt. lia. }
  rewrite nbytes_blen in Hb. subst a.
  unfold contains_excluded_keyword_match. rewrite excluded_window_spec. cbn [bind].
  rewrite <- check_span_spec.
  destruct (check_span _ _ _) as [[]| |] eqn:E; cbn [bind]; split; intros H; try discriminate; auto.
Qed.

Lemma excluded_check_ok : forall xk s a, boundary s a -> a < nbytes s ->
  ~ span_reversed (xk_look_ahead xk) s a ->
  exists v, contains_excluded_keyword_match xk s a = Ret v /\
    (v = true <-> excluded_keyword_before xk s a).
Proof.
  intros xk s a (before & q & -> & Hb) Hlt Hn. destruct q as [|c after].
  { rewrite app_nil_r in Hlt. lia. }
  rewrite nbytes_blen in Hb. subst a.
  unfold contains_excluded_keyword_match. rewrite excluded_window_spec. cbn [bind].
  rewrite <- check_span_spec in Hn.
  destruct (check_span _ _ _) as [[]| |] eqn:E.
  - cbn [bind]. eexists. split; [reflexivity|]. split.
    + intros Hv. exists before, c, after. rewrite nbytes_blen. auto.
    + intros (b' & c' & a' & Heq & Hb' & Hv). rewrite nbytes_blen in Hb'.
      destruct (app_inj_blen before (c :: after) b' (c' :: a') Heq) as [-> Heq2]; [lia|].
      inversion Heq2; subst. exact Hv.
  - exfalso. apply Hn. reflexivity.
  - unfold check_span in E. destruct (_ && _); discriminate.
Qed.

(* ---- character counting ---- *)
Lemma boundary_split : forall s a, boundary s a <-> exists p q, s = p ++ q /\ blen p = a.
Proof. intros. unfold boundary. split; intros (p & q & H); exists p, q; rewrite ?nbytes_blen in *; auto. Qed.

Lemma boundary_zero : forall s, boundary s 0.
Proof. intros. exists [], s. auto. Qed.

Lemma boundary_le : forall s a, boundary s a -> a <= nbytes s.
Proof. intros s a (p & q & -> & <-). rewrite nbytes_app. lia. Qed.

Lemma two_boundaries : forall s a b, boundary s a -> boundary s b -> a <= b ->
  exists p t q, s = p ++ t ++ q /\ blen p = a /\ blen p + blen t = b.
Proof.
  intros s a b Ha Hb Hle. apply boundary_split in Ha as (p & q & -> & <-).
  apply boundary_split in Hb as (p' & q' & E & <-).
  destruct (app_prefix_le p q p' q' E Hle) as (m & -> & ->).
  exists p, m, q'. rewrite blen_app. auto.
Qed.

Lemma part_of_boundaries : forall s a b, boundary s a -> boundary s b -> a <= b ->
  exists t, part_at s a b t.
Proof.
  intros s a b Ha Hb Hle. destruct (two_boundaries s a b Ha Hb Hle) as (p & t & q & -> & H1 & H2).
  exists t, p, q. rewrite !nbytes_blen, blen_app. auto.
Qed.

Lemma chars_between_unique : forall s a b n m, chars_between s a b n -> chars_between s a b m -> n = m.
Proof.
  intros s a b n m (t & H & <-) (t' & H' & <-). rewrite (part_at_unique _ _ _ _ _ H H'). reflexivity.
Qed.

Lemma chars_between_exists : forall s a b, boundary s a -> boundary s b -> a <= b ->
  exists n, chars_between s a b n.
Proof.
  intros s a b Ha Hb Hle. destruct (part_of_boundaries s a b Ha Hb Hle) as (t & Ht).
  exists (length t), t. auto.
Qed.

Lemma blen_firstn_mono : forall t n m, n <= m -> blen (firstn n t) <= blen (firstn m t).
Proof.
  induction t as [|c t IH]; intros [|n] [|m] H; simpl; try lia.
  specialize (IH n m). lia.
Qed.
Lemma blen_firstn_lt : forall t n, n < length t -> blen (firstn n t) < blen t.
Proof.
  intros t n H. rewrite <- (firstn_skipn n t) at 2. rewrite blen_app.
  destruct (skipn n t) as [|c u] eqn:E.
  - apply (f_equal (@length _)) in E. rewrite skipn_length in E. simpl in E. lia.
  - simpl. pose proof (clen_pos c). lia.
Qed.

Lemma within_prefix_spec : forall s k a n size, chars_between s k a n ->
  is_index_within_prefix s k a size = Ret (n <=? size).
Proof.
  intros s k a n size (t & (p & q & -> & Hk & Ha) & Hn).
  rewrite nbytes_blen in Hk, Ha. rewrite blen_app in Ha. subst k n.
  unfold is_index_within_prefix. pose proof (blen_length t) as Hlen.
  destruct (a <? blen p + size) eqn:E.
  - apply Nat.ltb_lt in E. f_equal. symmetry. apply Nat.leb_le. lia.
  - rewrite slice_from_app. cbn [bind]. f_equal. unfold iter_nth, char_indices.
    rewrite char_indices_nth.
    destruct (nth_error (t ++ q) size) as [c|] eqn:En.
    + rewrite Nat.add_0_l. destruct (length t <=? size) eqn:E2.
      * apply Nat.leb_le in E2. apply Nat.leb_le.
        rewrite firstn_app, firstn_all2, blen_app by lia. lia.
      * apply Nat.leb_gt in E2. apply Nat.leb_gt.
        rewrite firstn_app. replace (size - length t) with 0 by lia. simpl. rewrite app_nil_r.
        pose proof (blen_firstn_lt t size E2). lia.
    + apply nth_error_None in En. rewrite app_length in En. symmetry. apply Nat.leb_le. lia.
Qed.

(* the start of the prefix: the position [size] characters before, or the beginning *)
Lemma prefix_start_spec : forall s a size, boundary s a -> 1 <= size ->
  exists ps, get_prefix_start a size s = Ret ps /\
    boundary s (ps_start ps) /\ ps_start ps <= a /\
    (forall k n, chars_between s k a n -> n <= size -> ps_start ps <= k).
Proof.
  intros s a size Ha Hs. apply boundary_split in Ha as (p & q & -> & <-).
  unfold get_prefix_start. rewrite slice_to_app. cbn [bind]. destruct size as [|m]; [lia|].
  destruct (le_lt_dec (length p) m) as [Hle|Hlt].
  - rewrite iter_nth_back_none by (unfold char_indices; rewrite char_indices_at_length; lia).
    eexists; split; [reflexivity|]. simpl. split; [apply boundary_zero|]. split; intros; lia.
  - destruct (char_indices_nth_back p m Hlt) as (c & Hc & _). rewrite Hc.
    eexists; split; [reflexivity|]. simpl.
    pose proof (firstn_skipn (length p - S m) p) as Hfs.
    assert (Hbl : blen (firstn (length p - S m) p) + blen (skipn (length p - S m) p) = blen p).
    { rewrite <- blen_app, Hfs. reflexivity. }
    split; [|split].
    + apply boundary_split. exists (firstn (length p - S m) p), (skipn (length p - S m) p ++ q).
      rewrite app_assoc, Hfs. auto.
    + lia.
    + intros k n (t & (p1 & q1 & E & Hk & Ht) & Hn) Hsz.
      rewrite nbytes_blen in Hk, Ht. subst k n. rewrite app_assoc in E.
      destruct (app_inj_blen p q (p1 ++ t) q1 E) as [-> _]; [lia|].
      rewrite app_length. replace (firstn (length p1 + length t - S m) (p1 ++ t)) with (firstn (length p1 + length t - S m) p1).
      * pose proof (blen_firstn_mono p1 (length p1 + length t - S m) (length p1 + length t)) as Hm.
        rewrite (firstn_all2 p1 (n := length p1 + length t)) in Hm by lia. lia.
      * rewrite firstn_app. replace (length p1 + length t - S m - length p1) with 0 by lia.
        simpl. rewrite app_nil_r. reflexivity.
Qed.
