(* How often regex engines are called *)
From Coq Require Import Lia Sorted.
From Verif Require Import Proofs.Text Proofs.KeywordSearch.
From Verif Require Export Spec.Calls.

(* ---- characters before an offset ---- *)
Fixpoint rank (s : str) (i : nat) : nat :=
  match s with
  | [] => 0
  | c :: s' => match i with 0 => 0 | _ => S (rank s' (i - clen c)) end
  end.
Lemma rank_app : forall p q, rank (p ++ q) (blen p) = length p.
Proof.
  induction p as [|c p IH]; intros q; [destruct q; reflexivity|]. cbn [app rank blen length].
  pose proof (clen_pos c). destruct (clen c + blen p) eqn:E; [lia|]. rewrite <- E.
  replace (clen c + blen p - clen c) with (blen p) by lia. rewrite IH. reflexivity.
Qed.
Lemma rank_lt : forall s i j, boundary s i -> boundary s j -> i < j -> rank s i < rank s j.
Proof.
  intros s i j Hi Hj Hij. destruct (two_boundaries s i j Hi Hj) as (p & t & q & -> & <- & H2); [lia|].
  rewrite rank_app. rewrite app_assoc. rewrite <- H2, <- blen_app, rank_app, app_length.
  destruct t; simpl in *; lia.
Qed.
Lemma rank_le : forall s i j, boundary s i -> boundary s j -> i <= j -> rank s i <= rank s j.
Proof.
  intros s i j Hi Hj Hij. destruct (Nat.eq_dec i j) as [->|]; [lia|].
  pose proof (rank_lt s i j Hi Hj). lia.
Qed.
Lemma rank_between : forall s a b n, chars_between s a b n -> rank s b = rank s a + n.
Proof.
  intros s a b n (t & (p & q & -> & Ha & Hb) & <-). rewrite nbytes_blen in Ha, Hb. subst a b. rewrite rank_app.
  rewrite app_assoc, rank_app, app_length. reflexivity.
Qed.
Lemma boundary_end : forall s, boundary s (nbytes s).
Proof. intros s. exists s, []. rewrite app_nil_r. auto. Qed.
Lemma rank_end : forall s, rank s (nbytes s) = length s.
Proof. intros s. rewrite nbytes_blen. pose proof (rank_app s []) as H. rewrite app_nil_r in H. exact H. Qed.
Lemma rank_zero : forall s, rank s 0 = 0.
Proof. destruct s; reflexivity. Qed.

Lemma prefix_start_rank : forall s a size ps, boundary s a -> get_prefix_start a size s = Ret ps ->
  boundary s (ps_start ps) /\ ps_start ps <= a /\ rank s a <= rank s (ps_start ps) + size.
Proof.
  intros s a size ps Ha H. pose proof Ha as Ha'. apply boundary_split in Ha' as (p & q & -> & <-).
  destruct (Nat.eq_dec size 0) as [->|Hs].
  { unfold get_prefix_start in H. rewrite slice_to_app in H. discriminate. }
  destruct (prefix_start_spec (p ++ q) (blen p) size Ha) as (ps' & E & H1 & H2 & _); [lia|].
  rewrite H in E. inversion E; subst ps'. split; [exact H1|]. split; [exact H2|].
  unfold get_prefix_start in H. rewrite slice_to_app in H. cbn [bind] in H. destruct size as [|m]; [lia|].
  rewrite rank_app. destruct (le_lt_dec (length p) m) as [Hle|Hlt].
  - lia.
  - destruct (char_indices_nth_back p m Hlt) as (c & Hc & _). rewrite Hc in H. inversion H; subst ps. cbn [ps_start].
    pose proof (rank_app (firstn (length p - S m) p) (skipn (length p - S m) p ++ q)) as R.
    rewrite app_assoc, firstn_skipn in R. rewrite R, firstn_length. lia.
Qed.

(* ---- ascending offsets ---- *)
Definition climbs (s : str) (lo hi : nat) (l : list nat) : Prop :=
  Forall (fun i => boundary s i /\ lo <= i <= hi) l /\ StronglySorted lt l.
Lemma climbs_nil : forall s lo hi, climbs s lo hi [].
Proof. split; constructor. Qed.
Lemma climbs_one : forall s lo hi i, boundary s i -> lo <= i <= hi -> climbs s lo hi [i].
Proof. split; repeat constructor; auto; lia. Qed.
Lemma climbs_app : forall s lo m n hi l l', climbs s lo m l -> climbs s n hi l' -> m < n -> lo <= n -> m <= hi ->
  climbs s lo hi (l ++ l').
Proof.
  intros s lo m n hi l l' (H1 & H2) (H3 & H4) Hmn Hln Hmh. split.
  - apply Forall_app. split; [|]; (eapply Forall_impl; [|eassumption]); cbn; intros i (Hb & Hi); split; auto; lia.
  - induction l as [|i l IH]; [exact H4|]. inversion H1 as [|? ? [Hb Hi] H1']; subst. inversion H2; subst.
    constructor; [apply IH; auto|]. apply Forall_app. split; [assumption|].
    eapply Forall_impl; [|exact H3]. cbn. intros j (_ & Hj). lia.
Qed.
Lemma climbs_weaken : forall s lo hi lo' hi' l, climbs s lo hi l -> lo' <= lo -> hi <= hi' -> climbs s lo' hi' l.
Proof.
  intros s lo hi lo' hi' l (H1 & H2) Hl Hh. split; [|exact H2].
  eapply Forall_impl; [|exact H1]. cbn. intros i (Hb & Hi). split; auto. lia.
Qed.
Lemma sorted_length : forall s H l R, Forall (fun i => boundary s i /\ R <= rank s i <= H) l -> StronglySorted lt l ->
  R <= S H -> length l + R <= S H.
Proof.
  intros s H. induction l as [|i l IH]; intros R Hf Hs HR; [cbn; lia|].
  inversion Hf as [|? ? [Hb Hi] Hf']; subst. inversion Hs as [|? ? Hs' Hlt]; subst. cbn [length].
  enough (length l + S (rank s i) <= S H) by lia. apply IH; [|exact Hs'|lia].
  rewrite Forall_forall in *. intros j Hj. destruct (Hf' j Hj) as (Bj & Rj). specialize (Hlt j Hj).
  split; [exact Bj|]. pose proof (rank_lt s i j Hb Bj Hlt). lia.
Qed.
Lemma climbs_length : forall s lo hi l, climbs s lo hi l -> boundary s lo -> boundary s hi -> lo <= hi ->
  length l + rank s lo <= S (rank s hi).
Proof.
  intros s lo hi l (H1 & H2) Hlo Hhi Hle. apply (sorted_length s (rank s hi) l (rank s lo)); auto.
  - eapply Forall_impl; [|exact H1]. cbn. intros i (Hb & Hi). split; [exact Hb|].
    split; apply rank_le; auto; lia.
  - pose proof (rank_le s lo hi Hlo Hhi Hle). lia.
Qed.
Lemma climbs_length_lt : forall s lo hi l, climbs s lo hi l -> boundary s lo -> boundary s hi -> lo <= hi ->
  Forall (fun i => i < hi) l -> length l + rank s lo <= rank s hi.
Proof.
  intros s lo hi l (H1 & H2) Hlo Hhi Hle Hlt. pose proof (rank_le s lo hi Hlo Hhi Hle) as Hr.
  destruct l as [|i0 l0] eqn:El; [cbn; lia|]. rewrite <- El in *.
  assert (0 < rank s hi) as Hpos.
  { rewrite El in H1, Hlt. inversion H1 as [|? ? [Hb _] _]; subst. inversion Hlt; subst.
    pose proof (rank_lt s i0 hi Hb Hhi). lia. }
  enough (length l + rank s lo <= S (pred (rank s hi))) by lia.
  apply (sorted_length s (pred (rank s hi)) l (rank s lo)); auto; [|lia].
  rewrite Forall_forall in *. intros i Hi. destruct (H1 i Hi) as (Hb & Hir). specialize (Hlt i Hi).
  split; [exact Hb|]. pose proof (rank_lt s i hi Hb Hhi Hlt). pose proof (rank_le s lo i Hlo Hb). lia.
Qed.

(* ---- the calls leave the results alone ---- *)
Definition omap {A B} (f : A -> B) (o : outcome A) : outcome B := let* r := o in Ret (f r).
Lemma tp_next_calls_erase : forall fuel r c chk exc start x,
  omap fst (tp_next_calls fuel r c chk exc start x) = tp_next fuel r c chk exc start x.
Proof.
  induction fuel as [|fuel IH]; intros; [reflexivity|]. cbn [tp_next_calls tp_next].
  destruct (rr_find r c start) as [m|]; [|reflexivity].
  destruct (is_false_positive_match r c m chk) as [[|]| |]; cbn [bind omap]; auto.
  - destruct (get_next_regex_start c m) as [[nx|]| |]; cbn [bind]; auto.
    rewrite <- IH. destruct (tp_next_calls fuel r c chk exc nx x); reflexivity.
  - destruct exc; [|reflexivity]. destruct (slice c (fst m) (snd m)); cbn [bind]; auto.
    rewrite <- IH. match goal with |- context [tp_next_calls ?a ?b ?c ?d ?e ?f ?g] =>
      destruct (tp_next_calls a b c d e f g) end; reflexivity.
Qed.
Lemma tp_all_calls_erase : forall fuel r c chk exc start x,
  omap fst (tp_all_calls fuel r c chk exc start x) = tp_all fuel r c chk exc start x.
Proof.
  induction fuel as [|fuel IH]; intros; [reflexivity|]. cbn [tp_all_calls tp_all].
  rewrite <- tp_next_calls_erase.
  destruct (tp_next_calls (S fuel) r c chk exc start x) as [[[[[m|] st] x'] k]| |]; cbn [bind omap fst snd]; auto.
  rewrite <- IH. destruct (tp_all_calls fuel r c chk exc st x') as [[[ms x''] k']| |]; reflexivity.
Qed.
Lemma kw_inner_calls_erase : forall fuel r ik c exc k start ks x,
  omap fst (kw_inner_calls fuel r ik c exc k start ks x) = kw_inner fuel r ik c exc k start ks x.
Proof.
  induction fuel as [|fuel IH]; intros; [reflexivity|]. cbn [kw_inner_calls kw_inner].
  rewrite <- tp_next_calls_erase.
  destruct (tp_next_calls (S fuel) r c false exc start x) as [[[[[m|] st] x'] l]| |]; cbn [bind omap fst snd]; auto.
  destruct (is_index_within_prefix c k (fst m) (ik_look_ahead ik)) as [[|]| |]; cbn [bind]; auto.
  - rewrite <- IH. match goal with |- context [kw_inner_calls ?a ?b ?c ?d ?e ?f ?g ?h ?i] =>
      destruct (kw_inner_calls a b c d e f g h i) as [[[[[? ?] ?] ?] ?]| |] end; reflexivity.
  - destruct (get_prefix_start _ _ _); reflexivity.
Qed.
Lemma kw_outer_calls_erase : forall fuel r ik c exc ks x,
  omap fst (kw_outer_calls fuel r ik c exc ks x) = kw_outer fuel r ik c exc ks x.
Proof.
  induction fuel as [|fuel IH]; intros; [reflexivity|]. cbn [kw_outer_calls kw_outer].
  destruct (keyword_next ik c ks) as [[[k ks1]|]| |]; cbn [bind omap]; auto.
  rewrite <- kw_inner_calls_erase.
  destruct (kw_inner_calls (S fuel) r ik c exc k k ks1 x) as [[[[[[|] ms] ks2] x'] l]| |]; cbn [bind omap fst snd]; auto.
  rewrite <- IH. destruct (kw_outer_calls fuel r ik c exc ks2 x') as [[[? ?] ?]| |]; reflexivity.
Qed.
Lemma regex_calls_erase : forall fuel r c p exc tp kw x,
  omap fst (regex_string_matches_calls fuel r c p exc tp kw x) = regex_string_matches fuel r c p exc tp kw x.
Proof.
  intros. unfold regex_string_matches_calls, regex_string_matches.
  destruct (rr_included r) as [ik|]; [|apply tp_all_calls_erase].
  unfold matches_with_included_keywords_calls, matches_with_included_keywords.
  destruct (existsb _ _); [apply tp_all_calls_erase|].
  rewrite <- kw_outer_calls_erase. destruct (kw_outer_calls fuel r ik c exc 0 x) as [[[ms x1] l]| |]; cbn [bind omap fst]; auto.
  destruct kw; [|reflexivity]. destruct (rr_find r c 0) as [m|]; [|reflexivity].
  destruct (ik_path_match ik (sanitize p)); [|reflexivity].
  rewrite <- tp_all_calls_erase. destruct (tp_all_calls fuel r c false exc 0 x1) as [[[ms2 x2] l2]| |]; reflexivity.
Qed.

(* ---- counting ---- *)
Definition searches (k : call) : bool := match k with CallRule _ | CallPresence => true | _ => false end.
Definition keyword_searches (k : call) : bool := match k with CallKeyword _ | CallPath => true | _ => false end.
Definition count (f : call -> bool) (l : list call) : nat := length (filter f l).
Lemma count_app : forall f l l', count f (l ++ l') = count f l + count f l'.
Proof. intros. unfold count. rewrite filter_app, app_length. reflexivity. Qed.
Lemma tally_count : forall (P : call -> Prop) f l, (forall k, f k = true <-> P k) -> tally_calls P l (count f l).
Proof.
  intros P f l H. unfold count. induction l as [|k l IH]; [constructor|]. cbn [filter].
  destruct (f k) eqn:E; cbn [length]; constructor; auto; rewrite <- H; congruence.
Qed.
Lemma tally_calls_fun : forall P l n, tally_calls P l n -> forall m, tally_calls P l m -> n = m.
Proof.
  intros P l n H. induction H; intros m H'; inversion H'; subst; try contradiction; auto.
Qed.
Lemma of_rule_b : forall k, searches k = true <-> of_rule k.
Proof. intros k. split; [|intros (i & [->| ->]); reflexivity]. destruct k; intros H; try discriminate; unfold of_rule; eauto.
Unshelve. all: exact 0. Qed.
Lemma of_keywords_b : forall k, keyword_searches k = true <-> of_keywords k.
Proof. intros k. split; [|intros (i & [->| ->]); reflexivity]. destruct k; intros H; try discriminate; unfold of_keywords; eauto.
Unshelve. all: exact 0. Qed.

(* only searches of the rule and of windows *)
Definition plain_calls (l : list call) : Prop := Forall (fun k => (exists i, k = CallRule i) \/ exists i, k = CallWindow i) l.
Lemma plain_counts : forall l, plain_calls l -> count searches l = length (rule_starts l) /\ count keyword_searches l = 0 /\
  length l = length (rule_starts l) + length (windows l).
Proof.
  intros l H. unfold count. induction H as [|k l [[i ->]|[i ->]] _ IH]; [auto| |]; cbn [filter searches keyword_searches rule_starts windows length] in *; lia.
Qed.
Lemma rule_starts_app : forall l l', rule_starts (l ++ l') = rule_starts l ++ rule_starts l'.
Proof. induction l as [|[] l IH]; intros; cbn; rewrite ?IH; reflexivity. Qed.
Lemma windows_app : forall l l', windows (l ++ l') = windows l ++ windows l'.
Proof. induction l as [|[] l IH]; intros; cbn; rewrite ?IH; reflexivity. Qed.

Section Bounds.
Variable r : regex_rule.
Variable at_ : str -> nat -> option nat.
Hypothesis Hlm : leftmost (rr_find r) at_.

Lemma fp_windows : forall a b chk, windows (false_positive_calls r (a, b) chk) = [] \/ windows (false_positive_calls r (a, b) chk) = [a] /\ chk = true.
Proof. intros. unfold false_positive_calls. destruct chk; auto. destruct (rr_excluded r); auto. Qed.
Lemma fp_plain : forall m chk, plain_calls (false_positive_calls r m chk) /\ rule_starts (false_positive_calls r m chk) = [].
Proof.
  intros. unfold false_positive_calls, plain_calls. destruct chk; auto. destruct (rr_excluded r); auto.
  split; [|reflexivity]. constructor; eauto.
Qed.

Definition run_ok (s : str) (chk : bool) (lo hi : nat) (l : list call) : Prop :=
  plain_calls l /\ climbs s lo hi (rule_starts l) /\ climbs s lo hi (windows l) /\
  Forall (fun i => i < nbytes s) (windows l) /\ (chk = false -> windows l = []).

Lemma run_app : forall s chk lo m n hi l l', run_ok s chk lo m l -> run_ok s chk n hi l' -> m < n -> lo <= n -> m <= hi ->
  run_ok s chk lo hi (l ++ l').
Proof.
  intros s chk lo m n hi l l' (A1 & A2 & A3 & A4 & A5) (B1 & B2 & B3 & B4 & B5) H1 H2 H3. unfold run_ok.
  rewrite rule_starts_app, windows_app. split; [apply Forall_app; auto|].
  split; [eapply climbs_app; eauto|]. split; [eapply climbs_app; eauto|]. split; [apply Forall_app; auto|].
  intros E. rewrite (A5 E), (B5 E). reflexivity.
Qed.
Lemma run_weaken : forall s chk lo hi lo' hi' l, run_ok s chk lo hi l -> lo' <= lo -> hi <= hi' -> run_ok s chk lo' hi' l.
Proof.
  intros s chk lo hi lo' hi' l (A1 & A2 & A3 & A4 & A5) H1 H2.
  split; [exact A1|]. split; [eapply climbs_weaken; eauto|]. split; [eapply climbs_weaken; eauto|]. auto.
Qed.

(* one search, and the check of what it found *)
Lemma run_first : forall s chk start a b, boundary s start -> boundary s a -> start <= a -> a < nbytes s ->
  run_ok s chk start a (CallRule start :: false_positive_calls r (a, b) chk).
Proof.
  intros s chk start a b Hst Ha Hle Hlt. destruct (fp_plain (a, b) chk) as (P1 & P2).
  split; [constructor; eauto|]. cbn [rule_starts windows]. rewrite P2.
  split; [apply climbs_one; auto|].
  destruct (fp_windows a b chk) as [E|(E & Ec)]; rewrite E.
  - split; [apply climbs_nil|]. split; [constructor|auto].
  - split; [apply climbs_one; auto|]. split; [repeat constructor; exact Hlt|]. congruence.
Qed.

Lemma tp_next_run : forall s chk exc fuel start x om st x' l, boundary s start ->
  tp_next_calls fuel r s chk exc start x = Ret (om, st, x', l) ->
  match om with
  | Some (a, b) => st = b /\ start <= a /\ a < b /\ boundary s a /\ boundary s b /\ run_ok s chk start a l
  | None => run_ok s chk start (nbytes s) l
  end.
Proof.
  intros s chk exc. induction fuel as [|fuel IH]; intros start x om st x' l Hst H; [discriminate|].
  cbn [tp_next_calls] in H. pose proof (boundary_le _ _ Hst) as Hle0.
  destruct (rr_find r s start) as [[a b]|] eqn:Ef.
  2:{ inversion H; subst. split; [constructor; [left; eauto|constructor]|]. cbn.
      split; [apply climbs_one; auto|]. split; [apply climbs_nil|]. split; [constructor|auto]. }
  destruct (lm_some _ _ Hlm _ _ _ _ Hst Ef) as (Hsa & Hat & _).
  destruct (lm_range _ _ Hlm _ _ _ Hat) as (Hab & Ha & Hb). pose proof (boundary_le _ _ Hb) as Hle1.
  pose proof (run_first s chk start a b Hst Ha Hsa) as Hrun. specialize (Hrun ltac:(lia)).
  set (calls := CallRule start :: false_positive_calls r (a, b) chk) in *. clearbody calls.
  destruct (is_false_positive_match r s (a, b) chk) as [[|]| |]; cbn [bind] in H; try discriminate.
  - destruct (next_start_spec s a b Ha) as (o & Ho & Hsp); [lia|]. rewrite Ho in H. cbn [bind] in H.
    destruct o as [nx|].
    + destruct Hsp as (G1 & G2 & G3 & _).
      destruct (tp_next_calls fuel r s chk exc nx x) as [[[[om1 st1] x1] l1]| |] eqn:E; cbn [bind] in H; try discriminate.
      cbn [fst snd] in H. inversion H; subst. specialize (IH _ _ _ _ _ _ G2 E). destruct om as [[a' b']|].
      * destruct IH as (I1 & I2 & I3 & I4 & I5 & I6). repeat (split; [assumption || lia|]).
        apply (run_app s chk start a nx a'); auto; lia.
      * apply (run_app s chk start a nx (nbytes s)); auto; lia.
    + inversion H; subst. eapply run_weaken; eauto; lia.
  - destruct exc.
    + destruct (slice s (fst (a, b)) (snd (a, b))) as [t| |]; cbn [bind] in H; try discriminate.
      cbn [snd] in H.
      destruct (tp_next_calls fuel r s chk true b (t :: x)) as [[[[om1 st1] x1] l1]| |] eqn:E; cbn [bind] in H; try discriminate.
      cbn [fst snd] in H. inversion H; subst. specialize (IH _ _ _ _ _ _ Hb E). destruct om as [[a' b']|].
      * destruct IH as (I1 & I2 & I3 & I4 & I5 & I6). repeat (split; [assumption || lia|]).
        apply (run_app s chk start a b a'); auto; lia.
      * apply (run_app s chk start a b (nbytes s)); auto; lia.
    + inversion H; subst. repeat (split; [reflexivity || assumption|]). exact Hrun.
Qed.

Lemma tp_all_run : forall s chk exc fuel start x ms x' l, boundary s start ->
  tp_all_calls fuel r s chk exc start x = Ret (ms, x', l) -> run_ok s chk start (nbytes s) l.
Proof.
  intros s chk exc. induction fuel as [|fuel IH]; intros start x ms x' l Hst H; [discriminate|].
  cbn [tp_all_calls] in H.
  destruct (tp_next_calls (S fuel) r s chk exc start x) as [[[[om st] x1] l1]| |] eqn:E; cbn [bind] in H; try discriminate.
  pose proof (tp_next_run _ _ _ _ _ _ _ _ _ _ Hst E) as Hn. destruct om as [[a b]|].
  - destruct Hn as (-> & H1 & H2 & H3 & H4 & H5). pose proof (boundary_le _ _ H4).
    destruct (tp_all_calls fuel r s chk exc b x1) as [[[ms1 x2] l2]| |] eqn:E2; cbn [bind] in H; try discriminate.
    inversion H; subst. apply (run_app s chk start a b (nbytes s)); eauto; lia.
  - inversion H; subst. exact Hn.
Qed.

Lemma run_counts : forall s chk l, run_ok s chk 0 (nbytes s) l ->
  count searches l <= length s + 1 /\ count keyword_searches l = 0 /\ length (windows l) <= length s /\
  length l = count searches l + length (windows l).
Proof.
  intros s chk l (H1 & H2 & H3 & H4 & _). destruct (plain_counts l H1) as (C1 & C2 & C3).
  pose proof (climbs_length _ _ _ _ H2 (boundary_zero s) (boundary_end s) (Nat.le_0_l _)) as L1.
  pose proof (climbs_length_lt _ _ _ _ H3 (boundary_zero s) (boundary_end s) (Nat.le_0_l _) H4) as L2.
  rewrite rank_zero, rank_end in L1, L2. lia.
Qed.

Section Keywords.
Variable ik : included_keywords.
Variable occ : str -> nat -> nat -> Prop.
Hypothesis Hea : earliest (ik_find ik) occ.
Hypothesis Hla : 1 <= ik_look_ahead ik.

Notation TP := (true_positive r at_ false).

Lemma within_rank : forall s k a, boundary s k -> boundary s a -> k <= a ->
  is_index_within_prefix s k a (ik_look_ahead ik) = Ret (rank s a <=? rank s k + ik_look_ahead ik).
Proof.
  intros s k a Hk Ha Hle. destruct (chars_between_exists s k a Hk Ha Hle) as (n & Hn).
  rewrite (within_prefix_spec s k a n _ Hn). rewrite (rank_between s k a n Hn). f_equal.
  destruct (n <=? ik_look_ahead ik) eqn:E; symmetry; [apply Nat.leb_le in E; apply Nat.leb_le; lia|apply Nat.leb_gt in E; apply Nat.leb_gt; lia].
Qed.

(* the true positive that is found is the first one *)
Lemma tp_next_first : forall s fuel start x om st x' l, boundary s start ->
  tp_next_calls fuel r s false false start x = Ret (om, st, x', l) ->
  match om with
  | Some (a, b) => TP s a b /\ forall j c, start <= j < a -> ~ TP s j c
  | None => forall a b, start <= a -> ~ TP s a b
  end.
Proof.
  intros s. induction fuel as [|fuel IH]; intros start x om st x' l Hst H; [discriminate|].
  cbn [tp_next_calls] in H. pose proof (boundary_le _ _ Hst) as Hle0.
  destruct (rr_find r s start) as [[a b]|] eqn:Ef.
  2:{ inversion H; subst. intros a b Ha (Hat & _). rewrite (lm_none _ _ Hlm _ _ Hst Ef a Ha) in Hat. discriminate. }
  destruct (lm_some _ _ Hlm _ _ _ _ Hst Ef) as (Hsa & Hat & Hmin).
  destruct (lm_range _ _ Hlm _ _ _ Hat) as (Hab & Ha & Hb). pose proof (boundary_le _ _ Hb) as Hle1.
  assert (Hbefore : forall j c, start <= j < a -> ~ TP s j c).
  { intros j c Hj (Hat' & _). rewrite (Hmin j Hj) in Hat'. discriminate. }
  destruct (false_positive_spec r at_ Hlm false s a b Hat (no_check r at_ s)) as (v & Hv & Hiff).
  rewrite Hv in H. cbn [bind] in H. destruct v.
  - assert (Hno : forall c, ~ TP s a c).
    { intros c K. pose proof K as (Hat' & _). rewrite Hat in Hat'. injection Hat' as <-. apply Hiff in K. discriminate. }
    destruct (next_start_spec s a b Ha) as (o & Ho & Hsp); [lia|]. rewrite Ho in H. cbn [bind] in H.
    assert (Hskip : forall nx, (forall j, a < j < nx -> ~ boundary s j) -> forall j c, start <= j < nx -> ~ TP s j c).
    { intros nx G j c Hj K. destruct (le_lt_dec a j) as [L|L]; [|exact (Hbefore j c ltac:(lia) K)].
      destruct (Nat.eq_dec j a) as [->|N]; [exact (Hno c K)|].
      destruct K as (Hat' & _). destruct (lm_range _ _ Hlm _ _ _ Hat') as (_ & Hj' & _). exact (G j ltac:(lia) Hj'). }
    destruct o as [nx|].
    + destruct Hsp as (G1 & G2 & G3 & G4). specialize (Hskip nx G4).
      destruct (tp_next_calls fuel r s false false nx x) as [[[[om1 st1] x1] l1]| |] eqn:E; cbn [bind] in H; try discriminate.
      cbn [fst snd] in H. inversion H; subst. specialize (IH _ _ _ _ _ _ G2 E). destruct om as [[a' b']|].
      * destruct IH as (I1 & I2). split; [exact I1|]. intros j c Hj. destruct (le_lt_dec nx j); [apply I2; lia|apply Hskip; lia].
      * intros a' b' Ha'. destruct (le_lt_dec nx a'); [apply IH; lia|apply Hskip; lia].
    + inversion H; subst. specialize (Hskip (nbytes s) Hsp). intros a' b' Ha' K.
      destruct (tp_range r at_ Hlm _ _ _ _ K) as (R1 & _ & _ & R2). exact (Hskip a' b' ltac:(lia) K).
  - inversion H; subst. split; [apply Hiff; reflexivity|exact Hbefore].
Qed.
(* in excluded paths nothing is returned *)
Lemma tp_next_none : forall s chk fuel start x om st x' l, tp_next_calls fuel r s chk true start x = Ret (om, st, x', l) -> om = None.
Proof.
  intros s chk. induction fuel as [|fuel IH]; intros start x om st x' l H; [discriminate|]. cbn [tp_next_calls] in H.
  destruct (rr_find r s start) as [m|]; [|inversion H; reflexivity].
  destruct (is_false_positive_match r s m chk) as [[|]| |]; cbn [bind] in H; try discriminate.
  - destruct (get_next_regex_start s m) as [[nx|]| |]; cbn [bind] in H; try discriminate; [|inversion H; reflexivity].
    destruct (tp_next_calls fuel r s chk true nx x) as [[[[om1 st1] x1] l1]| |] eqn:E; cbn [bind] in H; try discriminate.
    inversion H; subst. eapply IH; eauto.
  - destruct (slice s (fst m) (snd m)) as [t| |]; cbn [bind] in H; try discriminate.
    destruct (tp_next_calls fuel r s chk true (snd m) (t :: x)) as [[[[om1 st1] x1] l1]| |] eqn:E; cbn [bind] in H; try discriminate.
    inversion H; subst. eapply IH; eauto.
Qed.

(* the searches after one keyword: up to the last true positive near it, and from its end on *)
Definition near_part (s : str) (start ks' : nat) (l1 : list call) (lo : nat) : Prop :=
  (l1 = [] /\ lo = start) \/
  exists t, run_ok s false start t l1 /\ boundary s t /\ start <= t /\ t < lo /\ t <= ks'.
Lemma kw_inner_run : forall s exc k fuel start ks x cont ms ks' x' l, boundary s k -> boundary s start -> boundary s ks -> k <= start ->
  kw_inner_calls fuel r ik s exc k start ks x = Ret (cont, ms, ks', x', l) ->
  boundary s ks' /\ ks <= ks' /\
  exists l1 l2 lo hi, l = l1 ++ l2 /\ boundary s lo /\ boundary s hi /\ lo <= hi /\ run_ok s false lo hi l2 /\
    near_part s start ks' l1 lo /\ start <= lo /\
    (exc = false -> forall m b, TP s m b -> start <= m -> rank s m <= rank s k + ik_look_ahead ik -> m < lo) /\
    (if cont then exc = false /\ (exists b, TP s hi b) /\ rank s hi <= rank s ks' + ik_look_ahead ik else hi = nbytes s).
Proof.
  intros s exc k. induction fuel as [|fuel IH]; intros start ks x cont ms ks' x' l Hk Hst Hks Hle H; [discriminate|].
  cbn [kw_inner_calls] in H.
  destruct (tp_next_calls (S fuel) r s false exc start x) as [[[[om st] x1] l1]| |] eqn:E; cbn [bind] in H; try discriminate.
  pose proof (tp_next_run _ _ _ _ _ _ _ _ _ _ Hst E) as Hn. pose proof (boundary_le _ _ Hst) as Hle0. destruct om as [[a b]|].
  2:{ inversion H; subst. split; [exact Hks|]. split; [lia|]. exists [], l, start, (nbytes s).
      split; [reflexivity|]. split; [exact Hst|]. split; [apply boundary_end|]. split; [exact Hle0|]. split; [exact Hn|].
      split; [left; auto|]. split; [lia|]. split; [|reflexivity]. intros -> m b K Hm _. exfalso.
      exact (tp_next_first _ _ _ _ _ _ _ _ Hst E m b Hm K). }
  destruct exc; [apply tp_next_none in E; discriminate E|].
  pose proof (tp_next_first _ _ _ _ _ _ _ _ Hst E) as (Htp & Hfirst).
  destruct Hn as (-> & H1 & H2 & H3 & H4 & H5). cbn [fst] in H.
  rewrite (within_rank s k a Hk H3 ltac:(lia)) in H. cbn [bind] in H.
  destruct (rank s a <=? rank s k + ik_look_ahead ik) eqn:En; [apply Nat.leb_le in En|apply Nat.leb_gt in En].
  - rewrite skip_to_max in H.
    destruct (kw_inner_calls fuel r ik s false k b (Nat.max ks a) x1) as [[[[[c2 ms2] ks2] x2] l2]| |] eqn:E2; cbn [bind] in H; try discriminate.
    inversion H; subst. apply IH in E2 as (I1 & I2 & p1 & p2 & lo & hi & -> & B1 & B2 & B3 & B4 & B5 & B6 & B7 & B8);
      [|exact Hk|exact H4|apply boundary_max; auto|lia].
    split; [exact I1|]. split; [lia|]. exists (l1 ++ p1), p2, lo, hi. rewrite app_assoc.
    split; [reflexivity|]. repeat (split; [assumption|]). split; [|split; [lia|split; [|exact B8]]].
    + right. destruct B5 as [(-> & ->)|(t & T1 & T2 & T3 & T4 & T5)].
      * exists a. rewrite app_nil_r. repeat (split; [assumption|]). lia.
      * exists t. split; [apply (run_app s false start a b t); auto; lia|]. split; [exact T2|]. split; [lia|]. auto.
    + intros _ m c K Hm Hr. destruct (le_lt_dec b m) as [L|L]; [exact (B7 eq_refl m c K L Hr)|lia].
  - destruct (get_prefix_start a (ik_look_ahead ik) s) as [ps| |] eqn:Ep; cbn [bind] in H; try discriminate.
    destruct (prefix_start_rank _ _ _ _ H3 Ep) as (P1 & P2 & P3).
    rewrite skip_to_max in H. inversion H; subst.
    assert (boundary s (Nat.max ks (ps_start ps))) as Hm by (apply boundary_max; auto).
    split; [exact Hm|]. split; [lia|]. exists [], l, start, a.
    split; [reflexivity|]. split; [exact Hst|]. split; [exact H3|]. split; [exact H1|]. split; [exact H5|]. split; [left; auto|].
    split; [lia|]. split.
    + intros _ m c K Hms Hr. exfalso. destruct (tp_range r at_ Hlm _ _ _ _ K) as (_ & Bm & _).
      destruct (le_lt_dec a m) as [L|L]; [pose proof (rank_le s a m H3 Bm L); lia|exact (Hfirst m c ltac:(lia) K)].
    + split; [reflexivity|]. split; [eauto|]. pose proof (rank_le s (ps_start ps) _ P1 Hm). lia.
Qed.

Lemma run_count_at : forall s lo hi l, run_ok s false lo hi l -> boundary s lo -> boundary s hi -> lo <= hi ->
  count searches l + rank s lo <= S (rank s hi) /\ count keyword_searches l = 0 /\ length l = count searches l.
Proof.
  intros s lo hi l (H1 & H2 & _ & _ & H5) Hlo Hhi Hle. destruct (plain_counts l H1) as (C1 & C2 & C3).
  pose proof (climbs_length _ _ _ _ H2 Hlo Hhi Hle). rewrite (H5 eq_refl) in C3. cbn in C3. lia.
Qed.

(* [D] characters have been passed on the way to a true positive that was too far away *)
Definition passed (s : str) (exc : bool) (ks D : nat) : Prop :=
  D = 0 \/ exc = false /\ exists m b, TP s m b /\ D = S (rank s m) /\ rank s m <= rank s ks + ik_look_ahead ik.
Lemma kw_outer_run : forall s exc fuel ks D x ms x' l, boundary s ks -> passed s exc ks D ->
  kw_outer_calls fuel r ik s exc ks x = Ret (ms, x', l) ->
  count searches l <= 2 * (length s - rank s ks) + (length s + 1 - D) /\
  count keyword_searches l <= length s - rank s ks + 1 /\
  length l = count searches l + count keyword_searches l.
Proof.
  intros s exc. induction fuel as [|fuel IH]; intros ks D x ms x' l Hks HD H; [discriminate|].
  cbn [kw_outer_calls] in H. pose proof (keyword_next_spec ik occ Hea Hla s ks Hks) as Hkn.
  destruct (ik_find ik s ks) as [[k ke]|] eqn:Ef.
  2:{ rewrite Hkn in H. inversion H; subst. split; [apply Nat.le_0_l|]. split; [|reflexivity]. change (1 <= length s - rank s ks + 1). lia. }
  destruct Hkn as (i1 & Hkn & Hki & Hbi1 & _). rewrite Hkn in H. cbn [bind] in H.
  destruct (ea_some _ _ Hea _ _ _ _ Hks Ef) as (Hik & Hocc & _).
  destruct (ea_range _ _ Hea _ _ _ Hocc) as (Hke & Hbk & Hbke). pose proof (boundary_le _ _ Hbke) as Hlek.
  pose proof (rank_lt s k (nbytes s) Hbk (boundary_end s)) as Rk. rewrite rank_end in Rk. specialize (Rk ltac:(lia)).
  pose proof (rank_le s ks k Hks Hbk Hik) as Rks.
  destruct (kw_inner_calls (S fuel) r ik s exc k k i1 x) as [[[[[cont ms1] ks2] x1] l0]| |] eqn:E; cbn [bind] in H; try discriminate.
  destruct (kw_inner_run _ _ _ _ _ _ _ _ _ _ _ _ Hbk Hbk Hbi1 (Nat.le_refl k) E)
    as (B2 & L2 & l1 & l2 & lo & hi & -> & Blo & Bhi & Llh & R2 & Hnear & Lk & Hover & Hend).
  pose proof (rank_lt s k ks2 Hbk B2 ltac:(lia)) as Rk2.
  pose proof (rank_le s ks2 (nbytes s) B2 (boundary_end s) (boundary_le _ _ B2)) as R3. rewrite rank_end in R3.
  pose proof (rank_le s lo hi Blo Bhi Llh) as Rlh.
  pose proof (rank_le s hi (nbytes s) Bhi (boundary_end s) (boundary_le _ _ Bhi)) as R4. rewrite rank_end in R4.
  assert (HDlo : D <= rank s lo).
  { destruct HD as [->|(-> & m & b & K & -> & Hr)]; [lia|]. destruct (tp_range r at_ Hlm _ _ _ _ K) as (_ & Bm & _).
    apply rank_lt; auto. destruct (le_lt_dec k m) as [L|L]; [apply (Hover eq_refl m b K L); lia|lia]. }
  destruct (run_count_at _ _ _ _ R2 Blo Bhi Llh) as (C1 & C2 & C3).
  assert (N : count searches l1 <= 2 * (rank s ks2 - rank s k) /\ count keyword_searches l1 = 0 /\ length l1 = count searches l1).
  { destruct Hnear as [(-> & _)|(t & T1 & T2 & T3 & T4 & T5)]; [cbn; lia|].
    destruct (run_count_at _ _ _ _ T1 Hbk T2 T3) as (N1 & N2 & N3). split; [|auto].
    pose proof (rank_le s t ks2 T2 B2 T5). pose proof (rank_le s k t Hbk T2 T3). lia. }
  destruct N as (N1 & N2 & N3). destruct cont.
  - destruct Hend as (He & (b & Htp) & Hr).
    destruct (kw_outer_calls fuel r ik s exc ks2 x1) as [[[ms2 x2] l3]| |] eqn:E2; cbn [bind] in H; try discriminate.
    inversion H; subst. destruct (IH _ (S (rank s hi)) _ _ _ _ B2 (or_intror (conj eq_refl (ex_intro _ hi (ex_intro _ b (conj Htp (conj eq_refl Hr)))))) E2) as (I1 & I2 & I3).
    change (CallKeyword ks :: (l1 ++ l2) ++ l3) with ([CallKeyword ks] ++ (l1 ++ l2) ++ l3). rewrite !count_app, !app_length.
    change (count searches [CallKeyword ks]) with 0. change (count keyword_searches [CallKeyword ks]) with 1.
    change (length [CallKeyword ks]) with 1. lia.
  - inversion H; subst. rewrite rank_end in C1.
    change (CallKeyword ks :: l1 ++ l2) with ([CallKeyword ks] ++ l1 ++ l2). rewrite !count_app, !app_length.
    change (count searches [CallKeyword ks]) with 0. change (count keyword_searches [CallKeyword ks]) with 1.
    change (length [CallKeyword ks]) with 1. lia.
Qed.
End Keywords.
End Bounds.
