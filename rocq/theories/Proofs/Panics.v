(* When searches end in a panic *)
From Coq Require Import Lia.
From Verif Require Import Proofs.Text Proofs.Search Proofs.TruePos Proofs.Regex Proofs.Visitor Proofs.Scan.
From Verif Require Export Spec.Panics Proofs.RegexScan.

Lemma boundary_stop : forall s, boundary s (nbytes s).
Proof. intros s. exists s, []. rewrite app_nil_r. auto. Qed.

Section Search.
Variable r : regex_rule.
Variable at_ : str -> nat -> option nat.
Hypothesis Hlm : leftmost (rr_find r) at_.
Variable s : str.
Notation TP := (true_positive r at_ true s).
Notation Trips := (trips r at_ s).

Lemma false_positive_or : forall a b, at_ s a = Some b ->
  (window_reversed r s a /\ is_false_positive_match r s (a, b) true = Panic) \/
  (~ window_reversed r s a /\ exists v, is_false_positive_match r s (a, b) true = Ret v /\ (v = false <-> TP a b)).
Proof.
  intros a b Hat. destruct (lm_range _ _ Hlm _ _ _ Hat) as (Hlt & Ha & Hb).
  destruct (at_lt r at_ Hlm _ _ _ Hat) as [_ Hle].
  assert (Hx : (window_reversed r s a /\ exists xk, rr_excluded r = Some xk /\ contains_excluded_keyword_match xk s a = Panic) \/
               (~ window_reversed r s a)).
  { destruct (rr_excluded r) as [xk|] eqn:Ex.
    - destruct (contains_excluded_keyword_match xk s a) as [v| |] eqn:E.
      + right. intros (xk' & E' & R). rewrite Ex in E'. injection E' as <-. apply (excluded_check_panic xk s a Ha ltac:(lia)) in R. congruence.
      + left. split; [exists xk; split; [exact Ex|]; apply (excluded_check_panic xk s a Ha ltac:(lia)); exact E|eauto].
      + right. intros (xk' & E' & R). rewrite Ex in E'. injection E' as <-. apply (excluded_check_panic xk s a Ha ltac:(lia)) in R. congruence.
    - right. intros (xk & E' & _). congruence. }
  destruct Hx as [(R & xk & Ex & Hp)|R].
  - left. split; [exact R|]. unfold is_false_positive_match. cbn [fst]. rewrite Ex, Hp. reflexivity.
  - right. split; [exact R|].
    destruct (rr_excluded r) as [xk|] eqn:Ex.
    + destruct (excluded_check_ok xk s a Ha ltac:(lia)) as (v & Hv & Hiff).
      { intros K. apply R. exists xk. auto. }
      unfold is_false_positive_match. cbn [fst snd]. rewrite Ex, Hv. cbn [bind]. unfold true_positive. destruct v.
      * exists true. split; [reflexivity|]. split; [discriminate|]. intros (_ & _ & H). exfalso. apply (H eq_refl xk Ex). apply Hiff. reflexivity.
      * destruct (at_part r at_ Hlm _ _ _ Hat) as (t & Ht).
        assert (Hnx : true = true -> forall xk', rr_excluded r = Some xk' -> ~ excluded_keyword_before xk' s a).
        { intros _ xk' E' X. rewrite Ex in E'. injection E' as <-. apply Hiff in X. discriminate. }
        destruct (rr_validator r) as [valid|] eqn:Ev.
        -- rewrite (proj2 (slice_part s a b t) Ht). cbn [bind]. exists (negb (valid t)). split; [reflexivity|]. split.
           ++ intros Hn. split; [exact Hat|]. split; [|exact Hnx].
              intros valid' t' E' Ht'. injection E' as <-. rewrite (part_at_unique _ _ _ _ _ Ht' Ht).
              destruct (valid t); [reflexivity|discriminate].
           ++ intros (_ & H & _). rewrite (H valid t eq_refl Ht). reflexivity.
        -- exists false. split; [reflexivity|]. split; [|reflexivity]. intros _.
           split; [exact Hat|]. split; [|exact Hnx]. intros valid t' E'. discriminate.
    + apply (false_positive_spec r at_ Hlm true s a b Hat). intros _ xk a' b' E'. congruence.
Qed.

Lemma first_unique : forall i a b a' b', first_from at_ s i a b -> first_from at_ s i a' b' -> a = a' /\ b = b'.
Proof.
  intros i a b a' b' (A1 & A2 & A3) (B1 & B2 & B3).
  assert (a = a') as <-; [|split; congruence].
  destruct (lt_eq_lt_dec a a') as [[L|L]|L]; [|exact L|]; exfalso.
  - rewrite B3 in A2 by lia. discriminate.
  - rewrite A3 in B2 by lia. discriminate.
Qed.
Lemma next_unique : forall a n n', next_char s a n -> next_char s a n' -> n = n'.
Proof.
  intros a n n' (A1 & A2 & A3) (B1 & B2 & B3). destruct (lt_eq_lt_dec n n') as [[L|L]|L]; [|exact L|]; exfalso.
  - exact (B3 n ltac:(lia) A2).
  - exact (A3 n' ltac:(lia) B2).
Qed.
Lemma trips_none : forall i, (forall j, i <= j -> at_ s j = None) -> ~ Trips i.
Proof.
  intros i H T. destruct T as [i a b (F1 & F2 & _) _|i a b n (F1 & F2 & _) _ _ _|i a b (F1 & F2 & _) _ _]; rewrite H in F2 by exact F1; discriminate.
Qed.
Lemma trips_false_iff : forall i a b n, first_from at_ s i a b -> ~ window_reversed r s a -> ~ TP a b -> next_char s a n -> Trips i <-> Trips n.
Proof.
  intros i a b n F R T N. split; [|intros K; exact (trips_false r at_ s i a b n F T N K)].
  intros K. destruct K as [i a' b' F' R'|i a' b' n' F' _ N' K|i a' b' F' T' _]; destruct (first_unique _ _ _ _ _ F F') as (<- & <-).
  - contradiction.
  - rewrite (next_unique _ _ _ N N'). exact K.
  - contradiction.
Qed.
Lemma trips_true_iff : forall i a b, first_from at_ s i a b -> ~ window_reversed r s a -> TP a b -> Trips i <-> Trips b.
Proof.
  intros i a b F R T. split; [|intros K; exact (trips_true r at_ s i a b F T K)].
  intros K. destruct K as [i a' b' F' R'|i a' b' n' F' T' _ _|i a' b' F' _ K]; destruct (first_unique _ _ _ _ _ F F') as (<- & <-).
  - contradiction.
  - contradiction.
  - exact K.
Qed.

(* true positives do not begin before the next character of a false one *)
Lemma skip_false : forall i a b n, first_from at_ s i a b -> ~ TP a b -> next_char s a n -> forall j c, i <= j -> TP j c -> n <= j.
Proof.
  intros i a b n (F1 & F2 & F3) T (N1 & N2 & N3) j c Hj H. pose proof H as H'. destruct H as (H & _).
  destruct (lt_eq_lt_dec j a) as [[L|L]|L].
  - rewrite F3 in H by lia. discriminate.
  - subst j. rewrite F2 in H. injection H as <-. contradiction.
  - destruct (le_lt_dec n j) as [|L']; [assumption|]. exfalso. apply (N3 j ltac:(lia)). apply (lm_range _ _ Hlm _ _ _ H).
Qed.
Lemma skip_none : forall i, (forall j, i <= j -> at_ s j = None) -> forall j c, i <= j -> ~ TP j c.
Proof. intros i H j c Hj (K & _). rewrite H in K by exact Hj. discriminate. Qed.
Lemma chain_nil : forall i, (forall j c, i <= j -> ~ TP j c) -> scan_chain r at_ true s i [].
Proof. intros i H a b. apply H. Qed.
(* a chain can begin earlier if there is nothing in between *)
Lemma chain_earlier : forall i n ms, i <= n -> (forall j c, i <= j -> TP j c -> n <= j) -> scan_chain r at_ true s n ms -> scan_chain r at_ true s i ms.
Proof.
  intros i n [|(a, b) ms] Hle Hn; cbn [scan_chain].
  - intros H a b Ha K. exact (H a b (Hn a b Ha K) K).
  - intros (H1 & H2 & H3 & H4). split; [lia|]. split; [exact H2|]. split; [|exact H4]. intros j c Hj K. exact (H3 j c (conj (Hn j c ltac:(lia) K) (proj2 Hj)) K).
Qed.
Definition texts_of (ms : list (nat * nat)) (new : list str) : Prop :=
  forall t, In t new <-> exists a b, In (a, b) ms /\ part_at s a b t.

Lemma tp_next_or : forall exc n start, nbytes s - start <= n -> boundary s start ->
  (Trips start /\ forall fuel x, nbytes s + 1 - start <= fuel -> tp_next fuel r s true exc start x = Panic) \/
  (exists om st new, (forall fuel x, nbytes s + 1 - start <= fuel -> tp_next fuel r s true exc start x = Ret (om, st, new ++ x)) /\
     (exc = false -> new = []) /\
     match om with
     | Some (a, b) => exc = false /\ st = b /\ start < b /\ TP a b /\ (Trips start <-> Trips b) /\
         start <= a /\ (forall j c, start <= j < a -> ~ TP j c)
     | None => ~ Trips start /\ exists ms, scan_chain r at_ true s start ms /\ (exc = false -> ms = []) /\ texts_of ms new
     end).
Proof.
  intros exc. induction n as [|n IH]; intros start Hn Hb; pose proof (boundary_le _ _ Hb) as Hle0.
  - right. assert (start = nbytes s) as -> by lia.
    assert (Hnone : forall j, nbytes s <= j -> at_ s j = None).
    { intros j Hj. destruct (at_ s j) as [b|] eqn:E; [|reflexivity]. destruct (at_lt r at_ Hlm _ _ _ E). lia. }
    exists None, (nbytes s), []. split; [|split; [reflexivity|split; [apply trips_none; exact Hnone|]]].
    2:{ exists []. split; [apply chain_nil, skip_none, Hnone|]. split; [reflexivity|]. intros t. split; [intros []|intros (? & ? & [] & _)]. }
    intros fuel x Hf. destruct fuel; [lia|]. cbn [tp_next]. destruct (rr_find r s (nbytes s)) as [[a b]|] eqn:Ef; [|reflexivity].
    destruct (lm_some _ _ Hlm _ _ _ _ Hb Ef) as (H1 & H2 & _). rewrite Hnone in H2 by exact H1. discriminate.
  - destruct (rr_find r s start) as [[a b]|] eqn:Ef.
    2:{ right. exists None, start, []. split; [|split; [reflexivity|split; [apply trips_none; exact (lm_none _ _ Hlm _ _ Hb Ef)|]]].
        2:{ exists []. split; [apply chain_nil, skip_none, (lm_none _ _ Hlm _ _ Hb Ef)|]. split; [reflexivity|]. intros t. split; [intros []|intros (? & ? & [] & _)]. }
        intros fuel x Hf. destruct fuel; [lia|]. cbn [tp_next]. rewrite Ef. reflexivity. }
    pose proof (lm_some _ _ Hlm _ _ _ _ Hb Ef) as F. destruct F as (F1 & F2 & F3).
    destruct (lm_range _ _ Hlm _ _ _ F2) as (Hlt & Ha & Hbb). pose proof (boundary_le _ _ Hbb) as Hle1.
    destruct (false_positive_or a b F2) as [(R & Hp)|(R & v & Hv & Hiff)].
    + left. split; [exact (trips_here r at_ s start a b (conj F1 (conj F2 F3)) R)|].
      intros fuel x Hf. destruct fuel; [lia|]. cbn [tp_next]. rewrite Ef, Hp. reflexivity.
    + destruct v.
      * assert (HT : ~ TP a b) by (intros K; apply Hiff in K; discriminate).
        destruct (next_start_spec s a b Ha) as (o & Ho & Hsp); [lia|]. destruct o as [nx|].
        -- destruct Hsp as (G1 & G2 & G3 & G4).
           pose proof (trips_false_iff start a b nx (conj F1 (conj F2 F3)) R HT (conj G1 (conj G2 G4))) as TI.
           destruct (IH nx ltac:(lia) G2) as [(T & HP)|(om & st & new & HR & Hnew & Hom)].
           ++ left. split; [apply TI; exact T|]. intros fuel x Hf. destruct fuel; [lia|]. cbn [tp_next]. rewrite Ef, Hv. cbn [bind]. rewrite Ho. cbn [bind]. apply HP. lia.
           ++ right. exists om, st, new. split; [|split; [exact Hnew|]].
              ** intros fuel x Hf. destruct fuel; [lia|]. cbn [tp_next]. rewrite Ef, Hv. cbn [bind]. rewrite Ho. cbn [bind]. apply HR. lia.
              ** pose proof (skip_false start a b nx (conj F1 (conj F2 F3)) HT (conj G1 (conj G2 G4))) as SK.
                 destruct om as [[a' b']|].
                 --- destruct Hom as (O1 & O2 & O3 & O4 & O5 & O6 & O7).
                     repeat (split; [assumption || lia|]). split; [rewrite TI; exact O5|]. split; [lia|].
                     intros j c Hj K. exact (O7 j c (conj (SK j c ltac:(lia) K) (proj2 Hj)) K).
                 --- destruct Hom as (O1 & ms & O2 & O3). split; [intros K; apply O1, TI, K|]. exists ms. split; [|exact O3].
                     exact (chain_earlier start nx ms ltac:(lia) SK O2).
        -- right. exists None, start, []. split; [|split; [reflexivity|]].
           ++ intros fuel x Hf. destruct fuel; [lia|]. cbn [tp_next]. rewrite Ef, Hv. cbn [bind]. rewrite Ho. reflexivity.
           ++ assert (N : next_char s a (nbytes s)) by (split; [lia|split; [apply boundary_stop|exact Hsp]]).
              assert (Hnone : forall j, nbytes s <= j -> at_ s j = None).
              { intros j Hj. destruct (at_ s j) as [b'|] eqn:E; [|reflexivity]. destruct (at_lt r at_ Hlm _ _ _ E). lia. }
              split; [rewrite (trips_false_iff start a b _ (conj F1 (conj F2 F3)) R HT N); apply trips_none; exact Hnone|].
              exists []. split; [|split; [reflexivity|intros t; split; [intros []|intros (? & ? & [] & _)]]].
              apply chain_nil. intros j c Hj K. exact (skip_none _ Hnone j c (skip_false start a b _ (conj F1 (conj F2 F3)) HT N j c Hj K) K).
      * assert (HT : TP a b) by (apply Hiff; reflexivity).
        pose proof (trips_true_iff start a b (conj F1 (conj F2 F3)) R HT) as TI.
        destruct exc.
        -- destruct (at_part r at_ Hlm _ _ _ F2) as (t & Ht). pose proof (proj2 (slice_part s a b t) Ht) as Hs.
           destruct (IH b ltac:(lia) Hbb) as [(T & HP)|(om & st & new & HR & Hnew & Hom)].
           ++ left. split; [apply TI; exact T|]. intros fuel x Hf. destruct fuel; [lia|]. cbn [tp_next]. rewrite Ef, Hv. cbn [bind fst snd]. rewrite Hs. cbn [bind]. apply HP. lia.
           ++ right. exists om, st, (new ++ [t]). split; [|split; [discriminate|]].
              ** intros fuel x Hf. destruct fuel; [lia|]. cbn [tp_next]. rewrite Ef, Hv. cbn [bind fst snd]. rewrite Hs. cbn [bind]. rewrite HR by lia. rewrite <- app_assoc. reflexivity.
              ** destruct om as [[a' b']|]; [destruct Hom as (O1 & _); discriminate O1|]. destruct Hom as (O1 & ms & O2 & O3 & O4).
                 split; [intros K; apply O1, TI, K|]. exists ((a, b) :: ms). split; [|split; [discriminate|]].
                 --- cbn [scan_chain]. split; [lia|]. split; [exact HT|]. split; [|exact O2]. intros j c Hj (K & _). rewrite F3 in K by lia. discriminate.
                 --- intros u. rewrite in_app_iff, (O4 u). split.
                     +++ intros [(a' & b' & I & P)|[<-|[]]]; [exists a', b'; split; [right; exact I|exact P]|]. exists a, b. split; [left; reflexivity|exact Ht].
                     +++ intros (a' & b' & [I|I] & P); [|left; eauto]. injection I as <- <-. right. left. exact (part_at_unique _ _ _ _ _ Ht P).
        -- right. exists (Some (a, b)), b, []. split; [|split; [reflexivity|]].
           ++ intros fuel x Hf. destruct fuel; [lia|]. cbn [tp_next]. rewrite Ef, Hv. reflexivity.
           ++ repeat (split; [reflexivity || lia || assumption|]).
              intros j c Hj (K & _). rewrite F3 in K by lia. discriminate.
Qed.

Lemma tp_all_or : forall exc n start, nbytes s - start <= n -> boundary s start ->
  (Trips start /\ forall fuel x, nbytes s + 2 - start <= fuel -> tp_all fuel r s true exc start x = Panic) \/
  (~ Trips start /\ exists ms new, (forall fuel x, nbytes s + 2 - start <= fuel -> tp_all fuel r s true exc start x = Ret (ms, new ++ x)) /\
     (exc = false -> new = []) /\ (exc = true -> ms = []) /\ (forall a b, In (a, b) ms -> TP a b) /\
     exists found, scan_chain r at_ true s start found /\ (exc = false -> ms = found) /\ (exc = true -> texts_of found new)).
Proof.
  intros exc. induction n as [|n IH]; intros start Hn Hb; pose proof (boundary_le _ _ Hb) as Hle0.
  - destruct (tp_next_or exc 0 start Hn Hb) as [(T & HP)|(om & st & new & HR & Hnew & Hom)].
    + left. split; [exact T|]. intros fuel x Hf. destruct fuel; [lia|]. cbn [tp_all]. rewrite HP by lia. reflexivity.
    + destruct om as [[a b]|].
      * exfalso. destruct Hom as (_ & _ & H1 & (H2 & _) & _). destruct (at_lt r at_ Hlm _ _ _ H2). lia.
      * destruct Hom as (Hom & found & C1 & C2 & C3). right. split; [exact Hom|]. exists [], new. split; [|split; [exact Hnew|split; [reflexivity|split; [intros a b []|]]]].
        2:{ exists found. split; [exact C1|]. split; [intros K; rewrite (C2 K); reflexivity|auto]. }
        intros fuel x Hf. destruct fuel; [lia|]. cbn [tp_all]. rewrite HR by lia. reflexivity.
  - destruct (tp_next_or exc (S n) start Hn Hb) as [(T & HP)|(om & st & new & HR & Hnew & Hom)].
    + left. split; [exact T|]. intros fuel x Hf. destruct fuel; [lia|]. cbn [tp_all]. rewrite HP by lia. reflexivity.
    + destruct om as [[a b]|].
      * destruct Hom as (-> & -> & H1 & H2 & TI & H5 & H6). specialize (Hnew eq_refl). subst new.
        pose proof H2 as HTP. destruct H2 as (H2 & H2'). destruct (lm_range _ _ Hlm _ _ _ H2) as (H3 & _ & Hbb). destruct (at_lt r at_ Hlm _ _ _ H2) as [_ H4].
        destruct (IH b ltac:(lia) Hbb) as [(T & HP)|(T & ms & new & HR2 & N1 & N2 & N3 & found & C1 & C2 & C3)].
        -- left. split; [apply TI; exact T|]. intros fuel x Hf. destruct fuel; [lia|]. cbn [tp_all]. rewrite HR by lia. cbn [bind]. rewrite HP by lia. reflexivity.
        -- right. split; [rewrite TI; exact T|]. exists ((a, b) :: ms), new. split; [|split; [exact N1|split; [discriminate|]]].
           ++ intros fuel x Hf. destruct fuel; [lia|]. cbn [tp_all]. rewrite HR by lia. cbn [bind app]. rewrite HR2 by lia. reflexivity.
           ++ split; [intros a' b' [E|I]; [injection E as <- <-; split; assumption|apply N3; exact I]|].
              exists ((a, b) :: found). split; [|split; [intros K; rewrite (C2 K); reflexivity|discriminate]].
              cbn [scan_chain]. auto.
      * destruct Hom as (Hom & found & C1 & C2 & C3). right. split; [exact Hom|]. exists [], new. split; [|split; [exact Hnew|split; [reflexivity|split; [intros a b []|]]]].
        2:{ exists found. split; [exact C1|]. split; [intros K; rewrite (C2 K); reflexivity|auto]. }
        intros fuel x Hf. destruct fuel; [lia|]. cbn [tp_all]. rewrite HR by lia. reflexivity.
Qed.
End Search.

Lemma rule_or : forall r at_ occ, regex_ok r at_ occ -> forall c p e kw,
  (rule_trips r at_ c /\ forall fuel x, nbytes c + 2 <= fuel -> regex_string_matches fuel r c p e [] kw x = Panic) \/
  (~ rule_trips r at_ c /\ exists ms new, (forall fuel x, nbytes c + 2 <= fuel -> regex_string_matches fuel r c p e [] kw x = Ret (ms, new ++ x)) /\
     (e = true -> ms = []) /\ (e = false -> new = []) /\ (forall a b, In (a, b) ms -> a < b /\ exists t, part_at c a b t) /\
     (rr_included r = None -> exists found, scan_chain r at_ true c 0 found /\ (e = false -> ms = found) /\ (e = true -> texts_of c found new))).
Proof.
  intros r at_ occ Hok c p e kw. pose proof (ro_find _ _ _ Hok) as Hlm. destruct (rr_included r) as [ik|] eqn:Ei.
  - right. split; [intros (E & _); congruence|].
    assert (Hs : scannable r at_ c) by (intros E; congruence).
    destruct (regex_meets r at_ occ Hok ActNone (ScopeExclude []) None eq_refl) as [_ M2 M3 M4 M5].
    exists (fst (regex_finder r c p e kw)), (snd (regex_finder r c p e kw)). split; [|split; [|split; [|split]]].
    + intros fuel x Hf. specialize (M2 fuel c p (fun _ => e) kw x Hs Hf). cbn [regex_compiled rule_string_matches] in M2. exact M2.
    + intros ->. apply M4. exact Hs.
    + intros ->. apply M5. exact Hs.
    + intros a b. apply M3. exact Hs.
    + discriminate.
  - unfold regex_string_matches. rewrite Ei. destruct (tp_all_or r at_ Hlm c e (nbytes c) 0 ltac:(lia) (boundary_zero c)) as [(T & HP)|(T & ms & new & HR & N1 & N2 & N3 & N4)].
    + left. split; [split; auto|]. intros fuel x Hf. apply HP. lia.
    + right. split; [intros (_ & K); contradiction|]. exists ms, new. split; [intros fuel x Hf; apply HR; lia|]. split; [exact N2|]. split; [exact N1|]. split; [|intros _; exact N4].
      intros a b I. destruct (N3 a b I) as (H & _). split; [apply (at_lt r at_ Hlm c a b H)|exact (at_part r at_ Hlm c a b H)].
Qed.

(* ---- a scanner whose rules return nothing instead of a panic ---- *)
Definition safe (r : rule) : rule := {|
  rule_action := rule_action r;
  rule_scope := rule_scope r;
  rule_validation := rule_validation r;
  rule_multipass := rule_multipass r;
  rule_string_matches := fun fuel c p excl tp kw x =>
    match rule_string_matches r fuel c p excl tp kw x with Panic => Ret ([], x) | o => o end
|}.
Definition safe_scanner (sc : scanner) : scanner := {|
  sc_rules := map safe (sc_rules sc);
  sc_kw_paths := sc_kw_paths sc;
  sc_wild := sc_wild sc;
  sc_multipass := sc_multipass sc;
  sc_return_matches := sc_return_matches sc
|}.

Lemma safe_tree : forall sc, sc_tree (safe_scanner sc) = sc_tree sc.
Proof. intros sc. unfold sc_tree. cbn [safe_scanner sc_rules]. rewrite map_map. reflexivity. Qed.
Lemma safe_nth : forall sc i, nth_error (sc_rules (safe_scanner sc)) i = option_map safe (nth_error (sc_rules sc) i).
Proof. intros sc i. apply nth_error_map. Qed.

Section Scanner.
Variable sc : scanner.
Variable rrs : nat -> regex_rule.
Variable ats : nat -> str -> nat -> option nat.
Variable occs : nat -> str -> nat -> nat -> Prop.
Hypothesis Hmade : made_of sc rrs ats occs.
Variable blocked : list nat.

Lemma safe_meets : forall strs, scanner_meets (safe_scanner sc) (finders sc) strs.
Proof.
  intros strs i r Hr. rewrite safe_nth in Hr. destruct (nth_error (sc_rules sc) i) as [r0|] eqn:E; [|discriminate]. injection Hr as <-.
  destruct (Hmade i r0 E) as (a & s & v & Hr' & Hi & Ha & Hok). rewrite E in Hr'. injection Hr' as ->.
  assert (Hf : forall c p e kw,
    (finders sc i c p e kw = ([], []) /\ forall fuel x, nbytes c + 2 <= fuel -> regex_string_matches fuel (rrs i) c p e [] kw x = Panic) \/
    (exists ms new, finders sc i c p e kw = (ms, new) /\
     (forall fuel x, nbytes c + 2 <= fuel -> regex_string_matches fuel (rrs i) c p e [] kw x = Ret (ms, new ++ x)) /\
     (e = true -> ms = []) /\ (e = false -> new = []) /\ forall a b, In (a, b) ms -> a < b /\ exists t, part_at c a b t)).
  { intros c p e kw. unfold finders. rewrite E. change (finder_of (regex_compiled a s v (rrs i))) with (regex_finder (rrs i)). unfold regex_finder.
    destruct (rule_or (rrs i) (ats i) (occs i) Hok c p e kw) as [(T & HP)|(T & ms & new & HR & H)].
    - left. rewrite HP by lia. auto.
    - right. exists ms, new. rewrite HR by lia. rewrite app_nil_r. destruct H as (H1 & H2 & H3 & _). auto. }
  split.
  - exact Ha.
  - intros fuel c p excl kw x _ Hfu. cbn [safe rule_string_matches regex_compiled]. rewrite Hi.
    destruct (Hf c p (excl i) kw) as [(-> & HP)|(ms & new & -> & HR & _)].
    + rewrite HP by exact Hfu. reflexivity.
    + rewrite HR by exact Hfu. reflexivity.
  - intros c p e kw x y _. destruct (Hf c p e kw) as [(-> & _)|(ms & new & -> & _ & _ & _ & H)]; [intros []|apply H].
  - intros c p kw _. destruct (Hf c p true kw) as [(-> & _)|(ms & new & -> & _ & H & _)]; [reflexivity|apply H; reflexivity].
  - intros c p kw _. destruct (Hf c p false kw) as [(-> & _)|(ms & new & -> & _ & _ & H & _)]; [reflexivity|apply H; reflexivity].
Qed.

(* a rule of the list that is not blocked trips *)
Definition any_trips (rules : list nat) (c : str) : Prop :=
  exists i, In i rules /\ ~ In i blocked /\ rule_trips (rrs i) (ats i) c.

Lemma rules_or : forall fuel p c excl, nbytes c + 2 <= fuel -> forall rules,
  (forall i, In i rules -> exists r, nth_error (sc_rules sc) i = Some r) ->
  (any_trips rules c /\ forall st, foldM (visit_content_rule fuel sc blocked p c excl) rules st = Panic) \/
  (~ any_trips rules c /\ forall st, exists res,
     foldM (visit_content_rule fuel sc blocked p c excl) rules st = Ret res /\
     foldM (visit_content_rule fuel (safe_scanner sc) blocked p c excl) rules st = Ret res).
Proof.
  intros fuel p c excl Hf. induction rules as [|i rules IH]; intros Hin.
  - right. split; [intros (i & [] & _)|]. intros st. exists st. split; reflexivity.
  - specialize (IH (fun j H => Hin j (or_intror H))). destruct (Hin i (or_introl eq_refl)) as (r0 & E).
    assert (Hi : (~ In i blocked /\ rule_trips (rrs i) (ats i) c /\ forall st, visit_content_rule fuel sc blocked p c excl st i = Panic) \/
      (~ (~ In i blocked /\ rule_trips (rrs i) (ats i) c) /\ forall st, exists st', visit_content_rule fuel sc blocked p c excl st i = Ret st' /\
        visit_content_rule fuel (safe_scanner sc) blocked p c excl st i = Ret st')).
    { unfold visit_content_rule. destruct (existsb (Nat.eqb i) blocked) eqn:Eb.
      - right. apply existsb_exists in Eb as (j & Hj & Ej). apply Nat.eqb_eq in Ej. subst j. split; [intros (H & _); contradiction|]. eauto.
      - assert (Hnb : ~ In i blocked).
        { intros H. assert (existsb (Nat.eqb i) blocked = true); [|congruence]. apply existsb_exists. exists i. split; [exact H|apply Nat.eqb_refl]. }
        rewrite safe_nth, E. destruct (Hmade i r0 E) as (a & s & v & Hr' & Hi & Ha & Hok). rewrite E in Hr'. injection Hr' as ->.
        cbn [option_map unwrap bind]. cbn [safe safe_scanner sc_kw_paths rule_string_matches regex_compiled].
        destruct (rule_or (rrs i) (ats i) (occs i) Hok c p (excl (rr_index (rrs i))) (sc_kw_paths sc)) as [(T & HP)|(T & ms & new & HR & _)].
        + left. split; [exact Hnb|]. split; [exact T|]. intros st. rewrite HP by exact Hf. reflexivity.
        + right. split; [intros (_ & K); contradiction|]. intros st. rewrite HR by exact Hf. cbn [bind]. eexists. split; reflexivity. }
    destruct Hi as [(H1 & H2 & H3)|(H1 & H2)].
    + left. split; [exists i; split; [left; reflexivity|auto]|]. intros st. cbn [foldM]. rewrite H3. reflexivity.
    + destruct IH as [(T & HP)|(T & HR)].
      * left. split; [destruct T as (j & J1 & J2); exists j; split; [right; exact J1|exact J2]|].
        intros st. cbn [foldM]. destruct (H2 st) as (st' & -> & _). apply HP.
      * right. split.
        -- intros (j & [->|J1] & J2); [apply H1; exact J2|]. apply T. exists j. auto.
        -- intros st. cbn [foldM]. destruct (H2 st) as (st' & -> & ->). cbn [bind]. apply HR.
Qed.

Section Visit.
Variable E : encoding.
Variable srt : sorter.
Variable fuel : nat.
Notation rules_of p := (rules_at (sc_wild sc) (sc_tree sc) (length (sc_rules sc)) p).
Notation visits s := (foldM (visit_one (sc_wild sc) (sc_tree sc) (length (sc_rules sc)) (visit_content (E := E) fuel srt s blocked))).

Lemma visits_or : forall strs, enough_fuel fuel strs ->
  ((exists p c, In (p, c) strs /\ any_trips (rules_of p) c) /\ forall st, visits sc strs st = Panic) \/
  (~ (exists p c, In (p, c) strs /\ any_trips (rules_of p) c) /\ forall st, visits sc strs st = visits (safe_scanner sc) strs st).
Proof.
  induction strs as [|[p c] strs IH]; intros Hf.
  - right. split; [intros (p & c & [] & _)|reflexivity].
  - assert (Hfc : nbytes c + 2 <= fuel) by (apply (Hf p c); left; reflexivity).
    specialize (IH (fun q d H => Hf q d (or_intror H))).
    assert (Hin : forall i, In i (rules_of p) -> exists r, nth_error (sc_rules sc) i = Some r).
    { intros i Hi. apply (rules_p_spec sc p i) in Hi as (r & Er & _). eauto. }
    destruct (rules_or fuel p c (excluded_at (sc_wild sc) (sc_tree sc) p) Hfc (rules_of p) Hin) as [(T & HP)|(T & HR)].
    + left. split; [exists p, c; split; [left; reflexivity|exact T]|]. intros st. cbn [foldM]. unfold visit_one at 1. cbn [fst snd].
      unfold visit_content at 1. rewrite HP. reflexivity.
    + assert (Hone : forall st, exists st', visit_one (sc_wild sc) (sc_tree sc) (length (sc_rules sc)) (visit_content (E := E) fuel srt sc blocked) st (p, c) = Ret st' /\
        visit_one (sc_wild sc) (sc_tree sc) (length (sc_rules sc)) (visit_content (E := E) fuel srt (safe_scanner sc) blocked) st (p, c) = Ret st').
      { intros st. unfold visit_one. cbn [fst snd]. unfold visit_content. destruct (HR ([], snd (fst st))) as ((ms & x') & -> & ->). cbn [bind].
        match goal with |- context [match ?l with [] => _ | _ :: _ => _ end] => destruct l end; cbn [bind]; eexists; split; reflexivity. }
      destruct IH as [(T2 & HP)|(T2 & HE)].
      * left. split; [destruct T2 as (q & d & Q & Q'); exists q, d; split; [right; exact Q|exact Q']|].
        intros st. cbn [foldM]. destruct (Hone st) as (st' & -> & _). apply HP.
      * right. split.
        -- intros (q & d & [Q|Q] & Q'); [injection Q as <- <-; contradiction|]. apply T2. eauto.
        -- intros st. cbn [foldM]. destruct (Hone st) as (st' & -> & ->). apply HE.
Qed.
End Visit.

Lemma scan_trips_any : forall strs, scan_trips sc rrs ats blocked strs <->
  exists p c, In (p, c) strs /\ any_trips (rules_at (sc_wild sc) (sc_tree sc) (length (sc_rules sc)) p) c.
Proof.
  intros strs. split.
  - intros (i & r & p & c & H1 & H2 & H3 & H4 & H5). exists p, c. split; [exact H3|]. exists i. split; [|auto].
    apply (rules_p_spec sc p i). eauto.
  - intros (p & c & H & i & H1 & H2 & H3). apply (rules_p_spec sc p i) in H1 as (r & Er & Hi). exists i, r, p, c. auto.
Qed.

(* what a candidate, ... is does not depend on how the rules search *)
Lemma safe_candidate : forall p c k, candidate (safe_scanner sc) (finders sc) blocked p c k <-> candidate sc (finders sc) blocked p c k.
Proof.
  intros p c [[i a] b]. unfold candidate. rewrite safe_nth. cbn [safe_scanner sc_wild sc_kw_paths]. split.
  - intros (r & H & H'). destruct (nth_error (sc_rules sc) i) as [r0|]; [|discriminate]. injection H as <-. exists r0. split; [reflexivity|exact H'].
  - intros (r & -> & H'). exists (safe r). split; [reflexivity|exact H'].
Qed.
Lemma safe_excluded : forall strs t, found_excluded (safe_scanner sc) (finders sc) blocked strs t <-> found_excluded sc (finders sc) blocked strs t.
Proof.
  intros strs t. unfold found_excluded. split.
  - intros (i & r & p & c & H0 & H & H'). rewrite safe_nth in H. destruct (nth_error (sc_rules sc) i) as [r0|] eqn:E; [|discriminate]. injection H as <-.
    exists i, r0, p, c. split; [exact H0|]. split; [exact E|exact H'].
  - intros (i & r & p & c & H0 & H & H'). exists i, (safe r), p, c. rewrite safe_nth, H. split; [exact H0|]. split; [reflexivity|exact H'].
Qed.
Lemma safe_good : forall E w c m, good_match E w (safe_scanner sc) c m -> good_match E w sc c m.
Proof.
  intros E w c m ((r & H & H') & H2). split; [|exact H2]. rewrite safe_nth in H. destruct (nth_error (sc_rules sc) (im_rule m)) as [r0|] eqn:Er; [|discriminate].
  injection H as <-. exists r0. split; [exact Er|exact H'].
Qed.

Lemma scan_or : forall I w srt e strs holds h fuel,
  shifts_additive (ev_enc I) w -> indices_additive (ev_enc I) w ->
  sorter_ok srt -> event_laws I e strs holds -> enough_fuel fuel strs ->
  (scan_trips sc rrs ats blocked strs /\ scan I fuel h srt sc blocked e = Panic) \/
  (~ scan_trips sc rrs ats blocked strs /\ exists e' (res : list (str * list rule_match)),
    scan I fuel h srt sc blocked e = Ret (e', flat_map snd res) /\
    length res = length strs /\
    holds e' (map (fun tr => (fst (fst tr), fst (snd tr), false)) (combine strs res)) /\
    forall p c c' outs, In ((p, c), (c', outs)) (combine strs res) ->
      string_scanned sc (finders sc) blocked (ev_enc I) w h strs p c c' outs).
Proof.
  intros I w srt e strs holds h fuel Hs Hi Hsrt Hl Hf.
  assert (Hv : visit_string_rule_combinations (sc_tree sc) (length (sc_rules sc)) (sc_wild sc)
      (ev_ops I e) (visit_content (E := ev_enc I) fuel srt sc blocked) ([], []) =
      foldM (visit_one (sc_wild sc) (sc_tree sc) (length (sc_rules sc)) (visit_content fuel srt sc blocked)) strs (([], []), [])).
  { unfold sc_tree. rewrite <- (map_length rule_scope (sc_rules sc)).
    apply visit_scopes. apply (el_shows _ _ _ _ Hl). }
  unfold scan. rewrite Hv. rewrite scan_trips_any.
  destruct (visits_or (ev_enc I) srt fuel strs Hf) as [(T & HP)|(T & HE)].
  - left. split; [exact T|]. rewrite HP. reflexivity.
  - right. split; [exact T|]. rewrite HE.
    destruct (visit_all (ev_enc I) w (safe_scanner sc) (finders sc) blocked srt Hi Hsrt strs (safe_meets strs) fuel strs [] [] [] Hf (fun t H => H))
      as (l & x & E1 & K1 & G1 & X1 & _).
    rewrite safe_tree in E1. cbn [safe_scanner sc_rules sc_wild] in E1. rewrite map_length in E1.
    match type of E1 with ?l = _ =>
      match goal with |- context [foldM ?f strs ?s] => change (foldM f strs s) with l end end.
    rewrite E1. cbn [bind app].
    assert (Hlog : map fst (map (pending (ev_enc I)) l) = strs).
    { rewrite map_map. rewrite <- K1. apply map_ext. intros; reflexivity. }
    destruct (process_all_ok I w sc (finders sc) blocked srt Hs Hsrt e strs holds Hl h x) with (l := l) (e := ev_visited I e (map (pending (ev_enc I)) l)) (done := @nil (path * str * bool))
      as (e' & res & E2 & L2 & H2 & S2).
    + intros t. rewrite X1, safe_excluded. split; auto. intros [[]|]; auto.
    + intros t Ht. destruct (G1 t Ht) as (A & B). split; [intros k; rewrite (A k); apply safe_candidate|]. intros m Hm. apply safe_good, B, Hm.
    + simpl. rewrite <- (map_map fst fst). rewrite Hlog. apply (el_distinct _ _ _ _ Hl).
    + simpl. apply (el_visited _ _ _ _ Hl). exact Hlog.
    + exists e', res. split; [exact E2|]. split; [rewrite L2, <- K1, map_length; reflexivity|].
      assert (Hc : forall (l0 : list (entry (ev_enc I))) (r0 : list (str * list rule_match)),
         map (fun tr => (fst (fst (fst tr)), fst (snd tr), false)) (combine l0 r0) =
         map (fun tr => (fst (fst tr), fst (snd tr), false)) (combine (map fst l0) r0)).
      { induction l0 as [|t l0 IH]; intros [|r r0]; simpl; auto. f_equal. apply IH. }
      split.
      * rewrite <- K1, <- Hc. exact H2.
      * intros p c c' outs Hin. rewrite <- K1 in Hin.
        assert (exists t, In (t, (c', outs)) (combine l res) /\ fst t = (p, c)) as (t & Ht & Et).
        { clear -Hin. revert res Hin. induction l as [|t l IH]; intros [|r res] Hin; simpl in *; try contradiction.
          destruct Hin as [Ei|Hin].
          - exists t. split; [left|]; congruence.
          - destruct (IH _ Hin) as (t' & A & B). eauto. }
        specialize (S2 t c' outs Ht). rewrite Et in S2. exact S2.
Qed.
End Scanner.
