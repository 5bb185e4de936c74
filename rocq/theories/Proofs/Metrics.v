(* The metrics of a scanner *)
From Coq Require Import Lia Permutation.
From Verif Require Import Proofs.Text Proofs.TruePos Proofs.Scan Proofs.Visitor Proofs.ValidateMatches.
From Verif Require Export Spec.Metrics.

(* ---- counting leaves the results alone ---- *)
Definition omap {A B} (f : A -> B) (o : outcome A) : outcome B := let* r := o in Ret (f r).

Lemma fp_erase : forall r c m chk,
  omap fst (is_false_positive_counted r c m chk) = is_false_positive_match r c m chk.
Proof.
  intros. unfold is_false_positive_counted, is_false_positive_match, omap.
  destruct (if chk then _ else _) as [[|]| |]; cbn [bind fst]; auto.
  destruct (rr_validator r); cbn [bind]; auto.
  destruct (slice c (fst m) (snd m)); reflexivity.
Qed.

Lemma tp_next_erase : forall fuel r c chk exc start x,
  omap fst (tp_next_counted fuel r c chk exc start x) = tp_next fuel r c chk exc start x.
Proof.
  induction fuel as [|fuel IH]; intros; [reflexivity|]. cbn [tp_next_counted tp_next].
  destruct (rr_find r c start) as [m|]; [|reflexivity].
  rewrite <- fp_erase. destruct (is_false_positive_counted r c m chk) as [[[|] k]| |]; cbn [bind omap fst snd]; auto.
  - destruct (get_next_regex_start c m) as [[nx|]| |]; cbn [bind]; auto.
    rewrite <- IH. destruct (tp_next_counted fuel r c chk exc nx x); reflexivity.
  - destruct exc; [|reflexivity]. destruct (slice c (fst m) (snd m)); cbn [bind]; auto.
    rewrite <- IH. match goal with |- context [tp_next_counted ?a ?b ?c ?d ?e ?f ?g] =>
      destruct (tp_next_counted a b c d e f g) end; reflexivity.
Qed.

Lemma tp_all_erase : forall fuel r c chk exc start x,
  omap fst (tp_all_counted fuel r c chk exc start x) = tp_all fuel r c chk exc start x.
Proof.
  induction fuel as [|fuel IH]; intros; [reflexivity|]. cbn [tp_all_counted tp_all].
  rewrite <- tp_next_erase.
  destruct (tp_next_counted (S fuel) r c chk exc start x) as [[[[[m|] st] x'] k]| |]; cbn [bind omap fst snd]; auto.
  rewrite <- IH. destruct (tp_all_counted fuel r c chk exc st x') as [[[ms x''] k']| |]; reflexivity.
Qed.

Lemma regex_erase : forall fuel r c p exc tp kw x,
  omap fst (regex_string_matches_counted fuel r c p exc tp kw x) = regex_string_matches fuel r c p exc tp kw x.
Proof.
  intros. unfold regex_string_matches_counted, regex_string_matches.
  destruct (rr_included r) as [ik|]; [|apply tp_all_erase].
  unfold omap. destruct (matches_with_included_keywords fuel r ik c p exc tp kw x); reflexivity.
Qed.

Section Erase.
Variable sc : scanner.
Variable cs : list counted_search.
Hypothesis Hcs : searches_of sc cs.

Lemma search_erase : forall i,
  (nth_error cs i = None /\ nth_error (sc_rules sc) i = None) \/
  exists r c, nth_error cs i = Some c /\ nth_error (sc_rules sc) i = Some r /\
    forall fuel content p excl tp kw x,
      omap fst (c fuel content p excl tp kw x) = rule_string_matches r fuel content p excl tp kw x.
Proof.
  assert (H := Hcs). unfold searches_of in H. clear Hcs.
  induction H as [|r c rs cs' (a & s & v & rr & -> & ->) _ IH]; intros i.
  - left. destruct i; auto.
  - destruct i as [|i]; [|exact (IH i)]. right. eexists _, _. split; [reflexivity|]. split; [reflexivity|].
    intros. apply regex_erase.
Qed.

Lemma visit_rule_erase : forall fuel blocked p c excl st i,
  omap fst (visit_content_rule_counted fuel sc cs blocked p c excl st i) =
  visit_content_rule fuel sc blocked p c excl (fst st) i.
Proof.
  intros. unfold visit_content_rule_counted, visit_content_rule. destruct (existsb _ _); [reflexivity|].
  destruct (search_erase i) as [[-> ->]|(r & s & -> & -> & H)]; [reflexivity|]. cbn [unwrap bind].
  rewrite <- H. destruct (s _ _ _ _ _ _ _) as [[[ms x] k]| |]; reflexivity.
Qed.

Lemma foldM_erase : forall A S S' (f : S' -> A -> outcome S') (g : S -> A -> outcome S) (er : S' -> S),
  (forall s a, omap er (f s a) = g (er s) a) ->
  forall l s, omap er (foldM f l s) = foldM g l (er s).
Proof.
  intros A S S' f g er H. induction l as [|a l IH]; intros s; [reflexivity|]. cbn [foldM].
  rewrite <- H. unfold omap at 2. destruct (f s a); cbn [bind]; [apply IH|reflexivity|reflexivity].
Qed.

Lemma visit_content_erase : forall E fuel srt blocked p c rules excl (st : scan_state E * list emission),
  omap (fun r => (fst (fst r), snd r)) (visit_content_counted fuel srt sc cs blocked p c rules excl st) =
  visit_content fuel srt sc blocked p c rules excl (fst st).
Proof.
  intros. unfold visit_content_counted, visit_content.
  rewrite <- (foldM_erase _ _ _ (visit_content_rule_counted fuel sc cs blocked p c excl)
                (visit_content_rule fuel sc blocked p c excl) fst)
    with (s := ([], snd (fst st), snd st)) by (intros; apply visit_rule_erase).
  destruct (foldM (visit_content_rule_counted fuel sc cs blocked p c excl) rules ([], snd (fst st), snd st))
    as [[[ms x] em]| |]; cbn [bind omap fst snd]; auto.
  destruct (attach_indices _ _); reflexivity.
Qed.

Lemma multipass_erase : forall E x c (ms : list (internal_match E)),
  omap fst (multipass_retain_counted (sc_rules sc) x c ms) = multipass_retain (sc_rules sc) x c ms.
Proof.
  induction ms as [|m ms IH]; [reflexivity|]. cbn [multipass_retain_counted multipass_retain].
  destruct (unwrap _) as [r| |]; cbn [bind omap]; auto.
  destruct (if rule_multipass r then _ else _) as [[|]| |]; cbn [bind]; auto;
    rewrite <- IH; destruct (multipass_retain_counted (sc_rules sc) x c ms); reflexivity.
Qed.

Lemma process_string_erase : forall E h srt x p (ms : list (internal_match E)) c,
  omap fst (process_string_counted h srt sc x p ms c) = process_string h srt sc x p ms c.
Proof.
  intros. unfold process_string_counted, process_string.
  assert (H : omap fst (if sc_multipass sc then multipass_retain_counted (sc_rules sc) x c ms else Ret (ms, []))
              = (if sc_multipass sc then multipass_retain (sc_rules sc) x c ms else Ret ms)).
  { destruct (sc_multipass sc); [apply multipass_erase|reflexivity]. }
  rewrite <- H. destruct (if sc_multipass sc then _ else _) as [[ms1 em]| |]; cbn [bind omap fst snd]; auto.
  destruct (sort_and_remove_overlapping_rules _ _ _); cbn [bind]; auto.
  destruct (apply_match_actions _ _ _ _ _); reflexivity.
Qed.

Lemma process_all_erase : forall I h srt x l (e : ev_t I),
  omap fst (process_all_counted I h srt sc x e l) = process_all I h srt sc x e l.
Proof.
  intros I h srt x. induction l as [|[p ms] l IH]; intros e; [reflexivity|].
  cbn [process_all_counted process_all]. destruct (ev_get I e p) as [c| |]; cbn [bind omap]; auto.
  rewrite <- process_string_erase. destruct (process_string_counted h srt sc x p ms c) as [[[[c' mu] out] em]| |];
    cbn [bind omap fst snd]; auto.
  rewrite <- IH. destruct (process_all_counted I h srt sc x (ev_set I e p c' mu) l) as [[[e' outs] em']| |]; reflexivity.
Qed.

Lemma scan_erase : forall I fuel h srt blocked (e : ev_t I),
  omap fst (scan_counted I fuel h srt sc cs blocked e) = scan I fuel h srt sc blocked e.
Proof.
  intros. unfold scan_counted, scan, visit_string_rule_combinations.
  set (er := fun st : vstate * (scan_state (ev_enc I) * list emission) * list (path * str * bool) =>
               (fst (fst st), fst (snd (fst st)), snd st)).
  assert (H := foldM_erase _ _ _ (run_op (sc_wild sc) (visit_content_counted (E := ev_enc I) fuel srt sc cs blocked))
                (run_op (sc_wild sc) (visit_content fuel srt sc blocked)) er).
  change (vstate_init (sc_tree sc) (length (sc_rules sc)) (sc_wild sc), ([], []), @nil (path * str * bool))
    with (er (vstate_init (sc_tree sc) (length (sc_rules sc)) (sc_wild sc), (([], []), []), [])).
  rewrite <- H; clear H.
  - match goal with |- context [omap er ?t] => set (T := t) end.
    match goal with |- context [foldM ?f ?l ?s] => change (foldM f l s) with T end.
    destruct T as [[[v [st em]] log]| |]; cbn [bind omap er fst snd]; auto.
    destruct st as [found x]. rewrite <- process_all_erase.
    destruct (process_all_counted I h srt sc x (ev_visited I e log) found) as [[[e' outs] em']| |]; reflexivity.
  - intros [[v [st em]] log] op. unfold er. cbn [fst snd]. destruct op as [s| |c]; cbn [run_op].
    + destruct (push_segment _ _ _); reflexivity.
    + destruct (pop_segment _); reflexivity.
    + unfold visit_string. destruct (visit_rule_indices _ _) as [[rules b]| |]; cbn [bind]; auto.
      assert (Hv := visit_content_erase (ev_enc I) fuel srt blocked (vs_path v) c rules (is_excluded (vs_nodes v)) (st, em)).
      cbn [fst] in Hv. rewrite <- Hv.
      match goal with |- context [visit_content_counted ?a ?b ?c ?d ?e ?f ?g ?h ?i ?j] =>
        destruct (visit_content_counted a b c d e f g h i j) as [[[s' em'] mm]| |] end; reflexivity.
Qed.
End Erase.

(* ---- counting numbers ---- *)
Lemma number_none : forall P : nat -> Prop, (forall a, ~ P a) -> number_of P 0.
Proof. intros P H. exists []. split; [constructor|]. split; [|reflexivity]. intros a. split; [intros []|intros X; exfalso; eapply H; eauto]. Qed.
Lemma number_same : forall (P Q : nat -> Prop) n, (forall a, P a <-> Q a) -> number_of P n -> number_of Q n.
Proof. intros P Q n H (l & H1 & H2 & H3). exists l. split; [exact H1|]. split; [|exact H3]. intros a. rewrite H2. apply H. Qed.
Lemma number_add : forall (P Q R : nat -> Prop) n m, number_of P n -> number_of Q m ->
  (forall a, P a -> ~ Q a) -> (forall a, R a <-> P a \/ Q a) -> number_of R (n + m).
Proof.
  intros P Q R n m (l1 & N1 & I1 & L1) (l2 & N2 & I2 & L2) Hd Hr. exists (l1 ++ l2). split; [|split].
  - clear L1. assert (H : forall a, In a l1 -> ~ In a l2) by (intros a H1 H2; apply (Hd a); [apply I1|apply I2]; assumption).
    clear I1. induction N1 as [|a l1 Ha N1 IH]; [exact N2|]. simpl. constructor.
    + rewrite in_app_iff. intros [X|X]; [auto|]. apply (H a); simpl; auto.
    + apply IH. intros b Hb. apply H. right; exact Hb.
  - intros a. rewrite in_app_iff, I1, I2, Hr. reflexivity.
  - rewrite app_length. lia.
Qed.
Lemma number_one : forall (P : nat -> Prop) a, (forall b, P b <-> b = a) -> number_of P 1.
Proof.
  intros P a H. exists [a]. split; [repeat constructor; simpl; auto|]. split; [|reflexivity].
  intros b. rewrite H. simpl. split; [intros [->|[]]; reflexivity|auto].
Qed.

Section Hits.
Variable r : regex_rule.
Variable at_ : str -> nat -> option nat.
Hypothesis Hlm : leftmost (rr_find r) at_.
Notation TP := (true_positive r at_).
Notation chain := (scan_chain r at_).

Definition hit (s : str) (a : nat) : Prop :=
  at_ s a <> None /\ exists xk, rr_excluded r = Some xk /\ excluded_keyword_before xk s a.
Definition uncovered (ms : list (nat * nat)) (a : nat) : Prop := forall m, In m ms -> ~ (fst m <= a < snd m).

Lemma hit_not_tp : forall s a b, hit s a -> ~ TP true s a b.
Proof. intros s a b (_ & xk & E & H) (_ & _ & X). exact (X eq_refl xk E H). Qed.

Lemma hit_boundary : forall s a, hit s a -> boundary s a /\ a < nbytes s.
Proof.
  intros s a (H & _). destruct (at_ s a) as [b|] eqn:E; [|congruence].
  destruct (lm_range _ _ Hlm _ _ _ E) as (_ & B & _). destruct (at_lt r at_ Hlm _ _ _ E). split; [exact B|lia].
Qed.

Lemma fp_counted : forall s a b, at_ s a = Some b -> checkable r at_ s ->
  exists v k, is_false_positive_counted r s (a, b) true = Ret (v, k) /\
    (v = false <-> TP true s a b) /\ ((k = 1 /\ v = true /\ hit s a) \/ (k = 0 /\ ~ hit s a)).
Proof.
  intros s a b Hat Hc. destruct (false_positive_spec r at_ Hlm true s a b Hat (fun _ => Hc)) as (v & Hv & Hiff).
  rewrite <- fp_erase in Hv.
  destruct (is_false_positive_counted r s (a, b) true) as [[v' k]| |] eqn:E; try discriminate.
  cbn in Hv. inversion Hv; subst v'. exists v, k. split; [reflexivity|]. split; [exact Hiff|].
  destruct (lm_range _ _ Hlm _ _ _ Hat) as (Hlt & Ha & Hb). destruct (at_lt r at_ Hlm _ _ _ Hat) as [_ Hle].
  unfold is_false_positive_counted in E. cbn [fst snd] in E. destruct (rr_excluded r) as [xk|] eqn:Ex.
  - destruct (excluded_check_ok xk s a Ha) as (u & Hu & Hiff2); [lia|exact (Hc xk a b Ex Hat)|].
    rewrite Hu in E. cbn [bind] in E. destruct u.
    + left. inversion E; subst. split; [reflexivity|]. split; [reflexivity|]. split; [congruence|].
      exists xk. split; [exact Ex|]. apply Hiff2. reflexivity.
    + right. split.
      * destruct (rr_validator r); [destruct (slice s a b); try discriminate; cbn in E|]; inversion E; reflexivity.
      * intros (_ & xk' & E' & X). rewrite Ex in E'. inversion E'; subst. apply Hiff2 in X. discriminate.
  - right. cbn [bind] in E. split.
    + destruct (rr_validator r); [destruct (slice s a b); try discriminate; cbn in E|]; inversion E; reflexivity.
    + intros (_ & xk' & E' & X). congruence.
Qed.

(* the part of the count contributed by one false positive, before [nx] *)
Lemma hits_step : forall s start a b v k (Q R : nat -> Prop) m nx,
  start <= a -> at_ s a = Some b -> (forall j, start <= j < a -> at_ s j = None) ->
  a < nx -> (forall j, a < j < nx -> ~ hit s j) ->
  ((k = 1 /\ v = true /\ hit s a) \/ (k = 0 /\ ~ hit s a)) ->
  number_of Q m -> (forall j, Q j -> nx <= j) ->
  (forall j, R j <-> (start <= j < nx /\ hit s j) \/ Q j) ->
  number_of R (k + m).
Proof.
  intros s start a b v k Q R m nx Hsa Hat Hno Hlt Hgap Hk HQ HQn HR.
  apply (number_add (fun j => start <= j < nx /\ hit s j) Q); [|exact HQ| |exact HR].
  - destruct Hk as [(-> & _ & Hh)|(-> & Hh)].
    + apply number_one with (a := a). intros j. split.
      * intros (Hj & H). destruct (lt_eq_lt_dec j a) as [[L|E]|L]; [|exact E|].
        { destruct H as (X & _). rewrite Hno in X by lia. congruence. }
        { exfalso. apply (Hgap j); [lia|exact H]. }
      * intros ->. split; [lia|exact Hh].
    + apply number_none. intros j (Hj & H). destruct (lt_eq_lt_dec j a) as [[L|E]|L].
      * destruct H as (X & _). rewrite Hno in X by lia. congruence.
      * subst. auto.
      * apply (Hgap j); [lia|exact H].
  - intros j (Hj & _) HQj. apply HQn in HQj. lia.
Qed.

Lemma no_hits_between : forall s a nx, (forall j, a < j < nx -> ~ boundary s j) ->
  forall j, a < j < nx -> ~ hit s j.
Proof. intros s a nx H j Hj Hh. apply hit_boundary in Hh as (B & _). exact (H j Hj B). Qed.

(* the search in a path that is not excluded *)
Lemma tp_next_hits : forall s, checkable r at_ s ->
  forall n start, nbytes s - start <= n -> boundary s start ->
  exists om st k, (forall fuel x, nbytes s + 1 - start <= fuel ->
                  tp_next_counted fuel r s true false start x = Ret (om, st, x, k)) /\
    match om with
    | Some (a, b) => st = b /\ start <= a /\ TP true s a b /\ (forall j c, start <= j < a -> ~ TP true s j c) /\
                     number_of (fun j => start <= j < a /\ hit s j) k
    | None => (forall a b, start <= a -> ~ TP true s a b) /\ number_of (fun j => start <= j /\ hit s j) k
    end.
Proof.
  intros s Hchk. induction n as [n IH] using lt_wf_ind. intros start Hn Hst.
  pose proof (boundary_le _ _ Hst) as Hle0.
  destruct (rr_find r s start) as [[a b]|] eqn:Ef.
  - destruct (lm_some _ _ Hlm _ _ _ _ Hst Ef) as (Hsa & Hat & Hno).
    destruct (lm_range _ _ Hlm _ _ _ Hat) as (Hlt & Ha & Hb). destruct (at_lt r at_ Hlm _ _ _ Hat) as [_ Hle].
    destruct (fp_counted s a b Hat Hchk) as (v & k0 & Hv & Hiff & Hk0).
    assert (Hno' : forall j, start <= j < a -> at_ s j = None) by (intros; apply Hno; lia).
    destruct v.
    + destruct (next_start_spec s a b Ha) as (o & Ho & Hspec); [lia|].
      assert (Hfp : forall c, ~ TP true s a c).
      { intros c Hc. assert (c = b) by (destruct Hc; congruence). subst. apply Hiff in Hc. discriminate. }
      destruct o as [nx|].
      * destruct Hspec as (H1 & H2 & H3 & H4).
        destruct (IH (nbytes s - nx)) with (start := nx) as (om & st & k & Hrun & Hom); [lia|lia|exact H2|].
        assert (Hskip : forall j c, start <= j < nx -> ~ TP true s j c).
        { intros j c Hj Hc. destruct (Nat.eq_dec j a) as [->|Hja]; [exact (Hfp c Hc)|].
          destruct Hc as (Hc & _). destruct (le_lt_dec a j).
          - apply lm_range with (1 := Hlm) in Hc as (_ & Hbd & _). apply (H4 j); [lia|exact Hbd].
          - rewrite Hno in Hc by lia. discriminate. }
        exists om, st, (k0 + k). split.
        { intros fuel x Hf. destruct fuel as [|fuel]; [lia|]. cbn [tp_next_counted]. rewrite Ef, Hv. cbn [bind fst snd].
          rewrite Ho. cbn [bind]. rewrite Hrun by lia. reflexivity. }
        destruct om as [[a' b']|].
        { destruct Hom as (E1 & E2 & E3 & E4 & E5). split; [exact E1|]. split; [lia|]. split; [exact E3|]. split.
          - intros j c Hj. destruct (le_lt_dec nx j); [apply E4; lia|apply Hskip; lia].
          - refine (hits_step s start a b true k0 _ _ k nx Hsa Hat Hno' H1 (no_hits_between s a nx H4) Hk0 E5 _ _).
            + intros j (Hj & _). lia.
            + intros j. split.
              * intros (Hj & Hh). destruct (le_lt_dec nx j); [right|left]; split; auto; lia.
              * intros [(Hj & Hh)|(Hj & Hh)]; split; auto; lia. }
        { destruct Hom as (E1 & E2). split.
          - intros a' b' Ha'. destruct (le_lt_dec nx a'); [apply E1; lia|apply Hskip; lia].
          - refine (hits_step s start a b true k0 _ _ k nx Hsa Hat Hno' H1 (no_hits_between s a nx H4) Hk0 E2 _ _).
            + intros j (Hj & _). lia.
            + intros j. split.
              * intros (Hj & Hh). destruct (le_lt_dec nx j); [right|left]; split; auto; lia.
              * intros [(Hj & Hh)|(Hj & Hh)]; split; auto; lia. }
      * exists None, start, k0. split.
        { intros fuel x Hf. destruct fuel as [|fuel]; [lia|]. cbn [tp_next_counted]. rewrite Ef, Hv. cbn [bind fst snd].
          rewrite Ho. reflexivity. }
        split.
        { intros j c Hj Hc. destruct (Nat.eq_dec j a) as [->|Hja]; [exact (Hfp c Hc)|].
          destruct Hc as (Hc & _). destruct (le_lt_dec a j).
          { destruct (at_lt r at_ Hlm _ _ _ Hc). apply lm_range with (1 := Hlm) in Hc as (_ & Hbd & _).
            apply (Hspec j); [lia|exact Hbd]. }
          { rewrite Hno in Hc by lia. discriminate. } }
        { replace k0 with (k0 + 0) by lia.
          refine (hits_step s start a b true k0 (fun _ => False) _ 0 (nbytes s) Hsa Hat Hno' _ _ Hk0 (number_none _ (fun _ f => f)) _ _).
          - lia.
          - apply no_hits_between. exact Hspec.
          - intros j [].
          - intros j. split; [|intros [(Hj & Hh)|[]]; split; auto; lia].
            intros (Hj & Hh). left. split; auto. apply hit_boundary in Hh. lia. }
    + exists (Some (a, b)), b, k0. split.
      * intros fuel x Hf. destruct fuel as [|fuel]; [lia|]. cbn [tp_next_counted]. rewrite Ef, Hv. reflexivity.
      * split; [reflexivity|]. split; [exact Hsa|]. split; [apply Hiff; reflexivity|]. split.
        { intros j c Hj (Hc & _). rewrite Hno in Hc by lia. discriminate. }
        { destruct Hk0 as [(_ & X & _)|(-> & _)]; [discriminate|]. apply number_none.
          intros j (Hj & (X & _)). rewrite Hno' in X by lia. congruence. }
  - exists None, start, 0. split.
    + intros fuel x Hf. destruct fuel as [|fuel]; [lia|]. cbn [tp_next_counted]. rewrite Ef. reflexivity.
    + split.
      * intros a b Ha (Hc & _). rewrite (lm_none _ _ Hlm _ _ Hst Ef a Ha) in Hc. discriminate.
      * apply number_none. intros j (Hj & (X & _)). rewrite (lm_none _ _ Hlm _ _ Hst Ef j Hj) in X. congruence.
Qed.

Lemma cover_step : forall s start a b ms k0 k,
  start <= a -> TP true s a b -> chain true s b ms ->
  number_of (fun j => start <= j < a /\ hit s j) k0 ->
  number_of (fun j => b <= j /\ hit s j /\ uncovered ms j) k ->
  number_of (fun j => start <= j /\ hit s j /\ uncovered ((a, b) :: ms) j) (k0 + k).
Proof.
  intros s start a b ms k0 k Hsa Htp Hch H0 H1.
  destruct (tp_range r at_ Hlm _ _ _ _ Htp) as (Hab & _).
  apply (number_add _ _ _ _ _ H0 H1).
  - intros j (Hj & _) (Hj' & _). lia.
  - intros j. split.
    + intros (Hj & Hh & Hu). destruct (le_lt_dec b j).
      * right. split; [lia|]. split; [exact Hh|]. intros m Hm. apply Hu. right; exact Hm.
      * left. split; [|exact Hh]. specialize (Hu (a, b) (or_introl eq_refl)). cbn in Hu. lia.
    + intros [(Hj & Hh)|(Hj & Hh & Hu)].
      * split; [lia|]. split; [exact Hh|]. intros m [<-|Hm]; cbn; [lia|]. destruct m as [a' b'].
        destruct (chain_in r at_ Hlm _ _ _ _ _ _ Hch Hm). cbn. lia.
      * split; [lia|]. split; [exact Hh|]. intros m [<-|Hm]; cbn; [lia|]. apply Hu. exact Hm.
Qed.

Lemma tp_all_hits : forall s, checkable r at_ s ->
  forall n start, nbytes s - start <= n -> boundary s start ->
  exists ms k, chain true s start ms /\
    number_of (fun j => start <= j /\ hit s j /\ uncovered ms j) k /\
    forall fuel x, nbytes s + 1 - start <= fuel ->
      tp_all_counted fuel r s true false start x = Ret (ms, x, k).
Proof.
  intros s Hchk. induction n as [n IH] using lt_wf_ind. intros start Hn Hst.
  destruct (tp_next_hits s Hchk n start Hn Hst) as (om & st & k0 & Hrun & Hom).
  destruct om as [[a b]|].
  - destruct Hom as (-> & Hsa & Htp & Hno & Hk0).
    destruct (tp_range r at_ Hlm _ _ _ _ Htp) as (Hab & Ha & Hb & Hle).
    destruct (IH (nbytes s - b)) with (start := b) as (ms & k & Hch & Hk & Hall); [lia|lia|exact Hb|].
    exists ((a, b) :: ms), (k0 + k). split; [simpl; auto|]. split; [apply cover_step; auto|].
    intros fuel x Hf. destruct fuel as [|fuel]; [pose proof (boundary_le _ _ Hst); lia|].
    cbn [tp_all_counted]. rewrite Hrun by exact Hf. cbn [bind]. rewrite Hall by lia. reflexivity.
  - destruct Hom as (Hno & Hk0). exists [], k0. split; [exact Hno|]. split.
    + apply (number_same _ _ _) with (2 := Hk0). intros j. split; [intros (A & B)|intros (A & B & _)]; auto.
      split; [exact A|]. split; [exact B|]. intros m [].
    + intros fuel x Hf. destruct fuel as [|fuel]; [pose proof (boundary_le _ _ Hst); lia|].
      cbn [tp_all_counted]. rewrite Hrun by exact Hf. reflexivity.
Qed.

(* the search in an excluded path *)
Lemma tp_next_hits_excluded : forall s, checkable r at_ s ->
  forall n start, nbytes s - start <= n -> boundary s start ->
  exists st ms k ts, chain true s start ms /\
    number_of (fun j => start <= j /\ hit s j /\ uncovered ms j) k /\
    forall fuel x, nbytes s + 1 - start <= fuel ->
      tp_next_counted fuel r s true true start x = Ret (None, st, ts ++ x, k).
Proof.
  intros s Hchk. induction n as [n IH] using lt_wf_ind. intros start Hn Hst.
  pose proof (boundary_le _ _ Hst) as Hle0.
  destruct (rr_find r s start) as [[a b]|] eqn:Ef.
  - destruct (lm_some _ _ Hlm _ _ _ _ Hst Ef) as (Hsa & Hat & Hno).
    destruct (lm_range _ _ Hlm _ _ _ Hat) as (Hlt & Ha & Hb). destruct (at_lt r at_ Hlm _ _ _ Hat) as [_ Hle].
    destruct (fp_counted s a b Hat Hchk) as (v & k0 & Hv & Hiff & Hk0).
    assert (Hno' : forall j, start <= j < a -> at_ s j = None) by (intros; apply Hno; lia).
    assert (Hbefore : forall j c, start <= j < a -> ~ TP true s j c).
    { intros j c Hj (Hc & _). rewrite Hno in Hc by lia. discriminate. }
    destruct v.
    + destruct (next_start_spec s a b Ha) as (o & Ho & Hspec); [lia|].
      assert (Hfp : forall c, ~ TP true s a c).
      { intros c Hc. assert (c = b) by (destruct Hc; congruence). subst. apply Hiff in Hc. discriminate. }
      destruct o as [nx|].
      * destruct Hspec as (H1 & H2 & H3 & H4).
        destruct (IH (nbytes s - nx)) with (start := nx) as (st & ms & k & ts & Hch & Hk & Hrun); [lia|lia|exact H2|].
        exists st, ms, (k0 + k), ts. split; [|split].
        { apply chain_skip with (j := nx); [lia| |exact Hch].
          intros j c Hj Hc. destruct (Nat.eq_dec j a) as [->|Hja]; [exact (Hfp c Hc)|].
          destruct (le_lt_dec a j).
          - destruct Hc as (Hc & _). apply lm_range with (1 := Hlm) in Hc as (_ & Hbd & _). apply (H4 j); [lia|exact Hbd].
          - apply (Hbefore j c); [lia|exact Hc]. }
        { refine (hits_step s start a b true k0 _ _ k nx Hsa Hat Hno' H1 (no_hits_between s a nx H4) Hk0 Hk _ _).
          - intros j (Hj & _). lia.
          - intros j. split.
            + intros (Hj & Hh & Hu). destruct (le_lt_dec nx j); [right|left]; repeat split; auto; try lia; apply Hh.
            + intros [(Hj & Hh)|(Hj & Hh & Hu)]; (split; [lia|split; [exact Hh|]]); [|exact Hu].
              intros [a' b'] Hm. destruct (chain_in r at_ Hlm _ _ _ _ _ _ Hch Hm). cbn. lia. }
        intros fuel x Hf. destruct fuel as [|fuel]; [lia|]. cbn [tp_next_counted]. rewrite Ef, Hv. cbn [bind fst snd].
        rewrite Ho. cbn [bind]. rewrite Hrun by lia. reflexivity.
      * exists start, [], k0, []. split; [|split].
        { simpl. intros j c Hj Hc. destruct (Nat.eq_dec j a) as [->|Hja]; [exact (Hfp c Hc)|].
          destruct (le_lt_dec a j).
          - destruct Hc as (Hc & _). destruct (at_lt r at_ Hlm _ _ _ Hc). apply lm_range with (1 := Hlm) in Hc as (_ & Hbd & _).
            apply (Hspec j); [lia|exact Hbd].
          - apply (Hbefore j c); [lia|exact Hc]. }
        { replace k0 with (k0 + 0) by lia.
          refine (hits_step s start a b true k0 (fun _ => False) _ 0 (nbytes s) Hsa Hat Hno' _ _ Hk0 (number_none _ (fun _ f => f)) _ _).
          - lia.
          - apply no_hits_between. exact Hspec.
          - intros j [].
          - intros j. split; [|intros [(Hj & Hh)|[]]; split; [lia|split; [exact Hh|intros m []]]].
            intros (Hj & Hh & _). left. split; auto. apply hit_boundary in Hh. lia. }
        intros fuel x Hf. destruct fuel as [|fuel]; [lia|]. cbn [tp_next_counted]. rewrite Ef, Hv. cbn [bind fst snd].
        rewrite Ho. reflexivity.
    + destruct (at_part r at_ Hlm _ _ _ Hat) as (t & Ht).
      destruct (IH (nbytes s - b)) with (start := b) as (st & ms & k & ts & Hch & Hk & Hrun); [lia|lia|exact Hb|].
      destruct Hk0 as [(_ & X & _)|(-> & Hnh)]; [discriminate|].
      assert (Htp : TP true s a b) by (apply Hiff; reflexivity).
      exists st, ((a, b) :: ms), k, (ts ++ [t]). split; [|split].
      { simpl. split; [exact Hsa|]. split; [exact Htp|]. split; [exact Hbefore|exact Hch]. }
      { change k with (0 + k). apply cover_step; auto. apply number_none.
        intros j (Hj & (X & _)). rewrite Hno' in X by lia. congruence. }
      intros fuel x Hf. destruct fuel as [|fuel]; [lia|]. cbn [tp_next_counted]. rewrite Ef, Hv. cbn [bind fst snd].
      assert (Hs : slice s a b = Ret t) by (apply slice_part; exact Ht). rewrite Hs. cbn [bind].
      rewrite Hrun by lia. cbn [bind fst snd]. rewrite <- app_assoc. reflexivity.
  - exists start, [], 0, []. split; [|split].
    + simpl. intros a b Ha (Hc & _). rewrite (lm_none _ _ Hlm _ _ Hst Ef a Ha) in Hc. discriminate.
    + apply number_none. intros j (Hj & (X & _) & _). rewrite (lm_none _ _ Hlm _ _ Hst Ef j Hj) in X. congruence.
    + intros fuel x Hf. destruct fuel as [|fuel]; [lia|]. cbn [tp_next_counted]. rewrite Ef. reflexivity.
Qed.

(* together *)
Definition hits_of (c : str) (p : path) (e kw : bool) : nat :=
  match regex_string_matches_counted (nbytes c + 2) r c p e [] kw [] with
  | Ret (_, _, k) => k
  | _ => 0
  end.

Lemma boundary_0 : forall s, boundary s 0.
Proof. intros s. exists [], s. auto. Qed.

Lemma regex_hits : forall c p e kw, scannable r at_ c ->
  keyword_hits r at_ c (hits_of c p e kw) /\
  forall fuel x y, nbytes c + 2 <= fuel -> regex_string_matches fuel r c p e [] kw x = Ret y ->
    regex_string_matches_counted fuel r c p e [] kw x = Ret (y, hits_of c p e kw).
Proof.
  intros c p e kw Hs. unfold hits_of, keyword_hits, regex_string_matches_counted, regex_string_matches.
  unfold scannable in Hs. destruct (rr_included r) as [ik|] eqn:Ei.
  - split.
    + destruct (matches_with_included_keywords _ _ _ _ _ _ _ _ _) as [[]| |]; reflexivity.
    + intros fuel x y Hf E. rewrite E. cbn [bind].
      destruct (matches_with_included_keywords (nbytes c + 2) _ _ _ _ _ _ _ _) as [[]| |]; reflexivity.
  - specialize (Hs eq_refl).
    assert (H : exists ms k, chain true c 0 ms /\ number_of (fun j => 0 <= j /\ hit c j /\ uncovered ms j) k /\
      forall fuel x, nbytes c + 2 <= fuel -> exists y, tp_all_counted fuel r c true e 0 x = Ret (y, k)).
    { destruct e.
      - destruct (tp_next_hits_excluded c Hs _ 0 (Nat.le_refl _) (boundary_0 c)) as (st & ms & k & ts & H1 & H2 & H3).
        exists ms, k. split; [exact H1|]. split; [exact H2|]. intros fuel x Hf. destruct fuel as [|fuel]; [lia|].
        eexists. cbn [tp_all_counted]. rewrite H3 by lia. reflexivity.
      - destruct (tp_all_hits c Hs _ 0 (Nat.le_refl _) (boundary_0 c)) as (ms & k & H1 & H2 & H3).
        exists ms, k. split; [exact H1|]. split; [exact H2|]. intros fuel x Hf. eexists. apply H3. lia. }
    destruct H as (ms & k & H1 & H2 & H3).
    destruct (H3 (nbytes c + 2) [] (Nat.le_refl _)) as ([y1 y2] & E0). rewrite E0. split.
    + destruct (rr_excluded r) as [xk|] eqn:Ex.
      * exists ms. split; [exact H1|]. apply (number_same _ _ _) with (2 := H2). intros j. split.
        { intros (_ & (A & xk' & E' & B) & C). rewrite Ex in E'. inversion E'; subst. auto. }
        { intros (A & B & C). split; [lia|]. split; [|exact C]. split; [exact A|]. exists xk. auto. }
      * destruct H2 as (l & _ & I2 & L2). destruct l as [|j l]; [symmetry; exact L2|].
        exfalso. destruct (I2 j) as [X _]. destruct (X (or_introl eq_refl)) as (_ & (_ & xk & E' & _) & _). congruence.
    + intros fuel x y Hf E. destruct (H3 fuel x Hf) as (y' & E'). rewrite E'.
      rewrite <- tp_all_erase, E' in E. cbn in E. inversion E. reflexivity.
Qed.
End Hits.

(* ---- tallies ---- *)
Lemma tally_app : forall A (P : A -> Prop) l1 l2 n m, tally P l1 n -> tally P l2 m -> tally P (l1 ++ l2) (n + m).
Proof. intros A P l1 l2 n m H1 H2. induction H1; simpl; auto; [constructor 2|constructor 3]; auto. Qed.
Lemma tally_none : forall A (P : A -> Prop) l, (forall x, In x l -> ~ P x) -> tally P l 0.
Proof.
  intros A P l H. induction l as [|x l IH]; [constructor|]. constructor 3; [apply H; left; reflexivity|].
  apply IH. intros y Hy. apply H. right; exact Hy.
Qed.
Lemma tally_same : forall A (P Q : A -> Prop) l n, (forall x, In x l -> (P x <-> Q x)) -> tally P l n -> tally Q l n.
Proof.
  intros A P Q l n H Ht. induction Ht as [|x l n Hx Ht IH|x l n Hx Ht IH]; [constructor|constructor 2|constructor 3].
  - apply H; [left; reflexivity|exact Hx].
  - apply IH. intros y Hy. apply H. right; exact Hy.
  - intros X. apply Hx. apply H; [left; reflexivity|exact X].
  - apply IH. intros y Hy. apply H. right; exact Hy.
Qed.
Lemma tally_perm : forall A (P : A -> Prop) l l', Permutation l l' -> forall n, tally P l n -> tally P l' n.
Proof.
  intros A P l l' Hp. induction Hp; intros k Hk; auto.
  - inversion Hk; subst; [constructor 2|constructor 3]; auto.
  - inversion Hk as [|? ? ? H1 H2|? ? ? H1 H2]; subst; inversion H2; subst;
      repeat first [apply tally_yes; [assumption|] | apply tally_no; [assumption|]]; assumption.
Qed.
Lemma tally_map : forall A B (f : A -> B) (P : B -> Prop) l n, tally (fun x => P (f x)) l n <-> tally P (map f l) n.
Proof.
  intros A B f P. induction l as [|x l IH]; intros n; simpl; split; intros H.
  - inversion H; constructor.
  - inversion H; constructor.
  - inversion H; subst; [constructor 2|constructor 3]; auto; apply IH; auto.
  - inversion H; subst; [constructor 2|constructor 3]; auto; apply IH; auto.
Qed.
Lemma tally_repeat : forall A (x : A) k, tally (eq x) (repeat x k) k.
Proof. intros. induction k; simpl; constructor; auto. Qed.
Lemma tally_repeat_other : forall A (P : A -> Prop) x k, ~ P x -> tally P (repeat x k) 0.
Proof. intros A P x k H. apply tally_none. intros y Hy. apply repeat_spec in Hy. subst. exact H. Qed.
Lemma tally_fun : forall A (P : A -> Prop) l n, tally P l n -> forall m, tally P l m -> n = m.
Proof.
  intros A P l n H. induction H as [|x l n Hx H IH|x l n Hx H IH]; intros m Hm; inversion Hm; subst; auto; try contradiction.
Qed.
Lemma tally_bool : forall A (P : A -> Prop) (f : A -> bool) l, (forall x, In x l -> (f x = true <-> P x)) ->
  tally P l (length (filter f l)).
Proof.
  intros A P f l H. induction l as [|x l IH]; [constructor|]. simpl.
  assert (IH' : tally P l (length (filter f l))) by (apply IH; intros y Hy; apply H; right; exact Hy).
  destruct (f x) eqn:E; [simpl; constructor 2|constructor 3]; auto.
  - apply H; [left; reflexivity|exact E].
  - intros X. apply (H x (or_introl eq_refl)) in X. congruence.
Qed.

(* the elements produced for one key, of a duplicate free list of keys *)
Lemma tally_flat_map : forall A (P : A -> Prop) (f : nat -> list A) i keys n,
  NoDup keys -> (forall j, j <> i -> forall x, In x (f j) -> ~ P x) -> tally P (f i) n ->
  tally P (flat_map f keys) (if existsb (Nat.eqb i) keys then n else 0).
Proof.
  intros A P f i keys n Hnd Hoff Hn. induction Hnd as [|j keys Hj Hnd IH]; [constructor|]. cbn [flat_map existsb].
  destruct (Nat.eqb i j) eqn:E; cbn [orb].
  - apply Nat.eqb_eq in E. subst j. replace n with (n + 0) by lia. apply tally_app; [exact Hn|].
    destruct (existsb (Nat.eqb i) keys) eqn:Ee; [|exact IH]. apply existsb_eqb_in in Ee. contradiction.
  - apply Nat.eqb_neq in E. change (if existsb (Nat.eqb i) keys then n else 0) with (0 + if existsb (Nat.eqb i) keys then n else 0).
    apply tally_app; [|exact IH]. apply tally_none. apply Hoff. congruence.
Qed.
Lemma tally_sum : forall A B (P : B -> Prop) (f : A -> list B) l ns,
  Forall2 (fun x n => tally P (f x) n) l ns -> tally P (flat_map f l) (list_sum ns).
Proof. intros A B P f l ns H. induction H; [constructor|]. cbn [flat_map list_sum fold_right]. apply tally_app; auto. Qed.

(* ---- the whole scan ---- *)
Section Scan.
Variable E : encoding.
Variable w : char -> nat.
Variable sc : scanner.
Variable cs : list counted_search.
Variable fs : nat -> finder.
Variable ks : nat -> str -> path -> bool -> bool -> nat.
Variable blocked : list nat.
Variable srt : sorter.
Variable all : list (path * str).
Hypothesis Hmeets : scanner_meets sc fs all.
Hypothesis Hcounts : forall i r, nth_error (sc_rules sc) i = Some r -> exists c, nth_error cs i = Some c /\
  forall fuel content p excl kw x y, (exists q, In (q, content) all) -> nbytes content + 2 <= fuel ->
    rule_string_matches r fuel content p excl [] kw x = Ret y ->
    c fuel content p excl [] kw x = Ret (y, ks i content p (excl i) kw).

Let kw := sc_kw_paths sc.

Definition kws_of (p : path) (c : str) (i : nat) : list emission :=
  if existsb (Nat.eqb i) blocked then [] else repeat (EmKeyword i) (ks i c p (excl_p sc p i) kw).

Lemma visit_rules_counted : forall p c, (exists q, In (q, c) all) -> forall fuel, nbytes c + 2 <= fuel ->
  forall rules ms0 x0 em0, (forall i, In i rules -> exists r, nth_error (sc_rules sc) i = Some r) ->
  foldM (visit_content_rule_counted fuel sc cs blocked p c (excl_p sc p)) rules (ms0, x0, em0) =
  omap (fun r => (r, em0 ++ flat_map (kws_of p c) rules))
       (foldM (visit_content_rule fuel sc blocked p c (excl_p sc p)) rules (ms0, x0)).
Proof.
  intros p c Hd fuel Hf. induction rules as [|i rules IH]; intros ms0 x0 em0 Hr.
  - cbn. rewrite app_nil_r. reflexivity.
  - cbn [foldM flat_map]. unfold visit_content_rule_counted at 1, visit_content_rule at 1, kws_of at 1.
    destruct (existsb (Nat.eqb i) blocked).
    + cbn [bind app]. apply IH. intros j Hj. apply Hr. right; exact Hj.
    + destruct (Hr i) as (r & Er); [left; reflexivity|]. destruct (Hcounts i r Er) as (s & Es & Hs).
      rewrite Er, Es. cbn [unwrap bind fst snd].
      pose proof (mt_runs _ _ _ _ (Hmeets i r Er) fuel c p (excl_p sc p) kw x0 Hd Hf) as Hrun.
      pose proof (Hs fuel c p (excl_p sc p) kw x0 _ Hd Hf Hrun) as Hrun'.
      fold kw. rewrite Hrun, Hrun'. cbn [bind]. rewrite IH by (intros j Hj; apply Hr; right; exact Hj).
      rewrite <- app_assoc. reflexivity.
Qed.

Lemma visit_content_counted_ok : forall p c fuel (st : scan_state E) em, (exists q, In (q, c) all) -> nbytes c + 2 <= fuel ->
  visit_content_counted fuel srt sc cs blocked p c (rules_p sc p) (excl_p sc p) (st, em) =
  omap (fun r => ((fst r, em ++ flat_map (kws_of p c) (rules_p sc p)), snd r))
       (visit_content fuel srt sc blocked p c (rules_p sc p) (excl_p sc p) st).
Proof.
  intros p c fuel st em Hd Hf. unfold visit_content_counted, visit_content. cbn [fst snd].
  rewrite (visit_rules_counted p c Hd fuel Hf).
  2:{ intros i Hi. apply rules_p_spec in Hi as (r & Er & _). eauto. }
  destruct (foldM _ _ _) as [[ms x]| |]; cbn [bind omap]; auto.
  destruct (attach_indices _ _); reflexivity.
Qed.

Definition kws_at (pc : path * str) : list emission := flat_map (kws_of (fst pc) (snd pc)) (rules_p sc (fst pc)).

Lemma visit_all_counted : forall fuel strs0 (st : scan_state E) em log,
  enough_fuel fuel strs0 -> (forall t, In t strs0 -> In t all) ->
  foldM (visit_one (sc_wild sc) (sc_tree sc) (length (sc_rules sc)) (visit_content_counted fuel srt sc cs blocked)) strs0
        ((st, em), log) =
  omap (fun r => ((fst r, em ++ flat_map kws_at strs0), snd r))
       (foldM (visit_one (sc_wild sc) (sc_tree sc) (length (sc_rules sc)) (visit_content fuel srt sc blocked)) strs0 (st, log)).
Proof.
  intros fuel. induction strs0 as [|[p c] strs0 IH]; intros st em log Hf Hall.
  - cbn. rewrite app_nil_r. reflexivity.
  - cbn [foldM flat_map]. unfold visit_one at 1 3. cbn [fst snd].
    fold (rules_p sc p). fold (excl_p sc p). rewrite visit_content_counted_ok.
    2:{ exists p. apply Hall. left; reflexivity. }
    2:{ apply (Hf p c). left; reflexivity. }
    destruct (visit_content fuel srt sc blocked p c (rules_p sc p) (excl_p sc p) st) as [[st' mm]| |]; cbn [bind omap fst snd]; auto.
    rewrite IH.
    + unfold kws_at at 2. cbn [fst snd]. rewrite <- app_assoc. reflexivity.
    + intros q d H. apply (Hf q d). right; exact H.
    + intros; apply Hall; right; auto.
Qed.

(* the increments of multi-pass for one string *)
Definition drops (x : excluded_set) (t : entry E) : list emission :=
  if sc_multipass sc then
    match multipass_retain_counted (sc_rules sc) x (snd (fst t)) (snd t) with Ret r => snd r | _ => [] end
  else [].

Lemma process_string_drops : forall h x p c ims y,
  process_string h srt sc x p ims c = Ret y ->
  process_string_counted h srt sc x p ims c = Ret (y, drops x (p, c, ims)).
Proof.
  intros h x p c ims y H. pose proof (process_string_erase sc E h srt x p ims c) as He. rewrite H in He.
  destruct (process_string_counted h srt sc x p ims c) as [[y' em]| |] eqn:Ep; try discriminate.
  cbn in He. inversion He; subst. f_equal. f_equal.
  unfold process_string_counted in Ep. unfold drops. cbn [fst snd].
  destruct (sc_multipass sc).
  - destruct (multipass_retain_counted (sc_rules sc) x c ims) as [[ms1 em1]| |]; cbn [bind fst snd] in *; try discriminate.
    destruct (sort_and_remove_overlapping_rules _ _ _); cbn [bind] in Ep; try discriminate.
    destruct (apply_match_actions _ _ _ _ _); cbn [bind] in Ep; try discriminate. inversion Ep. reflexivity.
  - cbn [bind fst snd] in Ep. destruct (sort_and_remove_overlapping_rules _ _ _); cbn [bind] in Ep; try discriminate.
    destruct (apply_match_actions _ _ _ _ _); cbn [bind] in Ep; try discriminate. inversion Ep. reflexivity.
Qed.

Lemma drops_kinds : forall x t e, In e (drops x t) -> exists i, e = EmExcluded i.
Proof.
  intros x [[p c] ims] e. unfold drops. cbn [fst snd]. destruct (sc_multipass sc); [|intros []].
  assert (H : forall y, multipass_retain_counted (sc_rules sc) x c ims = Ret y -> forall e, In e (snd y) -> exists i, e = EmExcluded i).
  { induction ims as [|m ims IH]; intros y Hy.
    - inversion Hy; subst. intros e0 [].
    - cbn [multipass_retain_counted] in Hy. destruct (unwrap _) as [r| |]; cbn [bind] in Hy; try discriminate.
      destruct (if rule_multipass r then _ else _) as [keep| |]; cbn [bind] in Hy; try discriminate.
      destruct (multipass_retain_counted (sc_rules sc) x c ims) as [rest| |]; cbn [bind] in Hy; try discriminate.
      inversion Hy; subst. intros e0. destruct keep; cbn [snd].
      + apply IH. reflexivity.
      + intros [<-|He]; [eauto|]. eapply IH; eauto. }
  destruct (multipass_retain_counted (sc_rules sc) x c ims) as [y| |]; [|intros []|intros []]. intros He. eapply H; eauto.
Qed.

Variable strs : list (path * str).

Lemma drops_tally : forall x p c ims i, (forall t, In t x <-> found_excluded sc fs blocked strs t) ->
  (forall m, In m ims -> good_match E w sc c m) ->
  exists n, tally (eq (EmExcluded i)) (drops x (p, c, ims)) n /\
    tally (fun k => fst (fst k) = i /\ suppressed sc fs blocked strs c k) (map key ims) n.
Proof.
  intros x p c ims i Hx Hg. unfold drops. cbn [fst snd]. destruct (sc_multipass sc) eqn:Hmp.
  - assert (H : exists y n, multipass_retain_counted (sc_rules sc) x c ims = Ret y /\ tally (eq (EmExcluded i)) (snd y) n /\
        tally (fun k => fst (fst k) = i /\ suppressed sc fs blocked strs c k) (map key ims) n).
    { induction ims as [|m ims IH].
      - eexists _, 0. split; [reflexivity|]. split; constructor.
      - destruct IH as (y & n & E1 & T1 & T2). { intros m' Hm'. apply Hg. right; exact Hm'. }
        destruct (Hg m (or_introl eq_refl)) as ((r & Er & _) & _ & (t & Ht) & _).
        cbn [multipass_retain_counted map]. rewrite Er. cbn [unwrap bind].
        assert (Hsup : suppressed sc fs blocked strs c (key m) <-> rule_multipass r = true /\ In t x).
        { unfold suppressed. rewrite key_eq. split.
          - intros (_ & (r' & Er' & Hr') & t' & Ht' & Hf). assert (r' = r) by congruence. subst r'.
            split; [exact Hr'|]. apply Hx. rewrite (part_at_unique _ _ _ _ _ Ht Ht'). exact Hf.
          - intros (Hr & Hin). split; [exact Hmp|]. split; [eauto|]. exists t. split; [exact Ht|]. apply Hx. exact Hin. }
        destruct (rule_multipass r) eqn:Hr.
        + rewrite (proj2 (slice_part c (im_start m) (im_end m) t) Ht). cbn [bind]. rewrite E1. cbn [bind].
          destruct (excluded_contains x t) eqn:Hc; cbn [negb].
          * apply excluded_contains_in in Hc. destruct (Nat.eq_dec (im_rule m) i) as [Ei|Ei].
            { exists (fst y, EmExcluded (im_rule m) :: snd y), (S n). split; [reflexivity|]. split.
              - constructor 2; [congruence|exact T1].
              - constructor 2; [split; [exact Ei|apply Hsup; auto]|exact T2]. }
            { exists (fst y, EmExcluded (im_rule m) :: snd y), n. split; [reflexivity|]. split.
              - constructor 3; [congruence|exact T1].
              - constructor 3; [intros (X & _); apply Ei; exact X|exact T2]. }
          * exists (m :: fst y, snd y), n. split; [reflexivity|]. split; [exact T1|]. constructor 3; [|exact T2].
            intros (_ & X). apply Hsup in X as (_ & X). apply excluded_contains_in in X. congruence.
        + cbn [bind]. rewrite E1. cbn [bind]. exists (m :: fst y, snd y), n. split; [reflexivity|]. split; [exact T1|].
          constructor 3; [|exact T2]. intros (_ & X). apply Hsup in X as (X & _). discriminate. }
    destruct H as (y & n & E1 & T1 & T2). rewrite E1. eauto.
  - exists 0. split; [constructor|]. apply tally_none. intros [[i' a] b] _ (_ & X & _). congruence.
Qed.

(* the candidates of rule [i] *)
Lemma cands_tally : forall p c i n, (exists q, In (q, c) all) ->
  tally (fun k => fst (fst k) = i /\ suppressed sc fs blocked strs c k)
        (flat_map (cands_of sc fs blocked p c) (rules_p sc p)) n ->
  multipass_hits sc fs blocked strs i p c n.
Proof.
  intros p c i n Hd H.
  set (P := fun k : nat * nat * nat => fst (fst k) = i /\ suppressed sc fs blocked strs c k) in *.
  assert (Hnd : NoDup (rules_p sc p)).
  { unfold rules_p, sc_tree. rewrite <- (map_length rule_scope (sc_rules sc)). apply rules_at_spec. }
  assert (Hoff : forall j, j <> i -> forall k, In k (cands_of sc fs blocked p c j) -> ~ P k).
  { intros j Hj k Hk (Hi & _). unfold cands_of in Hk. destruct (existsb (Nat.eqb j) blocked); [destruct Hk|].
    apply in_map_iff in Hk as (ab & <- & _). cbn in Hi. congruence. }
  destruct (existsb (Nat.eqb i) (rules_p sc p)) eqn:Ei.
  - assert (D : exists n', tally P (cands_of sc fs blocked p c i) n').
    { apply existsb_eqb_in in Ei. clear Hnd. revert n H. induction (rules_p sc p) as [|j l IH]; [destruct Ei|].
      intros n H. cbn [flat_map] in H.
      assert (Hs : forall l1 l2 k, tally P (l1 ++ l2) k -> exists k1 k2, tally P l1 k1 /\ tally P l2 k2).
      { induction l1 as [|z l1 IH1]; intros l2 k Hk; [exists 0, k; split; [constructor|exact Hk]|].
        inversion Hk; subst; edestruct IH1 as (k1 & k2 & A & B); eauto;
          eexists _, k2; (split; [|exact B]); [constructor 2|constructor 3]; eauto. }
      destruct (Hs _ _ _ H) as (k1 & k2 & A & B). destruct Ei as [->|Ei]; [eauto|]. eapply IH; eauto. }
    destruct D as (n' & D).
    assert (n = n').
    { eapply tally_fun; [exact H|]. pose proof (tally_flat_map _ P (cands_of sc fs blocked p c) i _ n' Hnd Hoff D) as T.
      rewrite Ei in T. exact T. }
    subst n'. apply existsb_eqb_in in Ei. apply rules_p_spec in Ei as (r & Er & Hinc).
    unfold cands_of in D. destruct (existsb (Nat.eqb i) blocked) eqn:Eb.
    + apply existsb_eqb_in in Eb. inversion D; subst. split; [|reflexivity]. intros (r' & _ & X & _). contradiction.
    + apply tally_map in D. assert (~ In i blocked) by (intros X; apply existsb_eqb_in in X; congruence).
      destruct (excl_p sc p i) eqn:Ex.
      * rewrite (mt_excluded _ _ _ _ (Hmeets i r Er)) in D by exact Hd. inversion D; subst.
        apply (excl_p_spec sc p i r Er) in Ex. split; [|reflexivity].
        intros (r' & Er' & _ & _ & X). assert (r' = r) by congruence. subst. contradiction.
      * split.
        { intros _. apply (tally_same _ _ _ _ _) with (2 := D). intros ab _. unfold P. cbn [fst snd]. tauto. }
        { intros X. exfalso. apply X. exists r. split; [exact Er|]. split; [assumption|]. split; [exact Hinc|].
          intros Y. apply (excl_p_spec sc p i r Er) in Y. congruence. }
  - assert (n = 0).
    { eapply tally_fun; [exact H|]. apply tally_none. intros k Hk Hp. apply in_flat_map in Hk as (j & Hj & Hk).
      apply (Hoff j) in Hk; [contradiction|]. intros ->. apply existsb_eqb_in in Hj. congruence. }
    subst n. split; [|reflexivity]. intros (r & Er & _ & Hinc & _). exfalso.
    assert (In i (rules_p sc p)) as Hi by (apply rules_p_spec; eauto). apply existsb_eqb_in in Hi. congruence.
Qed.

(* the keyword increments of a string *)
Lemma kws_tally : forall p c i, exists n, tally (eq (EmKeyword i)) (kws_at (p, c)) n /\
  (runs_at sc blocked i p -> n = ks i c p (excl_p sc p i) kw) /\ (~ runs_at sc blocked i p -> n = 0).
Proof.
  intros p c i. unfold kws_at. cbn [fst snd].
  assert (Hnd : NoDup (rules_p sc p)).
  { unfold rules_p, sc_tree. rewrite <- (map_length rule_scope (sc_rules sc)). apply rules_at_spec. }
  eexists. split.
  - apply (tally_flat_map _ (eq (EmKeyword i)) (kws_of p c) i) with
      (n := if existsb (Nat.eqb i) blocked then 0 else ks i c p (excl_p sc p i) kw); [exact Hnd| |].
    + intros j Hj e He. unfold kws_of in He. destruct (existsb (Nat.eqb j) blocked); [destruct He|].
      apply repeat_spec in He. subst e. congruence.
    + unfold kws_of. destruct (existsb (Nat.eqb i) blocked); [constructor|apply tally_repeat].
  - split.
    + intros (r & Er & Hb & Hinc). assert (In i (rules_p sc p)) as Hi by (apply rules_p_spec; eauto).
      apply existsb_eqb_in in Hi. rewrite Hi. destruct (existsb (Nat.eqb i) blocked) eqn:Eb; [|reflexivity].
      apply existsb_eqb_in in Eb. contradiction.
    + intros H. destruct (existsb (Nat.eqb i) (rules_p sc p)) eqn:Ei; [|reflexivity].
      destruct (existsb (Nat.eqb i) blocked) eqn:Eb; [reflexivity|]. exfalso. apply H.
      apply existsb_eqb_in in Ei. apply rules_p_spec in Ei as (r & Er & Hinc). exists r. split; [exact Er|].
      split; [|exact Hinc]. intros X. apply existsb_eqb_in in X. congruence.
Qed.

Lemma kws_kinds : forall pc e, In e (kws_at pc) -> exists i, e = EmKeyword i.
Proof.
  intros pc e H. unfold kws_at in H. apply in_flat_map in H as (i & _ & H). unfold kws_of in H.
  destruct (existsb (Nat.eqb i) blocked); [destruct H|]. apply repeat_spec in H. eauto.
Qed.
End Scan.

Section Event.
Variable I : event_impl.
Variable w : char -> nat.
Variable sc : scanner.
Variable fs : nat -> finder.
Variable blocked : list nat.
Variable srt : sorter.
Hypothesis Hshift : shifts_additive (ev_enc I) w.
Hypothesis Hsrt : sorter_ok srt.
Variable e0 : ev_t I.
Variable strs : list (path * str).
Variable holds : ev_t I -> list (path * str * bool) -> Prop.
Hypothesis Hlaws : event_laws I e0 strs holds.
Variable h : hashers.
Variable x : excluded_set.
Hypothesis Hx : forall t, In t x <-> found_excluded sc fs blocked strs t.

Lemma process_all_drops : forall (l : list (entry (ev_enc I))) e done,
  (forall t, In t l -> (forall k, In k (map key (snd t)) <-> candidate sc fs blocked (fst (fst t)) (snd (fst t)) k) /\
                       (forall m, In m (snd t) -> good_match (ev_enc I) w sc (snd (fst t)) m)) ->
  NoDup (map (fun y => fst (fst y)) (done ++ map (pending (ev_enc I)) l)) ->
  holds e (done ++ map (pending (ev_enc I)) l) ->
  process_all_counted I h srt sc x e (found_of (ev_enc I) l) =
  omap (fun r => (r, flat_map (drops (ev_enc I) sc x) l)) (process_all I h srt sc x e (found_of (ev_enc I) l)).
Proof.
  induction l as [|[[p c] ims] l IH]; intros e done Hl Hnd Hh; [reflexivity|].
  destruct (Hl (p, c, ims) (or_introl eq_refl)) as [Hk Hg]. cbn [fst snd] in Hk, Hg.
  destruct (process_ok (ev_enc I) w sc fs blocked srt Hshift Hsrt p c h strs x Hx ims Hk Hg)
    as (c1 & mutated & outs1 & E1 & Hm1 & _).
  assert (Hl' : forall t, In t l -> (forall k, In k (map key (snd t)) <-> candidate sc fs blocked (fst (fst t)) (snd (fst t)) k) /\
                       (forall m, In m (snd t) -> good_match (ev_enc I) w sc (snd (fst t)) m))
    by (intros t Ht; apply Hl; right; exact Ht).
  destruct ims as [|m ims].
  - unfold found_of. cbn [flat_map snd app]. fold (found_of (ev_enc I) l).
    rewrite IH with (done := done ++ [(p, c, false)]); auto.
    + assert (Hd : drops (ev_enc I) sc x (p, c, []) = []).
      { unfold drops. destruct (sc_multipass sc); reflexivity. }
      rewrite Hd. reflexivity.
    + rewrite <- app_assoc. exact Hnd.
    + rewrite <- app_assoc. exact Hh.
  - unfold found_of. cbn [flat_map snd fst]. fold (found_of (ev_enc I) l). cbn [app process_all_counted process_all].
    rewrite (el_get _ _ _ _ Hlaws e _ p c Hh).
    2:{ apply in_or_app. right. left. reflexivity. }
    cbn [bind]. rewrite (process_string_drops (ev_enc I) sc srt h x p c (m :: ims) _ E1), E1. cbn [bind].
    rewrite IH with (done := done ++ [(p, c1, false)]); auto.
    + destruct (process_all I h srt sc x (ev_set I e p c1 mutated) (found_of (ev_enc I) l)) as [[e' outs]| |]; reflexivity.
    + rewrite <- app_assoc. simpl. rewrite !map_app in *. simpl in *. exact Hnd.
    + rewrite <- app_assoc. simpl. apply (el_set _ _ _ _ Hlaws e done p c); auto.
Qed.
End Event.

(* the increments of a scan *)
Lemma scan_increments : forall I w sc cs fs ks blocked srt e strs holds h fuel,
  shifts_additive (ev_enc I) w -> indices_additive (ev_enc I) w ->
  sorter_ok srt -> scanner_meets sc fs strs -> event_laws I e strs holds -> enough_fuel fuel strs ->
  (forall i r, nth_error (sc_rules sc) i = Some r -> exists c, nth_error cs i = Some c /\
    forall fuel content p excl kw x y, (exists q, In (q, content) strs) -> nbytes content + 2 <= fuel ->
      rule_string_matches r fuel content p excl [] kw x = Ret y ->
      c fuel content p excl [] kw x = Ret (y, ks i content p (excl i) kw)) ->
  exists e' outs em1 em2,
    scan_counted I fuel h srt sc cs blocked e = Ret (e', outs, em1 ++ em2 ++ [EmScanned; EmMatches (length outs)]) /\
    scan I fuel h srt sc blocked e = Ret (e', outs) /\
    (forall a, In a em1 -> exists i, a = EmKeyword i) /\ (forall a, In a em2 -> exists i, a = EmExcluded i) /\
    (forall i, exists ns, tally (eq (EmKeyword i)) em1 (list_sum ns) /\
       Forall2 (fun pc n => (runs_at sc blocked i (fst pc) ->
                             exists e, n = ks i (snd pc) (fst pc) e (sc_kw_paths sc)) /\
                            (~ runs_at sc blocked i (fst pc) -> n = 0)) strs ns) /\
    (forall i, exists ns, tally (eq (EmExcluded i)) em2 (list_sum ns) /\
       Forall2 (fun pc n => multipass_hits sc fs blocked strs i (fst pc) (snd pc) n) strs ns).
Proof.
  intros I w sc cs fs ks blocked srt e strs holds h fuel Hs Hi Hsrt Hm Hl Hf Hc.
  unfold scan_counted, scan.
  assert (Hv : forall S (cv : content_visitor S) s, visit_string_rule_combinations (sc_tree sc) (length (sc_rules sc)) (sc_wild sc)
      (ev_ops I e) cv s =
      foldM (visit_one (sc_wild sc) (sc_tree sc) (length (sc_rules sc)) cv) strs (s, [])).
  { intros. unfold sc_tree. rewrite <- (map_length rule_scope (sc_rules sc)).
    apply visit_scopes. apply (el_shows _ _ _ _ Hl). }
  rewrite !Hv.
  assert (Hva := visit_all_counted (ev_enc I) sc cs fs ks blocked srt strs Hm Hc fuel strs ([], []) [] [] Hf (fun t H => H)).
  match type of Hva with ?t = _ =>
    match goal with |- context [foldM ?f strs ?s] => change (foldM f strs s) with t end end.
  rewrite Hva. clear Hva.
  destruct (visit_all (ev_enc I) w sc fs blocked srt Hi Hsrt strs Hm fuel strs [] [] [] Hf (fun t H => H))
    as (l & x & E1 & K1 & G1 & X1 & P1).
  match type of E1 with ?t = _ => set (T := t) in * end.
  repeat match goal with |- context [foldM ?f strs ?s] => change (foldM f strs s) with T end.
  rewrite E1. cbn [bind app omap fst snd].
  assert (Hx : forall t, In t x <-> found_excluded sc fs blocked strs t).
  { intros t. rewrite X1. split; auto. intros [[]|]; auto. }
  assert (Hlog : map fst (map (pending (ev_enc I)) l) = strs).
  { rewrite map_map. rewrite <- K1. apply map_ext. intros; reflexivity. }
  assert (Hnd : NoDup (map (fun y : path * str * bool => fst (fst y)) ([] ++ map (pending (ev_enc I)) l))).
  { simpl. rewrite <- (map_map fst fst). rewrite Hlog. apply (el_distinct _ _ _ _ Hl). }
  assert (Hh : holds (ev_visited I e (map (pending (ev_enc I)) l)) ([] ++ map (pending (ev_enc I)) l)).
  { simpl. apply (el_visited _ _ _ _ Hl). exact Hlog. }
  rewrite (process_all_drops I w sc fs blocked srt Hs Hsrt e strs holds Hl h x Hx l _ [] G1 Hnd Hh).
  destruct (process_all_ok I w sc fs blocked srt Hs Hsrt e strs holds Hl h x Hx l _ [] G1 Hnd Hh)
    as (e' & res & E2 & _). rewrite E2. cbn [bind omap].
  eexists _, _, _, _. split; [reflexivity|]. split; [reflexivity|]. split; [|split; [|split]].
  - intros a Ha. apply in_flat_map in Ha as (pc & _ & Ha). eapply kws_kinds; eauto.
  - intros a Ha. apply in_flat_map in Ha as (t & _ & Ha). eapply drops_kinds; eauto.
  - intros i. clear -strs.
    assert (H : exists ns, Forall2 (fun pc n => tally (eq (EmKeyword i)) (kws_at sc ks blocked pc) n /\
       ((runs_at sc blocked i (fst pc) -> exists e, n = ks i (snd pc) (fst pc) e (sc_kw_paths sc)) /\
        (~ runs_at sc blocked i (fst pc) -> n = 0))) strs ns).
    { induction strs as [|[p c] l IH]; [exists []; constructor|]. destruct IH as (ns & IH).
      destruct (kws_tally sc ks blocked p c i) as (n & T & A & B). exists (n :: ns). constructor; [|exact IH].
      cbn [fst snd]. split; [exact T|]. split; [intros X; eauto|exact B]. }
    destruct H as (ns & H). exists ns. split.
    + apply tally_sum. eapply Forall2_weaken; [|exact H]. intros a b [X _]. exact X.
    + eapply Forall2_weaken; [|exact H]. intros a b [_ X]. exact X.
  - intros i. clear E2 Hlog Hnd Hh Hv X1.
    assert (Hall : forall t, In t l -> In (fst t) strs) by (intros t Ht; rewrite <- K1; apply in_map; exact Ht).
    assert (H : exists ns, Forall2 (fun t n => tally (eq (EmExcluded i)) (drops (ev_enc I) sc x t) n /\
       multipass_hits sc fs blocked strs i (fst (fst t)) (snd (fst t)) n) l ns).
    { clear K1 E1 T. induction l as [|[[p c] ims] l IH]; [exists []; constructor|].
      destruct IH as (ns & IH).
      { intros t Ht. apply G1. right; exact Ht. } { intros t Ht. apply P1. right; exact Ht. }
      { intros t Ht. apply Hall. right; exact Ht. }
      destruct (G1 (p, c, ims) (or_introl eq_refl)) as [_ Hg]. cbn [fst snd] in Hg.
      destruct (drops_tally (ev_enc I) w sc fs blocked strs x p c ims i Hx Hg) as (n & T1 & T2).
      exists (n :: ns). constructor; [|exact IH]. split; [exact T1|]. cbn [fst snd].
      apply (cands_tally sc fs blocked strs Hm strs).
      - exists p. apply (Hall (p, c, ims)). left; reflexivity.
      - eapply tally_perm; [apply Permutation_sym, (P1 (p, c, ims)); left; reflexivity|exact T2]. }
    destruct H as (ns & H). exists ns. split.
    + apply tally_sum. eapply Forall2_weaken; [|exact H]. intros a b [X _]. exact X.
    + assert (H' : Forall2 (fun pc n => multipass_hits sc fs blocked strs i (fst pc) (snd pc) n) (map fst l) ns).
      { clear -H. induction H as [|t n l ns [_ X] H IH]; simpl; constructor; auto. }
      rewrite K1 in H'. exact H'.
Qed.
