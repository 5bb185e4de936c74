(* How often regex engines are called (C99): proofs of the statements of Thm/Calls.v *)
From Coq Require Import Lia Sorted.
From Verif Require Import Proofs.Text Proofs.KeywordSearch Proofs.Calls Proofs.Visitor Proofs.Scan Proofs.EndToEndClaims Proofs.BuildClaims Proofs.KeywordsClaims.
From Verif Require Export Spec.Calls Spec.Claims Spec.EndToEnd Examples.Engine Examples.Setting Examples.Build.

(* -- a rule for two digits of which a check accepts those that start with 5 -- *)
Definition two_digits : matcher := digits 2.
Definition checked_rule : regex_rule := {|
  rr_index := 0; rr_find := engine two_digits; rr_excluded := None;
  rr_included := rr_included (keyword_rule 0 two_digits [chars "key"] 8);
  rr_validator := Some (fun t => match t with c :: _ => N.eqb c 53 | [] => false end) |}.
Lemma checked_rule_ok : regex_ok checked_rule (match_at two_digits) (occurrence [chars "key"]).
Proof. destruct (keyword_ok 0 two_digits [chars "key"] 8) as [A B]; [repeat constructor|]. constructor; assumption. Qed.

(* one with excluded keywords instead *)
Definition barred_digits : regex_rule := excluding_rule 0 two_digits 8 [chars "no"].
Definition calls_rules : list regex_rule := [barred_digits; checked_rule].
Definition calls_scanner : scanner := {|
  sc_rules := map (regex_compiled ActNone everywhere None) calls_rules; sc_kw_paths := false; sc_wild := false;
  sc_multipass := false; sc_return_matches := false |}.
Lemma calls_behave : engines_behave calls_scanner (map regex_calls calls_rules).
Proof.
  constructor; [|constructor; [|constructor]].
  - exists ActNone, everywhere, None, barred_digits, (match_at two_digits), (fun _ _ _ => False).
    split; [reflexivity|]. split; [reflexivity|]. apply excluding_ok.
  - exists ActNone, everywhere, None, checked_rule, (match_at two_digits), (occurrence [chars "key"]).
    split; [reflexivity|]. split; [reflexivity|]. apply checked_rule_ok.
Qed.

(* -- the calls of one string -- *)
Lemma with_keywords : forall r at_ ik occ c p excl tp kw x fuel ms x' calls, leftmost (rr_find r) at_ ->
  earliest (ik_find ik) occ -> 1 <= ik_look_ahead ik ->
  matches_with_included_keywords_calls fuel r ik c p excl tp kw x = Ret (ms, x', calls) ->
  count searches calls <= 4 * length c + 3 /\ count keyword_searches calls <= length c + 2 /\
  length calls = count searches calls + count keyword_searches calls.
Proof.
  intros r at_ ik occ c p excl tp kw x fuel ms x' calls Hlm Hea Hla H. unfold matches_with_included_keywords_calls in H.
  assert (P : forall f y m y' l, tp_all_calls f r c false excl 0 y = Ret (m, y', l) ->
    count searches l <= length c + 1 /\ count keyword_searches l = 0 /\ length l = count searches l).
  { intros f y m y' l E. pose proof (tp_all_run r at_ Hlm _ _ _ _ _ _ _ _ _ (boundary_zero c) E) as R.
    destruct (run_counts _ _ _ R) as (A & B & _ & D). destruct R as (_ & _ & _ & _ & W). rewrite (W eq_refl) in D. cbn in D. lia. }
  destruct (existsb _ tp).
  { apply P in H as (A & B & D). lia. }
  destruct (kw_outer_calls fuel r ik c excl 0 x) as [[[ms0 x0] l0]| |] eqn:E; cbn [bind] in H; try discriminate H.
  destruct (kw_outer_run r at_ Hlm ik occ Hea Hla _ _ _ _ 0 _ _ _ _ (boundary_zero c) (or_introl eq_refl) E) as (A & B & D).
  rewrite rank_zero, Nat.sub_0_r in A, B.
  destruct kw; [|injection H as <- <- <-; split; [lia|split; lia]].
  destruct (rr_find r c 0) as [m|].
  - destruct (ik_path_match ik (sanitize p)).
    + destruct (tp_all_calls fuel r c false excl 0 x0) as [[[ms2 x2] l2]| |] eqn:E2; cbn [bind] in H; try discriminate H.
      injection H as <- <- <-. apply P in E2 as (A2 & B2 & D2).
      change (CallPresence :: CallPath :: l2) with ([CallPresence; CallPath] ++ l2). rewrite !count_app, !app_length.
      change (count searches [CallPresence; CallPath]) with 1. change (count keyword_searches [CallPresence; CallPath]) with 1.
      change (length [CallPresence; CallPath]) with 2. lia.
    + injection H as <- <- <-. rewrite !count_app, !app_length.
      change (count searches [CallPresence; CallPath]) with 1. change (count keyword_searches [CallPresence; CallPath]) with 1.
      change (length [CallPresence; CallPath]) with 2. lia.
  - injection H as <- <- <-. rewrite !count_app, !app_length.
    change (count searches [CallPresence]) with 1. change (count keyword_searches [CallPresence]) with 0.
    change (length [CallPresence]) with 1. lia.
Qed.
Lemma string_total : forall r at_ occ c p excl tp kw x fuel ms x' calls, regex_ok r at_ occ ->
  regex_string_matches_calls fuel r c p excl tp kw x = Ret (ms, x', calls) -> length calls <= 5 * length c + 5.
Proof.
  intros r at_ occ c p excl tp kw x fuel ms x' calls [Hlm Hk] H. unfold regex_string_matches_calls in H.
  destruct (rr_included r) as [ik|] eqn:E.
  - destruct (Hk ik eq_refl) as (Hea & Hla).
    destruct (with_keywords _ _ _ _ _ _ _ _ _ _ _ _ _ _ Hlm Hea Hla H) as (A & B & C). lia.
  - pose proof (tp_all_run r at_ Hlm _ _ _ _ _ _ _ _ _ (boundary_zero c) H) as R.
    destruct (run_counts _ _ _ R) as (A & B & C & D). lia.
Qed.

(* -- scans -- *)
Lemma calls_erase : forall sc cs, calls_of sc cs -> forall i,
  (nth_error cs i = None /\ nth_error (sc_rules sc) i = None) \/
  exists r c, nth_error cs i = Some c /\ nth_error (sc_rules sc) i = Some r /\
    forall fuel content p excl tp kw x,
      omap fst (c fuel content p excl tp kw x) = rule_string_matches r fuel content p excl tp kw x.
Proof.
  intros sc cs H. unfold calls_of in H. induction H as [|r c rs cs' (a & s & v & rr & -> & ->) _ IH]; intros i.
  - left. destruct i; auto.
  - destruct i as [|i]; [|exact (IH i)]. right. eexists _, _. split; [reflexivity|]. split; [reflexivity|].
    intros. apply regex_calls_erase.
Qed.
Lemma foldM_erased : forall A S S' (f : S' -> A -> outcome S') (g : S -> A -> outcome S) (er : S' -> S),
  (forall s a, omap er (f s a) = g (er s) a) ->
  forall l s, omap er (foldM f l s) = foldM g l (er s).
Proof.
  intros A S S' f g er H. induction l as [|a l IH]; intros s; [reflexivity|]. cbn [foldM].
  rewrite <- H. unfold omap at 2. destruct (f s a); cbn [bind]; [apply IH|reflexivity|reflexivity].
Qed.
Lemma visit_content_erased : forall sc cs, calls_of sc cs -> forall E fuel srt blocked p c rules excl (st : scan_state E * list called),
  omap (fun r => (fst (fst r), snd r)) (visit_content_calls fuel srt sc cs blocked p c rules excl st) =
  visit_content fuel srt sc blocked p c rules excl (fst st).
Proof.
  intros sc cs Hcs E fuel srt blocked p c rules excl st. unfold visit_content_calls, visit_content.
  rewrite <- (foldM_erased _ _ _ (visit_content_rule_calls fuel sc cs blocked p c excl)
                (visit_content_rule fuel sc blocked p c excl) fst)
    with (s := ([], snd (fst st), snd st)).
  2:{ intros s i. unfold visit_content_rule_calls, visit_content_rule. destruct (existsb _ _); [reflexivity|].
      destruct (calls_erase sc cs Hcs i) as [[-> ->]|(r & k & -> & -> & H)]; [reflexivity|]. cbn [unwrap bind].
      rewrite <- H. destruct (k _ _ _ _ _ _ _) as [[[ms x] l]| |]; reflexivity. }
  destruct (foldM (visit_content_rule_calls fuel sc cs blocked p c excl) rules ([], snd (fst st), snd st))
    as [[[ms x] em]| |]; cbn [bind omap fst snd]; auto.
  destruct (attach_indices _ _); reflexivity.
Qed.
Lemma foldM_grows : forall S A (f : S -> A -> outcome S) (size : S -> nat) (cost : A -> nat) l,
  (forall s x s', In x l -> f s x = Ret s' -> size s' <= size s + cost x) ->
  forall s s', foldM f l s = Ret s' -> size s' <= size s + list_sum (map cost l).
Proof.
  intros S A f size cost l. induction l as [|x l IH]; intros H s s' E; cbn [foldM] in E.
  - injection E as <-. cbn. lia.
  - destruct (f s x) as [s1| |] eqn:F; cbn [bind] in E; try discriminate E.
    apply H in F; [|left; reflexivity]. apply IH in E; [|intros; eapply H; eauto; right; assumption]. cbn [map list_sum fold_right].
    unfold list_sum in E. lia.
Qed.
Lemma list_sum_const : forall A (l : list A) k, list_sum (map (fun _ => k) l) = length l * k.
Proof. intros A l k. induction l as [|x l IH]; [reflexivity|]. cbn [map length]. change (k + list_sum (map (fun _ => k) l) = S (length l) * k). lia. Qed.
Lemma list_sum_linear : forall A (l : list A) f a b, list_sum (map (fun x => a * f x + b) l) = a * list_sum (map f l) + b * length l.
Proof. intros A l f a b. induction l as [|x l IH]; [cbn; lia|]. cbn [map length]. change (a * f x + b + list_sum (map (fun x => a * f x + b) l) = a * (f x + list_sum (map f l)) + b * S (length l)). lia. Qed.
Lemma list_sum_times : forall A (l : list A) f a, list_sum (map (fun x => a * f x) l) = a * list_sum (map f l).
Proof. intros A l f a. induction l as [|x l IH]; [cbn; lia|]. cbn [map]. change (a * f x + list_sum (map (fun x => a * f x) l) = a * (f x + list_sum (map f l))). lia. Qed.
Lemma looks_nth : forall sc cs i k, engines_behave sc cs -> nth_error cs i = Some k ->
  exists rr at_ occ, k = regex_calls rr /\ regex_ok rr at_ occ.
Proof.
  intros sc cs i k H. revert i. induction H as [|r c rs cs' (a & s & v & rr & at_ & occ & _ & -> & A) _ IH]; intros i E.
  - destruct i; discriminate E.
  - destruct i as [|i]; [injection E as <-; eauto 8|exact (IH i E)].
Qed.
Lemma looks_calls : forall sc cs, engines_behave sc cs -> calls_of sc cs.
Proof.
  intros sc cs H. unfold engines_behave, calls_of in *. induction H as [|r c rs cs' (a & s & v & rr & at_ & occ & -> & -> & _) _ IH]; constructor; eauto 8.
Qed.
Lemma visit_content_total : forall sc cs E fuel srt blocked p c rules excl (st st' : scan_state E * list called) ok,
  engines_behave sc cs -> visit_content_calls fuel srt sc cs blocked p c rules excl st = Ret (st', ok) ->
  length (snd st') <= length (snd st) + length rules * (5 * length c + 5).
Proof.
  intros sc cs E fuel srt blocked p c rules excl st st' ok HL H. unfold visit_content_calls in H.
  match type of H with bind ?o _ = _ => destruct o as [[[ms x'] calls]| |] eqn:F end; cbn [bind] in H; try discriminate H.
  assert (G : length calls <= length (snd st) + length rules * (5 * length c + 5)).
  { rewrite <- (list_sum_const nat rules). 
    refine (foldM_grows _ _ _ (fun s => length (snd s)) (fun _ => 5 * length c + 5) rules _ _ _ F).
    intros s i s' _ Hf. unfold visit_content_rule_calls in Hf. destruct (existsb _ blocked); [injection Hf as <-; lia|].
    destruct (nth_error cs i) as [k|] eqn:K; cbn [unwrap bind] in Hf; [|discriminate Hf].
    destruct (looks_nth _ _ _ _ HL K) as (rr & at_ & occ & -> & Hok). unfold regex_calls in Hf.
    destruct (regex_string_matches_calls _ _ _ _ _ _ _ _) as [[[ms0 x0] l]| |] eqn:R; cbn [bind] in Hf; try discriminate Hf.
    injection Hf as <-. cbn [snd]. rewrite app_length, map_length.
    pose proof (string_total _ _ _ _ _ _ _ _ _ _ _ _ _ Hok R). lia. }
  destruct (attach_indices _ _); injection H as <- _; exact G.
Qed.
Lemma rules_few : forall sc p, length (rules_at (sc_wild sc) (sc_tree sc) (length (sc_rules sc)) p) <= length (sc_rules sc).
Proof.
  intros sc p. destruct (rules_at_spec (sc_wild sc) (map rule_scope (sc_rules sc)) p) as (N & I). rewrite map_length in N, I. fold (sc_tree sc) in N, I.
  apply (Nat.le_trans _ (length (List.seq 0 (length (sc_rules sc))))); [|rewrite seq_length; lia]. apply NoDup_incl_length; [exact N|]. intros i Hi. apply I in Hi as (s & Hs & _).
  apply in_seq. split; [lia|]. cbn. rewrite <- (map_length rule_scope). apply nth_error_Some. congruence.
Qed.

Lemma Forall2_nth2 : forall A B (R : A -> B -> Prop) l l' i b, Forall2 R l l' -> nth_error l' i = Some b ->
  exists a, nth_error l i = Some a /\ R a b.
Proof.
  intros A B R l l' i b H. revert i. induction H as [|x y l l' Hxy _ IH]; intros i E; [destruct i; discriminate E|].
  destruct i as [|i]; [injection E as <-; exists x; auto|exact (IH i E)].
Qed.
(* a list made of one list for each element *)
Definition gathers {A L} (Q : A -> list L -> Prop) (l : list A) (add : list L) : Prop :=
  (forall e, In e add -> exists x a, In x l /\ Q x a /\ In e a) /\
  (forall x, In x l -> exists a, Q x a /\ incl a add).
Lemma foldM_logs : forall S A L (f : S -> A -> outcome S) (log : S -> list L) (Q : A -> list L -> Prop),
  (forall s x s', f s x = Ret s' -> exists add, log s' = log s ++ add /\ Q x add) ->
  forall l s s', foldM f l s = Ret s' -> exists add, log s' = log s ++ add /\ gathers Q l add.
Proof.
  intros S A L f log Q H. induction l as [|x l IH]; intros s s' E; cbn [foldM] in E.
  - injection E as <-. exists []. split; [symmetry; apply app_nil_r|]. split; [intros e []|intros x []].
  - destruct (f s x) as [s1| |] eqn:F; cbn [bind] in E; try discriminate E.
    apply H in F as (a1 & F1 & F2). apply IH in E as (a2 & E1 & E2 & E3). exists (a1 ++ a2). split; [rewrite E1, F1; symmetry; apply app_assoc|]. split.
    + intros e I. apply in_app_iff in I as [I|I]; [exists x, a1; split; [left; reflexivity|auto]|].
      apply E2 in I as (y & a & Hy & Hq & He). exists y, a. split; [right; exact Hy|auto].
    + intros y [<-|Hy]; [exists a1; split; [exact F2|apply incl_appl, incl_refl]|].
      destruct (E3 y Hy) as (a & Hq & Ha). exists a. split; [exact Hq|apply incl_appr; exact Ha].
Qed.
Lemma string_some : forall r fuel c p excl tp kw x ms x' calls,
  regex_string_matches_calls fuel r c p excl tp kw x = Ret (ms, x', calls) -> calls <> [].
Proof.
  assert (T : forall r c chk exc fuel start x om st x' l, tp_next_calls fuel r c chk exc start x = Ret (om, st, x', l) -> l <> []).
  { intros r c chk exc fuel start x om st x' l H. destruct fuel as [|fuel]; [discriminate|]. cbn [tp_next_calls] in H.
    destruct (rr_find r c start) as [m|]; [|injection H as _ _ _ <-; discriminate].
    destruct (is_false_positive_match r c m chk) as [[|]| |]; cbn [bind] in H; try discriminate H.
    - destruct (get_next_regex_start c m) as [[n|]| |]; cbn [bind] in H; try discriminate H; [|injection H as _ _ _ <-; discriminate].
      destruct (tp_next_calls fuel r c chk exc n x) as [[[[? ?] ?] ?]| |]; cbn [bind] in H; try discriminate H. injection H as _ _ _ <-. discriminate.
    - destruct exc; [|injection H as _ _ _ <-; discriminate]. destruct (slice c (fst m) (snd m)); cbn [bind] in H; try discriminate H.
      destruct (tp_next_calls fuel r c chk true (snd m) (a :: x)) as [[[[? ?] ?] ?]| |]; cbn [bind] in H; try discriminate H. injection H as _ _ _ <-. discriminate. }
  assert (TA : forall r c chk exc fuel start x ms x' l, tp_all_calls fuel r c chk exc start x = Ret (ms, x', l) -> l <> []).
  { intros r c chk exc fuel start x ms x' l H. destruct fuel as [|fuel]; [discriminate|]. cbn [tp_all_calls] in H.
    destruct (tp_next_calls (S fuel) r c chk exc start x) as [[[[om st] x1] l1]| |] eqn:E; cbn [bind] in H; try discriminate H. apply T in E.
    destruct om; [|injection H as _ _ <-; exact E].
    destruct (tp_all_calls fuel r c chk exc st x1) as [[[? ?] ?]| |]; cbn [bind] in H; try discriminate H. injection H as _ _ <-.
    destruct l1; [contradiction|discriminate]. }
  intros r fuel c p excl tp kw x ms x' calls H. unfold regex_string_matches_calls in H. destruct (rr_included r) as [ik|]; [|exact (TA _ _ _ _ _ _ _ _ _ _ H)].
  unfold matches_with_included_keywords_calls in H. destruct (existsb _ tp); [exact (TA _ _ _ _ _ _ _ _ _ _ H)|].
  destruct (kw_outer_calls fuel r ik c excl 0 x) as [[[ms0 x0] l0]| |] eqn:E; cbn [bind] in H; try discriminate H.
  assert (N : l0 <> []).
  { destruct fuel as [|fuel]; [discriminate|]. cbn [kw_outer_calls] in E.
    destruct (keyword_next ik c 0) as [[[k k1]|]| |]; cbn [bind] in E; try discriminate E; [|injection E as _ _ <-; discriminate].
    destruct (kw_inner_calls (S fuel) r ik c excl k k k1 x) as [[[[[cont ms1] ks2] x1] l1]| |]; cbn [bind] in E; try discriminate E.
    destruct cont; [|injection E as _ _ <-; discriminate].
    destruct (kw_outer_calls fuel r ik c excl ks2 x1) as [[[? ?] ?]| |]; cbn [bind] in E; try discriminate E. injection E as _ _ <-. discriminate. }
  destruct l0 as [|k l0]; [contradiction|]. destruct kw; [|injection H as _ _ <-; discriminate].
  destruct (rr_find r c 0); [|injection H as _ _ <-; discriminate].
  destruct (ik_path_match ik (sanitize p)); [|injection H as _ _ <-; discriminate].
  destruct (tp_all_calls fuel r c false excl 0 x0) as [[[? ?] ?]| |]; cbn [bind] in H; try discriminate H. injection H as _ _ <-. discriminate.
Qed.
(* what one rule adds to the list *)
Definition adds (blocked : list nat) (p : path) (c : str) (i : nat) (add : list called) : Prop :=
  if existsb (Nat.eqb i) blocked then add = []
  else exists l, l <> [] /\ add = map (fun k => (i, p, c, k)) l.
Lemma visit_content_adds : forall sc cs E fuel srt blocked p c rules excl (st st' : scan_state E * list called) ok,
  calls_of sc cs -> visit_content_calls fuel srt sc cs blocked p c rules excl st = Ret (st', ok) ->
  exists add, snd st' = snd st ++ add /\ gathers (adds blocked p c) rules add.
Proof.
  intros sc cs E fuel srt blocked p c rules excl st st' ok Hcs H. unfold visit_content_calls in H.
  match type of H with bind ?o _ = _ => destruct o as [[[ms x'] calls]| |] eqn:F end; cbn [bind] in H; try discriminate H.
  apply (foldM_logs _ _ _ _ (fun s => snd s) (adds blocked p c)) in F.
  - destruct F as (add & F1 & F2). exists add. split; [|exact F2]. cbn [snd] in F1. rewrite <- F1. destruct (attach_indices _ _); injection H as <- _; reflexivity.
  - intros s i s' Hf. unfold visit_content_rule_calls in Hf. unfold adds. destruct (existsb _ blocked); [injection Hf as <-; exists []; split; [symmetry; apply app_nil_r|reflexivity]|].
    destruct (nth_error cs i) as [k|] eqn:K; cbn [unwrap bind] in Hf; [|discriminate Hf].
    assert (exists rr, k = regex_calls rr) as (rr & ->).
    { destruct (Forall2_nth2 _ _ _ _ _ _ _ Hcs K) as (r & _ & a & s0 & v & rr & _ & ->). eauto. }
    unfold regex_calls in Hf. destruct (regex_string_matches_calls _ _ _ _ _ _ _ _) as [[[ms0 x0] l]| |] eqn:R; cbn [bind] in Hf; try discriminate Hf.
    injection Hf as <-. cbn [snd]. exists (map (fun k => (i, p, c, k)) l). split; [reflexivity|]. exists l. split; [|reflexivity]. exact (string_some _ _ _ _ _ _ _ _ _ _ _ R).
Qed.

Lemma c99_same_result_lemma :
  forall I fuel h srt sc cs blocked e, calls_of sc cs ->
  (let* r := scan_calls I fuel h srt sc cs blocked e in Ret (fst r)) = scan I fuel h srt sc blocked e.
Proof.
  intros I fuel h srt sc cs blocked e Hcs. unfold scan_calls, scan, visit_string_rule_combinations.
  set (er := fun st : vstate * (scan_state (ev_enc I) * list called) * list (path * str * bool) =>
               (fst (fst st), fst (snd (fst st)), snd st)).
  assert (H := foldM_erased _ _ _ (run_op (sc_wild sc) (visit_content_calls (E := ev_enc I) fuel srt sc cs blocked))
                (run_op (sc_wild sc) (visit_content fuel srt sc blocked)) er).
  change (vstate_init (sc_tree sc) (length (sc_rules sc)) (sc_wild sc), ([], []), @nil (path * str * bool))
    with (er (vstate_init (sc_tree sc) (length (sc_rules sc)) (sc_wild sc), (([], []), []), [])).
  rewrite <- H; clear H.
  - match goal with |- context [omap er ?t] => set (T := t) end.
    match goal with |- context [foldM ?f ?l ?s] => change (foldM f l s) with T end.
    destruct T as [[[v [st em]] log]| |]; cbn [bind omap er fst snd]; auto.
    destruct st as [found x].
    destruct (process_all I h srt sc x (ev_visited I e log) found) as [[e' outs]| |]; reflexivity.
  - intros [[v [st em]] log] op. unfold er. cbn [fst snd]. destruct op as [s| |c]; cbn [run_op].
    + destruct (push_segment _ _ _); reflexivity.
    + destruct (pop_segment _); reflexivity.
    + unfold visit_string. destruct (visit_rule_indices _ _) as [[rules b]| |]; cbn [bind]; auto.
      assert (Hv := visit_content_erased sc cs Hcs (ev_enc I) fuel srt blocked (vs_path v) c rules (is_excluded (vs_nodes v)) (st, em)).
      cbn [fst] in Hv. rewrite <- Hv.
      match goal with |- context [visit_content_calls ?a ?b ?c ?d ?e ?f ?g ?h ?i ?j] =>
        destruct (visit_content_calls a b c d e f g h i j) as [[[s' em'] mm]| |] end; reflexivity.
Qed.

Lemma c99_scope_lemma :
  forall I fuel h srt sc cs blocked e strs e' outs calls i p c, calls_of sc cs -> strings_of (ev_ops I e) = Some strs ->
  scan_calls I fuel h srt sc cs blocked e = Ret (e', outs, calls) ->
  (exists k, In (i, p, c, k) calls) <->
  In (p, c) strs /\ ~ In i blocked /\ exists r, nth_error (sc_rules sc) i = Some r /\ included (sc_wild sc) (rule_scope r) p.
Proof.
  intros I fuel h srt sc cs blocked e strs e' outs calls i p c Hcs Hs H. unfold scan_calls in H.
  assert (Hv : forall S (cv : content_visitor S) s, visit_string_rule_combinations (sc_tree sc) (length (sc_rules sc)) (sc_wild sc)
      (ev_ops I e) cv s =
      foldM (visit_one (sc_wild sc) (sc_tree sc) (length (sc_rules sc)) cv) strs (s, [])).
  { intros. unfold sc_tree. rewrite <- (map_length rule_scope (sc_rules sc)). apply visit_scopes. exact Hs. }
  rewrite Hv in H. match type of H with bind ?o _ = _ => destruct o as [[[[found x] l] log]| |] eqn:F end; cbn [bind] in H; try discriminate H.
  destruct (process_all I h srt sc x (ev_visited I e log) found) as [[e1 o1]| |]; cbn [bind] in H; try discriminate H. injection H as <- <- <-.
  set (at_path p := rules_at (sc_wild sc) (sc_tree sc) (length (sc_rules sc)) p).
  assert (R : forall p i, In i (at_path p) <-> exists r, nth_error (sc_rules sc) i = Some r /\ included (sc_wild sc) (rule_scope r) p).
  { intros p0 i0. destruct (rules_at_spec (sc_wild sc) (map rule_scope (sc_rules sc)) p0) as (_ & J). rewrite map_length in J. fold (sc_tree sc) in J.
    unfold at_path. rewrite J. split.
    - intros (s & E & K). rewrite nth_error_map in E. destruct (nth_error (sc_rules sc) i0) as [r|]; [|discriminate E]. injection E as <-. eauto.
    - intros (r & E & K). exists (rule_scope r). rewrite nth_error_map, E. auto. }
  apply (foldM_logs _ _ _ _ (fun s => snd (fst s)) (fun pc => gathers (adds blocked (fst pc) (snd pc)) (at_path (fst pc)))) in F.
  2:{ intros s [p0 c0] s' E. unfold visit_one in E. cbn [fst snd] in E.
      match type of E with bind ?o _ = _ => destruct o as [[st ok]| |] eqn:G end; cbn [bind] in E; try discriminate E. injection E as <-. cbn [fst snd].
      apply visit_content_adds in G; [|exact Hcs]. exact G. }
  destruct F as (add & F1 & F2 & F3). cbn [fst snd app] in F1. subst l. rewrite <- R. split.
  - intros (k & K). apply F2 in K as ([p0 c0] & a & Hin & (Ha & _) & Hk). cbn [fst snd] in Ha. apply Ha in Hk as (i0 & b & Hi & Hb & Hkb).
    unfold adds in Hb. destruct (existsb (Nat.eqb i0) blocked) eqn:Ex; [subst b; contradiction Hkb|]. destruct Hb as (l & _ & ->).
    apply in_map_iff in Hkb as (k' & Eq & _). injection Eq as -> -> -> ->. split; [exact Hin|]. split; [|exact Hi].
    intros Hbl. assert (existsb (Nat.eqb i) blocked = true); [|congruence]. apply existsb_exists. exists i. split; [exact Hbl|apply Nat.eqb_refl].
  - intros (Hin & Hbl & Hi). destruct (F3 _ Hin) as (a & (_ & Ha) & Ia). destruct (Ha i Hi) as (b & Hb & Ib). cbn [fst snd] in Hb. unfold adds in Hb.
    destruct (existsb (Nat.eqb i) blocked) eqn:Ex.
    + apply existsb_exists in Ex as (j & Hj & Ej). apply Nat.eqb_eq in Ej as <-. contradiction.
    + destruct Hb as ([|k l] & Hn & ->); [contradiction|]. exists k. apply Ia, Ib. left. reflexivity.
Qed.

Lemma c99_plain_lemma :
  forall r at_ occ c p excl tp kw x fuel ms x' calls, regex_ok r at_ occ -> rr_included r = None ->
  regex_string_matches_calls fuel r c p excl tp kw x = Ret (ms, x', calls) ->
  StronglySorted lt (rule_starts calls) /\ (forall i, In i (rule_starts calls) -> boundary c i) /\
  StronglySorted lt (windows calls) /\ (forall i, In i (windows calls) -> boundary c i) /\
  length (rule_starts calls) <= length c + 1 /\ length (windows calls) <= length c /\
  length calls = length (rule_starts calls) + length (windows calls).
Proof.
  intros r at_ occ c p excl tp kw x fuel ms x' calls [Hlm _] Hi H. unfold regex_string_matches_calls in H. rewrite Hi in H.
  pose proof (tp_all_run r at_ Hlm _ _ _ _ _ _ _ _ _ (boundary_zero c) H) as R.
  destruct (run_counts _ _ _ R) as (A & B & C & D). destruct R as (P & (F1 & S1) & (F2 & S2) & _).
  destruct (plain_counts _ P) as (E & _). rewrite <- E. rewrite Forall_forall in F1, F2.
  split; [exact S1|]. split; [intros i I; apply (F1 i I)|]. split; [exact S2|]. split; [intros i I; apply (F2 i I)|].
  auto.
Qed.

Lemma c99_keywords_lemma :
  forall r at_ occ ik c p excl tp kw x fuel ms x' calls, regex_ok r at_ occ -> rr_included r = Some ik ->
  regex_string_matches_calls fuel r c p excl tp kw x = Ret (ms, x', calls) ->
  exists n k, tally_calls of_rule calls n /\ tally_calls of_keywords calls k /\ length calls = n + k /\
    n <= 4 * length c + 3 /\ k <= length c + 2.
Proof.
  intros r at_ occ ik c p excl tp kw x fuel ms x' calls [Hlm Hk] Hi H. unfold regex_string_matches_calls in H. rewrite Hi in H.
  destruct (Hk ik Hi) as (Hea & Hla). destruct (with_keywords _ _ _ _ _ _ _ _ _ _ _ _ _ _ Hlm Hea Hla H) as (A & B & C).
  exists (count searches calls), (count keyword_searches calls).
  split; [apply tally_count, of_rule_b|]. split; [apply tally_count, of_keywords_b|]. auto.
Qed.

Lemma c99_again_refuted_lemma :
  exists r at_ occ c ms calls, regex_ok r at_ occ /\
  regex_string_matches_calls 100 r c [] false [] false [] = Ret (ms, [], calls) /\ ~ NoDup calls.
Proof.
  exists checked_rule, (match_at two_digits), (occurrence [chars "key"]), (chars "key .... key 11 55"), [(16, 18)],
    [CallKeyword 0; CallRule 0; CallRule 14; CallKeyword 8; CallRule 9; CallRule 14; CallRule 18].
  split; [apply checked_rule_ok|]. split; [vm_compute; reflexivity|].
  intros N. inversion N as [|? ? _ N1]; subst. inversion N1 as [|? ? _ N2]; subst. inversion N2 as [|? ? K _]; subst.
  apply K. cbn. auto 10.
Qed.

Lemma c99_scan_lemma :
  forall I fuel h srt sc cs blocked e strs e' outs calls, engines_behave sc cs -> strings_of (ev_ops I e) = Some strs ->
  scan_calls I fuel h srt sc cs blocked e = Ret (e', outs, calls) ->
  length calls <= 5 * length (sc_rules sc) * (list_sum (map (fun pc => length (snd pc)) strs) + length strs).
Proof.
  intros I fuel h srt sc cs blocked e strs e' outs calls HL Hs H. unfold scan_calls in H.
  assert (Hv : forall S (cv : content_visitor S) s, visit_string_rule_combinations (sc_tree sc) (length (sc_rules sc)) (sc_wild sc)
      (ev_ops I e) cv s =
      foldM (visit_one (sc_wild sc) (sc_tree sc) (length (sc_rules sc)) cv) strs (s, [])).
  { intros. unfold sc_tree. rewrite <- (map_length rule_scope (sc_rules sc)). apply visit_scopes. exact Hs. }
  rewrite Hv in H. match type of H with bind ?o _ = _ => destruct o as [[[[found x] l] log]| |] eqn:F end; cbn [bind] in H; try discriminate H.
  destruct (process_all I h srt sc x (ev_visited I e log) found) as [[e1 o1]| |]; cbn [bind] in H; try discriminate H. injection H as <- <- <-.
  apply (Nat.le_trans _ (length (sc_rules sc) * (5 * list_sum (map (fun pc : path * str => length (snd pc)) strs) + 5 * length strs))); [|nia].
  rewrite <- list_sum_linear, <- list_sum_times.
  refine (foldM_grows _ _ _ (fun s => length (snd (fst s))) (fun pc => length (sc_rules sc) * (5 * length (snd pc) + 5)) strs _ _ _ F).
  intros s [p c] s' _ E. unfold visit_one in E. cbn [fst snd] in E.
  match type of E with bind ?o _ = _ => destruct o as [[st ok]| |] eqn:G end; cbn [bind] in E; try discriminate E. injection E as <-. cbn [fst snd].
  apply visit_content_total in G; [|exact HL]. pose proof (rules_few sc p). eapply Nat.le_trans; [exact G|].
  apply Nat.add_le_mono_l, Nat.mul_le_mono_r. assumption.
Qed.

Lemma c99_built_lemma :
  forall en fold b at_ t I fuel h srt blocked e strs, build en b = Ret (Ok t) -> behaves en fold b at_ ->
  strings_of (ev_ops I e) = Some strs ->
  exists cs, calls_of (bt_scanner t) cs /\
  forall e' outs calls, scan_calls I fuel h srt (bt_scanner t) cs blocked e = Ret (e', outs, calls) ->
  length calls <= 5 * length (bu_rules b) * (list_sum (map (fun pc => length (snd pc)) strs) + length strs).
Proof.
  intros en fold b at_ t I fuel h srt blocked e strs Hb Hbe Hs.
  pose proof (built_length _ _ _ Hb) as Hlen.
  assert (X : exists cs, engines_behave (bt_scanner t) cs).
  { assert (G : forall r, In r (sc_rules (bt_scanner t)) -> exists a s v rr at1 occ, r = regex_compiled a s v rr /\ regex_ok rr at1 occ).
    { intros r Hr. apply In_nth_error in Hr as (i & Hi). destruct (nth_error (bu_rules b) i) as [c|] eqn:Hc.
      2:{ apply nth_error_None in Hc. assert (i < length (sc_rules (bt_scanner t))) by (apply nth_error_Some; congruence). lia. }
      destruct (built_rule _ _ _ _ _ Hb Hbe i c Hc) as (rr & occ & R1 & R2 & _ & R3 & _). rewrite Hi in R1. injection R1 as ->.
      eexists _, _, _, rr, _, occ. split; [reflexivity|exact R3]. }
    unfold engines_behave. clear - G. induction (sc_rules (bt_scanner t)) as [|r rs IH]; [exists []; constructor|].
    destruct IH as [cs IH]; [intros y I; apply G; right; exact I|].
    destruct (G r (or_introl eq_refl)) as (a & s & v & rr & at1 & occ & E & A). exists (regex_calls rr :: cs). constructor; [|exact IH].
    exists a, s, v, rr, at1, occ. auto. }
  destruct X as (cs & HL). exists cs. split; [exact (looks_calls _ _ HL)|]. intros e' outs calls H.
  pose proof (c99_scan_lemma I fuel h srt _ cs blocked e strs e' outs calls HL Hs H) as G.
  rewrite Hlen in G. exact G.
Qed.

