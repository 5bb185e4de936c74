(* Metrics and the size of the shared pool (C74, C75, C76): proofs of the statements of Thm/Metrics.v *)
From Coq Require Import Lia Permutation.
From Verif Require Import Proofs.RegexScan Proofs.Metrics Proofs.BuildClaims.
From Verif Require Export Spec.Metrics Spec.Claims Examples.Metrics Examples.Build.

(* -- what increments there are, whatever the scanner -- *)
Definition of_rules (em : list emission) : Prop := forall a, In a em -> exists i, a = EmKeyword i \/ a = EmExcluded i.
Lemma of_rules_app : forall l k, of_rules l -> of_rules k -> of_rules (l ++ k).
Proof. intros l k H K a I. apply in_app_or in I. destruct I as [I|I]; auto. Qed.
Lemma foldM_inv : forall S A (f : S -> A -> outcome S) (P : S -> Prop), (forall s x s', P s -> f s x = Ret s' -> P s') ->
  forall l s s', P s -> foldM f l s = Ret s' -> P s'.
Proof.
  intros S A f P H l. induction l as [|x l IH]; intros s s' Hs E; cbn [foldM] in E; [injection E as <-; exact Hs|].
  destruct (f s x) as [s1| |] eqn:F; cbn [bind] in E; try discriminate E. exact (IH s1 s' (H _ _ _ Hs F) E).
Qed.
Lemma visit_rules : forall E fuel srt sc cs blocked p c rules excl st st' ok, of_rules (snd st) ->
  visit_content_counted (E := E) fuel srt sc cs blocked p c rules excl st = Ret (st', ok) -> of_rules (snd st').
Proof.
  intros E fuel srt sc cs blocked p c rules excl st st' ok H V. unfold visit_content_counted in V.
  match type of V with bind ?o _ = _ => destruct o as [[[ms x'] em]| |] eqn:F end; cbn [bind] in V; try discriminate V.
  assert (R : of_rules em).
  { refine (foldM_inv _ _ _ (fun s => of_rules (snd s)) _ _ _ _ _ F); [|exact H]. intros s i s' Hs Hf. unfold visit_content_rule_counted in Hf.
    destruct (existsb _ blocked); [injection Hf as <-; exact Hs|]. destruct (nth_error cs i) as [g|]; cbn [unwrap bind] in Hf; [|discriminate Hf].
    destruct (g _ _ _ _ _ _ _) as [[[ms0 x0] k]| |]; cbn [bind] in Hf; try discriminate Hf. injection Hf as <-. cbn [snd].
    apply of_rules_app; [exact Hs|]. intros a I. apply repeat_spec in I. exists i. left. exact I. }
  destruct (attach_indices _ _); injection V as <- _; exact R.
Qed.
Lemma retain_rules : forall E rules x c (ms : list (internal_match E)) r, multipass_retain_counted rules x c ms = Ret r -> of_rules (snd r).
Proof.
  intros E rules x c ms. induction ms as [|m ms IH]; intros r H; cbn [multipass_retain_counted] in H; [injection H as <-; intros a []|].
  destruct (nth_error rules (im_rule m)) as [ru|]; cbn [unwrap bind] in H; [|discriminate H].
  match type of H with bind ?o _ = _ => destruct o as [keep| |] end; cbn [bind] in H; try discriminate H.
  destruct (multipass_retain_counted rules x c ms) as [rest| |]; cbn [bind] in H; try discriminate H. injection H as <-.
  specialize (IH rest eq_refl). destruct keep; cbn [snd]; [exact IH|]. intros a [<-|I]; [eexists; right; reflexivity|exact (IH a I)].
Qed.
Lemma process_rules : forall I h srt sc x l e e' outs em, process_all_counted I h srt sc x e l = Ret (e', outs, em) -> of_rules em.
Proof.
  intros I h srt sc x l. induction l as [|[p ms] l IH]; intros e e' outs em H; cbn [process_all_counted] in H; [injection H as _ _ <-; intros a []|].
  destruct (ev_get I e p) as [c| |]; cbn [bind] in H; try discriminate H.
  unfold process_string_counted in H.
  match type of H with context [bind (if ?b then ?u else ?v) _] => destruct (if b then u else v) as [ms1| |] eqn:E1 end; cbn [bind] in H; try discriminate H.
  destruct (sort_and_remove_overlapping_rules srt (sc_rules sc) (fst ms1)) as [ms2| |]; cbn [bind] in H; try discriminate H.
  destruct (apply_match_actions h sc p c ms2) as [res| |]; cbn [bind] in H; try discriminate H.
  match type of H with context [process_all_counted I h srt sc x ?e1 l] => destruct (process_all_counted I h srt sc x e1 l) as [[[e2 o2] em2]| |] eqn:E2 end;
    cbn [bind] in H; try discriminate H. injection H as _ _ <-. apply of_rules_app; [|exact (IH _ _ _ _ E2)].
  destruct (sc_multipass sc); [exact (retain_rules _ _ _ _ _ _ E1)|]. injection E1 as <-. intros a [].
Qed.
Lemma scan_emits : forall I fuel h srt sc cs blocked e e' outs em, scan_counted I fuel h srt sc cs blocked e = Ret (e', outs, em) ->
  exists em0, em = em0 ++ [EmScanned; EmMatches (length outs)] /\ of_rules em0.
Proof.
  intros I fuel h srt sc cs blocked e e' outs em H. unfold scan_counted, visit_string_rule_combinations in H.
  match type of H with context [foldM ?f ?l ?s] => destruct (foldM f l s) as [[[vs st] log]| |] eqn:F end; cbn [bind] in H; try discriminate H.
  destruct st as [[found x] em1]. destruct (process_all_counted I h srt sc x (ev_visited I e log) found) as [[[e2 o2] em2]| |] eqn:P; cbn [bind] in H; try discriminate H.
  injection H as _ <- <-. exists (em1 ++ em2). rewrite <- app_assoc. split; [reflexivity|]. apply of_rules_app; [|exact (process_rules _ _ _ _ _ _ _ _ _ _ P)].
  refine (foldM_inv _ _ _ (fun s => of_rules (snd (snd (fst s)))) _ _ _ _ _ F); [|intros a []].
  clear. intros [[vs st] log] o s' Hs Hf. cbn [fst snd] in Hs. unfold run_op in Hf. destruct o as [seg| |s].
  - destruct (push_segment _ _ _); cbn [bind] in Hf; try discriminate Hf. injection Hf as <-. exact Hs.
  - destruct (pop_segment _); cbn [bind] in Hf; try discriminate Hf. injection Hf as <-. exact Hs.
  - destruct (visit_string _ _ _ _) as [[[vs' st'] mm]| |] eqn:V; cbn [bind] in Hf; try discriminate Hf. injection Hf as <-. cbn [fst snd].
    unfold visit_string in V. destruct (visit_rule_indices _ _) as [[rules b]| |]; cbn [bind] in V; try discriminate V.
    match type of V with bind ?o _ = _ => destruct o as [[st1 ok]| |] eqn:W end; cbn [bind] in V; try discriminate V.
    injection V as _ <- _. exact (visit_rules _ _ _ _ _ _ _ _ _ _ _ _ _ Hs W).
Qed.

(* -- values of counters -- *)
Lemma value_app : forall sl rl k l1 l2 n m, counter_value sl rl k l1 n -> counter_value sl rl k l2 m -> counter_value sl rl k (l1 ++ l2) (n + m).
Proof.
  intros sl rl k l1. induction l1 as [|a l1 IH]; intros l2 n m H K; cbn [app counter_value] in *; [subst n; exact K|].
  destruct H as (n' & H & D). exists (n' + m). split; [exact (IH _ _ _ H K)|]. destruct D as [[D ->]|[D ->]]; [left|right]; split; auto; lia.
Qed.
Lemma value_other : forall sl rl k l, (forall a, In a l -> emission_key sl rl a <> Some k) -> counter_value sl rl k l 0.
Proof.
  intros sl rl k l. induction l as [|a l IH]; intros H; cbn [counter_value]; [reflexivity|].
  exists 0. split; [apply IH; intros b I; apply H; right; exact I|]. right. split; [apply H; left; reflexivity|reflexivity].
Qed.
Lemma value_tally : forall sl rl k l n, (forall a, In a l -> emission_key sl rl a = Some k -> emission_amount a = 1) ->
  counter_value sl rl k l n <-> tally (fun a => emission_key sl rl a = Some k) l n.
Proof.
  intros sl rl k l. induction l as [|a l IH]; intros n H; cbn [counter_value].
  - split; [intros ->; constructor|]. intros T. inversion T. reflexivity.
  - assert (IH' := fun n => IH n (fun b I => H b (or_intror I))). split.
    + intros (m & V & [[K ->]|[K ->]]).
      * rewrite (H a (or_introl eq_refl) K). constructor 2; [exact K|]. apply IH'. exact V.
      * constructor 3; [exact K|]. apply IH'. exact V.
    + intros T. inversion T as [|x l' m K T'|x l' m K T']; subst.
      * exists m. split; [apply IH'; exact T'|]. left. split; [exact K|]. rewrite (H a (or_introl eq_refl) K). reflexivity.
      * exists n. split; [apply IH'; exact T'|]. right. auto.
Qed.
Lemma value_one : forall sl rl k em, exists n, counter_value sl rl k em n /\ forall m, counter_value sl rl k em m -> m = n.
Proof.
  intros sl rl k em. induction em as [|a em (n & H & U)]; cbn [counter_value]; [exists 0; auto|].
  assert (D : {emission_key sl rl a = Some k} + {emission_key sl rl a <> Some k}) by (repeat decide equality).
  destruct D as [D|D].
  - exists (emission_amount a + n). split; [exists n; auto|]. intros m (n' & H' & [[_ ->]|[D' _]]); [|contradiction]. rewrite (U _ H'). reflexivity.
  - exists n. split; [exists n; auto|]. intros m (n' & H' & [[D' _]|[_ ->]]); [contradiction|]. exact (U _ H').
Qed.
Lemma tally_weaken : forall A (P Q : A -> Prop) l n, (forall x, In x l -> (P x <-> Q x)) -> tally P l n -> tally Q l n.
Proof.
  intros A P Q l n H T. induction T as [|x l n K T IH|x l n K T IH]; [constructor| |].
  - constructor 2; [apply H; [left; reflexivity|exact K]|]. apply IH. intros y I. apply H. right; exact I.
  - constructor 3; [intros B; apply K; apply H; [left; reflexivity|exact B]|]. apply IH. intros y I. apply H. right; exact I.
Qed.
Lemma rule_name : forall sl rl a i, a = EmKeyword i \/ a = EmExcluded i -> forall k, emission_key sl rl a = Some k ->
  fst k = chars "false_positive.proximity_keywords" \/ fst k = chars "false_positive.multipass.excluded_match".
Proof.
  intros sl rl a i [->| ->] k H; cbn [emission_key] in H; destruct (nth_error rl i); cbn [option_map] in H; try discriminate H; injection H as <-; auto.
Qed.
Lemma value_two : forall sl rl n,
  counter_value sl rl (chars "scanned_events", sl) [EmScanned; EmMatches n] 1 /\
  counter_value sl rl (chars "scanning.match_count", sl) [EmScanned; EmMatches n] n.
Proof.
  intros sl rl n. cbn [counter_value]. split.
  - exists 0. split; [|left; auto]. exists 0. split; [reflexivity|]. right. split; [discriminate|reflexivity].
  - exists n. split; [|right; split; [discriminate|reflexivity]]. exists 0. split; [reflexivity|]. left. split; [reflexivity|cbn; lia].
Qed.
(* the searches of the rules of a scanner that was built *)
Lemma built_searches : forall en b t, build en b = Ret (Ok t) -> exists cs, searches_of (bt_scanner t) cs.
Proof.
  intros en b t H. destruct (built_spec en b t H) as (_ & vs & xs & _ & L & X & ->). unfold searches_of. cbn [bt_scanner sc_rules].
  assert (G : forall x, In x xs -> exists a s v rr, fst x = regex_compiled a s v rr).
  { intros x I. apply In_nth_error in I. destruct I as [j J]. destruct (nth_error (bu_rules b) j) as [c|] eqn:C.
    - destruct (X j c C) as (rr & _ & Y & _). rewrite J in Y. injection Y as ->. repeat eexists.
    - apply nth_error_None in C. assert (j < length xs) by (apply nth_error_Some; congruence). lia. }
  clear - G. induction xs as [|x xs IH]; [exists []; constructor|]. destruct IH as [cs IH]; [intros y I; apply G; right; exact I|].
  destruct (G x (or_introl eq_refl)) as (a & s & v & rr & E). exists (regex_counted rr :: cs). constructor; [exists a, s, v, rr; auto|exact IH].
Qed.

Lemma c74_pool_stacks_lemma :
  forall count, exists e, pool_stacks count = 2 ^ e /\ 2 <= e <= 6 /\
  (count <= 64 -> count <= pool_stacks count /\ forall d, 2 <= d -> count <= 2 ^ d -> pool_stacks count <= 2 ^ d) /\
  (64 < count -> pool_stacks count = 64).
Proof.
  intros count. unfold pool_stacks.
  assert (P : forall d e, d < e -> 2 ^ d < 2 ^ e) by (intros; apply Nat.pow_lt_mono_r; lia).
  destruct (count <=? 4) eqn:A; [exists 2|destruct (count <=? 8) eqn:B; [exists 3|destruct (count <=? 16) eqn:C; [exists 4|
    destruct (count <=? 32) eqn:D; [exists 5|exists 6]]]]; rewrite ?Nat.leb_le, ?Nat.leb_gt in *; (split; [reflexivity|]); (split; [lia|]); (split; [|lia]);
    intros K; (split; [lia|]); intros d G L; match goal with |- ?n <= _ => destruct (Nat.le_gt_cases n (2 ^ d)) as [Q|Q]; [exact Q|exfalso] end;
    assert (U : d < 6) by (destruct (Nat.lt_ge_cases d 6) as [U|U]; [exact U|exfalso];
      assert (2 ^ 6 <= 2 ^ d) by (apply Nat.pow_le_mono_r; lia); change (2 ^ 6) with 64 in *; lia);
    do 6 (destruct d as [|d]; [cbn in *; lia|]); lia.
Qed.

Lemma c75_same_result_lemma :
  forall I fuel h srt sc cs blocked e, searches_of sc cs ->
  (let* r := scan_counted I fuel h srt sc cs blocked e in Ret (fst r)) = scan I fuel h srt sc blocked e.
Proof.
  intros I fuel h srt sc cs blocked e H. exact (scan_erase sc cs H I fuel h srt blocked e).
Qed.

Lemma c75_counts_lemma :
  forall I w sc cs rrs ats blocked srt e strs holds h fuel,
  scan_setting I w srt sc (finders sc) e strs holds fuel -> counted_scanner sc cs rrs ats strs ->
  exists e' outs em, scan_counted I fuel h srt sc cs blocked e = Ret (e', outs, em) /\
    scan I fuel h srt sc blocked e = Ret (e', outs) /\
    tally (eq EmScanned) em 1 /\ tally (fun a => exists n, a = EmMatches n) em 1 /\ In (EmMatches (length outs)) em /\
    (forall i, exists ns, tally (eq (EmExcluded i)) em (list_sum ns) /\
       Forall2 (fun pc n => multipass_hits sc (finders sc) blocked strs i (fst pc) (snd pc) n) strs ns) /\
    (forall i, exists ns, tally (eq (EmKeyword i)) em (list_sum ns) /\
       Forall2 (fun pc n => keyword_hits_at sc blocked i (rrs i) (ats i) (fst pc) (snd pc) n) strs ns).
Proof.
  intros I w sc cs rrs ats blocked srt e strs holds h fuel [S1 S2 S3 S4 S5 S6] C.
  destruct (scan_increments I w sc cs (finders sc) (fun i c p e kw => hits_of (rrs i) c p e kw) blocked srt e strs holds h fuel S1 S2 S3 S4 S5 S6)
    as (e' & outs & em1 & em2 & E & E' & K1 & K2 & T1 & T2).
  { intros i r Hr. destruct (C i r Hr) as (a & s & v & occ & -> & X & _ & N & O & Sc). exists (regex_counted (rrs i)). split; [exact N|].
    intros f c p excl kw x y (q & Q) Hf G. unfold regex_counted. rewrite X.
    destruct (regex_hits (rrs i) (ats i) (ro_find _ _ _ O) c p (excl i) kw (Sc q c Q)) as [_ H]. apply H; [exact Hf|].
    cbn [regex_compiled rule_string_matches] in G. rewrite X in G. exact G. }
  exists e', outs, (em1 ++ em2 ++ [EmScanned; EmMatches (length outs)]). split; [exact E|]. split; [exact E'|].
  assert (Z1 : forall P, (forall i, ~ P (EmKeyword i)) -> tally P em1 0).
  { intros P H. apply tally_none. intros a I0. destruct (K1 a I0) as [i ->]. apply H. }
  assert (Z2 : forall P, (forall i, ~ P (EmExcluded i)) -> tally P em2 0).
  { intros P H. apply tally_none. intros a I0. destruct (K2 a I0) as [i ->]. apply H. }
  assert (Z3 : forall P, ~ P EmScanned -> (forall n, ~ P (EmMatches n)) -> tally P [EmScanned; EmMatches (length outs)] 0).
  { intros P H H'. constructor 3; [exact H|]. constructor 3; [apply H'|constructor]. }
  split; [|split; [|split; [|split]]].
  - change 1 with (0 + (0 + 1)). apply tally_app; [apply Z1; discriminate|]. apply tally_app; [apply Z2; discriminate|].
    constructor 2; [reflexivity|]. constructor 3; [discriminate|constructor].
  - change 1 with (0 + (0 + 1)). apply tally_app; [apply Z1; intros i [n X]; discriminate X|]. apply tally_app; [apply Z2; intros i [n X]; discriminate X|].
    constructor 3; [intros [n X]; discriminate X|]. constructor 2; [eexists; reflexivity|constructor].
  - apply in_or_app. right. apply in_or_app. right. right. left. reflexivity.
  - intros i. destruct (T2 i) as (ns & T & F). exists ns. split; [|exact F].
    replace (list_sum ns) with (0 + (list_sum ns + 0)) by lia. apply tally_app; [apply Z1; discriminate|]. apply tally_app; [exact T|]. apply Z3; discriminate.
  - intros i. destruct (T1 i) as (ns & T & F). exists ns. split.
    + replace (list_sum ns) with (list_sum ns + (0 + 0)) by lia. apply tally_app; [exact T|]. apply tally_app; [apply Z2; discriminate|]. apply Z3; discriminate.
    + assert (IN : forall pc, In pc strs -> In pc strs) by auto. revert IN. revert F. generalize strs at 1 2 4. intros l F.
      clear - C F. induction F as [|[p c] n l ns [R1 R2] F IH]; intros IN; constructor.
      * split; [|exact R2]. intros R. destruct (R1 R) as [e ->]. destruct R as (r & Hr & _).
        destruct (C i r Hr) as (a & s & v & occ & -> & X & _ & N & O & Sc).
        exact (proj1 (regex_hits (rrs i) (ats i) (ro_find _ _ _ O) c p e (sc_kw_paths sc) (Sc p c (IN (p, c) (or_introl eq_refl))))).
      * apply IH. intros pc Hpc. apply IN. right. exact Hpc.
Qed.

Lemma c75_values_lemma :
  forall en b t, build en b = Ret (Ok t) -> (exists cs, searches_of (bt_scanner t) cs) /\
  forall cs, searches_of (bt_scanner t) cs -> forall runs : list (list rule_match * list emission),
  Forall (fun run => exists I fuel h srt blocked e e',
            scan_counted I fuel h srt (bt_scanner t) cs blocked e = Ret (e', fst run, snd run)) runs ->
  let em := flat_map snd runs in
  let value k n := counter_value (bt_labels t) (bt_rule_labels t) k em n in
  value (chars "scanned_events", bu_labels b) (length runs) /\
  value (chars "scanning.match_count", bu_labels b) (list_sum (map (fun run => length (fst run)) runs)) /\
  (forall ls n, value (chars "false_positive.multipass.excluded_match", ls) n <->
     tally (fun a => exists i c, nth_error (bu_rules b) i = Some c /\ bu_labels b ++ cf_labels c = ls /\ a = EmExcluded i) em n) /\
  (forall ls n, value (chars "false_positive.proximity_keywords", ls ++ [(chars "type", chars "excluded_keywords")]) n <->
     tally (fun a => exists i c, nth_error (bu_rules b) i = Some c /\ bu_labels b ++ cf_labels c = ls /\ a = EmKeyword i) em n).
Proof.
  intros en b t H. split; [exact (built_searches en b t H)|]. intros cs _ runs R em value.
  assert (LB : bt_labels t = bu_labels b /\ length (bt_rule_labels t) = length (bu_rules b) /\
    forall i c, nth_error (bu_rules b) i = Some c -> nth_error (bt_rule_labels t) i = Some (bu_labels b ++ cf_labels c)).
  { destruct (built_spec en b t H) as (_ & vs & xs & _ & L & X & ->). cbn. split; [reflexivity|]. rewrite map_length. split; [exact L|].
    intros i c C. destruct (X i c C) as (rr & _ & Y & _). rewrite nth_error_map, Y. reflexivity. }
  destruct LB as (LB & LL & LR).
  assert (G : forall run, In run runs -> exists em0, snd run = em0 ++ [EmScanned; EmMatches (length (fst run))] /\ of_rules em0).
  { intros run I0. rewrite Forall_forall in R. destruct (R run I0) as (I & fuel & h & srt & blocked & e & e' & E). exact (scan_emits _ _ _ _ _ _ _ _ _ _ _ E). }
  assert (NK : forall i ls, nth_error (bt_rule_labels t) i = Some ls <-> exists c, nth_error (bu_rules b) i = Some c /\ bu_labels b ++ cf_labels c = ls).
  { intros i ls. split.
    - intros E. destruct (nth_error (bu_rules b) i) as [c|] eqn:C.
      + exists c. split; [reflexivity|]. rewrite (LR i c C) in E. injection E as <-. reflexivity.
      + exfalso. apply nth_error_None in C. assert (i < length (bt_rule_labels t)) by (apply nth_error_Some; congruence). lia.
    - intros (c & C & <-). exact (LR i c C). }
  assert (KE : forall a ls, emission_key (bt_labels t) (bt_rule_labels t) a = Some (chars "false_positive.multipass.excluded_match", ls) <->
    exists i c, nth_error (bu_rules b) i = Some c /\ bu_labels b ++ cf_labels c = ls /\ a = EmExcluded i).
  { intros a ls. split.
    - destruct a as [i|i| |m]; cbn [emission_key]; try discriminate; destruct (nth_error (bt_rule_labels t) i) as [l|] eqn:N; cbn [option_map]; try discriminate.
      intros K. injection K as <-. apply NK in N. destruct N as (c & C & L). exists i, c. auto.
    - intros (i & c & C & L & ->). cbn [emission_key]. rewrite (proj2 (NK i ls)) by eauto. reflexivity. }
  assert (KK : forall a ls, emission_key (bt_labels t) (bt_rule_labels t) a =
      Some (chars "false_positive.proximity_keywords", ls ++ [(chars "type", chars "excluded_keywords")]) <->
    exists i c, nth_error (bu_rules b) i = Some c /\ bu_labels b ++ cf_labels c = ls /\ a = EmKeyword i).
  { intros a ls. split.
    - destruct a as [i|i| |m]; cbn [emission_key]; try discriminate; destruct (nth_error (bt_rule_labels t) i) as [l|] eqn:N; cbn [option_map]; try discriminate.
      intros K. assert (K' : l ++ [(chars "type", chars "excluded_keywords")] = ls ++ [(chars "type", chars "excluded_keywords")]) by (cbn [clone_with_labels] in K; unfold clone_with_labels in K; injection K as K; exact K).
      apply app_inj_tail in K'. destruct K' as [-> _]. apply NK in N. destruct N as (c & C & L). exists i, c. auto.
    - intros (i & c & C & L & ->). cbn [emission_key]. rewrite (proj2 (NK i ls)) by eauto. reflexivity. }
  split; [|split; [|split]].
  - unfold value, em. rewrite <- LB. clear - G. induction runs as [|run runs IH]; cbn [flat_map length]; [reflexivity|].
    destruct (G run (or_introl eq_refl)) as (em0 & -> & O). change (S (length runs)) with (1 + length runs). apply value_app.
    + change 1 with (0 + 1). apply value_app; [|apply value_two]. apply value_other. intros a I K. destruct (O a I) as [i Ha].
      destruct (rule_name _ _ a i Ha _ K) as [X|X]; discriminate X.
    + apply IH. intros r I. apply G. right. exact I.
  - unfold value, em. rewrite <- LB. clear - G. induction runs as [|run runs IH]; cbn [flat_map map list_sum fold_right]; [reflexivity|].
    destruct (G run (or_introl eq_refl)) as (em0 & -> & O). apply value_app.
    + change (length (fst run)) with (0 + length (fst run)). apply value_app; [|apply value_two]. apply value_other. intros a I K. destruct (O a I) as [i Ha].
      destruct (rule_name _ _ a i Ha _ K) as [X|X]; discriminate X.
    + apply IH. intros r I. apply G. right. exact I.
  - intros ls n. unfold value. rewrite value_tally.
    + split; apply tally_weaken; intros a _; rewrite KE; reflexivity.
    + intros a _ K. destruct a; reflexivity || discriminate K.
  - intros ls n. unfold value. rewrite value_tally.
    + split; apply tally_weaken; intros a _; rewrite KK; reflexivity.
    + intros a _ K. destruct a; reflexivity || discriminate K.
Qed.

Lemma c76_once_refuted_lemma :
  let s := text "no 123" in
let with_keyword := excluding_rule 0 (digits 2) 5 [text "no"] in
let without := plain_rule 0 (digits 2) in
regex_string_matches_counted 100 with_keyword s [] false [] false [] = Ret ([], [], 2) /\
regex_string_matches_counted 100 without s [] false [] false [] = Ret ([(3, 5)], [], 0).
Proof.
  intros s with_keyword without. split; vm_compute; reflexivity.
Qed.

Lemma c76_at_least_lemma :
  forall r at_ occ c xk n, regex_ok r at_ occ -> rr_included r = None -> rr_excluded r = Some xk -> keyword_hits r at_ c n ->
  exists ms, scan_chain r at_ true c 0 ms /\
  forall lost : list nat, NoDup lost ->
    (forall a, In a lost -> at_ c a <> None /\ excluded_keyword_before xk c a /\ forall m, In m ms -> ~ (fst m <= a < snd m)) ->
    length lost <= n.
Proof.
  intros r at_ occ c xk n O RI RX H. unfold keyword_hits in H. rewrite RI, RX in H. destruct H as (ms & Ch & l & ND & Hl & <-).
  exists ms. split; [exact Ch|]. intros lost NL HL. apply NoDup_incl_length; [exact NL|]. intros a Ia. apply Hl. exact (HL a Ia).
Qed.

