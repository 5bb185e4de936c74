(* Numbers and booleans of JSON events (C42): proofs of the statements of Thm/JsonScalars.v *)
From Coq Require Import Lia Permutation.
From Verif Require Import Proofs.Text Proofs.Json Proofs.Visitor Proofs.Scan.
From Verif Require Export Spec.JsonScalars Examples.Setting.

Lemma ops_same : forall e, json_ops (as_strings e) = json_ops e.
Proof.
  induction e as [|b|t|s|l IH|m IH] using json_ind'; try reflexivity.
  - destruct b; reflexivity.
  - cbn [as_strings json_ops]. generalize 0. induction IH as [|c l H _ IH]; intros i; [reflexivity|]. cbn [map]. rewrite H, IH. reflexivity.
  - cbn [as_strings json_ops]. induction IH as [|[k c] m H _ IH]; [reflexivity|]. cbn [map fst snd]. cbn [snd] in H. rewrite H, IH. reflexivity.
Qed.
Lemma map_get_map : forall A B (f : A -> B) m k, map_get (map (fun kc => (fst kc, f (snd kc))) m) k = option_map f (map_get m k).
Proof. intros A B f m k. induction m as [|[k' v] m IH]; [reflexivity|]. cbn [map map_get fst snd]. destruct (str_eqb k' k); [reflexivity|exact IH]. Qed.
Lemma map_set_values : forall A B (f : A -> B) m k v, map (fun kc => (fst kc, f (snd kc))) (map_set m k v) = map_set (map (fun kc => (fst kc, f (snd kc))) m) k (f v).
Proof.
  intros A B f m k v. induction m as [|[k' v'] m IH]; [reflexivity|]. cbn [map map_set fst snd]. destruct (str_eqb k' k); cbn [map fst snd]; [reflexivity|].
  rewrite IH. reflexivity.
Qed.
Lemma list_set_values : forall A B (f : A -> B) l i v, map f (list_set l i v) = list_set (map f l) i (f v).
Proof. intros A B f l. induction l as [|x l IH]; intros [|i] v; try reflexivity. cbn [map list_set]. rewrite IH. reflexivity. Qed.
Lemma get_same : forall p e, json_get e p = Panic \/ json_get e p = json_get (as_strings e) p.
Proof.
  induction p as [|[k|i] p IH]; intros e.
  - destruct e as [|[|]|t|s|l|m]; cbn; auto.
  - destruct e as [|[|]|t|s|l|m]; cbn [json_get as_strings]; auto.
    rewrite map_get_map. destruct (map_get m k) as [c|]; cbn [option_map]; auto.
  - destruct e as [|[|]|t|s|l|m]; cbn [json_get as_strings]; auto.
    rewrite nth_error_map. destruct (nth_error l i) as [c|]; cbn [option_map]; auto.
Qed.
Lemma set_same : forall p e c s, json_get e p = Ret c -> as_strings (json_set e p s) = json_set (as_strings e) p s.
Proof.
  induction p as [|[k|i] p IH]; intros e c s H.
  - destruct e as [|[|]|t|s'|l|m]; try discriminate H. reflexivity.
  - destruct e as [|[|]|t|s'|l|m]; try discriminate H. cbn [json_get json_set as_strings] in *. rewrite map_get_map.
    destruct (map_get m k) as [d|]; try discriminate H. cbn [option_map as_strings]. rewrite map_set_values. rewrite (IH d c s H). reflexivity.
  - destruct e as [|[|]|t|s'|l|m]; try discriminate H. cbn [json_get json_set as_strings] in *. rewrite nth_error_map.
    destruct (nth_error l i) as [d|]; try discriminate H. cbn [option_map as_strings]. rewrite list_set_values. rewrite (IH d c s H). reflexivity.
Qed.
Lemma map_get_set : forall A (m : list (str * A)) k v k', map_get (map_set m k v) k' =
  if str_eqb k k' then match map_get m k with Some _ => Some v | None => None end else map_get m k'.
Proof.
  intros A m k v k'. induction m as [|[k1 v1] m IH]; cbn [map_set map_get]; [destruct (str_eqb k k'); reflexivity|].
  destruct (str_eqb k1 k) eqn:E1.
  - apply str_eqb_eq in E1 as ->. cbn [map_get]. destruct (str_eqb k k') eqn:E2; reflexivity.
  - cbn [map_get]. rewrite IH. destruct (str_eqb k k') eqn:E2; [|reflexivity]. apply str_eqb_eq in E2 as <-. rewrite E1. reflexivity.
Qed.
Lemma panic_kept : forall q e p s, json_get e p = Panic -> json_get (json_set e q s) p = Panic.
Proof.
  induction q as [|[k|i] q IH]; intros e p s H.
  - destruct e as [|[|]|t|s'|l|m]; try exact H. destruct p as [|[|] p]; [discriminate H|reflexivity|reflexivity].
  - destruct e as [|[|]|t|s'|l|m]; try exact H. cbn [json_set]. destruct (map_get m k) as [d|] eqn:E; [|exact H].
    destruct p as [|[k'|j] p]; try reflexivity. cbn [json_get] in *. rewrite map_get_set. destruct (str_eqb k k') eqn:E2; [|exact H].
    apply str_eqb_eq in E2 as <-. rewrite E in *. apply IH, H.
  - destruct e as [|[|]|t|s'|l|m]; try exact H. cbn [json_set]. destruct (nth_error l i) as [d|] eqn:E; [|exact H].
    destruct p as [|[k'|j] p]; try reflexivity. cbn [json_get] in *. rewrite list_set_nth. destruct (Nat.eq_dec i j) as [<-|N].
    + rewrite Nat.eqb_refl. rewrite E in *. cbn. apply IH, H.
    + replace (i =? j) with false by (symmetry; apply Nat.eqb_neq; exact N). exact H.
Qed.
Lemma kept_refl : forall e, scalars_kept e e.
Proof.
  induction e as [|b|t|s|l IH|m IH] using json_ind'; cbn [scalars_kept]; auto.
  - induction IH; auto.
  - induction IH as [|[k c] m H _ IH]; auto.
Qed.
Lemma kept_trans : forall e e' e'', scalars_kept e e' -> scalars_kept e' e'' -> scalars_kept e e''.
Proof.
  induction e as [|b|t|s|l IH|m IH] using json_ind'; intros e' e'' A B.
  1-3: cbn in A; subst e'; exact B.
  - destruct e'; try contradiction. destruct e''; try contradiction. exact Logic.I.
  - destruct e' as [| | | |l'|]; try contradiction. destruct e'' as [| | | |l''|]; try contradiction. cbn [scalars_kept] in *.
    revert l' l'' A B. induction IH as [|c l H _ IH]; intros [|c' l'] [|c'' l''] A B; try contradiction; auto.
    destruct A as (A1 & A2), B as (B1 & B2). split; [exact (H _ _ A1 B1)|exact (IH _ _ A2 B2)].
  - destruct e' as [| | | | |m']; try contradiction. destruct e'' as [| | | | |m'']; try contradiction. cbn [scalars_kept] in *.
    revert m' m'' A B. induction IH as [|[k c] m H _ IH]; intros [|[k' c'] m'] [|[k'' c''] m''] A B; try contradiction; auto.
    destruct A as (-> & A1 & A2), B as (-> & B1 & B2). split; [reflexivity|]. split; [exact (H _ _ A1 B1)|exact (IH _ _ A2 B2)].
Qed.
Lemma set_kept : forall p e s, scalars_kept e (json_set e p s).
Proof.
  induction p as [|[k|i] p IH]; intros e s; destruct e as [|[|]|t|s'|l|m]; try apply kept_refl; cbn [json_set].
  - exact Logic.I.
  - destruct (map_get m k) as [d|] eqn:E; [|apply kept_refl]. cbn [scalars_kept].
    induction m as [|[k1 c1] m IHm]; [discriminate E|]. cbn [map_get map_set] in *. destruct (str_eqb k1 k).
    + injection E as ->. split; [reflexivity|]. split; [apply IH|]. exact (kept_refl (JObject m)).
    + split; [reflexivity|]. split; [apply kept_refl|exact (IHm E)].
  - destruct (nth_error l i) as [d|] eqn:E; [|apply kept_refl]. cbn [scalars_kept].
    revert i E. induction l as [|c l IHl]; intros [|i] E; try discriminate E; cbn [list_set].
    + injection E as ->. split; [apply IH|]. exact (kept_refl (JArray l)).
    + split; [apply kept_refl|exact (IHl i E)].
Qed.
Lemma all_same : forall h srt sc x l e, let o := process_all json_event_impl h srt sc x (as_strings e) l in
  process_all json_event_impl h srt sc x e l = Panic \/
  match o with
  | Ret (e1, outs) => exists e', process_all json_event_impl h srt sc x e l = Ret (e', outs) /\ as_strings e' = e1 /\ scalars_kept e e'
  | other => process_all json_event_impl h srt sc x e l = other
  end.
Proof.
  intros h srt sc x l. induction l as [|[p ms] l IH]; intros e; cbn [process_all].
  { right. exists e. split; [reflexivity|]. split; [reflexivity|apply kept_refl]. }
  change (ev_get json_event_impl e p) with (json_get e p). change (ev_get json_event_impl (as_strings e) p) with (json_get (as_strings e) p). destruct (get_same p e) as [G|G]; [left; rewrite G; reflexivity|]. rewrite <- G.
  destruct (json_get e p) as [c| |] eqn:Gc; cbn [bind]; auto.
  destruct (process_string h srt sc x p ms c) as [[[c' mu] out]| |]; cbn [bind]; auto.
  change (ev_set json_event_impl (as_strings e) p c' mu) with (json_set (as_strings e) p c'). change (ev_set json_event_impl e p c' mu) with (json_set e p c').
  rewrite <- (set_same p e c c' Gc). specialize (IH (json_set e p c')). cbn zeta in IH. destruct IH as [K|K]; [left; rewrite K; reflexivity|].
  destruct (process_all json_event_impl h srt sc x (as_strings (json_set e p c')) l) as [[e1 outs]| |]; cbn [bind fst snd].
  - destruct K as (e' & K1 & K2 & K3). right. exists e'. rewrite K1. split; [reflexivity|]. split; [exact K2|].
    eapply kept_trans; [apply (set_kept p e c')|exact K3].
  - rewrite K. auto.
  - rewrite K. auto.
Qed.
Lemma out_path : forall E h sc p ms c d (cd : enc_shift E) c' outs, apply_match_actions_loop h sc p c d cd ms = Ret (c', outs) -> forall o, In o outs -> rm_path o = p.
Proof.
  intros E h sc p ms. induction ms as [|m ms IH]; intros c d cd c' outs H o Ho; cbn [apply_match_actions_loop] in H.
  { injection H as <- <-. contradiction Ho. }
  destruct (apply_match_actions_for_string h sc p c d cd m) as [[[[c1 d1] cd1] o1]| |] eqn:E1; try discriminate H. cbn [bind] in H.
  destruct (apply_match_actions_loop h sc p c1 d1 cd1 ms) as [[c2 outs2]| |] eqn:E2; try discriminate H. injection H as <- <-.
  destruct Ho as [<-|Ho]; [|exact (IH _ _ _ _ _ E2 o Ho)]. revert E1. clear. unfold apply_match_actions_for_string.
  repeat match goal with |- (let* v := ?a in _) = _ -> _ => destruct a; cbn [bind]; try discriminate end.
  match goal with q : (str * Z * enc_shift E)%type |- _ => destruct q as [[x y] z] end.
  destruct (as_usize (Z.of_nat (enc_get_index E (im_cend m) (im_end m)) + enc_get_shift E z y)); cbn [bind]; try discriminate.
  intros H. injection H as <- <- <- <-. reflexivity.
Qed.
Lemma string_path : forall E h srt sc x p (ms : list (internal_match E)) c c' mu outs, process_string h srt sc x p ms c = Ret (c', mu, outs) -> forall o, In o outs -> rm_path o = p.
Proof.
  intros E h srt sc x p ms c c' mu outs. unfold process_string, apply_match_actions.
  destruct (if sc_multipass sc then _ else _) as [ms1| |]; cbn [bind]; try discriminate.
  destruct (sort_and_remove_overlapping_rules srt (sc_rules sc) ms1) as [ms2| |]; cbn [bind]; try discriminate.
  destruct (apply_match_actions_loop h sc p c 0 (enc_zero_shift E) ms2) as [[c2 o2]| |] eqn:K; cbn [bind]; try discriminate.
  intros H. injection H as <- _ <-. exact (out_path _ _ _ _ _ _ _ _ _ _ K).
Qed.
Lemma all_reported : forall h srt sc x l e e' outs, process_all json_event_impl h srt sc x e l = Ret (e', outs) ->
  forall o, In o outs -> json_get e (rm_path o) <> Panic.
Proof.
  intros h srt sc x l. induction l as [|[p ms] l IH]; intros e e' outs H o Ho; cbn [process_all] in H.
  { injection H as <- <-. contradiction Ho. }
  change (ev_get json_event_impl e p) with (json_get e p) in H. destruct (json_get e p) as [c| |] eqn:Gc; try discriminate H. cbn [bind] in H.
  destruct (process_string h srt sc x p ms c) as [[[c' mu] out]| |] eqn:P; try discriminate H. cbn [bind] in H.
  change (ev_set json_event_impl e p c' mu) with (json_set e p c') in H.
  destruct (process_all json_event_impl h srt sc x (json_set e p c') l) as [[e2 outs2]| |] eqn:P2; try discriminate H. injection H as <- <-.
  apply in_app_or in Ho as [Ho|Ho].
  - rewrite (string_path _ _ _ _ _ _ _ _ _ _ _ P o Ho), Gc. discriminate.
  - intros K. exact (IH _ _ _ P2 o Ho (panic_kept p e _ c' K)).
Qed.
Lemma scalar_panics : forall e p s, json_distinct e -> json_shown e p s false -> json_get e p = Panic.
Proof.
  intros e p s D H. remember false as b eqn:Eb. induction H as [s| | |t|l i c p s b Hc H IH|m k c p s b Hc H IH]; subst; try discriminate Eb; try reflexivity; cbn [json_get].
  - rewrite Hc. apply IH; [|reflexivity]. inversion D; subst. apply H1. eapply nth_error_In; exact Hc.
  - inversion D as [| | | | |m' N D']; subst. rewrite (Events.map_get_in _ m k c N Hc). apply IH; [exact (D' k c Hc)|reflexivity].
Qed.
Lemma string_gets : forall e p s, json_distinct e -> json_shown e p s true -> json_get e p = Ret s.
Proof.
  intros e p s D H. remember true as b eqn:Eb. induction H as [s| | |t|l i c p s b Hc H IH|m k c p s b Hc H IH]; subst; try discriminate Eb; try reflexivity; cbn [json_get].
  - rewrite Hc. apply IH; [|reflexivity]. inversion D; subst. apply H1. eapply nth_error_In; exact Hc.
  - inversion D as [| | | | |m' N D']; subst. rewrite (Events.map_get_in _ m k c N Hc). apply IH; [exact (D' k c Hc)|reflexivity].
Qed.
Lemma panic_before : forall q e p s, json_get (json_set e q s) p = Panic -> json_get e p = Panic.
Proof.
  induction q as [|[k|i] q IH]; intros e p s H.
  - destruct e as [|[|]|t|s'|l|m]; try exact H. destruct p as [|[|] p]; [discriminate H|reflexivity|reflexivity].
  - destruct e as [|[|]|t|s'|l|m]; try exact H. cbn [json_set] in H. destruct (map_get m k) as [d|] eqn:E; [|exact H].
    destruct p as [|[k'|j] p]; try reflexivity. cbn [json_get] in *. rewrite map_get_set in H. destruct (str_eqb k k') eqn:E2; [|exact H].
    apply str_eqb_eq in E2 as <-. rewrite E in *. exact (IH _ _ _ H).
  - destruct e as [|[|]|t|s'|l|m]; try exact H. cbn [json_set] in H. destruct (nth_error l i) as [d|] eqn:E; [|exact H].
    destruct p as [|[k'|j] p]; try reflexivity. cbn [json_get] in *. rewrite list_set_nth in H. destruct (Nat.eq_dec i j) as [<-|N].
    + rewrite Nat.eqb_refl in H. rewrite E in *. cbn in H. exact (IH _ _ _ H).
    + replace (i =? j) with false in H by (symmetry; apply Nat.eqb_neq; exact N). exact H.
Qed.
Lemma all_cause : forall h srt sc x l e, process_all json_event_impl h srt sc x e l = Panic ->
  process_all json_event_impl h srt sc x (as_strings e) l <> Panic -> exists p ms, In (p, ms) l /\ json_get e p = Panic.
Proof.
  intros h srt sc x l. induction l as [|[p ms] l IH]; intros e; cbn [process_all]; [discriminate|].
  change (ev_get json_event_impl e p) with (json_get e p). change (ev_get json_event_impl (as_strings e) p) with (json_get (as_strings e) p).
  destruct (get_same p e) as [G|G]; [intros _ _; exists p, ms; split; [left; reflexivity|exact G]|]. rewrite <- G.
  destruct (json_get e p) as [c| |] eqn:Gc; cbn [bind]; try contradiction; try discriminate.
  destruct (process_string h srt sc x p ms c) as [[[c' mu] out]| |]; cbn [bind]; try contradiction; try discriminate.
  change (ev_set json_event_impl (as_strings e) p c' mu) with (json_set (as_strings e) p c'). change (ev_set json_event_impl e p c' mu) with (json_set e p c').
  rewrite <- (set_same p e c c' Gc). specialize (IH (json_set e p c')). intros A B.
  destruct IH as (p' & ms' & K1 & K2).
  - destruct (process_all json_event_impl h srt sc x (json_set e p c') l) as [[? ?]| |]; cbn [bind] in A; try discriminate A. reflexivity.
  - intros K. apply B. rewrite K. reflexivity.
  - exists p', ms'. split; [right; exact K1|exact (panic_before _ _ _ _ K2)].
Qed.
Section Found.
Variables (fuel : nat) (srt : sorter) (sc : scanner) (blocked : list nat).
Hypothesis Hs : sorter_ok srt.
Definition finds (s : str) (p : path) : Prop := exists i r excl x m ms x', nth_error (sc_rules sc) i = Some r /\ ~ In i blocked /\
  rule_string_matches r fuel s p excl [] (sc_kw_paths sc) x = Ret (m :: ms, x').
Lemma rules_found : forall p c excl rules st ms x', foldM (visit_content_rule fuel sc blocked p c excl) rules st = Ret (ms, x') ->
  ms <> [] -> fst st <> [] \/ finds c p.
Proof.
  intros p c excl rules. induction rules as [|i rules IH]; intros st ms x' H N; cbn [foldM] in H.
  { injection H as ->. left. exact N. }
  destruct (visit_content_rule fuel sc blocked p c excl st i) as [[ms1 x1]| |] eqn:E; try discriminate H. cbn [bind] in H.
  destruct (IH _ _ _ H N) as [K|K]; [|right; exact K]. cbn [fst] in K. unfold visit_content_rule in E.
  destruct (existsb (Nat.eqb i) blocked) eqn:B; [injection E as ->; left; exact K|].
  destruct (nth_error (sc_rules sc) i) as [r|] eqn:R; cbn [unwrap bind] in E; [|discriminate E].
  destruct (rule_string_matches r fuel c p excl [] (sc_kw_paths sc) (snd st)) as [[l x2]| |] eqn:M; cbn [bind] in E; try discriminate E.
  injection E as <- <-. destruct (fst st) as [|y l']; [|left; discriminate]. cbn [app] in K. destruct l as [|m l]; [contradiction K; reflexivity|].
  right. exists i, r, excl, (snd st), m, l, x2. split; [exact R|]. split; [|exact M]. intros Hb. apply (proj2 (existsb_eqb_in i blocked)) in Hb. congruence.
Qed.
Lemma visit_found : forall E wild tree n strs0 strs, (forall t, In t strs -> In t strs0) -> forall (st : scan_state E) log,
  (forall p ms, In (p, ms) (fst st) -> exists s, In (p, s) strs0 /\ finds s p) ->
  forall found x log', foldM (visit_one wild tree n (visit_content fuel srt sc blocked)) strs (st, log) = Ret (found, x, log') ->
  forall p ms, In (p, ms) found -> exists s, In (p, s) strs0 /\ finds s p.
Proof.
  intros E wild tree n strs0 strs. induction strs as [|[p c] strs IH]; intros Hin st log F found x log' H.
  { injection H as H _. subst st. exact F. }
  cbn [foldM] in H. unfold visit_one at 1 in H. cbn [fst snd] in H.
  destruct (visit_content fuel srt sc blocked p c (rules_at wild tree n p) (excluded_at wild tree p) st) as [[st1 b]| |] eqn:V; cbn [bind fst snd] in H; try discriminate H.
  apply (IH (fun t Ht => Hin t (or_intror Ht)) st1 (log ++ [(p, c, b)])) with (x := x) (log' := log'); [|exact H]. clear H.
  unfold visit_content in V. destruct (foldM _ _ _) as [[ms x']| |] eqn:R; cbn [bind] in V; try discriminate V.
  destruct (attach_indices _ _) as [|m l] eqn:A; injection V as <- _; cbn [fst]; [exact F|].
  intros q ms' Hq. apply in_app_or in Hq as [Hq|[Hq|[]]]; [exact (F q ms' Hq)|]. injection Hq as <- _.
  exists c. split; [apply Hin; left; reflexivity|]. destruct (rules_found _ _ _ _ _ _ _ R) as [K|K]; [|contradiction K; reflexivity|exact K].
  intros ->. destruct (Hs (nat * nat * nat)%type (fun a b => snd (fst a) ?= snd (fst b)) [] (start_cmp_preorder sc)) as (P & _). apply Permutation_nil in P.
  rewrite P in A. discriminate A.
Qed.
End Found.
(* an event scanner that only reports digits *)
Definition digit_reporter : scanner := {|
  sc_rules := [regex_compiled ActNone everywhere None (plain_rule 0 (digits 1))]; sc_kw_paths := false; sc_wild := false; sc_multipass := true;
  sc_return_matches := false |}.

Lemma c42_json_panics_lemma :
  forall fuel h srt sc blocked e,
  scan json_event_impl fuel h srt sc blocked e = Panic \/
  match scan json_event_impl fuel h srt sc blocked (as_strings e) with
  | Ret (e1, outs) => exists e', scan json_event_impl fuel h srt sc blocked e = Ret (e', outs) /\ as_strings e' = e1 /\ scalars_kept e e'
  | other => scan json_event_impl fuel h srt sc blocked e = other
  end.
Proof.
  intros fuel h srt sc blocked e. unfold scan. cbn [json_event_impl ev_ops]. rewrite ops_same.
  match goal with |- bind ?v _ = _ \/ _ => destruct v as [[[found x] log]| |]; cbn [bind]; auto end.
  change (ev_visited json_event_impl e log) with e. change (ev_visited json_event_impl (as_strings e) log) with (as_strings e).
  pose proof (all_same h srt sc x found e) as K. cbn zeta in K. destruct K as [K|K]; [left; exact K|right].
  destruct (process_all json_event_impl h srt sc x (as_strings e) found) as [[e1 outs]| |]; exact K.
Qed.

Lemma c42_json_reported_lemma :
  forall fuel h srt sc blocked e e1 outs o s, json_distinct e ->
  scan json_event_impl fuel h srt sc blocked (as_strings e) = Ret (e1, outs) -> In o outs -> json_shown e (rm_path o) s false ->
  scan json_event_impl fuel h srt sc blocked e = Panic.
Proof.
  intros fuel h srt sc blocked e e1 outs o s D H Ho Hs. pose proof (scalar_panics _ _ _ D Hs) as P.
  revert H. unfold scan. cbn [json_event_impl ev_ops]. rewrite ops_same.
  match goal with |- bind ?v _ = _ -> _ => destruct v as [[[found x] log]| |]; cbn [bind]; try discriminate end.
  change (ev_visited json_event_impl e log) with e. change (ev_visited json_event_impl (as_strings e) log) with (as_strings e).
  intros H. pose proof (all_same h srt sc x found e) as K. cbn zeta in K. destruct K as [K|K]; [exact K|].
  rewrite H in K. destruct K as (e' & K & _). exfalso. exact (all_reported _ _ _ _ _ _ _ _ K o Ho P).
Qed.

Lemma c42_json_cause_lemma :
  forall fuel h srt sc blocked e, sorter_ok srt -> json_distinct e ->
  scan json_event_impl fuel h srt sc blocked e = Panic -> scan json_event_impl fuel h srt sc blocked (as_strings e) <> Panic ->
  exists p s i r excl x m ms x', json_shown e p s false /\ nth_error (sc_rules sc) i = Some r /\ ~ In i blocked /\
    rule_string_matches r fuel s p excl [] (sc_kw_paths sc) x = Ret (m :: ms, x').
Proof.
  intros fuel h srt sc blocked e Hs D. unfold scan. cbn [json_event_impl ev_ops]. rewrite ops_same.
  match goal with |- bind ?v _ = _ -> _ => destruct v as [[[found x] log]| |] eqn:V; cbn [bind]; try discriminate; try contradiction end.
  change (ev_visited json_event_impl e log) with e. change (ev_visited json_event_impl (as_strings e) log) with (as_strings e). intros P N.
  destruct (all_cause _ _ _ _ _ _ P N) as (p & ms & Hp & G).
  assert (F : forall p ms, In (p, ms) found -> exists s i r excl x m ms x', In (p, s) (json_strings e) /\ nth_error (sc_rules sc) i = Some r /\ ~ In i blocked /\
    rule_string_matches r fuel s p excl [] (sc_kw_paths sc) x = Ret (m :: ms, x')).
  { revert V. unfold sc_tree. rewrite <- (map_length rule_scope (sc_rules sc)). rewrite (visit_scopes _ _ _ _ _ _ _ (json_strings_of e)).
    intros V p' ms' H'. destruct (visit_found fuel srt sc blocked Hs _ _ _ _ (json_strings e) (json_strings e) (fun _ H => H) ([], []) []
      (fun _ _ H => match H with end) _ _ _ V p' ms' H') as (s & A & i & r & excl & x0 & m & ms0 & x' & B & C & K).
    exists s, i, r, excl, x0, m, ms0, x'. auto. }
  destruct (F p ms Hp) as (s & i & r & excl & x0 & m & ms0 & x' & Hin & Hr & Hb & Hm).
  apply json_strings_shown in Hin as ([|] & Sh).
  - exfalso. pose proof (string_gets _ _ _ D Sh) as K. rewrite K in G. discriminate G.
  - exists p, s, i, r, excl, x0, m, ms0, x'. auto.
Qed.

