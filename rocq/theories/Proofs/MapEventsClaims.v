(* Hash maps as events, and the order of strings (C42, C61): proofs of the statements of Thm/MapEvents.v *)
From Coq Require Import Lia Permutation.
From Verif Require Import Proofs.Text Proofs.Json Proofs.Visitor Proofs.Claims Proofs.ScopesClaims.
From Verif Require Export Model.MapEvents Spec.Json Spec.Claims.

Lemma object_ops : forall m, json_ops (JObject m) = map_ops m.
Proof. induction m as [|[k v] m IH]; [reflexivity|]. cbn [map_ops]. rewrite <- IH. reflexivity. Qed.
Lemma object_get : forall m p, json_get (JObject m) p = map_string m p.
Proof. intros m [|[k|i] p]; try reflexivity. cbn. destruct (map_get m k); reflexivity. Qed.
Lemma object_set : forall m p s, json_set (JObject m) p s = JObject (map_set_string m p s).
Proof. intros m [|[k|i] p] s; try reflexivity. cbn. destruct (map_get m k); reflexivity. Qed.
Lemma object_all : forall h srt sc x l m, process_all json_event_impl h srt sc x (JObject m) l =
  let* r := process_all map_event_impl h srt sc x m l in Ret (JObject (fst r), snd r).
Proof.
  intros h srt sc x l. induction l as [|[p ms] l IH]; intros m; cbn [process_all]; [reflexivity|].
  change (ev_get json_event_impl (JObject m) p) with (json_get (JObject m) p). change (ev_get map_event_impl m p) with (map_string m p). rewrite object_get.
  destruct (map_string m p) as [c| |]; cbn [bind]; try reflexivity.
  change (@process_string (ev_enc json_event_impl) h srt sc x p ms c) with (@process_string utf8_encoding h srt sc x p ms c).
  change (@process_string (ev_enc map_event_impl) h srt sc x p ms c) with (@process_string utf8_encoding h srt sc x p ms c).
  destruct (@process_string utf8_encoding h srt sc x p ms c) as [[[c' mu] out]| |]; cbn [bind]; try reflexivity.
  change (ev_set json_event_impl (JObject m) p c' mu) with (json_set (JObject m) p c'). change (ev_set map_event_impl m p c' mu) with (map_set_string m p c').
  rewrite object_set, IH. destruct (process_all map_event_impl h srt sc x (map_set_string m p c') l) as [[m' outs]| |]; reflexivity.
Qed.
Lemma combine_parts : forall A B (a b : list A) (x y : list B), length a = length x -> combine (a ++ b) (x ++ y) = combine a x ++ combine b y.
Proof. intros A B a. induction a as [|u a IH]; intros b [|v x] y H; try discriminate H; [reflexivity|]. cbn. rewrite IH by (injection H; auto). reflexivity. Qed.
Lemma permuted_results : forall A B (l1 l2 : list A) (r1 r2 : list B), Permutation l1 l2 -> length r1 = length l1 -> length r2 = length l2 ->
  (forall k x y, In (k, x) (combine l1 r1) -> In (k, y) (combine l2 r2) -> x = y) -> Permutation (combine l1 r1) (combine l2 r2).
Proof.
  intros A B l1. induction l1 as [|k l1 IH]; intros l2 r1 r2 P L1 L2 F.
  { apply Permutation_nil in P. subst. constructor. }
  destruct r1 as [|x r1]; [discriminate L1|].
  assert (Hk : In k l2) by (eapply Permutation_in; [exact P|left; reflexivity]). apply in_split in Hk as (a & b & ->).
  apply Permutation_cons_app_inv in P.
  destruct (nth_error r2 (length a)) as [y|] eqn:E.
  2:{ apply nth_error_None in E. rewrite app_length in L2. cbn in L2. lia. }
  apply nth_error_split in E as (ra & rb & -> & La). rewrite combine_parts in * by auto. cbn [combine] in *.
  assert (x = y) as <-. { apply (F k); [left; reflexivity|apply in_or_app; right; left; reflexivity]. }
  apply Permutation_cons_app. rewrite <- combine_parts by auto. apply IH; [exact P|injection L1; auto| |].
  - rewrite !app_length in *. cbn in L2. lia.
  - rewrite combine_parts by auto. intros k' u v Hu Hv. apply (F k'); [right; exact Hu|]. apply in_app_or in Hv as [Hv|Hv]; apply in_or_app; [left|right; right]; exact Hv.
Qed.
Lemma flat_results : forall A (strs : list A) (res : list (str * list rule_match)), length res = length strs ->
  flat_map snd res = flat_map (fun t => snd (snd t)) (combine strs res).
Proof. intros A strs. induction strs as [|t strs IH]; intros [|r res] H; try discriminate H; [reflexivity|]. cbn. rewrite IH by (injection H; auto). reflexivity. Qed.

Lemma c42_map_object_lemma :
  forall fuel h srt sc blocked m,
  scan json_event_impl fuel h srt sc blocked (JObject m) =
  let* r := scan map_event_impl fuel h srt sc blocked m in Ret (JObject (fst r), snd r).
Proof.
  intros fuel h srt sc blocked m. unfold scan. change (ev_ops json_event_impl (JObject m)) with (json_ops (JObject m)).
  change (ev_ops map_event_impl m) with (map_ops m). rewrite object_ops.
  change (ev_enc json_event_impl) with utf8_encoding. change (ev_enc map_event_impl) with utf8_encoding.
  match goal with |- bind ?v _ = _ => destruct v as [[[found x] log]| |] end; cbn [bind]; try reflexivity. apply object_all.
Qed.

Lemma c42_map_fields_lemma :
  forall m, exists strs, strings_of (map_ops m) = Some strs /\
  forall p s, In (p, s) strs <-> exists k v q b, p = Field k :: q /\ In (k, v) m /\ json_shown v q s b.
Proof.
  intros m. exists (json_strings (JObject m)). rewrite <- object_ops. split; [apply json_strings_of|].
  intros p s. rewrite json_strings_shown. split.
  - intros (b & H). inversion H as [| | | | |m' k c q s' b' Hin Hc]; subst. exists k, c, q, b. auto.
  - intros (k & v & q & b & -> & Hin & Hv). exists b. econstructor; eauto.
Qed.

Lemma c61_order_lemma :
  forall I w srt sc fs e1 strs1 holds1 fuel1 e2 strs2 holds2 fuel2,
  scan_setting I w srt sc fs e1 strs1 holds1 fuel1 ->
  scan_setting I w srt sc fs e2 strs2 holds2 fuel2 ->
  Permutation strs1 strs2 ->
  forall h blocked e1' outs1 e2' outs2,
  scan I fuel1 h srt sc blocked e1 = Ret (e1', outs1) ->
  scan I fuel2 h srt sc blocked e2 = Ret (e2', outs2) ->
  Permutation outs1 outs2 /\
  exists res1 res2,
    scan_results I strs1 holds1 e1' outs1 res1 /\ scan_results I strs2 holds2 e2' outs2 res2 /\
    Permutation (combine strs1 res1) (combine strs2 res2).
Proof.
  intros I w srt sc fs e1 strs1 holds1 fuel1 e2 strs2 holds2 fuel2 S1 S2 P h blocked e1' outs1 e2' outs2 H1 H2.
  destruct (scan_scanned _ _ _ _ _ _ _ _ _ S1 _ _ _ _ H1) as (r1 & L1 & E1 & Hh1 & Hall1).
  destruct (scan_scanned _ _ _ _ _ _ _ _ _ S2 _ _ _ _ H2) as (r2 & L2 & E2 & Hh2 & Hall2).
  assert (Q : Permutation (combine strs1 r1) (combine strs2 r2)).
  { apply permuted_results; auto. intros [p c] [c1 o1] [c2 o2] I1 I2.
    assert (Hsim : similar sc sc).
    { split; try reflexivity. unfold same_rules. generalize (sc_rules sc). induction l; constructor; auto. }
    destruct (string_scanned_unique sc sc fs fs blocked blocked Hsim (ev_enc I) w h strs1 strs2 p c c1 c2 o1 o2) as [-> ->].
    - assert (Hx : forall s s', Permutation s s' -> forall k, suppressed sc fs blocked s c k -> suppressed sc fs blocked s' c k).
      { intros s s' Ps [[i a] b] (A & B & t & Ht & i' & r & p' & c' & K1 & K). split; [exact A|]. split; [exact B|]. exists t. split; [exact Ht|].
        exists i', r, p', c'. split; [exact (Permutation_in _ Ps K1)|exact K]. }
      intros k. split; intros [Hc Hn]; (split; [exact Hc|]); intros K; apply Hn; eapply Hx; [|exact K| |exact K]; [apply Permutation_sym; exact P|exact P].
    - intros i a b Hc. eapply (candidate_part _ _ _ _ _ _ _ _ _ S1); [|exact Hc]. eapply in_combine_l; exact I1.
    - exact (Hall1 _ _ _ _ I1).
    - exact (Hall2 _ _ _ _ I2).
    - reflexivity. }
  split; [|exists r1, r2; split; [split; auto|split; [split; auto|exact Q]]].
  rewrite E1, E2, (flat_results _ strs1 r1 L1), (flat_results _ strs2 r2 L2). apply Permutation_flat_map. exact Q.
Qed.

