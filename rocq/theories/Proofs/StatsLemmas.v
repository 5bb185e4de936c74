(* Lemmas on the counter and the gauge of scanners *)
From Coq Require Import Lia.
From Verif Require Export Model.Stats Spec.Stats.

Lemma count_run : forall acts s s', stat_run acts s = Some s' -> st_count s' = (st_count s + balance acts)%Z.
Proof.
  intros acts. induction acts as [|[d|n] acts IH]; intros s s' H; cbn [stat_run stat_step] in H.
  - injection H as <-. unfold balance. cbn. lia.
  - rewrite (IH _ _ H). unfold balance. cbn. lia.
  - destruct (nth_error (st_pending s) n) as [v|]; [|discriminate]. rewrite (IH _ _ H). reflexivity.
Qed.
(* the gauge, when every call takes the oldest pending one *)
Lemma fifo_run : forall acts s s', (forall n, In (SSet n) acts -> n = 0) -> stat_run acts s = Some s' ->
  last (st_pending s) (st_gauge s) = st_count s -> last (st_pending s') (st_gauge s') = st_count s'.
Proof.
  intros acts. induction acts as [|[d|n] acts IH]; intros s s' Ha H E; cbn [stat_run stat_step] in H.
  - injection H as <-. exact E.
  - refine (IH _ _ (fun n K => Ha n (or_intror K)) H _). cbn. apply last_last.
  - pose proof (Ha n (or_introl eq_refl)) as ->. destruct (st_pending s) as [|v l] eqn:Ep; [discriminate|]. cbn [nth_error] in H.
    refine (IH _ _ (fun n K => Ha n (or_intror K)) H _). cbn. destruct l as [|v' l]; [exact E|]. rewrite <- E.
    clear. revert v'. induction l as [|y l IH]; intros v'; [reflexivity|]. change (last (y :: l) v = last (y :: l) (st_gauge s)). apply IH.
Qed.
(* the gauge is a count that was right at some time *)
Definition was_count (acts : list stat_action) (v : Z) : Prop := exists a b, acts = a ++ b /\ v = balance a.
