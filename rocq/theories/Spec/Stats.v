(* Specification of the statistics of scanners *)
From Verif Require Export Model.Stats.

(* creations minus deletions *)
Definition balance (acts : list stat_action) : Z :=
  fold_right Z.add 0%Z (map (fun a => match a with SAdd d => d | SSet _ => 0%Z end) acts).
(* all calls have completed *)
Definition quiescent (s : stats) : Prop := st_pending s = [].
(* the gauge is set in the order in which the counter is updated *)
Definition in_order (acts : list stat_action) : Prop := forall n, In (SSet n) acts -> n = 0.
(* no two calls overlap *)
Inductive sequential : list stat_action -> Prop :=
| seq_nil : sequential []
| seq_call : forall d acts, sequential acts -> sequential (SAdd d :: SSet 0 :: acts).
