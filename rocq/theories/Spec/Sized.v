(* Actions whose replacement is not too large for a string *)
From Verif Require Export Model.Sized.

Definition action_fits (a : match_action) : Prop :=
  forall d n, a = ActPartialRedact d n -> (Z.of_nat n < 2 ^ 63)%Z.
