(* Rules that count the calls before them.  Nothing here models code of /repo. *)
From Verif Require Import Proofs.Text.
From Verif Require Export Examples.Setting Spec.GroupData.

(* A rule whose match begins at 100 times its group data plus its cache, and is as long as its
   group config; the types of all three are [t].  *)
Definition counting (t : N) (data config step : nat) : data_rule nat := {|
  dr_action := ActNone; dr_scope := everywhere; dr_validation := None; dr_multipass := false;
  dr_data := t; dr_config := t; dr_cache := t;
  dr_new_data := data; dr_new_config := config; dr_new_cache := 0; dr_process := fun n => n + step;
  dr_string_matches := fun _ _ _ _ _ _ x d g c => Ret ([(d * 100 + c, d * 100 + c + g)], x, S d, S c) |}.
Definition counting_rules : list (data_rule nat) := [counting 1 0 10 1; counting 1 0 7 2; counting 2 5 3 1].
(* ["x", "y"] *)
Definition two_strings : simple_event := SList [SString (text "x"); SString (text "y")].

Lemma isort_extensional : extensional_sort isort.
Proof.
  intros A f g l H. induction l as [|a l IH]; [reflexivity|]. unfold isort in *. cbn [fold_right]. rewrite IH.
  generalize (fold_right (insert g) [] l) as m. induction m as [|b m IHm]; [reflexivity|]. cbn [insert]. rewrite H, IHm. reflexivity.
Qed.
