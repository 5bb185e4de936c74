(* What is assumed of the standard library's unstable sorts: they return a sorted
   permutation of their argument, whenever the comparison is a total preorder. *)
From Coq Require Export List Sorted Permutation.
From Verif Require Export Model.Scanner.

Record total_preorder {A} (cmp : A -> A -> comparison) : Prop := {
  tp_opp : forall a b, cmp b a = CompOpp (cmp a b);
  tp_trans : forall a b c, cmp a b <> Gt -> cmp b c <> Gt -> cmp a c <> Gt
}.

Definition sorter_ok (srt : sorter) : Prop :=
  forall A (cmp : A -> A -> comparison) (l : list A), total_preorder cmp ->
    Permutation l (srt A cmp l) /\
    StronglySorted (fun a b => cmp a b <> Gt) (srt A cmp l).
