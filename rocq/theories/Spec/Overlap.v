(* Specification of overlap resolution (documented at scanner/mod.rs 549-563) *)
From Coq Require Export Sorted.
From Verif Require Export Model.Scanner.

(* the rule of the match changes the text *)
Definition mutates {E} (rules : list rule) (m : internal_match E) : Prop :=
  exists r, nth_error rules (im_rule m) = Some r /\ rule_action r <> ActNone.

(* mutating first, then earlier start, then longer, then lower rule index *)
Definition outranks {E} (rules : list rule) (a b : internal_match E) : Prop :=
  (mutates rules a /\ ~ mutates rules b) \/
  ((mutates rules a <-> mutates rules b) /\
   (im_start a < im_start b \/
    (im_start a = im_start b /\
     (im_end b < im_end a \/
      (im_end a = im_end b /\ im_rule a < im_rule b))))).

(* the two matches share a byte *)
Definition overlaps {E} (a b : internal_match E) : Prop :=
  exists i, (im_start a <= i < im_end a) /\ (im_start b <= i < im_end b).

Definition key {E} (m : internal_match E) : nat * nat * nat := (im_rule m, im_start m, im_end m).

(* [out] is the set of reported matches for the candidates [ms] *)
Record resolved {E} (rules : list rule) (ms out : list (internal_match E)) : Prop := {
  rs_genuine : forall o, In o out -> In o ms;
  rs_sorted : StronglySorted (fun a b => im_start a < im_start b) out;
  rs_disjoint : forall i j a b, i <> j -> nth_error out i = Some a -> nth_error out j = Some b ->
    ~ overlaps a b;
  rs_iff : forall m, In m ms ->
    ((exists o, In o out /\ key o = key m) <->
     ~ (exists o, In o out /\ outranks rules o m /\ overlaps o m))
}.
