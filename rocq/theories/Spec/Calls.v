(* How often regex engines are called *)
From Coq Require Import Sorted.
From Verif Require Export Spec.Regex Spec.Rules Model.Calls.

(* where the regex of the rule was searched from, in order *)
Fixpoint rule_starts (l : list call) : list nat :=
  match l with
  | [] => []
  | CallRule i :: l' => i :: rule_starts l'
  | _ :: l' => rule_starts l'
  end.
(* where excluded keywords were looked for, in order *)
Fixpoint windows (l : list call) : list nat :=
  match l with
  | [] => []
  | CallWindow i :: l' => i :: windows l'
  | _ :: l' => windows l'
  end.
(* searches of the regex of the rule, and of its keywords *)
Definition of_rule (k : call) : Prop := exists i, k = CallRule i \/ k = CallPresence.
Definition of_keywords (k : call) : Prop := exists i, k = CallKeyword i \/ k = CallPath.

Inductive tally_calls (P : call -> Prop) : list call -> nat -> Prop :=
| tc_nil : tally_calls P [] 0
| tc_yes : forall k l n, P k -> tally_calls P l n -> tally_calls P (k :: l) (S n)
| tc_no : forall k l n, ~ P k -> tally_calls P l n -> tally_calls P (k :: l) n.

(* the engines of the rules of a scanner *)
Definition calls_of (sc : scanner) (cs : list search_calls) : Prop :=
  Forall2 (fun r c => exists a s v rr, r = regex_compiled a s v rr /\ c = regex_calls rr) (sc_rules sc) cs.
(* their regexes and keywords behave *)
Definition engines_behave (sc : scanner) (cs : list search_calls) : Prop :=
  Forall2 (fun r c => exists a s v rr at_ occ, r = regex_compiled a s v rr /\ c = regex_calls rr /\ regex_ok rr at_ occ)
          (sc_rules sc) cs.
