(* Scanners made of regex rules *)
From Verif Require Export Spec.Claims Spec.Regex.

(* rule number [i] is the compiled regex rule [rr], on engines that behave *)
Definition regex_rule_at (sc : scanner) (i : nat) (rr : regex_rule) (at_ : str -> nat -> option nat)
    (occ : str -> nat -> nat -> Prop) : Prop :=
  exists a s v, nth_error (sc_rules sc) i = Some (regex_compiled a s v rr) /\
    rr_index rr = i /\ action_validate a = true /\ regex_ok rr at_ occ.

Definition regex_scanner (sc : scanner) (strs : list (path * str)) : Prop :=
  forall i r, nth_error (sc_rules sc) i = Some r ->
    exists rr at_ occ, regex_rule_at sc i rr at_ occ /\
      forall p c, In (p, c) strs -> scannable rr at_ c.
