(* Specification of what other rules of a scanner change *)
From Verif Require Export Spec.Claims.

(* the rule changes what it matches *)
Definition changes (sc : scanner) (i : nat) : bool :=
  match nth_error (sc_rules sc) i with
  | Some r => match rule_action r with ActNone => false | _ => true end
  | None => false
  end.
(* the reports of rules that change what they match *)
Definition changing (sc : scanner) (outs : list rule_match) : list rule_match :=
  filter (fun o => changes sc (rm_rule o)) outs.

(* Rule [i] of the first scanner is rule [pi i] of the second; otherwise the two are
   alike. *)
Record reordered (pi : nat -> nat) (sc1 sc2 : scanner) (fs1 fs2 : nat -> finder) : Prop := {
  ro_rules : forall i r1, nth_error (sc_rules sc1) i = Some r1 ->
    exists r2, nth_error (sc_rules sc2) (pi i) = Some r2 /\
      rule_action r1 = rule_action r2 /\ rule_scope r1 = rule_scope r2 /\
      rule_validation r1 = rule_validation r2 /\ rule_multipass r1 = rule_multipass r2 /\
      forall c p e kw, fs1 i c p e kw = fs2 (pi i) c p e kw;
  ro_once : forall i j, pi i = pi j -> i = j;
  ro_all : forall j, j < length (sc_rules sc2) -> exists i, i < length (sc_rules sc1) /\ pi i = j;
  ro_kw : sc_kw_paths sc1 = sc_kw_paths sc2;
  ro_wild : sc_wild sc1 = sc_wild sc2;
  ro_multipass : sc_multipass sc1 = sc_multipass sc2;
  ro_return : sc_return_matches sc1 = sc_return_matches sc2
}.
Definition renamed (pi : nat -> nat) (o : rule_match) : rule_match := {|
  rm_rule := pi (rm_rule o); rm_path := rm_path o; rm_kind := rm_kind o; rm_start := rm_start o;
  rm_end := rm_end o; rm_shift := rm_shift o; rm_value := rm_value o; rm_status := rm_status o
|}.
(* two rules that both change what they match, or both do not, never find the same range *)
Definition no_ties (sc : scanner) (fs : nat -> finder) (blocked : list nat) (strs : list (path * str)) : Prop :=
  forall p c i j a b, In (p, c) strs ->
    candidate sc fs blocked p c (i, a, b) -> candidate sc fs blocked p c (j, a, b) ->
    changes sc i = changes sc j -> i = j.
