(* Searches that end in a panic *)
From Verif Require Export Spec.RegexScan.

Section Trips.
Variable r : regex_rule.
Variable at_ : str -> nat -> option nat.
Variable s : str.

(* the first candidate at or after [i] *)
Definition first_from (i a b : nat) : Prop :=
  i <= a /\ at_ s a = Some b /\ forall j, i <= j < a -> at_ s j = None.
(* the window for excluded keywords before [a] is reversed *)
Definition window_reversed (a : nat) : Prop :=
  exists xk, rr_excluded r = Some xk /\ span_reversed (xk_look_ahead xk) s a.
(* the next character after the one at [a] *)
Definition next_char (a n : nat) : Prop :=
  a < n /\ boundary s n /\ forall j, a < j < n -> ~ boundary s j.

(* Searching from [i] on comes to a candidate whose window is reversed: the search goes on
   after true positives and one character after the beginning of false positives. *)
Inductive trips : nat -> Prop :=
| trips_here : forall i a b, first_from i a b -> window_reversed a -> trips i
| trips_false : forall i a b n, first_from i a b -> ~ true_positive r at_ true s a b ->
    next_char a n -> trips n -> trips i
| trips_true : forall i a b, first_from i a b -> true_positive r at_ true s a b -> trips b -> trips i.
End Trips.

(* excluded keywords are looked for only by rules without included keywords *)
Definition rule_trips (r : regex_rule) (at_ : str -> nat -> option nat) (s : str) : Prop :=
  rr_included r = None /\ trips r at_ s 0.
(* the rules of a scanner are regex rules *)
Definition made_of (sc : scanner) (rrs : nat -> regex_rule) (ats : nat -> str -> nat -> option nat)
    (occs : nat -> str -> nat -> nat -> Prop) : Prop :=
  forall i r, nth_error (sc_rules sc) i = Some r -> regex_rule_at sc i (rrs i) (ats i) (occs i).
(* a rule that is not blocked trips over a string in its scope *)
Definition scan_trips (sc : scanner) (rrs : nat -> regex_rule) (ats : nat -> str -> nat -> option nat)
    (blocked : list nat) (strs : list (path * str)) : Prop :=
  exists i r p c, nth_error (sc_rules sc) i = Some r /\ ~ In i blocked /\ In (p, c) strs /\
    included (sc_wild sc) (rule_scope r) p /\ rule_trips (rrs i) (ats i) c.
