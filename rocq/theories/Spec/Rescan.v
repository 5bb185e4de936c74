(* Scanning the result of a scan: what is left of the texts that a rule looks for *)
From Verif Require Export Spec.AsWritten.

(* the pattern looks at nothing but the text it matches *)
Fixpoint no_assertions (a : ast) : Prop :=
  match a with
  | AAssertion _ => False
  | ARepetition _ b | ACapturing b | ANamed _ b | ANonCapturing _ b => no_assertions b
  | AConcat l | AAlternation l =>
    (fix all (l : list ast) : Prop := match l with [] => True | a :: l' => no_assertions a /\ all l' end) l
  | AEmpty | ALiteral _ | AClass _ | AFlags _ => True
  end.
Definition self_contained (c : rule_config) : Prop :=
  exists a, parse_regex_pattern 51 (cf_pattern c) = Ret (Ok a) /\ no_assertions a.

(* the pattern of the rule matches all of the text *)
Definition is_secret (E : env) (c : rule_config) (t : str) : Prop := matched (as_written E c t) 0 (length t).
Definition occurs_in (t s : str) : Prop := exists before after, s = before ++ t ++ after.
(* the parts of a string that a scan leaves as they are *)
Definition left_alone (g0 : str) (cs : list cut) : list str := g0 :: map cut_gap cs.

(* What replaces a text that a rule looks for is not empty, and none of its characters
   occurs in a text that one of the rules looks for. *)
Definition inert (E : env) (h : hashers) (rules : list rule_config) : Prop :=
  forall c t, In c rules -> is_secret E c t -> redacted h (cf_action c) t <> [] /\
    forall c' u x, In c' rules -> is_secret E c' u -> In x (redacted h (cf_action c) t) -> ~ In x u.

(* rules that redact by their pattern alone *)
Record simple_rule (c : rule_config) : Prop := {
  sr_action : cf_action c <> ActNone;
  sr_keywords : cf_keywords c = None;
  sr_check : cf_validator c = None
}.
Definition in_scope (b : builder) (c : rule_config) (p : path) : Prop :=
  included (bu_wild b) (cf_scope c) p /\ ~ excluded (bu_wild b) (cf_scope c) p.
(* matches of different rules do not overlap *)
Definition apart (E : env) (rules : list rule_config) (s : str) : Prop :=
  forall r c r' c' i j i' j', nth_error rules r = Some c -> nth_error rules r' = Some c' -> r <> r' ->
  matched (as_written E c s) i j -> matched (as_written E c' s) i' j' -> j <= i' \/ j' <= i.
(* the rules redact by patterns that look at the matched text only, and without multi-pass or
   with no path excluded *)
Record plain_rules (E : env) (fold : char -> char) (en : engines) (b : builder) (t : built) : Prop := {
  pl_built : build en b = Ret (Ok t);
  pl_crate : crate_ok E en;
  pl_env : plain_env E;
  pl_letters : forall c d, same_letter E c d <-> fold c = fold d;
  pl_rules : forall c, In c (bu_rules b) -> good_pattern E c /\ self_contained c /\ simple_rule c;
  pl_multipass : nothing_taken_back b
}.

(* all characters that the pattern can match are in [A], whether case counts or not *)
Fixpoint drawn_from (E : env) (A : char -> Prop) (a : ast) : Prop :=
  match a with
  | ALiteral l => forall i x, any_case E i (eq (lit_c l)) x -> A x
  | AClass k => forall m x, in_class E m k x -> A x
  | ARepetition _ b | ACapturing b | ANamed _ b | ANonCapturing _ b => drawn_from E A b
  | AConcat l | AAlternation l =>
    (fix all (l : list ast) : Prop := match l with [] => True | a :: l' => drawn_from E A a /\ all l' end) l
  | AEmpty | AFlags _ | AAssertion _ => True
  end.
Definition uses_only (E : env) (A : char -> Prop) (c : rule_config) : Prop :=
  exists a, parse_regex_pattern 51 (cf_pattern c) = Ret (Ok a) /\ drawn_from E A a.
