(* Specification of Scanner::scan on a whole event *)
From Verif Require Export Spec.Redaction Spec.Overlap Spec.Scopes Spec.Sorting Spec.Rules.

(* Laws of an event: [holds e l] says that the event [e] holds the strings [l], each
   with its path and a flag telling that it may still be read and rewritten through
   visit_string_mut.  [strs] are the strings shown to the visitor. *)
Record event_laws (I : event_impl) (e0 : ev_t I) (strs : list (path * str))
    (holds : ev_t I -> list (path * str * bool) -> Prop) : Prop := {
  el_shows : strings_of (ev_ops I e0) = Some strs;
  el_distinct : NoDup (map fst strs);
  el_visited : forall log, map fst log = strs -> holds (ev_visited I e0 log) log;
  el_get : forall e l p c, holds e l -> In (p, c, true) l -> ev_get I e p = Ret c;
  el_set : forall e l1 p c l2 c' mutated,
    holds e (l1 ++ (p, c, true) :: l2) -> (mutated = false -> c' = c) ->
    NoDup (map (fun x => fst (fst x)) (l1 ++ (p, c, true) :: l2)) ->
    holds (ev_set I e p c' mutated) (l1 ++ (p, c', false) :: l2)
}.

Section One.
Variable sc : scanner.
Variable fs : nat -> finder.
Variable blocked : list nat.

(* rule [i] finds the range [a..b] in the string [c] at path [p], in scope *)
Definition candidate (p : path) (c : str) (k : nat * nat * nat) : Prop :=
  let '(i, a, b) := k in
  exists r,
    nth_error (sc_rules sc) i = Some r /\ ~ In i blocked /\
    included (sc_wild sc) (rule_scope r) p /\ ~ excluded (sc_wild sc) (rule_scope r) p /\
    In (a, b) (fst (fs i c p false (sc_kw_paths sc))).

(* text [t] was found by a rule in a string at a path excluded for that rule *)
Definition found_excluded (strs : list (path * str)) (t : str) : Prop :=
  exists i r p c,
    In (p, c) strs /\ nth_error (sc_rules sc) i = Some r /\ ~ In i blocked /\
    included (sc_wild sc) (rule_scope r) p /\ excluded (sc_wild sc) (rule_scope r) p /\
    In t (snd (fs i c p true (sc_kw_paths sc))).

(* multi-pass: the candidate has the text of something found in an excluded path *)
Definition suppressed (strs : list (path * str)) (c : str) (k : nat * nat * nat) : Prop :=
  let '(i, a, b) := k in
  sc_multipass sc = true /\
  (exists r, nth_error (sc_rules sc) i = Some r /\ rule_multipass r = true) /\
  (exists t, part_at c a b t /\ found_excluded strs t).

(* What a scan says about the string [c] at path [p]: it becomes [c'], with the
   reports [outs].  [w] is the weight of a character in the event's encoding. *)
Definition string_scanned (E : encoding) (w : char -> nat) (h : hashers)
    (strs : list (path * str)) (p : path) (c c' : str) (outs : list rule_match) : Prop :=
  exists (cands kept : list (internal_match E)) (g0 : str) (cs : list cut),
    (forall k, In k (map key cands) <-> candidate p c k /\ ~ suppressed strs c k) /\
    resolved (sc_rules sc) cands kept /\
    c = original g0 cs /\ c' = rewritten g0 cs /\
    length cs = length kept /\ length outs = length kept /\
    forall k m o, nth_error kept k = Some m -> nth_error outs k = Some o ->
      exists u r,
        nth_error cs k = Some u /\ nth_error (sc_rules sc) (im_rule m) = Some r /\
        nbytes (original g0 (firstn k cs)) = im_start m /\
        nbytes (original g0 (firstn k cs) ++ cut_old u) = im_end m /\
        cut_new u = redacted h (rule_action r) (cut_old u) /\
        rm_rule o = im_rule m /\ rm_path o = p /\
        rm_kind o = replacement_type (rule_action r) /\
        rm_start o = weight w (rewritten g0 (firstn k cs)) /\
        rm_end o = weight w (rewritten g0 (firstn k cs) ++ cut_new u) /\
        rm_shift o = (Z.of_nat (weight w (rewritten g0 (firstn k cs) ++ cut_new u))
                      - Z.of_nat (weight w (original g0 (firstn k cs) ++ cut_old u)))%Z /\
        rm_value o = (if sc_return_matches sc then Some (cut_old u) else None) /\
        rm_status o = match rule_validation r with Some _ => NotChecked | None => NotAvailable end.
End One.

(* a scanner whose rules behave as [fs] on the strings of the event *)
Definition scanner_meets (sc : scanner) (fs : nat -> finder) (strs : list (path * str)) : Prop :=
  forall i r, nth_error (sc_rules sc) i = Some r ->
    meets (fun c => exists p, In (p, c) strs) i r (fs i).

(* enough fuel for every string *)
Definition enough_fuel (fuel : nat) (strs : list (path * str)) : Prop :=
  forall p c, In (p, c) strs -> nbytes c + 2 <= fuel.
