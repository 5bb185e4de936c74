(* Builds with debug assertions *)
From Verif Require Export Spec.RegexScan Model.Debug.

(* the parts of a compiled regex rule: action, scope, validation and the rule itself *)
Definition rule_parts : Type := match_action * scope * option match_validation_type * regex_rule.
Definition release_rule (q : rule_parts) : rule :=
  let '(a, s, v, r) := q in regex_compiled a s v r.
Definition debug_rule (q : rule_parts) : rule :=
  let '(a, s, v, r) := q in regex_compiled_debug a s v r.

(* [sc] and [scd] have the regex rules [qs] and the same settings; [scd] is compiled with
   debug assertions *)
Record debug_build (qs : list rule_parts) (sc scd : scanner) : Prop := {
  db_release : sc_rules sc = map release_rule qs;
  db_debug : sc_rules scd = map debug_rule qs;
  db_kw : sc_kw_paths sc = sc_kw_paths scd;
  db_wild : sc_wild sc = sc_wild scd;
  db_multipass : sc_multipass sc = sc_multipass scd;
  db_return : sc_return_matches sc = sc_return_matches scd
}.

(* a match of the rule (false positives aside) begins where an included keyword begins *)
Definition keyword_begins_match (rr : regex_rule) (at_ : str -> nat -> option nat)
    (occ : str -> nat -> nat -> Prop) (c : str) : Prop :=
  rr_included rr <> None /\ exists k ke b, occ c k ke /\ true_positive rr at_ false c k b.

(* the engines of the rules behave, and in no string does a match begin where a keyword
   begins *)
Definition keywords_apart (qs : list rule_parts) (strs : list (path * str)) : Prop :=
  forall i a s v rr, nth_error qs i = Some (a, s, v, rr) ->
    rr_index rr = i /\ action_validate a = true /\
    exists at_ occ, regex_ok rr at_ occ /\
      forall p c, In (p, c) strs -> scannable rr at_ c /\ ~ keyword_begins_match rr at_ occ c.
