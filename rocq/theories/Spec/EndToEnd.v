(* From the configuration of the rules to what is reported for an event *)
From Verif Require Export Spec.Builder Spec.Checks.

(* The engines do what is expected of them for these rules: the regex of rule [i] finds
   the leftmost match, with [at_ i] its matches; the search for keywords finds the
   earliest occurrence; the searches in paths and for excluded keywords find whether there is
   an occurrence. *)
Record behaves (en : engines) (fold : char -> char) (b : builder) (at_ : nat -> str -> nat -> option nat) : Prop := {
  bh_regex : forall i c, nth_error (bu_rules b) i = Some c ->
    exists re, pattern_regex en (cf_pattern c) re /\ leftmost re (at_ i);
  bh_content : forall c k inc pinc exc, In c (bu_rules b) -> cf_keywords c = Some k ->
    compile_keywords_proximity_config k = Ret (Ok (Some (inc, pinc), exc)) -> earliest (en_earliest en inc) (kw_occurs fold inc);
  bh_path : forall c k inc pinc exc, In c (bu_rules b) -> cf_keywords c = Some k ->
    compile_keywords_proximity_config k = Ret (Ok (Some (inc, pinc), exc)) ->
    forall s, en_path en pinc s = true <-> exists x y, kw_occurs fold pinc s x y;
  bh_span : forall c k inc exc pexc, In c (bu_rules b) -> cf_keywords c = Some k ->
    compile_keywords_proximity_config k = Ret (Ok (inc, Some (exc, pexc))) -> span_search (en_span en exc) (kw_occurs fold exc)
}.
(* no window of excluded keywords is reversed in these strings, see C22 *)
Definition windows_fine (b : builder) (at_ : nat -> str -> nat -> option nat) (strs : list (path * str)) : Prop :=
  forall i c k, nth_error (bu_rules b) i = Some c -> cf_keywords c = Some k -> kc_included k = [] -> kc_excluded k <> [] ->
  forall p s x y, In (p, s) strs -> at_ i s x = Some y -> ~ span_reversed (kc_look_ahead k) s x.

(* an included keyword occurs in the string shortly before [x] *)
Definition keyword_before (fold : char -> char) (k : keywords_config) (s : str) (x : nat) : Prop :=
  exists kw t u v between, In kw (kc_included k) /\ effective false kw t /\ occurs_as_word fold t t s u v /\
    part_at s u x between /\ length between <= kc_look_ahead k.
(* an included keyword occurs in the path, both in their standardized form *)
Definition keyword_in_path_of (fold : char -> char) (k : keywords_config) (p : path) : Prop :=
  exists kw t u v, In kw (kc_included k) /\ effective false kw t /\
    occurs_as_word fold t (map to_ascii_lower (standardize_path_chars t)) (sanitize p) u v.

(* an excluded keyword occurs in the text examined before [x], which has no '-' and '_' *)
Definition excluded_before (fold : char -> char) (k : keywords_config) (s : str) (x : nat) : Prop :=
  exists before c after kw t u v, s = before ++ c :: after /\ nbytes before = x /\
    In kw (kc_excluded k) /\ effective true kw t /\
    occurs_as_word fold t t (excluded_text (kc_look_ahead k) before c) u v /\
    excluded_from (kc_look_ahead k) before c <= u /\ v <= excluded_to (kc_look_ahead k) before c.
Definition no_included (c : rule_config) : Prop := forall k, cf_keywords c = Some k -> kc_included k = [].

(* what the configuration of a rule says about a match of it; excluded keywords only count
   without included ones, see C21 *)
Record justified (en : engines) (fold : char -> char) (b : builder) (c : rule_config)
    (at_ : str -> nat -> option nat) (p : path) (s : str) (x y : nat) (t : str) : Prop := {
  jf_text : part_at s x y t;
  jf_regex : at_ s x = Some y;
  jf_scope : included (bu_wild b) (cf_scope c) p /\ ~ excluded (bu_wild b) (cf_scope c) p;
  jf_check : forall v, cf_validator c = Some v -> passes (en_validators en) v t;
  jf_keywords : forall k, cf_keywords c = Some k -> kc_included k <> [] ->
    keyword_before fold k s x \/ bu_kw_paths b = true /\ keyword_in_path_of fold k p;
  jf_excluded : forall k, cf_keywords c = Some k -> kc_included k = [] -> ~ excluded_before fold k s x
}.

(* a piece that was replaced for a rule that redacts shares a byte with [x..y] *)
Definition touched (b : builder) (os : list rule_match) (g0 : str) (cs : list cut) (x y : nat) : Prop :=
  exists k o u c, nth_error os k = Some o /\ nth_error cs k = Some u /\
    nth_error (bu_rules b) (rm_rule o) = Some c /\ cf_action c <> ActNone /\
    exists n, x <= n < y /\ nbytes (original g0 (firstn k cs)) <= n < nbytes (original g0 (firstn k cs) ++ cut_old u).

(* the rule without its scope, and with included keywords at any distance in front *)
Definition anywhere (s : str) (c : rule_config) : rule_config := {|
  cf_pattern := cf_pattern c; cf_action := cf_action c; cf_scope := ScopeExclude [];
  cf_keywords := match cf_keywords c with
                 | Some k => Some {| kc_look_ahead := match kc_included k with [] => kc_look_ahead k | _ => length s end;
                                     kc_included := kc_included k; kc_excluded := kc_excluded k |}
                 | None => None
                 end;
  cf_validator := cf_validator c; cf_labels := cf_labels c; cf_validation := cf_validation c
|}.
(* a rule would have matched here, but for the excluded part of its scope *)
Definition passed_over (en : engines) (fold : char -> char) (b : builder) (at_ : nat -> str -> nat -> option nat)
    (blocked : list nat) (i : nat) (p : path) (s : str) (x y : nat) (t : str) : Prop :=
  exists c, nth_error (bu_rules b) i = Some c /\ ~ In i blocked /\
    included (bu_wild b) (cf_scope c) p /\ excluded (bu_wild b) (cf_scope c) p /\
    justified en fold b (anywhere s c) (at_ i) p s x y t.
(* with multi-pass, a match is taken back if the same text was passed over somewhere *)
Definition taken_back (en : engines) (fold : char -> char) (b : builder) (at_ : nat -> str -> nat -> option nat)
    (blocked : list nat) (strs : list (path * str)) (t : str) : Prop :=
  bu_multipass b = true /\ exists i p s x y, In (p, s) strs /\ passed_over en fold b at_ blocked i p s x y t.
(* nothing is taken back because of excluded scopes *)
Definition nothing_taken_back (b : builder) : Prop :=
  bu_multipass b = false \/ forall c p, In c (bu_rules b) -> ~ excluded (bu_wild b) (cf_scope c) p.
