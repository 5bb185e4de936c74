(* Specification of what a string of Go means as text, and a rule of Go whose strings are
   bytes. *)
From Verif Require Export Spec.Codec Spec.JsonText Model.Config.

(* a byte that does not begin a whole character stands for U+FFFD *)
Inductive go_text : octets -> str -> Prop :=
| gt_nil : go_text [] []
| gt_char : forall c b rest s, char_utf8 c b -> go_text rest s -> go_text (b ++ rest) (c :: s)
| gt_bad : forall b rest s, (forall c u after, char_utf8 c u -> b :: rest <> u ++ after) -> go_text rest s ->
    go_text (b :: rest) (65533%N :: s).

Section Strings.
(* which bytes stand for which text *)
Variable T : octets -> str -> Prop.
Definition slice_by (o : option (list octets)) (o' : option (list str)) : Prop :=
  match o, o' with
  | Some l, Some l' => Forall2 T l l'
  | None, None => True
  | _, _ => False
  end.
Definition go_rule_by (r r' : go_rule) : Prop :=
  T (gr_id r) (gr_id r') /\ T (gr_pattern r) (gr_pattern r') /\
  T (ga_type (gr_action r)) (ga_type (gr_action r')) /\
  T (ga_redaction (gr_action r)) (ga_redaction (gr_action r')) /\
  ga_count (gr_action r) = ga_count (gr_action r') /\
  T (ga_direction (gr_action r)) (ga_direction (gr_action r')) /\
  match gr_keywords r, gr_keywords r' with
  | Some k, Some k' => gk_look_ahead k = gk_look_ahead k' /\
      slice_by (gk_included k) (gk_included k') /\ slice_by (gk_excluded k) (gk_excluded k')
  | None, None => True
  | _, _ => False
  end /\
  T (gr_validator r) (gr_validator r').
End Strings.
(* [r'] is the rule [r] with its strings as text *)
Definition go_rule_text : go_rule -> go_rule -> Prop := go_rule_by go_text.
(* the strings of [r] are the UTF-8 of those of [r'] *)
Definition go_rule_utf8 : go_rule -> go_rule -> Prop := go_rule_by (fun b s => utf8_of s b).
