(* From the texts of patterns and keywords to the result: what is assumed of the regex crate,
   and what patterns say as they are written *)
From Verif Require Export Spec.RegexMeaning Model.RegexSyntax Model.RegexFactories.
From Verif Require Export Spec.EndToEnd.

(* the byte offset of a character *)
Definition off (s : str) (i : nat) : nat := nbytes (firstn i s).

(* the choices [t] are preferred to [u], or the same *)
Fixpoint no_later (t u : list nat) : Prop :=
  match t, u with
  | [], _ => True
  | x :: t', y :: u' => x < y \/ x = y /\ no_later t' u'
  | _ :: _, [] => False
  end.
(* the match from [i] that is preferred to all others ends at [j] *)
Definition preferred (M : meaning) (i j : nat) : Prop :=
  exists t, M i t j /\ forall u k, M i u k -> no_later t u.

(* A search for matches of [M]: the leftmost start, there the preferred match if there is one.
   What is found does not depend on where the search started. *)
Record searches (M : str -> meaning) (find : compiled) : Prop := {
  sr_some : forall s k x y, k <= length s -> find s (off s k) = Some (x, y) ->
    exists i j, k <= i /\ i <= j <= length s /\ x = off s i /\ y = off s j /\
      matched (M s) i j /\ (forall j', preferred (M s) i j' -> j' = j) /\
      (forall i' j', k <= i' < i -> ~ matched (M s) i' j') /\ find s x = Some (x, y);
  sr_none : forall s k, k <= length s -> find s (off s k) = None ->
    forall i j, k <= i <= length s -> ~ matched (M s) i j
}.

(* what the text of keywords matches, case being ignored *)
Definition ignoring_case : rmode := {| ri := true; rm := false; rs := false; ru := true |}.
Definition text_found (E : env) (l : list kw_pattern) (s : str) (x y : nat) : Prop :=
  exists r i j, reread (keywords_text l) = Some r /\ i <= j <= length s /\ x = off s i /\ y = off s j /\
    matched (rmeans E s ignoring_case r) i j.

(* The regex crate: it can read the texts that it compiles, and searches for what they mean.
   Only texts made from patterns and from accepted keywords are considered. *)
Record crate_ok (E : env) (en : engines) : Prop := {
  ck_rule : forall pattern text limit re, convert_to_rust_regex 51 pattern = Ret (Ok text) ->
    en_build en text limit = Ok re -> exists r, reread text = Some r /\ searches (fun s => rmeans E s rmode0 r) re;
  ck_content : forall k inc pinc exc, compile_keywords_proximity_config k = Ret (Ok (Some (inc, pinc), exc)) ->
    forall s i, Text.boundary s i ->
    match en_earliest en inc s i with
    | Some (x, y) => i <= x /\ text_found E inc s x y /\ forall x' y', text_found E inc s x' y' -> i <= x' -> y <= y'
    | None => forall x y, text_found E inc s x y -> x < i
    end;
  ck_path : forall k inc pinc exc, compile_keywords_proximity_config k = Ret (Ok (Some (inc, pinc), exc)) ->
    forall s, en_path en pinc s = true <-> exists x y, text_found E pinc s x y;
  ck_span : forall k inc exc pexc, compile_keywords_proximity_config k = Ret (Ok (inc, Some (exc, pexc))) ->
    span_search (en_span en exc) (text_found E exc)
}.

(* the pattern of a rule, as it is written *)
Definition as_written (E : env) (c : rule_config) (s : str) : meaning :=
  fun i t j => exists a, parse_regex_pattern 51 (cf_pattern c) = Ret (Ok a) /\ means E (end_with s) s mode0 a i t j.
(* patterns of which the conversion is faithful (C57) and that never match the empty text *)
Definition good_pattern (E : env) (c : rule_config) : Prop :=
  (exists a, parse_regex_pattern 51 (cf_pattern c) = Ret (Ok a) /\ faithful mode0 a /\ NoDup (group_names a)) /\
  forall s i, i <= length s -> ~ matched (as_written E c s) i i.

(* the match of a rule from character [i] to [j] has all that the configuration asks for *)
Record accounted (E : env) (en : engines) (fold : char -> char) (b : builder) (c : rule_config)
    (p : path) (s : str) (i j : nat) (t : str) : Prop := {
  ac_text : exists before after, s = before ++ t ++ after /\ length before = i /\ j = i + length t;
  ac_pattern : matched (as_written E c s) i j;
  ac_scope : included (bu_wild b) (cf_scope c) p /\ ~ excluded (bu_wild b) (cf_scope c) p;
  ac_check : forall v, cf_validator c = Some v -> passes (en_validators en) v t;
  ac_keywords : forall k, cf_keywords c = Some k -> kc_included k <> [] ->
    keyword_before fold k s (off s i) \/ bu_kw_paths b = true /\ keyword_in_path_of fold k p;
  ac_excluded : forall k, cf_keywords c = Some k -> kc_included k = [] -> ~ excluded_before fold k s (off s i)
}.
(* the windows of C22, for the patterns as written *)
Definition windows_as_written (E : env) (b : builder) (strs : list (path * str)) : Prop :=
  forall c k, In c (bu_rules b) -> cf_keywords c = Some k -> kc_included k = [] -> kc_excluded k <> [] ->
  forall p s i j, In (p, s) strs -> i <= length s -> matched (as_written E c s) i j -> ~ span_reversed (kc_look_ahead k) s (off s i).
(* multi-pass: what was passed over because of the scope of a rule, for the patterns as written *)
Definition passed_as_written (E : env) (en : engines) (fold : char -> char) (b : builder) (blocked : list nat)
    (r : nat) (p : path) (s : str) (i j : nat) (t : str) : Prop :=
  exists c, nth_error (bu_rules b) r = Some c /\ ~ In r blocked /\
    included (bu_wild b) (cf_scope c) p /\ excluded (bu_wild b) (cf_scope c) p /\
    accounted E en fold b (anywhere s c) p s i j t.
Definition taken_as_written (E : env) (en : engines) (fold : char -> char) (b : builder) (blocked : list nat)
    (strs : list (path * str)) (t : str) : Prop :=
  bu_multipass b = true /\ exists r p s i j, In (p, s) strs /\ passed_as_written E en fold b blocked r p s i j t.
