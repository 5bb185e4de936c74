(* What a program in Go gets: in terms of its rules as it writes them, of the patterns as
   written and of its events.  Written without the configurations of the library. *)
From Verif Require Export Spec.AsWritten Spec.Native Spec.JsonRule Spec.Builder Spec.Codec.

(* what the pattern of a rule matches, as it is written *)
Definition go_written (E : env) (g : go_rule) (s : str) : meaning :=
  fun i t j => exists a, parse_regex_pattern 51 (gr_pattern g) = Ret (Ok a) /\ means E (end_with s) s mode0 a i t j.
(* patterns of which the conversion is faithful (C57) and that never match the empty text *)
Definition go_good (E : env) (g : go_rule) : Prop :=
  (exists a, parse_regex_pattern 51 (gr_pattern g) = Ret (Ok a) /\ faithful mode0 a /\ NoDup (group_names a)) /\
  forall s i, i <= length s -> ~ matched (go_written E g s) i i.

(* the rule has something against the text from character [i] to [j] of [s] *)
Record go_accounted (E : env) (en : engines) (fold : char -> char) (g : go_rule) (s : str) (i j : nat) (t : str) : Prop := {
  gac_text : exists before after, s = before ++ t ++ after /\ length before = i /\ j = i + length t;
  gac_pattern : matched (go_written E g s) i j;
  gac_check : forall v, go_validator_means (gr_validator g) (Some v) -> passes (en_validators en) v t;
  gac_keywords : forall k, gr_keywords g = Some k -> slice_elements (gk_included k) <> [] ->
    keyword_before fold (go_keywords_mean k) s (off s i);
  gac_excluded : forall k, gr_keywords g = Some k -> slice_elements (gk_included k) = [] ->
    ~ excluded_before fold (go_keywords_mean k) s (off s i)
}.
(* what the rule puts in the place of [old] *)
Definition go_replaced (h : hashers) (g : go_rule) (old new : str) : Prop :=
  exists a, go_action_means (gr_action g) a /\ new = redacted h a old.
Definition go_redacts (g : go_rule) : Prop := ga_type (gr_action g) <> chars "None".
(* rules that ask for no keywords *)
Definition go_unasked (g : go_rule) : Prop := forall k, gr_keywords g = Some k -> slice_elements (gk_included k) = [].
(* the windows of C22 *)
Definition go_windows (E : env) (gs : list go_rule) (strs : list (path * str)) : Prop :=
  forall g k, In g gs -> gr_keywords g = Some k -> slice_elements (gk_included k) = [] -> slice_elements (gk_excluded k) <> [] ->
  forall p s i j, In (p, s) strs -> i <= length s -> matched (go_written E g s) i j ->
    ~ span_reversed (N.to_nat (gk_look_ahead k)) s (off s i).
(* every string is shorter than 2^32 / 9 bytes *)
Definition go_brief (v : go_value) : Prop := forall p b, go_holds v p b -> (9 * N.of_nat (length b) < two32)%N.

(* A replaced piece overlaps the text from [i] to [j]. *)
Definition go_covered (gs : list go_rule) (os : list rule_match) (g0 : str) (cs : list cut) (i j : nat) : Prop :=
  exists k o u g, nth_error os k = Some o /\ nth_error cs k = Some u /\ nth_error gs (rm_rule o) = Some g /\ go_redacts g /\
    i < length (original g0 (firstn k cs)) + length (cut_old u) /\ length (original g0 (firstn k cs)) < j.
(* The string [s] became [s'] with reports [os]: it falls into pieces, one per report, each of
   them a match that the rule of the report accounts for, replaced as this rule says; the rest
   is as before.  No rule that redacts and asks for no keywords is passed over. *)
Definition go_cut (E : env) (en : engines) (fold : char -> char) (h : hashers) (gs : list go_rule)
    (s s' : str) (os : list rule_match) : Prop :=
  exists g0 cs, s = original g0 cs /\ s' = rewritten g0 cs /\ length cs = length os /\
  (forall k o u, nth_error os k = Some o -> nth_error cs k = Some u ->
    exists g, nth_error gs (rm_rule o) = Some g /\ go_replaced h g (cut_old u) (cut_new u) /\
      let i := length (original g0 (firstn k cs)) in let j := i + length (cut_old u) in
      go_accounted E en fold g s i j (cut_old u) /\ forall j', preferred (go_written E g s) i j' -> j' = j) /\
  (forall g i j t, In g gs -> go_redacts g -> go_unasked g -> go_accounted E en fold g s i j t ->
    gr_validator g = [] \/ preferred (go_written E g s) i j ->
    exists i' j' t', i' <= i < j' /\ go_accounted E en fold g s i' j' t' /\ go_covered gs os g0 cs i' j') /\
  (forall g k i j t, In g gs -> go_redacts g -> gr_keywords g = Some k -> slice_elements (gk_included k) <> [] ->
    go_accounted E en fold g s i j t -> gr_validator g = [] \/ preferred (go_written E g s) i j ->
    forall kw w u v between, In kw (slice_elements (gk_included k)) -> effective false kw w -> occurs_as_word fold w w s u v ->
    v <= off s i -> part_at s u (off s i) between -> length between <= N.to_nat (gk_look_ahead k) ->
    exists i' j' t', i' <= i /\ (i < j' \/ u < off s i') /\ go_accounted E en fold g s i' j' t' /\ go_covered gs os g0 cs i' j').
