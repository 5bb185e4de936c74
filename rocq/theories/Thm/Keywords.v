(* Keyword configurations and sanitized paths (C28-C31) *)
From Verif Require Import Proofs.KeywordsClaims Examples.Keywords.

(* C28.  A keyword configuration compiles iff it is acceptable; otherwise the error is
   that of the first condition it violates. *)
Theorem C28_accepted_configurations :
  forall c, exists res, compile_keywords_proximity_config c = Ret res /\
  ((exists x, res = Ok x) <-> config_accepted c) /\ forall e, res = Err e -> config_error c e.
Proof. exact c28_accepted_configurations_lemma. Qed.
Print Assumptions C28_accepted_configurations.

Example C28_nonvacuous :
  let c := {| kc_look_ahead := 5; kc_included := [text "kw"]; kc_excluded := [text "-x-"; text " -_ "] |} in
  config_error c EmptyKeyword /\ compile_keywords_proximity_config c = Ret (Err EmptyKeyword) /\
  exists x, compile_keywords_proximity_config {| kc_look_ahead := 5; kc_included := [text " kw"]; kc_excluded := [text "-x-"] |} = Ret (Ok x).
Proof.
  split; [|split; [vm_compute; reflexivity|eexists; vm_compute; reflexivity]].
  destruct (C28_accepted_configurations {| kc_look_ahead := 5; kc_included := [text "kw"]; kc_excluded := [text "-x-"; text " -_ "] |}) as (res & E & _ & H).
  apply H. vm_compute in E. injection E as <-. reflexivity.
Qed.

(* C28.  The compiled alternations match exactly the occurrences of the trimmed
   keywords as words: in contents the keyword itself, in paths its standardized
   lower-case form. *)
Theorem C28_meaning_of_keywords :
  forall c inc exc, compile_keywords_proximity_config c = Ret (Ok (inc, exc)) ->
  forall fold (x : bool) content paths, (if x then exc else inc) = Some (content, paths) -> forall s a b,
    (kw_occurs fold content s a b <->
     exists kw t, In kw (if x then kc_excluded c else kc_included c) /\ effective x kw t /\ occurs_as_word fold t t s a b) /\
    (kw_occurs fold paths s a b <->
     exists kw t, In kw (if x then kc_excluded c else kc_included c) /\ effective x kw t /\
       occurs_as_word fold t (map to_ascii_lower (standardize_path_chars t)) s a b).
Proof. exact c28_meaning_of_keywords_lemma. Qed.
Print Assumptions C28_meaning_of_keywords.

Example C28_meaning_nonvacuous :
  occurs_as_word (fun c => c) (text "kw") (text "kw") (text "a kw-") 2 4 /\
  effective false (text " kw ") (text "kw").
Proof.
  split.
  - exists (text "a "), (text "kw"), (text "-"). split; [reflexivity|]. split; [reflexivity|]. split; [reflexivity|].
    split; [reflexivity|]. split; intros c _ _; vm_compute; discriminate.
  - exists (text "kw"). split; [|reflexivity]. exists (text " "), (text " "). split; [reflexivity|].
    split; [intros c [<-|[]]; vm_compute; tauto|]. split; [intros c [<-|[]]; vm_compute; tauto|].
    split; intros c Hc; vm_compute in Hc; injection Hc as <-; vm_compute;
      intros H; repeat (destruct H as [H|H]; [discriminate H|]); exact H.
Qed.

(* C29.  The general standardization: separators become '.', a '.' before capitals
   that follow something else than a capital or separator. *)
Theorem C29_standardization :
  forall s, standardized s (standardize_path_chars s).
Proof. exact c29_standardization_lemma. Qed.
Print Assumptions C29_standardization.

Example C29_standardization_nonvacuous :
  standardize_path_chars (text "myAPIKey_id-") = text "my.APIKey.id-" /\
  standardize_path_chars (text "x--yZ") = text "x.-yZ".
Proof. split; reflexivity. Qed.

(* C29.  Sanitizing a field, with the fast path for all-lower-case and all-upper-case
   names, is standardizing it and making it lower case; in paths and in segments. *)
Theorem C29_bypass_changes_nothing :
  forall f, sanitize_field f = map to_ascii_lower (standardize_path_chars f) /\
  sanitize_segment (Field f) = Some (map to_ascii_lower (standardize_path_chars f)).
Proof. exact c29_bypass_changes_nothing_lemma. Qed.
Print Assumptions C29_bypass_changes_nothing.

Example C29_nonvacuous :
  should_bypass_standardize_path (text "HOME") = BypassUpper /\ should_bypass_standardize_path (text "home") = BypassLower /\
  should_bypass_standardize_path (text "homeDir") = NoBypass /\ sanitize_field (text "homeDir") = text "home.dir" /\
  sanitize_field (text "HOME") = text "home".
Proof. repeat split. Qed.

(* C31.  If the path does not start with an index, its sanitized form is the '.'-join
   of the sanitized field names. *)
Theorem C31_sanitized_path :
  forall p, (forall i rest, p <> Index i :: rest) ->
  sanitize p = join [46%N] (map (fun f => map to_ascii_lower (standardize_path_chars f)) (fields p)).
Proof. exact c31_sanitized_path_lemma. Qed.
Print Assumptions C31_sanitized_path.

Example C31_nonvacuous :
  sanitize [Field (text "aBc"); Index 3; Field (text "KEY"); Field (text "x y")] = text "a.bc.key.x.y".
Proof. reflexivity. Qed.

(* C31 is refuted for paths that start with an index: the text starts with a '.' (when
   there is a field at all). *)
Theorem C31_leading_index_refuted :
  (forall i p, sanitize (Index i :: p) =
   concat (map (fun f => 46%N :: map to_ascii_lower (standardize_path_chars f)) (fields p))) /\
sanitize [Index 0; Field (text "foo")] = text ".foo".
Proof. exact c31_leading_index_refuted_lemma. Qed.
Print Assumptions C31_leading_index_refuted.

(* C30.  In a path with a field named like an accepted included keyword (trimmed), the
   path search finds a keyword. *)
Theorem C30_field_named_like_keyword :
  forall c content paths exc, compile_keywords_proximity_config c = Ret (Ok (Some (content, paths), exc)) ->
  forall kw name pre post fold, In kw (kc_included c) -> trims_to kw name ->
  exists a b, kw_occurs fold paths (sanitize (pre ++ Field name :: post)) a b.
Proof. exact c30_field_named_like_keyword_lemma. Qed.
Print Assumptions C30_field_named_like_keyword.

Example C30_nonvacuous :
  let c := {| kc_look_ahead := 10; kc_included := [text "apiKey "]; kc_excluded := [] |} in
  trims_to (text "apiKey ") (text "apiKey") /\
  exists content paths, compile_keywords_proximity_config c = Ret (Ok (Some (content, paths), None)) /\
    kw_occb (fun c => c) paths (sanitize [Field (text "x"); Field (text "apiKey"); Index 1]) 2 9 = true.
Proof.
  split.
  - exists [], (text " "). split; [reflexivity|]. split; [intros c []|].
    split; [intros c [<-|[]]; vm_compute; tauto|].
    split; intros c Hc; vm_compute in Hc; injection Hc as <-; vm_compute;
      intros H; repeat (destruct H as [H|H]; [discriminate H|]); exact H.
  - eexists _, _. split; vm_compute; reflexivity.
Qed.

(* C30 is refuted for a field named like a keyword written with trailing white space:
   the keyword "aB " and the field "aB " are standardized differently. *)
Theorem C30_untrimmed_name_refuted :
  let c := {| kc_look_ahead := 10; kc_included := [text "aB "]; kc_excluded := [] |} in
exists content paths, compile_keywords_proximity_config c = Ret (Ok (Some (content, paths), None)) /\
  sanitize [Field (text "aB ")] = text "a.b " /\
  forall a b, ~ kw_occurs (fun c => c) paths (sanitize [Field (text "aB ")]) a b.
Proof. exact c30_untrimmed_name_refuted_lemma. Qed.
Print Assumptions C30_untrimmed_name_refuted.

