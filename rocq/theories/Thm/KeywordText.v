(* The regex texts of keywords and of rules (C77, C78) *)
From Coq Require Import Lia.
From Verif Require Import Proofs.KeywordTextClaims Examples.Engine Examples.Store.

(* The text made of any keywords, of their content or path patterns, is a regex that the
   regex crate reads, below its limit on nesting, so that building it does not panic; and
   compiled to ignore case it matches exactly the occurrences of the keywords.  [fold] takes
   letters that differ in case only to the same character. *)
Theorem C77_keyword_text :
  forall look_ahead removed kws content path_pats, compile_keywords look_ahead removed kws = Ret (Ok (Some (content, path_pats))) ->
  forall l, In l [content; path_pats] ->
  exists b, reread (keywords_text l) = Some b /\ nest_depth b <= nest_limit /\
    forall E fold s x y, (forall c d, same_letter E c d <-> fold c = fold d) ->
      kw_occurs fold l s x y <->
      exists i j, i <= j <= length s /\ nbytes (firstn i s) = x /\ nbytes (firstn j s) = y /\ matched (rmeans E s ignoring_case b) i j.
Proof. exact c77_keyword_text_lemma. Qed.
Print Assumptions C77_keyword_text.

(* keywords with characters that mean something in a regex *)
Example C77_keyword_text_applies : compile_keywords 30 [] [text "c++ key"; text "$"; [233%N]] =
    Ret (Ok (Some ([[KwBoundary; KwLit 99; KwLit 43; KwLit 43; KwLit 32; KwLit 107; KwLit 101; KwLit 121; KwBoundary]; [KwLit 36]; [KwLit 233]],
                   [[KwBoundary; KwLit 99; KwLit 43; KwLit 43; KwLit 46; KwLit 107; KwLit 101; KwLit 121; KwBoundary]; [KwLit 36]; [KwLit 233]]))) /\
  keywords_text [[KwBoundary; KwLit 99; KwLit 43; KwLit 43; KwBoundary]; [KwLit 36]] = text "(?-u:\b)c\+\+(?-u:\b)|\$" /\
  kw_occurs (fun c => c) [[KwLit 36]] (text "a $") 2 3.
Proof.
  split; [vm_compute; reflexivity|]. split; [vm_compute; reflexivity|].
  exists [KwLit 36], (text "a "), (text "$"), []. split; [left; reflexivity|]. repeat split; vm_compute; reflexivity.
Qed.

(* So different keywords have different texts in the store: two lists of patterns with the
   same text occur at the same places. *)
Theorem C77_distinct :
  forall l k, l <> [] -> k <> [] -> keywords_text l = keywords_text k ->
  forall fold s x y, kw_occurs fold l s x y <-> kw_occurs fold k s x y.
Proof. exact c77_distinct_lemma. Qed.
Print Assumptions C77_distinct.

Example C77_distinct_applies : keywords_text [[KwLit 124]; [KwLit 97]] = text "\||a" /\ keywords_text [[KwLit 97]; [KwLit 124]] = text "a|\|".
Proof. split; vm_compute; reflexivity. Qed.

(* A rule whose pattern is faithful (C57): while the store is used by rules only, the regex
   it is given means what the pattern means, case included, whatever else was requested,
   collected or dropped. *)
Theorem C78_rule_regex :
  forall accepts cache_size acts p h a, run cache_size acts process_new = Some (Ret p) -> agree (rule_factory accepts) acts ->
  In h (p_handles p) -> parse_regex_pattern 51 (h_pattern h) = Ret (Ok a) -> faithful mode0 a -> NoDup (group_names a) ->
  exists x b, gives p h x /\ accepts (cr_text x) = true /\ reread (cr_text x) = Some b /\
    forall E s, plain_env E ->
      same_meaning (rmeans E s {| ri := cr_case_insensitive x; rm := false; rs := false; ru := true |} b) (means E (end_with s) s mode0 a).
Proof. exact c78_rule_regex_lemma. Qed.
Print Assumptions C78_rule_regex.

Example C78_rule_regex_applies : exists p h a, run regex_size rule_requests process_new = Some (Ret p) /\
  agree (rule_factory any_text) rule_requests /\ In h (p_handles p) /\ h_pattern h = chars "a+" /\
  parse_regex_pattern 51 (h_pattern h) = Ret (Ok a) /\ faithful mode0 a /\ NoDup (group_names a).
Proof.
  eexists _, _, _. split; [vm_compute; reflexivity|]. split.
  { intros q f H. repeat (destruct H as [H|H]; [try discriminate; injection H as <- <-; reflexivity|]). destruct H. }
  split; [right; left; reflexivity|]. split; [reflexivity|]. split; [vm_compute; reflexivity|]. split; [|constructor].
  split; [left; intros (K & _); discriminate K|]. split; [exact I|intros K; discriminate K].
Qed.

