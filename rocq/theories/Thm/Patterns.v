(* The pattern parser, the conversion of patterns and the complexity estimate (C54-C58) *)
From Verif Require Import Proofs.PatternsClaims.

(* Parsing gives a tree or an error for every text, and calls itself at most 51 deep. *)
Theorem C54_total :
  forall s, exists r, forall fuel, 51 <= fuel -> parse_regex_pattern fuel s = Ret r.
Proof. exact c54_total_lemma. Qed.
Print Assumptions C54_total.

Example C54_total_applies :
  parse_regex_pattern 51 (chars "(a|[^b-d]{2,}?)\x{20AC}") =
    Ret (Ok (AConcat [ACapturing (AAlternation [ALiteral {| lit_c := 97; lit_escaped := false |};
        ARepetition {| q_lazy := true; q_kind := RangeMin 2 |} (AClass (CBracket true [BRange 98 100]))]);
      ALiteral {| lit_c := 8364; lit_escaped := true |}])) /\
  parse_regex_pattern 51 (chars "(a") = Ret (Err PInvalidSyntax).
Proof. split; vm_compute; reflexivity. Qed.

(* A tree is only given for a text in which groups are nested less than 50 deep. *)
Theorem C54_nesting :
  forall fuel s a, parse_regex_pattern fuel s = Ret (Ok a) -> nesting a < 50.
Proof. exact c54_nesting_lemma. Qed.
Print Assumptions C54_nesting.

Example C54_nesting_applies : exists a, parse_regex_pattern 51 (nested 49) = Ret (Ok a) /\ nesting a = 49.
Proof. eexists. split; vm_compute; reflexivity. Qed.

(* The limit is exact: 49 nested groups are read, more are refused as nested too deep. *)
Theorem C54_limit :
  forall n, (n < 50 -> exists a, parse_regex_pattern 51 (nested n) = Ret (Ok a) /\ nesting a = n) /\
  (50 <= n -> parse_regex_pattern 51 (nested n) = Ret (Err PExceededDepthLimit)).
Proof. exact c54_limit_lemma. Qed.
Print Assumptions C54_limit.

Example C54_limit_applies : length (nested 50) = 101 /\ parse_regex_pattern 51 (nested 50) = Ret (Err PExceededDepthLimit).
Proof. split; vm_compute; reflexivity. Qed.

(* A text is refused as nested too deep only if it has 50 opening parentheses. *)
Theorem C54_depth_error :
  forall fuel s, 51 <= fuel -> parse_regex_pattern fuel s = Ret (Err PExceededDepthLimit) ->
  50 <= count_occ N.eq_dec s 40%N.
Proof. exact c54_depth_error_lemma. Qed.
Print Assumptions C54_depth_error.

Example C54_depth_error_applies :
  parse_regex_pattern 51 (nested 60 ++ chars "b") = Ret (Err PExceededDepthLimit) /\
  parse_regex_pattern 51 (flat_map (fun _ => chars "(a)") (seq 0 60)) <> Ret (Err PExceededDepthLimit).
Proof. split; vm_compute; [reflexivity|discriminate]. Qed.

(* The tree given is one that the text stands for by the grammar. *)
Theorem C54_grammar :
  forall fuel s a, parse_regex_pattern fuel s = Ret (Ok a) -> expression_text a s.
Proof. exact c54_grammar_lemma. Qed.
Print Assumptions C54_grammar.

Example C54_grammar_applies : exists a, parse_regex_pattern 51 (chars "(?<n>\Qa.b\E[[:^alpha:]\d\h]+|(?i-x:\p{Lu}$))*") = Ret (Ok a) /\
  parse_regex_pattern 51 (chars "(?-i") = Ret (Err PInvalidSyntax).
Proof. eexists. split; vm_compute; reflexivity. Qed.

(* A tree is refused by the conversion exactly if somewhere in it a counted repetition has
   a bound above 3000, and there is no other error. *)
Theorem C55_converted :
  forall a e, convert_ast a = Err e <->
  e = PExceededQuantifierLimit /\ exists q n, repeats q a /\ counts (q_kind q) n /\ (3000 < n)%N.
Proof. exact c55_converted_lemma. Qed.
Print Assumptions C55_converted.

Example C55_converted_applies : exists a q,
  parse_regex_pattern 51 (chars "a|(b(?:c{1,3001}?)+)") = Ret (Ok a) /\ repeats q a /\ counts (q_kind q) 3001%N /\
  convert_ast a = Err PExceededQuantifierLimit.
Proof.
  eexists. exists {| q_lazy := true; q_kind := RangeMinMax 1 3001 |}. split; [vm_compute; reflexivity|].
  split; [|split; [constructor|vm_compute; reflexivity]].
  eapply rp_alternation; [right; left; reflexivity|]. apply rp_capture.
  eapply rp_concat; [right; left; reflexivity|]. apply rp_under, rp_group, rp_here.
Qed.

(* A pattern is refused for its quantifiers exactly if it is read as a tree in which a
   counted repetition has a bound above 3000. *)
Theorem C55_pattern :
  forall fuel s, 51 <= fuel ->
  convert_to_rust_regex fuel s = Ret (Err PExceededQuantifierLimit) <->
  exists a q n, parse_regex_pattern fuel s = Ret (Ok a) /\ repeats q a /\ counts (q_kind q) n /\ (3000 < n)%N.
Proof. exact c55_pattern_lemma. Qed.
Print Assumptions C55_pattern.

Example C55_pattern_applies :
  convert_to_rust_regex 51 (chars "x(a{3001,})") = Ret (Err PExceededQuantifierLimit) /\
  convert_to_rust_regex 51 (chars "x(a{3000,})") = Ret (Ok (chars "x(a{3000,})")).
Proof. split; vm_compute; reflexivity. Qed.

(* What is written as a counted repetition with a bound above 3000 is not always refused:
   a bound that does not fit 32 bits makes the parser read the braces as literal text. *)
Theorem C55_text_refuted :
  ~ (forall fuel d n r, 51 <= fuel -> d <> [] -> (forall c, In c d -> is_digit c) -> decimal_value d = n ->
     (3000 < n)%N ->
     convert_to_rust_regex fuel (chars "x{" ++ d ++ chars "}") = Ret r -> r = Err PExceededQuantifierLimit).
Proof. exact c55_text_refuted_lemma. Qed.
Print Assumptions C55_text_refuted.

Example C55_text_refuted_witness :
  convert_to_rust_regex 51 (chars "x{4294967296}") = Ret (Ok (chars "x\{4294967296\}")) /\
  convert_to_rust_regex 51 (chars "x{4294967295}") = Ret (Err PExceededQuantifierLimit).
Proof. split; vm_compute; reflexivity. Qed.

(* The printed flag group lists, without repetition, before the dash exactly the flags
   added and not removed, and after the dash exactly the flags removed. *)
Theorem C56_printed :
  forall f, exists before after,
  print_flags (convert_flags f) = before ++ match after with [] => [] | _ => chars "-" ++ after end /\
  NoDup (before ++ after) /\ (forall c, In c (before ++ after) -> exists x, flag_char x c) /\
  (forall x c, flag_char x c -> (In c before <-> In x (fl_add f) /\ ~ In x (fl_remove f))) /\
  (forall x c, flag_char x c -> (In c after <-> In x (fl_remove f))).
Proof. exact c56_printed_lemma. Qed.
Print Assumptions C56_printed.

Example C56_printed_applies :
  print_flags (convert_flags {| fl_add := [IgnoreWhitespace; CaseInsensitive; MultiLine; IgnoreWhitespace];
                                fl_remove := [DotMatchesNewLine; MultiLine; DotMatchesNewLine] |}) = chars "ix-ms".
Proof. vm_compute. reflexivity. Qed.

(* The meaning of the group is kept: in the converted group a flag is set if it is added
   and not removed, cleared if it is removed, and otherwise left as it is. *)
Theorem C56_meaning :
  forall f x, flag_set (match x with CaseInsensitive => RfCaseInsensitive | MultiLine => RfMultiLine
                      | DotMatchesNewLine => RfDotMatchesNewLine | IgnoreWhitespace => RfIgnoreWhitespace end) (convert_flags f)
    <-> In x (fl_add f) /\ ~ In x (fl_remove f).
Proof. exact c56_meaning_lemma. Qed.
Print Assumptions C56_meaning.

Example C56_meaning_applies : exists f, In CaseInsensitive (fl_add f) /\ ~ In CaseInsensitive (fl_remove f) /\
  In MultiLine (fl_add f) /\ In MultiLine (fl_remove f) /\
  convert_flags f = [RFlag RfCaseInsensitive; RNegation; RFlag RfMultiLine].
Proof.
  exists {| fl_add := [MultiLine; CaseInsensitive]; fl_remove := [MultiLine] |}. simpl.
  split; [auto|]. split; [intros [E|[]]; discriminate|]. auto.
Qed.

(* In the converted group a flag is cleared if and only if it is removed. *)
Theorem C56_cleared :
  forall f x, flag_cleared (match x with CaseInsensitive => RfCaseInsensitive | MultiLine => RfMultiLine
                      | DotMatchesNewLine => RfDotMatchesNewLine | IgnoreWhitespace => RfIgnoreWhitespace end) (convert_flags f)
    <-> In x (fl_remove f).
Proof. exact c56_cleared_lemma. Qed.
Print Assumptions C56_cleared.

Example C56_cleared_applies : exists f, In MultiLine (fl_add f) /\ In MultiLine (fl_remove f) /\
  convert_flags f = [RFlag RfCaseInsensitive; RNegation; RFlag RfMultiLine].
Proof. exists {| fl_add := [MultiLine; CaseInsensitive]; fl_remove := [MultiLine; MultiLine] |}. simpl. auto. Qed.

(* If a larger limit never makes a pattern fail to compile, the estimate of a pattern that
   compiles under some limit up to ten million is the least limit under which it compiles. *)
Theorem C58_least :
  forall convert build input p fuel n,
  convert input = Ok p ->
  (forall l l' re, build p l = Ok re -> (l <= l')%N -> exists re', build p l' = Ok re') ->
  24 < fuel -> get_regex_complexity_estimate_very_slow convert build fuel input = Ret (Ok n) ->
  (exists l re, (1 <= l <= 10000000)%N /\ build p l = Ok re) ->
  (exists re, build p n = Ok re) /\ (1 <= n <= 10000000)%N /\
  forall l re, (1 <= l)%N -> build p l = Ok re -> (n <= l)%N.
Proof. exact c58_least_lemma. Qed.
Print Assumptions C58_least.

Definition ex_build (p : str) (l : N) : result compiled build_error :=
  if (12345 <=? l)%N then Ok (fun _ _ => None) else Err SizeLimit.
Example C58_least_applies :
  (forall l l' re, ex_build [] l = Ok re -> (l <= l')%N -> exists re', ex_build [] l' = Ok re') /\
  get_regex_complexity_estimate_very_slow (fun s => Ok s) ex_build 25 [] = Ret (Ok 12345%N).
Proof.
  split; [|vm_compute; reflexivity]. unfold ex_build. intros l l' re E Hl.
  destruct (N.leb_spec 12345 l) as [H|]; [|discriminate]. destruct (N.leb_spec 12345 l'); [eauto|].
  exfalso. eapply N.lt_irrefl. eapply N.lt_le_trans; [|eapply N.le_trans; [exact H|exact Hl]]. assumption.
Qed.

(* The estimate always ends: with the conversion's error, with an error because the engine
   refuses the converted pattern for another reason than size, or with a number. *)
Theorem C58_outcome :
  forall convert build input fuel,
  (forall p l l' re, build p l = Ok re -> (l <= l')%N -> exists re', build p l' = Ok re') ->
  24 < fuel ->
  match convert input with
  | Err e => get_regex_complexity_estimate_very_slow convert build fuel input =
      Ret (Err (match e with PInvalidSyntax => InvalidSyntax | PExceededDepthLimit => ExceededDepthLimit
                | PExceededQuantifierLimit => ExceededQuantifierLimit end))
  | Ok p =>
    (exists n, get_regex_complexity_estimate_very_slow convert build fuel input = Ret (Ok n) /\
       ((exists re, build p n = Ok re) \/
        n = 10000000%N /\ forall l re, (1 <= l < 10000000)%N -> build p l <> Ok re)) \/
    (get_regex_complexity_estimate_very_slow convert build fuel input = Ret (Err InvalidSyntax) /\
       exists l, build p l = Err OtherBuildError)
  end.
Proof. exact c58_outcome_lemma. Qed.
Print Assumptions C58_outcome.

(* a pattern that never fits gets the same estimate as one that fits at ten million *)
Example C58_outcome_applies :
  get_regex_complexity_estimate_very_slow (fun s => Ok s) (fun _ _ => Err SizeLimit) 25 [] = Ret (Ok 10000000%N) /\
  get_regex_complexity_estimate_very_slow (fun s => Ok s) (fun _ _ => Err OtherBuildError) 25 [] = Ret (Err InvalidSyntax) /\
  get_regex_complexity_estimate_very_slow (fun s => Err PExceededDepthLimit) ex_build 25 [] = Ret (Err ExceededDepthLimit).
Proof. repeat split; vm_compute; reflexivity. Qed.

