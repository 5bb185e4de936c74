(* How patterns are read, exactly (C80, C81) *)
From Coq Require Import Lia.
From Verif Require Import Proofs.ReadingClaims.

(* A pattern is parsed as a tree exactly if the rules for reading patterns give that tree
   for the whole text. *)
Theorem C80_read :
  forall fuel s a, 51 <= fuel -> (parse_regex_pattern fuel s = Ret (Ok a) <-> pattern_read a s).
Proof. exact c80_read_lemma. Qed.
Print Assumptions C80_read.

(* only one repetition is taken, counts that are not complete are literal text, and an
   escape \x without a closing brace is the character 0 *)
Example C80_read_applies :
  pattern_read (AConcat [ARepetition {| q_lazy := false; q_kind := RangeExact 2 |} (ALiteral {| lit_c := 97; lit_escaped := false |});
    ALiteral {| lit_c := 123; lit_escaped := false |}; ALiteral {| lit_c := 51; lit_escaped := false |};
    ALiteral {| lit_c := 125; lit_escaped := false |}]) (chars "a{2}{3}") /\
  pattern_read (AConcat [ALiteral {| lit_c := 0; lit_escaped := true |};
    ALiteral {| lit_c := 123; lit_escaped := false |}; ALiteral {| lit_c := 52; lit_escaped := false |}]) (chars "\x{4") /\
  (forall a, ~ pattern_read a (chars "a**")) /\
  (forall a, ~ pattern_read a (chars "(\x{4)}")).
Proof.
  split; [apply (parse_reads 51); [lia|vm_compute; reflexivity]|].
  split; [apply (parse_reads 51); [lia|vm_compute; reflexivity]|].
  split; intros a H; apply (parse_reads 51) in H; try lia; vm_compute in H; discriminate H.
Qed.

(* By these rules a text is read as at most one tree, and it is one that the text stands
   for by the grammar. *)
Theorem C80_unique :
  forall s a, pattern_read a s -> expression_text a s /\ forall b, pattern_read b s -> b = a.
Proof. exact c80_unique_lemma. Qed.
Print Assumptions C80_unique.

(* the grammar alone allows two trees *)
Example C80_unique_applies :
  let four := AConcat (map (fun c => ALiteral {| lit_c := c; lit_escaped := false |}) (chars "a{2}")) in
  let twice := ARepetition {| q_lazy := false; q_kind := RangeExact 2 |} (ALiteral {| lit_c := 97; lit_escaped := false |}) in
  expression_text four (chars "a{2}") /\ expression_text twice (chars "a{2}") /\
  pattern_read twice (chars "a{2}") /\ ~ pattern_read four (chars "a{2}").
Proof.
  cbv zeta. split; [|split; [|split]].
  - apply ex_one, bs_one. cbn [map chars]. apply bx_more.
    assert (P : forall c, ~ In c (special false) -> piece_text (ALiteral {| lit_c := c; lit_escaped := false |}) [c]).
    { intros c Hc. apply px_atom, ax_literal; [apply lt_plain; exact Hc| |discriminate].
      intros (l & _ & E). discriminate E. }
    apply (ps_more _ [97%N] _ (chars "{2}")); [apply P; vm_compute; intuition discriminate|].
    apply (ps_more _ [123%N] _ (chars "2}")); [apply P; vm_compute; intuition discriminate|].
    apply (ps_more _ [50%N] _ (chars "}")); [apply P; vm_compute; intuition discriminate|].
    apply ps_one. apply P. vm_compute. intuition discriminate.
  - apply (c54_grammar_lemma 51). vm_compute. reflexivity.
  - apply (parse_reads 51); [lia|vm_compute; reflexivity].
  - intros H. apply (parse_reads 51) in H; [|lia]. vm_compute in H. discriminate H.
Qed.

(* Every other pattern is refused: with a syntax error, or because it has 50 opening
   parentheses. *)
Theorem C80_refused :
  forall fuel s, 51 <= fuel -> (forall a, ~ pattern_read a s) ->
  parse_regex_pattern fuel s = Ret (Err PInvalidSyntax) \/
  (parse_regex_pattern fuel s = Ret (Err PExceededDepthLimit) /\ 50 <= count_occ N.eq_dec s 40%N).
Proof. exact c80_refused_lemma. Qed.
Print Assumptions C80_refused.

Example C80_refused_applies :
  (forall a, ~ pattern_read a (chars "a)")) /\ (forall a, ~ pattern_read a (nested 50)) /\
  parse_regex_pattern 51 (chars "a)") = Ret (Err PInvalidSyntax).
Proof.
  split; [|split]; [| |vm_compute; reflexivity]; intros a H; apply (parse_reads 51) in H; try lia; vm_compute in H; discriminate H.
Qed.

(* A class named in brackets is not always taken as the class: at the end of a range \d is
   read as the letter d. *)
Theorem C81_refuted :
  ~ (forall s n items, (forall c, In c s -> ~ In c (chars "\[]")) ->
   parse_regex_pattern 51 (chars "[" ++ s ++ chars "\d]") = Ret (Ok (AClass (CBracket n items))) ->
   In (BPerl PDigit) items).
Proof. exact c81_refuted_lemma. Qed.
Print Assumptions C81_refuted.

(* the range from + to d has digits, but also capital letters; before an ASCII class the
   dash makes a range up to the bracket, and the class ends early *)
Example C81_refuted_witness :
  parse_regex_pattern 51 (chars "[+-\d]") = Ret (Ok (AClass (CBracket false [BRange 43 100]))) /\
  convert_to_rust_regex 51 (chars "[+-\d]") = Ret (Ok (chars "[\+-d]")) /\
  parse_regex_pattern 51 (chars "[\d+-]") = Ret (Ok (AClass (CBracket false [BPerl PDigit; BLiteral 43; BLiteral 45]))) /\
  convert_to_rust_regex 51 (chars "[+-[:digit:]]") = Ret (Ok (chars "[\+-\[:digit:]\]")).
Proof. repeat split; vm_compute; reflexivity. Qed.

(* If the text before it has no brackets and backslashes and does not end with a dash, \d
   in brackets is the class of digits. *)
Theorem C81_class :
  forall s, (forall c, In c s -> ~ In c (chars "\[]")) -> (forall u, s <> u ++ chars "-") ->
  exists n items, parse_regex_pattern 51 (chars "[" ++ s ++ chars "\d]") = Ret (Ok (AClass (CBracket n items))) /\
  In (BPerl PDigit) items.
Proof. exact c81_class_lemma. Qed.
Print Assumptions C81_class.

Example C81_class_applies :
  parse_regex_pattern 51 (chars "[^a-f+\d]") =
  Ret (Ok (AClass (CBracket true [BRange 97 102; BLiteral 43; BPerl PDigit]))).
Proof. vm_compute. reflexivity. Qed.

