(* The meaning of converted patterns (C57) *)
From Coq Require Import Lia.
From Verif Require Import Proofs.ConversionClaims.

(* A faithful pattern with distinct names of groups that is parsed and converted: the regex
   crate reads the converted text, and what it reads has the meaning of the pattern, with
   the same preferences between matches.  Here $ and \Z match a newline before the end, as
   the comments of the adapter say. *)
Theorem C57_faithful :
  forall pattern a t,
  parse_regex_pattern 51 pattern = Ret (Ok a) -> convert_to_rust_regex 51 pattern = Ret (Ok t) ->
  faithful mode0 a -> NoDup (group_names a) ->
  exists b, reread t = Some b /\
    forall E text, plain_env E -> same_meaning (rmeans E text rmode0 b) (means E (end_with text) text mode0 a).
Proof. exact c57_faithful_lemma. Qed.
Print Assumptions C57_faithful.

(* unescaped, && and -- and ~~ are set operations of the regex crate, which this reader
   refuses; the conversion escapes them *)
Example C57_set_operations :
  map reread [chars "[a&&b]"; chars "[+--]"; chars "[a--b]"; chars "[a~~b]"] = [None; None; None; None] /\
  Forall (fun p => exists t b, convert_to_rust_regex 51 p = Ret (Ok t) /\ reread t = Some b)
    [chars "[a&&b]"; chars "[+--]"; chars "[a~~b]"; chars "[a&~-]"].
Proof.
  split; [vm_compute; reflexivity|].
  repeat constructor; (eexists; eexists; split; [vm_compute; reflexivity|vm_compute; reflexivity]).
Qed.

Definition C57_pattern : str := chars "(?x) (?<n> a{2,3}? | [^b-d\d[:upper:]] )\b(?-x:\Q. \E)*\Q.x\E+$".
Example C57_faithful_applies : exists a t,
  parse_regex_pattern 51 C57_pattern = Ret (Ok a) /\ convert_to_rust_regex 51 C57_pattern = Ret (Ok t) /\
  faithful mode0 a /\ NoDup (group_names a) /\ group_names a <> [].
Proof.
  eexists. eexists. split; [vm_compute; reflexivity|]. split; [vm_compute; reflexivity|].
  split; [|split; [repeat constructor; intros []|discriminate]].
  cbn. unfold foreign_space. cbn.
  repeat match goal with |- (_ \/ quoted_text (AConcat _)) => right; exists 46%N, 120%N, []; reflexivity | |- (_ \/ quoted_text _) => left | |- _ /\ _ => split end;
    try tauto; try (left; discriminate); try discriminate;
    try (intros _ H; repeat (destruct H as [H|H]; [discriminate|]); contradiction).
  { intros (_ & _ & K). discriminate. }
  intros it H. repeat (destruct H as [<-|H]; [cbn; (exact I || discriminate)|]). contradiction.
Qed.

(* Without $ and \Z the meaning kept is that of PCRE. *)
Theorem C57_pcre :
  forall pattern a t,
  parse_regex_pattern 51 pattern = Ret (Ok a) -> convert_to_rust_regex 51 pattern = Ret (Ok t) ->
  faithful mode0 a -> NoDup (group_names a) -> no_ends a ->
  exists b, reread t = Some b /\
    forall E text, plain_env E -> same_meaning (rmeans E text rmode0 b) (means E (end_before text) text mode0 a).
Proof. exact c57_pcre_lemma. Qed.
Print Assumptions C57_pcre.

Example C57_pcre_applies : exists a t,
  parse_regex_pattern 51 (chars "(?i)(a|\.b*?)\z") = Ret (Ok a) /\ convert_to_rust_regex 51 (chars "(?i)(a|\.b*?)\z") = Ret (Ok t) /\
  faithful mode0 a /\ NoDup (group_names a) /\ no_ends a.
Proof.
  eexists. eexists. split; [vm_compute; reflexivity|]. split; [vm_compute; reflexivity|].
  cbn. repeat match goal with |- (_ \/ quoted_text _) => left | |- _ /\ _ => split end;
    try (left; discriminate); try (intros ?; discriminate); try constructor; try (intros [K _]; discriminate K).
Qed.

(* So the match that is found at a position is the same. *)
Theorem C57_preferred :
  forall pattern a t,
  parse_regex_pattern 51 pattern = Ret (Ok a) -> convert_to_rust_regex 51 pattern = Ret (Ok t) ->
  faithful mode0 a -> NoDup (group_names a) ->
  exists b, reread t = Some b /\ forall E text i j, plain_env E ->
    (prefers (rmeans E text rmode0 b) i j <-> prefers (means E (end_with text) text mode0 a) i j) /\
    (matched (rmeans E text rmode0 b) i j <-> matched (means E (end_with text) text mode0 a) i j).
Proof. exact c57_preferred_lemma. Qed.
Print Assumptions C57_preferred.

(* a lazy repetition prefers the short match *)
Example C57_preferred_applies : exists a, parse_regex_pattern 51 (chars "a??") = Ret (Ok a) /\
  faithful mode0 a /\ prefers (means small_env (end_with (chars "a")) (chars "a") mode0 a) 0 0 /\
  ~ prefers (means small_env (end_with (chars "a")) (chars "a") mode0 a) 0 1.
Proof.
  eexists. split; [vm_compute; reflexivity|]. split; [cbn; split; [left; intros [K _]; discriminate K|split; [exact I|intros ?; discriminate]]|]. cbn. split.
  - exists [0]. split; [apply tm_stop; discriminate|]. intros u k _ H. inversion H as [? ? ? ? L|? ? ? L]; subst; [lia|inversion L].
  - intros (t & H1 & H2). apply (H2 [0] 0); [apply tm_stop; discriminate|]. inversion H1; subst. apply ea_here. lia.
Qed.

(* The limit of 50 on the nesting of groups keeps the converted pattern below the limit of
   250 of the regex crate, for the tree that is printed and for the tree that is read. *)
Theorem C57_depth :
  forall pattern a, parse_regex_pattern 51 pattern = Ret (Ok a) ->
  forall r, convert_ast a = Ok r -> nest_depth r <= nest_limit /\
    (faithful mode0 a -> NoDup (group_names a) ->
       exists b, reread (print_ast r) = Some b /\ nest_depth b <= nest_limit).
Proof. exact c57_depth_lemma. Qed.
Print Assumptions C57_depth.

Example C57_depth_applies : exists a r, parse_regex_pattern 51 (chars "((?:[\d]+|a)*|b)c") = Ret (Ok a) /\ convert_ast a = Ok r /\ nest_depth r = 11.
Proof. eexists. eexists. split; [vm_compute; reflexivity|]. split; vm_compute; reflexivity. Qed.

(* The meaning of $ is not that of PCRE: a$ matches the newline after the a as well. *)
Theorem C57_end_refuted :
  exists pattern a b text, patterns_meet pattern a b reread /\ forall E,
  matched (rmeans E text rmode0 b) 0 2 /\ ~ matched (means E (end_before text) text mode0 a) 0 2.
Proof. exact c57_end_refuted_lemma. Qed.
Print Assumptions C57_end_refuted.

Example C57_end_refuted_applies : convert_to_rust_regex 51 (chars "a$") = Ret (Ok (chars "a\x{A}?$")).
Proof. vm_compute. reflexivity. Qed.

(* A $ with a quantifier is converted as if the quantifier were not about the newline: a$?b
   matches a, a newline and b, which it does with neither meaning of $. *)
Theorem C57_repeated_end_refuted :
  exists pattern a b text, patterns_meet pattern a b reread /\ forall E,
  matched (rmeans E text rmode0 b) 0 3 /\ ~ matched (means E (end_before text) text mode0 a) 0 3 /\
  ~ matched (means E (end_with text) text mode0 a) 0 3.
Proof. exact c57_repeated_end_refuted_lemma. Qed.
Print Assumptions C57_repeated_end_refuted.

Example C57_repeated_end_refuted_applies : convert_to_rust_regex 51 (chars "a$?b") = Ret (Ok (chars "a\x{A}?$?b")).
Proof. vm_compute. reflexivity. Qed.

(* \w is written as an ASCII class so that it does not stand for the words of Unicode, but
   when case is ignored the regex crate adds the letters of the same case class: with the
   flag i, \w matches the long s. *)
Theorem C57_word_refuted :
  exists pattern a b E text, patterns_meet pattern a b reread /\ plain_env E /\
  matched (rmeans E text rmode0 b) 0 1 /\ ~ matched (means E (end_before text) text mode0 a) 0 1.
Proof. exact c57_word_refuted_lemma. Qed.
Print Assumptions C57_word_refuted.

Example C57_word_refuted_applies : convert_to_rust_regex 51 (chars "(?i)\w") = Ret (Ok (chars "(?i)[a-zA-Z0-9_]")).
Proof. vm_compute. reflexivity. Qed.

(* With the flag x, white space that is not ASCII is a literal of the pattern, but the
   regex crate ignores it. *)
Theorem C57_space_refuted :
  exists pattern a b text, patterns_meet pattern a b reread /\ forall E,
  matched (rmeans E text rmode0 b) 0 2 /\ ~ matched (means E (end_before text) text mode0 a) 0 2.
Proof. exact c57_space_refuted_lemma. Qed.
Print Assumptions C57_space_refuted.

Example C57_space_refuted_applies : convert_to_rust_regex 51 (chars "(?x)a\x{A0}b") = Ret (Ok (chars "(?x)a" ++ [160%N] ++ chars "b")).
Proof. vm_compute. reflexivity. Qed.

(* With the flag x, white space that is repeated is printed as it is, and what follows is
   read in another way: here as a group that does not capture. *)
Theorem C57_group_refuted :
  exists pattern a b text, patterns_meet pattern a b reread /\ forall E,
  matched (means E (end_before text) text mode0 a) 0 2 /\ ~ matched (rmeans E text rmode0 b) 0 2.
Proof. exact c57_group_refuted_lemma. Qed.
Print Assumptions C57_group_refuted.

Example C57_group_refuted_applies : convert_to_rust_regex 51 (chars "(?x)( ?:a)") = Ret (Ok (chars "(?x)( ?:a)")).
Proof. vm_compute. reflexivity. Qed.

(* Some patterns are parsed and converted, but the regex crate does not read the result:
   groups of flags without flags, repeated flags, repeated names, ranges and bounds that
   are not ordered. *)
Theorem C57_read_refuted :
  forall pattern, In pattern [chars "a(?)b"; chars "(?i)*"; chars "(?<n>a)(?<n>b)"; chars "[b-a]"; chars "a{3,2}"] ->
  exists a t, parse_regex_pattern 51 pattern = Ret (Ok a) /\ convert_to_rust_regex 51 pattern = Ret (Ok t) /\ reread t = None.
Proof. exact c57_read_refuted_lemma. Qed.
Print Assumptions C57_read_refuted.

Example C57_read_refuted_applies : reread (chars "a(?i)b") <> None /\ reread (chars "a(?)b") = None.
Proof. split; vm_compute; [discriminate|reflexivity]. Qed.

