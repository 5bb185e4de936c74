(* The tables of the unit tests of /repo, run on the model: the conversions of
   normalization/rust_regex_adapter.rs 702-823 and the rejected patterns of
   parser/regex_parser.rs 582-601.  Nothing here models code. *)
From Verif Require Export Model.RegexAdapter.

Definition conversions : list (str * str) := [
  (chars "\a", chars "\x{7}");
  (chars "\i", chars "i");
  (chars "(?P<name>foo)", chars "(?<name>foo)");
  (chars "(?'name'foo)", chars "(?<name>foo)");
  (chars "x{,3}", chars "x\{,3\}");
  (chars "{}", chars "\{\}");
  (chars "\Z", chars "\x{A}?\z");
  (chars "[]]", chars "[\]]");
  (chars "[{}]", chars "[\{\}]");
  (chars "[-]", chars "[\-]");
  (chars "[a-]", chars "[a\-]");
  (chars "[--a]", chars "[\--a]");
  (chars "\d", chars "[0-9]");
  (chars "\w", chars "[a-zA-Z0-9_]");
  (chars "\s", chars "[\x{D}\x{A}\x{9}\x{C}\x{B}\x{20}]");
  (chars "\D", chars "[^0-9]");
  (chars "\W", chars "[^a-zA-Z0-9_]");
  (chars "\S", chars "[^\x{D}\x{A}\x{9}\x{C}\x{B}\x{20}]");
  (chars "\b", chars "(?-u:\b)");
  (chars "\B", chars "(?-u:\B)");
  (chars "(?ii:foo)", chars "(?i:foo)");
  (chars "(?-ii:foo)", chars "(?-i:foo)");
  (chars "(?i-i:foo)", chars "(?-i:foo)");
  (chars "\<", chars "<");
  (chars "\>", chars ">");
  (chars "[ ]", chars "[\x{20}]");
  (chars "[\Qfoo\E]", chars "[foo]");
  (chars "[\Q]\E]", chars "[\]]");
  (chars "\Qfoo\E", chars "foo");
  (chars "\Q\E", chars "");
  (chars "\Q([x])\E", chars "\(\[x\]\)");
  (chars "a\Q|\Eb", chars "a\|b");
  (chars "[a&&b]", chars "[a\&\&b]");
  (chars "\cA", chars "\x{1}");
  (chars "\ca", chars "\x{1}");
  (chars "\cZ", chars "\x{1A}");
  (chars "\cz", chars "\x{1A}");
  (chars "[\b]", chars "[\x{8}]");
  (chars "\e", chars "\x{1B}");
  (chars "\f", chars "\x{C}");
  (chars "\n", chars "\x{A}");
  (chars "\r", chars "\x{D}");
  (chars "\t", chars "\x{9}");
  (chars "\x", chars "\x{0}");
  (chars "\x1", chars "\x{1}");
  (chars "\x012", chars "\x{1}2");
  (chars "\h", chars "[\x{20}\x{9}]");
  (chars "\H", chars "[^\x{20}\x{9}]");
  (chars "\v", chars "[\x{B}\x{A}\x{C}\x{D}]");
  (chars "[\v]", chars "[[\x{B}\x{A}\x{C}\x{D}]]");
  (chars "[\V]", chars "[[^\x{B}\x{A}\x{C}\x{D}]]");
  (chars "\V", chars "[^\x{B}\x{A}\x{C}\x{D}]");
  (chars "[.]", chars "[\.]");
  (chars "[\s]", chars "[[\x{D}\x{A}\x{9}\x{C}\x{B}\x{20}]]");
  (chars "[\habc]", chars "[[\x{20}\x{9}]abc]");
  (chars "x{3}?", chars "x{3}?");
  (chars "$", chars "\x{A}?$");
  (chars "", chars "");
  (chars "^", chars "^");
  (chars "a b", chars "a b");
  (chars "a", chars "a");
  ([128527]%N, [128527]%N);
  (chars "\*", chars "\*");
  (chars "abc", chars "abc");
  (chars "(?:abc)", chars "(?:abc)");
  (chars "(?i:abc)", chars "(?i:abc)");
  (chars "(?imsx:abc)", chars "(?imsx:abc)");
  (chars "(a)", chars "(a)");
  (chars "(a(b))", chars "(a(b))");
  (chars "(?<name>foo)", chars "(?<name>foo)");
  (chars "a|b|c", chars "a|b|c");
  (chars "(?imsx)foo", chars "(?imsx)foo");
  (chars "x+", chars "x+");
  (chars "x*", chars "x*");
  (chars "x?", chars "x?");
  (chars "x+?", chars "x+?");
  (chars "x*?", chars "x*?");
  (chars "x??", chars "x??");
  (chars "x{3}", chars "x{3}");
  (chars "x{3,4}", chars "x{3,4}");
  (chars "x{3,}", chars "x{3,}");
  (chars "\^", chars "\^");
  (chars "\$", chars "\$");
  (chars "\A", chars "\A");
  (chars "\z", chars "\z");
  (chars ".", chars ".");
  (chars "[x]", chars "[x]");
  (chars "[^x]", chars "[^x]");
  (chars "[a-z]", chars "[a-z]");
  (chars "[[:alnum:]]", chars "[[:alnum:]]");
  (chars "[[:alpha:]]", chars "[[:alpha:]]");
  (chars "[[:ascii:]]", chars "[[:ascii:]]");
  (chars "[[:blank:]]", chars "[[:blank:]]");
  (chars "[[:cntrl:]]", chars "[[:cntrl:]]");
  (chars "[[:digit:]]", chars "[[:digit:]]");
  (chars "[[:graph:]]", chars "[[:graph:]]");
  (chars "[[:lower:]]", chars "[[:lower:]]");
  (chars "[[:print:]]", chars "[[:print:]]");
  (chars "[[:punct:]]", chars "[[:punct:]]");
  (chars "[[:space:]]", chars "[[:space:]]");
  (chars "[[:upper:]]", chars "[[:upper:]]");
  (chars "[[:word:]]", chars "[[:word:]]");
  (chars "[[:xdigit:]]", chars "[[:xdigit:]]");
  (chars "[[:^alnum:]]", chars "[[:^alnum:]]");
  (chars "[[:^alpha:]]", chars "[[:^alpha:]]");
  (chars "[[:^ascii:]]", chars "[[:^ascii:]]");
  (chars "[[:^blank:]]", chars "[[:^blank:]]");
  (chars "[[:^cntrl:]]", chars "[[:^cntrl:]]");
  (chars "[[:^digit:]]", chars "[[:^digit:]]");
  (chars "[[:^graph:]]", chars "[[:^graph:]]");
  (chars "[[:^lower:]]", chars "[[:^lower:]]");
  (chars "[[:^print:]]", chars "[[:^print:]]");
  (chars "[[:^punct:]]", chars "[[:^punct:]]");
  (chars "[[:^space:]]", chars "[[:^space:]]");
  (chars "[[:^upper:]]", chars "[[:^upper:]]");
  (chars "[[:^word:]]", chars "[[:^word:]]");
  (chars "[[:^xdigit:]]", chars "[[:^xdigit:]]");
  (chars "(?:x|)y", chars "(?:x|)y")
].
Lemma conversions_agree :
  map (fun io => convert_to_rust_regex 51 (fst io)) conversions
  = map (fun io => Ret (Ok (snd io))) conversions.
Proof. vm_compute. reflexivity. Qed.

Lemma properties_agree :
  map (fun n => convert_to_rust_regex 51 (chars "\p{" ++ n ++ chars "}")) unicode_property_names
  = map (fun n => Ret (Ok (chars "\p{" ++ n ++ chars "}"))) unicode_property_names.
Proof. vm_compute. reflexivity. Qed.

Definition rejected : list str := [
  chars "\x{}";
  chars "\x{999999}";
  chars "[\A]";
  chars "[\Z]";
  chars "\012";
  chars "\c";
  chars "\N{U+1234}";
  chars "\N";
  chars "\u";
  chars "\U";
  chars "\u{1234}";
  chars "\u12";
  chars "\C";
  chars "\R";
  chars "\X";
  chars "\p";
  chars "\p{}";
  chars "\p{invalid}"
].
Lemma rejected_agree :
  map (parse_regex_pattern 51) rejected = map (fun _ => Ret (Err PInvalidSyntax)) rejected.
Proof. vm_compute. reflexivity. Qed.
