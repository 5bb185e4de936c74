(* Specification of the pattern syntax: which text stands for which tree, how deep groups
   are nested, and which counted repetitions occur. *)
From Verif Require Export Model.RegexAdapter.
From Verif Require Export Spec.Codec.

(* ---- numbers ---- *)
(* a nonempty sequence of decimal digits with value [n] below 2^32 *)
Definition number_text (d : str) (n : N) : Prop :=
  d <> [] /\ (forall c, In c d -> is_digit c) /\ decimal_value d = n /\ (n < two32)%N.

(* hexadecimal digits and values *)
Inductive hex_digit_is : char -> N -> Prop :=
| hd_digit : forall c, (48 <= c <= 57)%N -> hex_digit_is c (c - 48)
| hd_lower : forall c, (97 <= c <= 102)%N -> hex_digit_is c (c - 97 + 10)
| hd_upper : forall c, (65 <= c <= 70)%N -> hex_digit_is c (c - 65 + 10).
Inductive hex_is : str -> N -> Prop :=
| hx_nil : hex_is [] 0
| hx_snoc : forall h n c d, hex_is h n -> hex_digit_is c d -> hex_is (h ++ [c]) (n * 16 + d).
Definition scalar_value (c : N) : Prop := (c < 55296 \/ 57344 <= c < 1114112)%N.

(* ---- literals ---- *)
(* the letter after a backslash and the character it stands for *)
Inductive named_escape : char -> char -> Prop :=
| ne_a : named_escape 97 7 | ne_b : named_escape 98 8 | ne_e : named_escape 101 27
| ne_f : named_escape 102 12 | ne_n : named_escape 110 10 | ne_r : named_escape 114 13
| ne_t : named_escape 116 9 | ne_v : named_escape 118 11.

(* characters with a meaning of their own outside of brackets, and in brackets *)
Definition special (bracketed : bool) : str :=
  if bracketed then chars "]\" else chars "|[().+?*^$\".
(* characters that cannot be escaped to stand for themselves *)
Definition not_escapable : str := chars "0123456789abcefgklnoprtuvxzABCEGKLNPQRUXZ".

(* [c] is written [t]; the flag tells whether it is escaped *)
Inductive literal_text (bracketed : bool) : char -> bool -> str -> Prop :=
| lt_plain : forall c, ~ In c (special bracketed) -> literal_text bracketed c false [c]
| lt_self : forall c, ~ In c not_escapable -> literal_text bracketed c true [92%N; c]
| lt_named : forall l c, named_escape l c -> literal_text bracketed c true [92%N; l]
| lt_upper : forall l, (65 <= l <= 90)%N -> literal_text bracketed (l - 64) true [92%N; 99%N; l]
| lt_lower : forall l, (97 <= l <= 122)%N -> literal_text bracketed (l - 96) true [92%N; 99%N; l]
| lt_hex : forall h c, length h <= 2 -> hex_is h c ->
    literal_text bracketed c true (chars "\x" ++ h)
| lt_brace : forall h c, h <> [] -> hex_is h c -> scalar_value c ->
    literal_text bracketed c true (chars "\x{" ++ h ++ chars "}")
| lt_brace_plus : forall h c, h <> [] -> hex_is h c -> scalar_value c ->
    literal_text bracketed c true (chars "\x{+" ++ h ++ chars "}").

(* a backslash and a letter that names a class: read as that class, except as an end of a
   range *)
Definition names_class (t : str) : Prop := exists l, In l (chars "dswDSWhHvV") /\ t = [92%N; l].

(* the text between \Q and \E: any text in which \E does not begin *)
Definition no_end (l : str) : Prop := forall a b, l ++ chars "\E" = a ++ chars "\E" ++ b -> a = l.

(* ---- classes ---- *)
Inductive perl_text : perl_class -> str -> Prop :=
| pl_d : perl_text PDigit (chars "\d") | pl_s : perl_text PSpace (chars "\s")
| pl_w : perl_text PWord (chars "\w") | pl_D : perl_text PNonDigit (chars "\D")
| pl_S : perl_text PNonSpace (chars "\S") | pl_W : perl_text PNonWord (chars "\W").
(* general categories: a letter, or the letter and one of some others *)
Definition categories : list (str * str) :=
  [(chars "C", chars "cfno"); (chars "L", chars "lmotu"); (chars "M", chars "cen"); (chars "N", chars "dlo"); (chars "P", chars "cdefios"); (chars "S", chars "ckmo"); (chars "Z", chars "lps")].
Definition scripts : list str :=
  [chars "Adlam"; chars "Ahom"; chars "Anatolian_Hieroglyphs"; chars "Arabic"; chars "Armenian";
    chars "Avestan"; chars "Balinese"; chars "Bamum"; chars "Bassa_Vah"; chars "Batak"; chars "Bengali";
    chars "Bhaiksuki"; chars "Bopomofo"; chars "Brahmi"; chars "Braille"; chars "Buginese"; chars "Buhid";
    chars "Canadian_Aboriginal"; chars "Carian"; chars "Caucasian_Albanian"; chars "Chakma"; chars "Cham";
    chars "Cherokee"; chars "Chorasmian"; chars "Common"; chars "Coptic"; chars "Cuneiform"; chars "Cypriot";
    chars "Cypro_Minoan"; chars "Cyrillic"; chars "Deseret"; chars "Devanagari"; chars "Dives_Akuru";
    chars "Dogra"; chars "Duployan"; chars "Egyptian_Hieroglyphs"; chars "Elbasan"; chars "Elymaic";
    chars "Ethiopic"; chars "Georgian"; chars "Glagolitic"; chars "Gothic"; chars "Grantha"; chars "Greek";
    chars "Gujarati"; chars "Gunjala_Gondi"; chars "Gurmukhi"; chars "Han"; chars "Hangul";
    chars "Hanifi_Rohingya"; chars "Hanunoo"; chars "Hatran"; chars "Hebrew"; chars "Hiragana";
    chars "Imperial_Aramaic"; chars "Inherited"; chars "Inscriptional_Pahlavi";
    chars "Inscriptional_Parthian"; chars "Javanese"; chars "Kaithi"; chars "Kannada"; chars "Katakana";
    chars "Kayah_Li"; chars "Kharoshthi"; chars "Khitan_Small_Script"; chars "Khmer"; chars "Khojki";
    chars "Khudawadi"; chars "Lao"; chars "Latin"; chars "Lepcha"; chars "Limbu"; chars "Linear_A";
    chars "Linear_B"; chars "Lisu"; chars "Lycian"; chars "Lydian"; chars "Mahajani"; chars "Makasar";
    chars "Malayalam"; chars "Mandaic"; chars "Manichaean"; chars "Marchen"; chars "Masaram_Gondi";
    chars "Medefaidrin"; chars "Meetei_Mayek"; chars "Mende_Kikakui"; chars "Meroitic_Cursive";
    chars "Meroitic_Hieroglyphs"; chars "Miao"; chars "Modi"; chars "Mongolian"; chars "Mro"; chars "Multani";
    chars "Myanmar"; chars "Nabataean"; chars "Nandinagari"; chars "New_Tai_Lue"; chars "Newa"; chars "Nko";
    chars "Nushu"; chars "Ogham"; chars "Ol_Chiki"; chars "Old_Hungarian"; chars "Old_Italic";
    chars "Old_North_Arabian"; chars "Old_Permic"; chars "Old_Persian"; chars "Old_Sogdian";
    chars "Old_South_Arabian"; chars "Old_Turkic"; chars "Old_Uyghur"; chars "Oriya"; chars "Osage";
    chars "Osmanya"; chars "Pahawh_Hmong"; chars "Palmyrene"; chars "Pau_Cin_Hau"; chars "Phags_Pa";
    chars "Phoenician"; chars "Psalter_Pahlavi"; chars "Rejang"; chars "Runic"; chars "Samaritan";
    chars "Saurashtra"; chars "Sharada"; chars "Shavian"; chars "Siddham"; chars "SignWriting";
    chars "Sinhala"; chars "Sogdian"; chars "Sora_Sompeng"; chars "Soyombo"; chars "Sundanese";
    chars "Syloti_Nagri"; chars "Syriac"; chars "Tagalog"; chars "Tagbanwa"; chars "Tai_Le"; chars "Tai_Tham";
    chars "Tai_Viet"; chars "Takri"; chars "Tamil"; chars "Tangsa"; chars "Tangut"; chars "Telugu";
    chars "Thaana"; chars "Thai"; chars "Tibetan"; chars "Tifinagh"; chars "Tirhuta"; chars "Toto";
    chars "Ugaritic"; chars "Vai"; chars "Vithkuqi"; chars "Wancho"; chars "Warang_Citi"; chars "Yezidi";
    chars "Yi"; chars "Zanabazar_Square"].
Definition property_name (n : str) : Prop :=
  In n scripts \/ exists c sub, In (c, sub) categories /\ (n = c \/ exists x, In x sub /\ n = c ++ [x]).
Definition unicode_text (u : unicode_property) (t : str) : Prop :=
  property_name (up_name u) /\
  t = (if up_negate u then chars "\P{" else chars "\p{") ++ up_name u ++ chars "}".
Inductive ascii_text : ascii_kind -> str -> Prop :=
| at_alnum : ascii_text Alnum (chars "alnum") | at_alpha : ascii_text Alpha (chars "alpha")
| at_ascii : ascii_text AsciiAll (chars "ascii") | at_blank : ascii_text Blank (chars "blank")
| at_cntrl : ascii_text Cntrl (chars "cntrl") | at_digit : ascii_text Digit (chars "digit")
| at_graph : ascii_text Graph (chars "graph") | at_lower : ascii_text Lower (chars "lower")
| at_print : ascii_text Print (chars "print") | at_punct : ascii_text Punct (chars "punct")
| at_space : ascii_text Space (chars "space") | at_upper : ascii_text Upper (chars "upper")
| at_word : ascii_text Word (chars "word") | at_xdigit : ascii_text Xdigit (chars "xdigit").

Inductive item_text : list bracket_item -> str -> Prop :=
| it_literal : forall c e t, literal_text true c e t -> ~ names_class t -> item_text [BLiteral c] t
| it_range : forall a e1 t1 b e2 t2, literal_text true a e1 t1 -> literal_text true b e2 t2 ->
    item_text [BRange a b] (t1 ++ chars "-" ++ t2)
| it_perl : forall p t, perl_text p t -> item_text [BPerl p] t
| it_unicode : forall u t, unicode_text u t -> item_text [BUnicode u] t
| it_ascii : forall k t, ascii_text k t -> item_text [BAscii false k] (chars "[:" ++ t ++ chars ":]")
| it_not_ascii : forall k t, ascii_text k t -> item_text [BAscii true k] (chars "[:^" ++ t ++ chars ":]")
| it_h : item_text [BHorizontal] (chars "\h")
| it_H : item_text [BNotHorizontal] (chars "\H")
| it_v : item_text [BVertical] (chars "\v")
| it_V : item_text [BNotVertical] (chars "\V")
| it_quoted : forall l, no_end l -> item_text (map BLiteral l) (chars "\Q" ++ l ++ chars "\E").
Inductive items_text : list bracket_item -> str -> Prop :=
| its_nil : items_text [] []
| its_cons : forall i t l u, item_text i t -> items_text l u -> items_text (i ++ l) (t ++ u).

Inductive class_text : char_class -> str -> Prop :=
| ct_dot : class_text CDot (chars ".")
| ct_h : class_text CHorizontal (chars "\h") | ct_H : class_text CNotHorizontal (chars "\H")
| ct_v : class_text CVertical (chars "\v") | ct_V : class_text CNotVertical (chars "\V")
| ct_perl : forall p t, perl_text p t -> class_text (CPerl p) t
| ct_unicode : forall u t, unicode_text u t -> class_text (CUnicode u) t
| ct_bracket : forall n items t, items <> [] -> items_text items t ->
    class_text (CBracket n items) ((if n : bool then chars "[^" else chars "[") ++ t ++ chars "]")
| ct_closing : forall n items t, items_text items t ->
    class_text (CBracket n (BLiteral 93 :: items))
      ((if n : bool then chars "[^]" else chars "[]") ++ t ++ chars "]").

(* ---- flags, assertions, quantifiers ---- *)
Inductive flag_char : flag -> char -> Prop :=
| fc_i : flag_char CaseInsensitive 105 | fc_m : flag_char MultiLine 109
| fc_s : flag_char DotMatchesNewLine 115 | fc_x : flag_char IgnoreWhitespace 120.
Inductive flags_text : flags -> str -> Prop :=
| ft_add : forall a t, Forall2 flag_char a t -> flags_text {| fl_add := a; fl_remove := [] |} t
| ft_both : forall a t r u, Forall2 flag_char a t -> Forall2 flag_char r u ->
    flags_text {| fl_add := a; fl_remove := r |} (t ++ chars "-" ++ u).

Inductive assertion_text : assertion_type -> str -> Prop :=
| as_b : assertion_text WordBoundary (chars "\b") | as_B : assertion_text NotWordBoundary (chars "\B")
| as_start : assertion_text StartLine (chars "^") | as_end : assertion_text EndLine (chars "$")
| as_A : assertion_text StartText (chars "\A") | as_z : assertion_text EndText (chars "\z")
| as_Z : assertion_text EndTextOptionalNewline (chars "\Z").

Inductive kind_written : quantifier_kind -> str -> Prop :=
| kw_star : kind_written ZeroOrMore (chars "*") | kw_plus : kind_written OneOrMore (chars "+")
| kw_opt : kind_written ZeroOrOne (chars "?")
| kw_exact : forall d n, number_text d n -> kind_written (RangeExact n) (chars "{" ++ d ++ chars "}")
| kw_min : forall d n, number_text d n -> kind_written (RangeMin n) (chars "{" ++ d ++ chars ",}")
| kw_both : forall d n e m, number_text d n -> number_text e m ->
    kind_written (RangeMinMax n m) (chars "{" ++ d ++ chars "," ++ e ++ chars "}").
Definition quantifier_text (q : quantifier) (t : str) : Prop :=
  exists u, kind_written (q_kind q) u /\ t = u ++ (if q_lazy q then chars "?" else []).

(* ---- expressions ---- *)
Definition letter_or_underscore (c : char) : Prop :=
  (65 <= c <= 90 \/ 97 <= c <= 122 \/ c = 95)%N.
Definition name_text (n : str) : Prop :=
  exists c l, n = c :: l /\ letter_or_underscore c /\
    forall d, In d l -> letter_or_underscore d \/ is_digit d.
Definition quoted (l : str) : ast :=
  match l with
  | [] => AEmpty
  | [c] => ALiteral {| lit_c := c; lit_escaped := true |}
  | _ => AConcat (map (fun c => ALiteral {| lit_c := c; lit_escaped := true |}) l)
  end.

Inductive atom_text : ast -> str -> Prop :=
| ax_quoted : forall l, no_end l -> atom_text (quoted l) (chars "\Q" ++ l ++ chars "\E")
| ax_literal : forall c e t, literal_text false c e t -> ~ names_class t -> t <> chars "\b" ->
    atom_text (ALiteral {| lit_c := c; lit_escaped := e |}) t
| ax_class : forall c t, class_text c t -> atom_text (AClass c) t
| ax_assertion : forall a t, assertion_text a t -> atom_text (AAssertion a) t
| ax_flags : forall f t, flags_text f t -> atom_text (AFlags f) (chars "(?" ++ t ++ chars ")")
| ax_capture : forall a t, expression_text a t -> atom_text (ACapturing a) (chars "(" ++ t ++ chars ")")
| ax_group : forall f u a t, flags_text f u -> expression_text a t ->
    atom_text (ANonCapturing f a) (chars "(?" ++ u ++ chars ":" ++ t ++ chars ")")
| ax_named : forall n a t, name_text n -> expression_text a t ->
    atom_text (ANamed n a) (chars "(?<" ++ n ++ chars ">" ++ t ++ chars ")")
| ax_named_p : forall n a t, name_text n -> expression_text a t ->
    atom_text (ANamed n a) (chars "(?P<" ++ n ++ chars ">" ++ t ++ chars ")")
| ax_named_q : forall n a t, name_text n -> expression_text a t ->
    atom_text (ANamed n a) (chars "(?'" ++ n ++ chars "'" ++ t ++ chars ")")
with piece_text : ast -> str -> Prop :=
| px_atom : forall a t, atom_text a t -> piece_text a t
| px_repeat : forall a t q u, atom_text a t -> quantifier_text q u ->
    piece_text (ARepetition q a) (t ++ u)
with pieces_text : list ast -> str -> Prop :=
| ps_one : forall a t, piece_text a t -> pieces_text [a] t
| ps_more : forall a t l u, piece_text a t -> pieces_text l u -> pieces_text (a :: l) (t ++ u)
with branch_text : ast -> str -> Prop :=
| bx_empty : branch_text AEmpty []
| bx_one : forall a t, pieces_text [a] t -> branch_text a t
| bx_more : forall a b l t, pieces_text (a :: b :: l) t -> branch_text (AConcat (a :: b :: l)) t
with branches_text : list ast -> str -> Prop :=
| bs_one : forall a t, branch_text a t -> branches_text [a] t
| bs_more : forall a t l u, branch_text a t -> branches_text l u ->
    branches_text (a :: l) (t ++ chars "|" ++ u)
with expression_text : ast -> str -> Prop :=
| ex_one : forall a t, branches_text [a] t -> expression_text a t
| ex_more : forall a b l t, branches_text (a :: b :: l) t ->
    expression_text (AAlternation (a :: b :: l)) t.

(* ---- nesting of groups ---- *)
Fixpoint nesting (a : ast) : nat :=
  match a with
  | ACapturing b | ANonCapturing _ b | ANamed _ b => S (nesting b)
  | ARepetition _ b => nesting b
  | AConcat l | AAlternation l => list_max (map nesting l)
  | _ => 0
  end.

(* ---- repetitions ---- *)
Inductive repeats (q : quantifier) : ast -> Prop :=
| rp_here : forall a, repeats q (ARepetition q a)
| rp_under : forall r a, repeats q a -> repeats q (ARepetition r a)
| rp_capture : forall a, repeats q a -> repeats q (ACapturing a)
| rp_group : forall f a, repeats q a -> repeats q (ANonCapturing f a)
| rp_named : forall n a, repeats q a -> repeats q (ANamed n a)
| rp_concat : forall l a, In a l -> repeats q a -> repeats q (AConcat l)
| rp_alternation : forall l a, In a l -> repeats q a -> repeats q (AAlternation l).
(* the numbers in a quantifier *)
Inductive counts : quantifier_kind -> N -> Prop :=
| cn_exact : forall n, counts (RangeExact n) n
| cn_min : forall n, counts (RangeMin n) n
| cn_both_min : forall n m, counts (RangeMinMax n m) n
| cn_both_max : forall n m, counts (RangeMinMax n m) m.

(* ---- flag groups as the regex crate reads them ---- *)
(* flags before the dash are set, flags after it are cleared *)
Inductive flag_set (f : rflag) : list rflags_item -> Prop :=
| fs_here : forall l, flag_set f (RFlag f :: l)
| fs_later : forall g l, flag_set f l -> flag_set f (RFlag g :: l).
Inductive flag_cleared (f : rflag) : list rflags_item -> Prop :=
| fcl_dash : forall l, In (RFlag f) l -> flag_cleared f (RNegation :: l)
| fcl_later : forall g l, flag_cleared f l -> flag_cleared f (RFlag g :: l).
