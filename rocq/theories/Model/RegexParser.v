(* Model of sds/src/parser/regex_parser.rs, input.rs and error.rs, and of the nom 7.1.3
   combinators they use.

   An [Input] is the rest of the pattern together with the depth; only [group] changes
   the depth, so the depth is an argument of the parsers that lead to [group] and the
   others only take the text. *)
From Verif Require Export Model.Ast Model.Validation.

(* nom's IResult with error type ParseError (error.rs 14-30).  [PErr] is
   [Err::Error(InvalidSyntax)], the only recoverable error there is; [PFail] is
   [Err::Failure].  [PStuck] is not a result of the code: the fuel ran out. *)
Inductive presult (A : Type) : Type :=
| POk (a : A) (rest : str)
| PErr
| PFail (e : parse_error)
| PStuck.
Arguments POk {A} a rest.
Arguments PErr {A}.
Arguments PFail {A} e.
Arguments PStuck {A}.

Definition pbind {A B} (r : presult A) (f : A -> str -> presult B) : presult B :=
  match r with
  | POk a rest => f a rest
  | PErr => PErr
  | PFail e => PFail e
  | PStuck => PStuck
  end.

(* ---- nom combinators ---- *)

(* nom::bytes::complete::tag *)
Fixpoint tag (t : str) (s : str) : presult unit :=
  match t with
  | [] => POk tt s
  | c :: t' =>
    match s with
    | d :: s' => if (c =? d)%N then tag t' s' else PErr
    | [] => PErr
    end
  end.

(* nom::combinator::map *)
Definition pmap {A B} (f : A -> B) (p : str -> presult A) (s : str) : presult B :=
  pbind (p s) (fun a rest => POk (f a) rest).

(* nom::branch::alt: the first parser that does not give a recoverable error *)
Fixpoint alt {A} (ps : list (str -> presult A)) (s : str) : presult A :=
  match ps with
  | [] => PErr
  | p :: ps' => match p s with PErr => alt ps' s | r => r end
  end.

(* nom::combinator::opt *)
Definition opt {A} (p : str -> presult A) (s : str) : presult (option A) :=
  match p s with
  | POk a rest => POk (Some a) rest
  | PErr => POk None s
  | PFail e => PFail e
  | PStuck => PStuck
  end.

(* nom::multi::many0; a parser that succeeds without consuming anything is an error *)
Fixpoint many0_loop {A} (fuel : nat) (p : str -> presult A) (s : str) : presult (list A) :=
  match fuel with
  | 0 => PStuck
  | S fuel' =>
    match p s with
    | PErr => POk [] s
    | POk a rest =>
      if length rest =? length s then PErr
      else pbind (many0_loop fuel' p rest) (fun l r => POk (a :: l) r)
    | PFail e => PFail e
    | PStuck => PStuck
    end
  end.
Definition many0 {A} (p : str -> presult A) (s : str) : presult (list A) :=
  many0_loop (S (length s)) p s.

(* nom::multi::many1 *)
Definition many1 {A} (p : str -> presult A) (s : str) : presult (list A) :=
  pbind (p s) (fun a rest => pbind (many0 p rest) (fun l r => POk (a :: l) r)).

(* nom::multi::many_m_n with m = 0 *)
Fixpoint many_upto {A} (n : nat) (p : str -> presult A) (s : str) : presult (list A) :=
  match n with
  | 0 => POk [] s
  | S n' =>
    match p s with
    | PErr => POk [] s
    | POk a rest =>
      if length rest =? length s then PErr
      else pbind (many_upto n' p rest) (fun l r => POk (a :: l) r)
    | PFail e => PFail e
    | PStuck => PStuck
    end
  end.

(* nom::multi::separated_list1 *)
Fixpoint separated_loop {A} (fuel : nat) (sep : str -> presult unit) (p : str -> presult A)
    (s : str) : presult (list A) :=
  match fuel with
  | 0 => PStuck
  | S fuel' =>
    match sep s with
    | PErr => POk [] s
    | POk _ s1 =>
      if length s1 =? length s then PErr
      else
        match p s1 with
        | PErr => POk [] s
        | POk a s2 => pbind (separated_loop fuel' sep p s2) (fun l r => POk (a :: l) r)
        | PFail e => PFail e
        | PStuck => PStuck
        end
    | PFail e => PFail e
    | PStuck => PStuck
    end
  end.
Definition separated_list1 {A} (sep : str -> presult unit) (p : str -> presult A) (s : str)
  : presult (list A) :=
  pbind (p s) (fun a rest =>
    pbind (separated_loop (S (length rest)) sep p rest) (fun l r => POk (a :: l) r)).

(* nom::character::complete::one_of and none_of *)
Definition one_of (cs : str) (s : str) : presult char :=
  match s with
  | c :: s' => if existsb (N.eqb c) cs then POk c s' else PErr
  | [] => PErr
  end.
Definition none_of (cs : str) (s : str) : presult char :=
  match s with
  | c :: s' => if existsb (N.eqb c) cs then PErr else POk c s'
  | [] => PErr
  end.

(* nom::character::complete::digit1 *)
Fixpoint digit0 (s : str) : str * str :=
  match s with
  | c :: s' => if is_ascii_digit c then let (a, b) := digit0 s' in (c :: a, b) else ([], s)
  | [] => ([], [])
  end.
Definition digit1 (s : str) : presult str :=
  match digit0 s with
  | ([], _) => PErr
  | (d, rest) => POk d rest
  end.

(* nom::bytes::complete::take_until: the text before the first occurrence *)
Fixpoint take_until (t : str) (s : str) : presult str :=
  match tag t s with
  | POk _ _ => POk [] s
  | _ =>
    match s with
    | [] => PErr
    | c :: s' => pbind (take_until t s') (fun a rest => POk (c :: a) rest)
    end
  end.

(* ---- regex_parser.rs ---- *)

(* regex_parser.rs 24-34 *)
Definition ascii_letters : str := chars "abcdefghijklmnopqrstuvwxyzABCDEFGHIJKLMNOPQRSTUVWXYZ".
Definition ascii_letters_with_underscore : str :=
  chars "abcdefghijklmnopqrstuvwxyzABCDEFGHIJKLMNOPQRSTUVWXYZ_".
Definition ascii_alphanumeric_with_underscore : str :=
  chars "abcdefghijklmnopqrstuvwxyzABCDEFGHIJKLMNOPQRSTUVWXYZ0123456789_".
Definition hex_digits : str := chars "0123456789ABCDEFabcdef".
Definition escaped_literal_deny_list : str := chars "0123456789cgklopuxzABCEGKLNPQRUXZ".
Definition bracketed_character_class_deny_list : str := chars "]".
Definition literal_deny_list : str := chars "|[().+?*^$".
Definition recursion_limit : nat := 50.

(* [u32::from_str] on ASCII digits: an overflow is an error *)
Definition u32_max : N := 4294967295.
Definition u32_from_str (d : str) : option N :=
  let n := fold_left (fun n c => (n * 10 + (c - 48))%N) d 0%N in
  if (n <=? u32_max)%N then Some n else None.

(* [char::to_digit(16)] *)
Definition hex_value (c : char) : option N :=
  if is_ascii_digit c then Some (c - 48)%N
  else if in_range 97 102 c then Some (c - 87)%N
  else if in_range 65 70 c then Some (c - 55)%N
  else None.
Fixpoint hex_number (acc : N) (s : str) : option N :=
  match s with
  | [] => Some acc
  | c :: s' =>
    match hex_value c with
    | Some d => let n := (acc * 16 + d)%N in if (n <=? u32_max)%N then hex_number n s' else None
    | None => None
    end
  end.
(* [u32::from_str_radix(s, 16)]: an optional plus sign and at least one digit *)
Definition from_str_radix16 (s : str) : option N :=
  match s with
  | [] => None
  | [c] => if (c =? 43)%N then None else hex_number 0 s
  | c :: s' => if (c =? 43)%N then hex_number 0 s' else hex_number 0 s
  end.

(* [char::from_u32] *)
Definition char_from_u32 (n : N) : option char :=
  if ((n <? 55296) || (57344 <=? n) && (n <? 1114112))%N then Some n else None.

(* regex_parser.rs 526-531 *)
Definition integer (s : str) : presult N :=
  pbind (digit1 s) (fun d rest =>
    match u32_from_str d with Some n => POk n rest | None => PErr end).

(* regex_parser.rs 140-162 *)
Definition quantifier_range_exact (s : str) : presult quantifier_kind :=
  pbind (tag (chars "{") s) (fun _ s1 =>
  pbind (integer s1) (fun n s2 =>
  pbind (tag (chars "}") s2) (fun _ s3 => POk (RangeExact n) s3))).
Definition quantifier_range_min_max (s : str) : presult quantifier_kind :=
  pbind (tag (chars "{") s) (fun _ s1 =>
  pbind (integer s1) (fun n s2 =>
  pbind (tag (chars ",") s2) (fun _ s3 =>
  pbind (integer s3) (fun m s4 =>
  pbind (tag (chars "}") s4) (fun _ s5 => POk (RangeMinMax n m) s5))))).
Definition quantifier_range_min (s : str) : presult quantifier_kind :=
  pbind (tag (chars "{") s) (fun _ s1 =>
  pbind (integer s1) (fun n s2 =>
  pbind (tag (chars ",") s2) (fun _ s3 =>
  pbind (tag (chars "}") s3) (fun _ s4 => POk (RangeMin n) s4)))).

(* regex_parser.rs 121-138 *)
Definition parse_quantifier (s : str) : presult quantifier :=
  pbind (alt [pmap (fun _ => ZeroOrMore) (tag (chars "*"));
              pmap (fun _ => OneOrMore) (tag (chars "+"));
              pmap (fun _ => ZeroOrOne) (tag (chars "?"));
              quantifier_range_exact; quantifier_range_min_max; quantifier_range_min] s)
    (fun kind s1 =>
  pbind (opt (tag (chars "?")) s1) (fun lazy s2 =>
    POk {| q_lazy := match lazy with Some _ => true | None => false end; q_kind := kind |} s2)).

(* regex_parser.rs 164-174 *)
Definition assertion (s : str) : presult assertion_type :=
  alt [pmap (fun _ => WordBoundary) (tag (chars "\b"));
       pmap (fun _ => NotWordBoundary) (tag (chars "\B"));
       pmap (fun _ => StartLine) (tag (chars "^"));
       pmap (fun _ => EndLine) (tag (chars "$"));
       pmap (fun _ => StartText) (tag (chars "\A"));
       pmap (fun _ => EndText) (tag (chars "\z"));
       pmap (fun _ => EndTextOptionalNewline) (tag (chars "\Z"))] s.

(* regex_parser.rs 437-446 *)
Definition perl_character_class (s : str) : presult perl_class :=
  alt [pmap (fun _ => PDigit) (tag (chars "\d"));
       pmap (fun _ => PSpace) (tag (chars "\s"));
       pmap (fun _ => PWord) (tag (chars "\w"));
       pmap (fun _ => PNonDigit) (tag (chars "\D"));
       pmap (fun _ => PNonSpace) (tag (chars "\S"));
       pmap (fun _ => PNonWord) (tag (chars "\W"))] s.

(* unicode_property_names.rs *)
Definition unicode_property_names : list str := [
   chars "C"; chars "Cc"; chars "Cf"; chars "Cn"; chars "Co"; chars "L"; chars "Ll";
   chars "Lm"; chars "Lo"; chars "Lt"; chars "Lu"; chars "M"; chars "Mc"; chars "Me";
   chars "Mn"; chars "N"; chars "Nd"; chars "Nl"; chars "No"; chars "P"; chars "Pc";
   chars "Pd"; chars "Pe"; chars "Pf"; chars "Pi"; chars "Po"; chars "Ps"; chars "S";
   chars "Sc"; chars "Sk"; chars "Sm"; chars "So"; chars "Z"; chars "Zl"; chars "Zp";
   chars "Zs"; chars "Adlam"; chars "Ahom"; chars "Anatolian_Hieroglyphs"; chars "Arabic";
   chars "Armenian"; chars "Avestan"; chars "Balinese"; chars "Bamum"; chars "Bassa_Vah";
   chars "Batak"; chars "Bengali"; chars "Bhaiksuki"; chars "Bopomofo"; chars "Brahmi";
   chars "Braille"; chars "Buginese"; chars "Buhid"; chars "Canadian_Aboriginal";
   chars "Carian"; chars "Caucasian_Albanian"; chars "Chakma"; chars "Cham";
   chars "Cherokee"; chars "Chorasmian"; chars "Common"; chars "Coptic"; chars "Cuneiform";
   chars "Cypriot"; chars "Cypro_Minoan"; chars "Cyrillic"; chars "Deseret";
   chars "Devanagari"; chars "Dives_Akuru"; chars "Dogra"; chars "Duployan";
   chars "Egyptian_Hieroglyphs"; chars "Elbasan"; chars "Elymaic"; chars "Ethiopic";
   chars "Georgian"; chars "Glagolitic"; chars "Gothic"; chars "Grantha"; chars "Greek";
   chars "Gujarati"; chars "Gunjala_Gondi"; chars "Gurmukhi"; chars "Han"; chars "Hangul";
   chars "Hanifi_Rohingya"; chars "Hanunoo"; chars "Hatran"; chars "Hebrew";
   chars "Hiragana"; chars "Imperial_Aramaic"; chars "Inherited";
   chars "Inscriptional_Pahlavi"; chars "Inscriptional_Parthian"; chars "Javanese";
   chars "Kaithi"; chars "Kannada"; chars "Katakana"; chars "Kayah_Li"; chars "Kharoshthi";
   chars "Khitan_Small_Script"; chars "Khmer"; chars "Khojki"; chars "Khudawadi";
   chars "Lao"; chars "Latin"; chars "Lepcha"; chars "Limbu"; chars "Linear_A";
   chars "Linear_B"; chars "Lisu"; chars "Lycian"; chars "Lydian"; chars "Mahajani";
   chars "Makasar"; chars "Malayalam"; chars "Mandaic"; chars "Manichaean"; chars "Marchen";
   chars "Masaram_Gondi"; chars "Medefaidrin"; chars "Meetei_Mayek"; chars "Mende_Kikakui";
   chars "Meroitic_Cursive"; chars "Meroitic_Hieroglyphs"; chars "Miao"; chars "Modi";
   chars "Mongolian"; chars "Mro"; chars "Multani"; chars "Myanmar"; chars "Nabataean";
   chars "Nandinagari"; chars "New_Tai_Lue"; chars "Newa"; chars "Nko"; chars "Nushu";
   chars "Ogham"; chars "Ol_Chiki"; chars "Old_Hungarian"; chars "Old_Italic";
   chars "Old_North_Arabian"; chars "Old_Permic"; chars "Old_Persian"; chars "Old_Sogdian";
   chars "Old_South_Arabian"; chars "Old_Turkic"; chars "Old_Uyghur"; chars "Oriya";
   chars "Osage"; chars "Osmanya"; chars "Pahawh_Hmong"; chars "Palmyrene";
   chars "Pau_Cin_Hau"; chars "Phags_Pa"; chars "Phoenician"; chars "Psalter_Pahlavi";
   chars "Rejang"; chars "Runic"; chars "Samaritan"; chars "Saurashtra"; chars "Sharada";
   chars "Shavian"; chars "Siddham"; chars "SignWriting"; chars "Sinhala"; chars "Sogdian";
   chars "Sora_Sompeng"; chars "Soyombo"; chars "Sundanese"; chars "Syloti_Nagri";
   chars "Syriac"; chars "Tagalog"; chars "Tagbanwa"; chars "Tai_Le"; chars "Tai_Tham";
   chars "Tai_Viet"; chars "Takri"; chars "Tamil"; chars "Tangsa"; chars "Tangut";
   chars "Telugu"; chars "Thaana"; chars "Thai"; chars "Tibetan"; chars "Tifinagh";
   chars "Tirhuta"; chars "Toto"; chars "Ugaritic"; chars "Vai"; chars "Vithkuqi";
   chars "Wancho"; chars "Warang_Citi"; chars "Yezidi"; chars "Yi";
   chars "Zanabazar_Square"
  ].

(* regex_parser.rs 212-219; [recognize] of a list of characters is that text *)
Definition unicode_property_name (s : str) : presult str :=
  pbind (many0 (one_of ascii_letters_with_underscore) s) (fun name rest =>
    if existsb (fun n => str_eqb n name) unicode_property_names
    then POk name rest else PErr).

(* regex_parser.rs 193-210 *)
Definition unicode_property_class (s : str) : presult unicode_property :=
  alt [(fun s => pbind (tag (chars "\p{") s) (fun _ s1 =>
                 pbind (unicode_property_name s1) (fun name s2 =>
                 pbind (tag (chars "}") s2) (fun _ s3 =>
                 POk {| up_negate := false; up_name := name |} s3))));
       (fun s => pbind (tag (chars "\P{") s) (fun _ s1 =>
                 pbind (unicode_property_name s1) (fun name s2 =>
                 pbind (tag (chars "}") s2) (fun _ s3 =>
                 POk {| up_negate := true; up_name := name |} s3))))] s.

(* regex_parser.rs 469-474: the control character of a letter *)
Definition escaped_control_sequence (s : str) : presult char :=
  pbind (tag (chars "c") s) (fun _ s1 =>
  pbind (one_of ascii_letters s1) (fun c s2 => POk (to_ascii_lower c - 97 + 1)%N s2)).

(* regex_parser.rs 522-524 *)
Definition hex_digit (s : str) : presult char := one_of hex_digits s.

(* regex_parser.rs 476-497 *)
Definition hex_escaped_literal (s : str) : presult char :=
  pbind (alt [(fun s => pbind (tag (chars "x{") s) (fun _ s1 =>
                        pbind (take_until (chars "}") s1) (fun h s2 =>
                        pbind (tag (chars "}") s2) (fun _ s3 => POk (true, h) s3))));
              (fun s => pbind (tag (chars "x") s) (fun _ s1 =>
                        pbind (many_upto 2 hex_digit s1) (fun h s2 => POk (false, h) s2)))] s)
    (fun bh rest =>
       let (has_brace, h) := bh : bool * str in
       match (match from_str_radix16 h with
              | Some n => Some n
              | None => if has_brace then None else Some 0%N
              end) with
       | None => PFail PInvalidSyntax
       | Some n =>
         match char_from_u32 n with
         | Some c => POk c rest
         | None => PFail PInvalidSyntax
         end
       end).

(* regex_parser.rs 453-467 *)
Definition escaped_literal (s : str) : presult literal :=
  pbind (alt [escaped_control_sequence;
              pmap (fun _ => 7%N) (tag (chars "a"));
              pmap (fun _ => 8%N) (tag (chars "b"));
              pmap (fun _ => 27%N) (tag (chars "e"));
              pmap (fun _ => 12%N) (tag (chars "f"));
              pmap (fun _ => 10%N) (tag (chars "n"));
              pmap (fun _ => 13%N) (tag (chars "r"));
              pmap (fun _ => 9%N) (tag (chars "t"));
              pmap (fun _ => 11%N) (tag (chars "v"));
              hex_escaped_literal] s)
    (fun c rest => POk {| lit_c := c; lit_escaped := true |} rest).

(* regex_parser.rs 448-451 *)
Inductive literal_kind := LBracketed | LNormal.

(* regex_parser.rs 499-520 *)
Definition parse_literal (kind : literal_kind) (s : str) : presult literal :=
  pbind (opt (tag (chars "\")) s) (fun backslash s1 =>
    match backslash with
    | Some _ =>
      alt [escaped_literal;
           pmap (fun c => {| lit_c := c; lit_escaped := true |})
                (none_of escaped_literal_deny_list)] s1
    | None =>
      pmap (fun c => {| lit_c := c; lit_escaped := false |})
           (none_of (match kind with
                     | LBracketed => bracketed_character_class_deny_list
                     | LNormal => literal_deny_list
                     end)) s1
    end).

(* regex_parser.rs 368-373 *)
Definition quoted_literals (s : str) : presult str :=
  pbind (tag (chars "\Q") s) (fun _ s1 =>
  pbind (take_until (chars "\E") s1) (fun l s2 =>
  pbind (tag (chars "\E") s2) (fun _ s3 => POk l s3))).

(* regex_parser.rs 387-414 *)
Definition ascii_class (s : str) : presult bracket_item :=
  pbind (tag (chars "[:") s) (fun _ s1 =>
  pbind (opt (tag (chars "^")) s1) (fun negated s2 =>
  pbind (alt [pmap (fun _ => Alnum) (tag (chars "alnum"));
              pmap (fun _ => Alpha) (tag (chars "alpha"));
              pmap (fun _ => AsciiAll) (tag (chars "ascii"));
              pmap (fun _ => Blank) (tag (chars "blank"));
              pmap (fun _ => Cntrl) (tag (chars "cntrl"));
              pmap (fun _ => Digit) (tag (chars "digit"));
              pmap (fun _ => Graph) (tag (chars "graph"));
              pmap (fun _ => Lower) (tag (chars "lower"));
              pmap (fun _ => Print) (tag (chars "print"));
              pmap (fun _ => Punct) (tag (chars "punct"));
              pmap (fun _ => Space) (tag (chars "space"));
              pmap (fun _ => Upper) (tag (chars "upper"));
              pmap (fun _ => Word) (tag (chars "word"));
              pmap (fun _ => Xdigit) (tag (chars "xdigit"))] s2) (fun k s3 =>
  pbind (tag (chars ":]") s3) (fun _ s4 =>
  POk (BAscii (match negated with Some _ => true | None => false end) k) s4)))).

(* regex_parser.rs 430-435 *)
Definition bracket_range (s : str) : presult bracket_item :=
  pbind (parse_literal LBracketed s) (fun a s1 =>
  pbind (tag (chars "-") s1) (fun _ s2 =>
  pbind (parse_literal LBracketed s2) (fun b s3 => POk (BRange (lit_c a) (lit_c b)) s3))).

(* regex_parser.rs 416-428 *)
Definition bracket_literal (s : str) : presult bracket_item :=
  alt [pmap (fun l => BLiteral (lit_c l)) (parse_literal LBracketed);
       pmap BPerl perl_character_class;
       pmap BUnicode unicode_property_class] s.

(* regex_parser.rs 343-366, 375-385 *)
Definition bracket_class_item (s : str) : presult (list bracket_item) :=
  alt [pmap (fun c => [BPerl c]) perl_character_class;
       pmap (fun _ => [BHorizontal]) (tag (chars "\h"));
       pmap (fun _ => [BNotHorizontal]) (tag (chars "\H"));
       pmap (fun _ => [BVertical]) (tag (chars "\v"));
       pmap (fun _ => [BNotVertical]) (tag (chars "\V"));
       pmap (map BLiteral) quoted_literals;
       pmap (fun i => [i]) ascii_class;
       pmap (fun i => [i]) bracket_range;
       pmap (fun i => [i]) bracket_literal] s.

(* regex_parser.rs 314-341 *)
Definition bracket_character_class (s : str) : presult char_class :=
  pbind (tag (chars "[") s) (fun _ s1 =>
  pbind (opt (tag (chars "^")) s1) (fun negated s2 =>
  pbind (opt (tag (chars "]")) s2) (fun closing s3 =>
  pbind (many0 bracket_class_item s3) (fun items s4 =>
  pbind (tag (chars "]") s4) (fun _ s5 =>
    let items := concat items in
    let items := match closing with Some _ => BLiteral 93%N :: items | None => items end in
    match items with
    | [] => PErr
    | _ => POk (CBracket (match negated with Some _ => true | None => false end) items) s5
    end))))).

(* regex_parser.rs 176-191 *)
Definition character_class (s : str) : presult char_class :=
  alt [pmap (fun _ => CDot) (tag (chars "."));
       pmap (fun _ => CHorizontal) (tag (chars "\h"));
       pmap (fun _ => CNotHorizontal) (tag (chars "\H"));
       pmap (fun _ => CVertical) (tag (chars "\v"));
       pmap (fun _ => CNotVertical) (tag (chars "\V"));
       bracket_character_class;
       pmap CPerl perl_character_class;
       pmap CUnicode unicode_property_class] s.

(* regex_parser.rs 305-312 *)
Definition parse_flag (s : str) : presult flag :=
  alt [pmap (fun _ => CaseInsensitive) (tag (chars "i"));
       pmap (fun _ => MultiLine) (tag (chars "m"));
       pmap (fun _ => DotMatchesNewLine) (tag (chars "s"));
       pmap (fun _ => IgnoreWhitespace) (tag (chars "x"))] s.

(* regex_parser.rs 292-303 *)
Definition parse_flags (s : str) : presult flags :=
  pbind (many0 parse_flag s) (fun add s1 =>
  pbind (opt (fun s => pbind (tag (chars "-") s) (fun _ s' => many0 parse_flag s')) s1)
    (fun remove s2 =>
  POk {| fl_add := add; fl_remove := match remove with Some r => r | None => [] end |} s2)).

(* regex_parser.rs 221-226 *)
Definition flags_expression (s : str) : presult flags :=
  pbind (tag (chars "(?") s) (fun _ s1 =>
  pbind (parse_flags s1) (fun f s2 =>
  pbind (tag (chars ")") s2) (fun _ s3 => POk f s3))).

(* regex_parser.rs 533-540 *)
Definition capture_group_name (s : str) : presult str :=
  pbind (one_of ascii_letters_with_underscore s) (fun c s1 =>
  pbind (many0 (one_of ascii_alphanumeric_with_underscore) s1) (fun l s2 => POk (c :: l) s2)).

(* regex_parser.rs 107-119 *)
Definition quote_expression (s : str) : presult ast :=
  pbind (quoted_literals s) (fun l rest =>
    let lits := map (fun c => ALiteral {| lit_c := c; lit_escaped := true |}) l in
    POk (match lits with [] => AEmpty | [a] => a | _ => AConcat lits end) rest).

Section Recursive.
(* the recursive call of [expression], at a given depth *)
Variable expr : nat -> str -> presult ast.

(* regex_parser.rs 248-290 *)
Definition capture_group (depth : nat) (s : str) : presult ast :=
  pbind (tag (chars "(") s) (fun _ s1 =>
  pbind (expr depth s1) (fun a s2 =>
  pbind (tag (chars ")") s2) (fun _ s3 => POk (ACapturing a) s3))).
Definition named_capture_group (depth : nat) (s : str) : presult ast :=
  alt [(fun s => pbind (alt [tag (chars "(?<"); tag (chars "(?P<")] s) (fun _ s1 =>
                 pbind (capture_group_name s1) (fun name s2 =>
                 pbind (tag (chars ">") s2) (fun _ s3 =>
                 pbind (expr depth s3) (fun a s4 =>
                 pbind (tag (chars ")") s4) (fun _ s5 => POk (ANamed name a) s5))))));
       (fun s => pbind (tag (chars "(?'") s) (fun _ s1 =>
                 pbind (capture_group_name s1) (fun name s2 =>
                 pbind (tag (chars "'") s2) (fun _ s3 =>
                 pbind (expr depth s3) (fun a s4 =>
                 pbind (tag (chars ")") s4) (fun _ s5 => POk (ANamed name a) s5))))))] s.
Definition non_capturing_group (depth : nat) (s : str) : presult ast :=
  pbind (tag (chars "(?") s) (fun _ s1 =>
  pbind (parse_flags s1) (fun f s2 =>
  pbind (tag (chars ":") s2) (fun _ s3 =>
  pbind (expr depth s3) (fun a s4 =>
  pbind (tag (chars ")") s4) (fun _ s5 => POk (ANonCapturing f a) s5))))).

(* regex_parser.rs 228-246 *)
Definition group (depth : nat) (s : str) : presult ast :=
  let depth := depth + 1 in
  if recursion_limit <? depth then PFail PExceededDepthLimit
  else alt [non_capturing_group depth; capture_group depth; named_capture_group depth] s.

(* regex_parser.rs 82-105 *)
Definition atomic (depth : nat) (s : str) : presult ast :=
  pbind (alt [quote_expression;
              pmap AFlags flags_expression;
              group depth;
              pmap AAssertion assertion;
              pmap AClass character_class;
              pmap ALiteral (parse_literal LNormal)] s) (fun inner s1 =>
  pbind (opt parse_quantifier s1) (fun q s2 =>
    match q with
    | Some q => POk (ARepetition q inner) s2
    | None => POk inner s2
    end)).

(* regex_parser.rs 72-79 *)
Definition concat_expression (depth : nat) (s : str) : presult ast :=
  pbind (many1 (atomic depth) s) (fun children rest =>
    match children with
    | [a] => POk a rest
    | _ => POk (AConcat children) rest
    end).

(* regex_parser.rs 59-70 *)
Definition alternate_expression (depth : nat) (s : str) : presult ast :=
  pbind (separated_list1 (tag (chars "|")) (opt (concat_expression depth)) s)
    (fun children rest =>
    let children := map (fun o => match o with Some a => a | None => AEmpty end) children in
    match children with
    | [a] => POk a rest
    | _ => POk (AAlternation children) rest
    end).
End Recursive.

(* regex_parser.rs 54-57; the fuel bounds the nesting of calls of [expression] *)
Fixpoint expression (fuel : nat) (depth : nat) (s : str) : presult ast :=
  match fuel with
  | 0 => PStuck
  | S fuel' => alternate_expression (expression fuel') depth s
  end.

(* regex_parser.rs 39-52, with [eof] *)
Definition parse_regex_pattern (fuel : nat) (s : str) : outcome (result ast parse_error) :=
  match expression fuel 0 s with
  | POk a [] => Ret (Ok a)
  | POk _ _ => Ret (Err PInvalidSyntax)
  | PErr => Ret (Err PInvalidSyntax)
  | PFail e => Ret (Err e)
  | PStuck => Diverge
  end.
