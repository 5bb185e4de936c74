(* Model of sds/src/parser/ast.rs *)
From Verif Require Export Model.Keywords Model.Ascii.

(* ast.rs 19-26 *)
Record literal := { lit_c : char; lit_escaped : bool }.

(* ast.rs 184-196; the order of the constructors is the derived order *)
Inductive flag := CaseInsensitive | MultiLine | DotMatchesNewLine | IgnoreWhitespace.
(* ast.rs 175-181 *)
Record flags := { fl_add : list flag; fl_remove : list flag }.

(* ast.rs 64-68 *)
Record unicode_property := { up_negate : bool; up_name : str }.

(* ast.rs 70-84: u32 *)
Inductive quantifier_kind :=
| ZeroOrMore | RangeExact (n : N) | RangeMinMax (n m : N) | RangeMin (n : N) | ZeroOrOne | OneOrMore.
(* ast.rs 86-90 *)
Record quantifier := { q_lazy : bool; q_kind : quantifier_kind }.

(* ast.rs 92-100 *)
Inductive perl_class := PDigit | PSpace | PWord | PNonDigit | PNonSpace | PNonWord.

(* ast.rs 127-143 *)
Inductive ascii_kind :=
| Alnum | Alpha | AsciiAll | Blank | Cntrl | Digit | Graph | Lower | Print | Punct | Space
| Upper | Word | Xdigit.

(* ast.rs 108-125 *)
Inductive bracket_item :=
| BLiteral (c : char)
| BRange (a b : char)
| BPerl (p : perl_class)
| BUnicode (u : unicode_property)
| BAscii (negated : bool) (k : ascii_kind)
| BHorizontal | BNotHorizontal | BVertical | BNotVertical.

(* ast.rs 52-62, 102-106 *)
Inductive char_class :=
| CBracket (negated : bool) (items : list bracket_item)
| CPerl (p : perl_class)
| CDot
| CHorizontal | CNotHorizontal | CVertical | CNotVertical
| CUnicode (u : unicode_property).

(* ast.rs 151-173 *)
Inductive assertion_type :=
| WordBoundary | NotWordBoundary | StartLine | EndLine | StartText | EndText
| EndTextOptionalNewline.

(* ast.rs 5-17, 28-50, 145-149; the three kinds of groups are constructors here *)
Inductive ast :=
| AEmpty
| ALiteral (l : literal)
| AConcat (l : list ast)
| ACapturing (inner : ast)
| ANonCapturing (f : flags) (inner : ast)
| ANamed (name : str) (inner : ast)
| AClass (c : char_class)
| AAlternation (l : list ast)
| ARepetition (q : quantifier) (inner : ast)
| AAssertion (a : assertion_type)
| AFlags (f : flags).
