(* Model of sds/src/normalization/rust_regex_adapter.rs, and of the part of the crate
   regex-syntax 0.7.5 it uses: the AST of the crate, without spans, and the printer
   [Ast::to_string].  The crate is not part of the repository; its parts are marked. *)
From Verif Require Export Model.RegexParser Model.Path.

(* ---- regex_syntax::ast (the variants that occur) ---- *)
Inductive rflag := RfCaseInsensitive | RfMultiLine | RfDotMatchesNewLine | RfIgnoreWhitespace | RfUnicode.
Inductive rflags_item := RNegation | RFlag (f : rflag).
Inductive rliteral_kind := RMeta | RVerbatim | RHexBrace.
Record rliteral := { rl_kind : rliteral_kind; rl_c : char }.
Inductive rassertion := RStartLine | REndLine | RStartText | REndText | RWordBoundary | RNotWordBoundary.
Inductive rep_kind := RZeroOrOne | RZeroOrMore | ROneOrMore | RExactly (n : N) | RAtLeast (n : N) | RBounded (n m : N).
(* the kinds of ASCII classes are those of the SDS syntax *)
Inductive class_item :=
| KLiteral (l : rliteral)
| KRange (a b : rliteral)
| KAscii (negated : bool) (k : ascii_kind)
| KUnicode (negated : bool) (name : str)
| KBracketed (negated : bool) (items : list class_item).
(* a bracketed class whose set is a single item is a union of one item here *)
Inductive rast :=
| REmpty
| RFlags (f : list rflags_item)
| RLiteral (l : rliteral)
| RDot
| RAssertion (a : rassertion)
| RClassUnicode (negated : bool) (name : str)
| RClass (negated : bool) (items : list class_item)
| RRepetition (k : rep_kind) (greedy : bool) (a : rast)
| RCapture (a : rast)
| RNamed (name : str) (a : rast)
| RGroup (f : list rflags_item) (a : rast)
| RAlternation (l : list rast)
| RConcat (l : list rast).

(* regex_syntax::is_meta_character *)
Definition is_meta_character (c : char) : bool := existsb (N.eqb c) (chars "\.+*?()|[]{}^$#&-~").

(* ---- regex_syntax::ast::print ---- *)
Definition hex_char (n : N) : char := if (n <? 10)%N then (48 + n)%N else (55 + n)%N.
(* [{:X}] *)
Fixpoint hex_text (fuel : nat) (n : N) : str :=
  match fuel with
  | 0 => []
  | S fuel' =>
    if (n <? 16)%N then [hex_char n] else hex_text fuel' (n / 16)%N ++ [hex_char (n mod 16)%N]
  end.
Definition print_literal (l : rliteral) : str :=
  match rl_kind l with
  | RVerbatim => [rl_c l]
  | RMeta => [92%N; rl_c l]
  | RHexBrace => chars "\x{" ++ hex_text 8 (rl_c l) ++ chars "}"
  end.
Definition print_flag (f : rflag) : str :=
  match f with
  | RfCaseInsensitive => chars "i" | RfMultiLine => chars "m" | RfDotMatchesNewLine => chars "s"
  | RfIgnoreWhitespace => chars "x" | RfUnicode => chars "u"
  end.
Definition print_flags (l : list rflags_item) : str :=
  flat_map (fun i => match i with RNegation => chars "-" | RFlag f => print_flag f end) l.
Definition print_assertion (a : rassertion) : str :=
  match a with
  | RStartLine => chars "^" | REndLine => chars "$" | RStartText => chars "\A" | REndText => chars "\z"
  | RWordBoundary => chars "\b" | RNotWordBoundary => chars "\B"
  end.
(* [Display] of a u32 *)
Definition n_decimal (n : N) : str := decimal (N.to_nat n).
Definition print_rep (k : rep_kind) (greedy : bool) : str :=
  match k with
  | RZeroOrOne => chars "?" | RZeroOrMore => chars "*" | ROneOrMore => chars "+"
  | RExactly n => chars "{" ++ n_decimal n ++ chars "}"
  | RAtLeast n => chars "{" ++ n_decimal n ++ chars ",}"
  | RBounded n m => chars "{" ++ n_decimal n ++ chars "," ++ n_decimal m ++ chars "}"
  end ++ (if greedy then [] else chars "?").
Definition ascii_name (k : ascii_kind) : str :=
  match k with
  | Alnum => chars "alnum" | Alpha => chars "alpha" | AsciiAll => chars "ascii" | Blank => chars "blank"
  | Cntrl => chars "cntrl" | Digit => chars "digit" | Graph => chars "graph" | Lower => chars "lower"
  | Print => chars "print" | Punct => chars "punct" | Space => chars "space" | Upper => chars "upper"
  | Word => chars "word" | Xdigit => chars "xdigit"
  end.
Definition print_unicode (negated : bool) (name : str) : str :=
  (if negated then chars "\P{" else chars "\p{") ++ name ++ chars "}".
Fixpoint print_class_item (i : class_item) : str :=
  match i with
  | KLiteral l => print_literal l
  | KRange a b => print_literal a ++ chars "-" ++ print_literal b
  | KAscii negated k => (if negated then chars "[:^" else chars "[:") ++ ascii_name k ++ chars ":]"
  | KUnicode negated name => print_unicode negated name
  | KBracketed negated items =>
    (if negated then chars "[^" else chars "[") ++ flat_map print_class_item items ++ chars "]"
  end.
Fixpoint print_ast (a : rast) : str :=
  match a with
  | REmpty => []
  | RFlags f => chars "(?" ++ print_flags f ++ chars ")"
  | RLiteral l => print_literal l
  | RDot => chars "."
  | RAssertion a => print_assertion a
  | RClassUnicode negated name => print_unicode negated name
  | RClass negated items => print_class_item (KBracketed negated items)
  | RRepetition k greedy a => print_ast a ++ print_rep k greedy
  | RCapture a => chars "(" ++ print_ast a ++ chars ")"
  | RNamed name a => chars "(?<" ++ name ++ chars ">" ++ print_ast a ++ chars ")"
  | RGroup f a => chars "(?" ++ print_flags f ++ chars ":" ++ print_ast a ++ chars ")"
  | RAlternation l =>
    match l with
    | [] => []
    | a :: l' => print_ast a ++ flat_map (fun b => chars "|" ++ print_ast b) l'
    end
  | RConcat l => flat_map print_ast l
  end.

(* ---- rust_regex_adapter.rs ---- *)

(* 27-28 *)
Definition ascii_whitespace_chars : list char := [13; 10; 9; 12; 11; 32]%N.
Definition quantifier_limit : N := 3000.

(* 682-689 *)
Definition convert_flag (f : flag) : rflag :=
  match f with
  | CaseInsensitive => RfCaseInsensitive
  | MultiLine => RfMultiLine
  | DotMatchesNewLine => RfDotMatchesNewLine
  | IgnoreWhitespace => RfIgnoreWhitespace
  end.

(* the derived order of ast.rs 183-196, [slice::sort] and [Vec::dedup] *)
Definition flag_rank (f : flag) : nat :=
  match f with CaseInsensitive => 0 | MultiLine => 1 | DotMatchesNewLine => 2 | IgnoreWhitespace => 3 end.
Definition flag_eqb (a b : flag) : bool := flag_rank a =? flag_rank b.
Fixpoint insert_flag (f : flag) (l : list flag) : list flag :=
  match l with
  | [] => [f]
  | g :: l' => if flag_rank f <=? flag_rank g then f :: l else g :: insert_flag f l'
  end.
Definition sort_flags (l : list flag) : list flag := fold_right insert_flag [] l.
Fixpoint dedup_flags (l : list flag) : list flag :=
  match l with
  | [] => []
  | f :: l' =>
    match l' with
    | g :: _ => if flag_eqb f g then dedup_flags l' else f :: dedup_flags l'
    | [] => [f]
    end
  end.

(* 628-680 *)
Definition convert_flags (f : flags) : list rflags_item :=
  let add := dedup_flags (sort_flags (fl_add f)) in
  let remove := dedup_flags (sort_flags (fl_remove f)) in
  let both := filter (fun x => existsb (flag_eqb x) add) remove in
  let add := fold_left (fun l x => filter (fun y => negb (flag_eqb y x)) l) both add in
  map (fun x => RFlag (convert_flag x)) add ++
  match remove with
  | [] => []
  | _ => RNegation :: map (fun x => RFlag (convert_flag x)) remove
  end.

(* 432-463; [is_escapeable_character] holds of every character below 32 *)
Definition convert_literal (l : literal) (kind : literal_kind) : rliteral :=
  let c := lit_c l in
  {| rl_kind :=
       if is_meta_character c then RMeta
       else
         match kind with
         | LBracketed =>
           if is_whitespace c then RHexBrace
           else if (c <? 32)%N then RHexBrace else RVerbatim
         | LNormal =>
           if existsb (N.eqb c) ascii_whitespace_chars
           then if lit_escaped l then RHexBrace else RVerbatim
           else if (c <? 32)%N then RHexBrace else RVerbatim
         end;
     rl_c := c |}.
(* the escaped literal of a bracketed class, and one that is not escaped *)
Definition class_literal (c : char) : class_item :=
  KLiteral (convert_literal {| lit_c := c; lit_escaped := true |} LBracketed).
Definition class_range (a b : char) : class_item :=
  KRange (convert_literal {| lit_c := a; lit_escaped := false |} LBracketed)
         (convert_literal {| lit_c := b; lit_escaped := false |} LBracketed).

(* 264-288, 290-330: the items of the classes *)
Definition horizontal_whitespace : list class_item := [class_literal 32; class_literal 9]%N.
Definition vertical_whitespace : list class_item :=
  [class_literal 11; class_literal 10; class_literal 12; class_literal 13]%N.

(* 477-500, 502-555, 557-626 *)
Definition perl_class_digit : list class_item := [class_range 48 57]%N.
Definition perl_class_space : list class_item :=
  [class_literal 13; class_literal 10; class_literal 9; class_literal 12; class_literal 11;
   class_literal 32]%N.
Definition perl_class_word : list class_item :=
  [class_range 97 122; class_range 65 90; class_range 48 57;
   KLiteral (convert_literal {| lit_c := 95; lit_escaped := false |} LBracketed)]%N.
(* 466-475: negation and items *)
Definition convert_perl_class (p : perl_class) : bool * list class_item :=
  match p with
  | PDigit => (false, perl_class_digit)
  | PSpace => (false, perl_class_space)
  | PWord => (false, perl_class_word)
  | PNonDigit => (true, perl_class_digit)
  | PNonSpace => (true, perl_class_space)
  | PNonWord => (true, perl_class_word)
  end.

(* 332-403; convert_ascii_class_kind (405-422) is the identity here *)
Definition convert_bracket_item (i : bracket_item) : class_item :=
  match i with
  | BLiteral c => class_literal c
  | BRange a b => class_range a b
  | BPerl p => let (n, l) := convert_perl_class p in KBracketed n l
  | BUnicode u => KUnicode (up_negate u) (up_name u)
  | BAscii n k => KAscii n k
  | BHorizontal => KBracketed false horizontal_whitespace
  | BNotHorizontal => KBracketed true horizontal_whitespace
  | BVertical => KBracketed false vertical_whitespace
  | BNotVertical => KBracketed true vertical_whitespace
  end.

(* 237-261 *)
Definition convert_class (c : char_class) : rast :=
  match c with
  | CBracket n items => RClass n (map convert_bracket_item items)
  | CPerl p => let (n, l) := convert_perl_class p in RClass n l
  | CDot => RDot
  | CUnicode u => RClassUnicode (up_negate u) (up_name u)
  | CHorizontal => RClass false horizontal_whitespace
  | CNotHorizontal => RClass true horizontal_whitespace
  | CVertical => RClass false vertical_whitespace
  | CNotVertical => RClass true vertical_whitespace
  end.

(* 127-235 *)
Definition optional_newline (l : rliteral) : rast := RRepetition RZeroOrOne true (RLiteral l).
Definition convert_assertion (a : assertion_type) : rast :=
  match a with
  | WordBoundary => RGroup [RNegation; RFlag RfUnicode] (RAssertion RWordBoundary)
  | NotWordBoundary => RGroup [RNegation; RFlag RfUnicode] (RAssertion RNotWordBoundary)
  | StartLine => RAssertion RStartLine
  | EndLine => RConcat [optional_newline {| rl_kind := RHexBrace; rl_c := 10%N |}; RAssertion REndLine]
  | StartText => RAssertion RStartText
  | EndText => RAssertion REndText
  | EndTextOptionalNewline =>
    RConcat [optional_newline (convert_literal {| lit_c := 10%N; lit_escaped := true |} LNormal);
             RAssertion REndText]
  end.

(* 98-122 *)
Definition convert_quantifier (q : quantifier_kind) : result rep_kind parse_error :=
  match q with
  | ZeroOrMore => Ok RZeroOrMore
  | RangeExact n =>
    if (quantifier_limit <? n)%N then Err PExceededQuantifierLimit else Ok (RExactly n)
  | RangeMinMax n m =>
    if ((quantifier_limit <? n) || (quantifier_limit <? m))%N
    then Err PExceededQuantifierLimit else Ok (RBounded n m)
  | RangeMin n =>
    if (quantifier_limit <? n)%N then Err PExceededQuantifierLimit else Ok (RAtLeast n)
  | ZeroOrOne => Ok RZeroOrOne
  | OneOrMore => Ok ROneOrMore
  end.

(* [Result::map] *)
Definition rmap {A B E} (f : A -> B) (r : result A E) : result B E :=
  match r with Ok a => Ok (f a) | Err e => Err e end.

(* 47-262; [collect] of results stops at the first error *)
Fixpoint convert_ast (a : ast) : result rast parse_error :=
  let convert_all := fix convert_all (l : list ast) : result (list rast) parse_error :=
    match l with
    | [] => Ok []
    | a :: l' =>
      match convert_ast a with
      | Err e => Err e
      | Ok r => rmap (cons r) (convert_all l')
      end
    end in
  match a with
  | AEmpty => Ok REmpty
  | ALiteral l => Ok (RLiteral (convert_literal l LNormal))
  | AConcat l => rmap RConcat (convert_all l)
  | ACapturing a => rmap RCapture (convert_ast a)
  | ANonCapturing f a => rmap (RGroup (convert_flags f)) (convert_ast a)
  | ANamed name a => rmap (RNamed name) (convert_ast a)
  | AAlternation l => rmap RAlternation (convert_all l)
  | AFlags f => Ok (RFlags (convert_flags f))
  | ARepetition q a =>
    match convert_quantifier (q_kind q) with
    | Err e => Err e
    | Ok k => rmap (RRepetition k (negb (q_lazy q))) (convert_ast a)
    end
  | AAssertion t => Ok (convert_assertion t)
  | AClass c => Ok (convert_class c)
  end.

(* 39-43 *)
Definition convert_to_rust_regex (fuel : nat) (pattern : str) : outcome (result str parse_error) :=
  let* r := parse_regex_pattern fuel pattern in
  Ret (match r with
       | Err e => Err e
       | Ok a => rmap print_ast (convert_ast a)
       end).
