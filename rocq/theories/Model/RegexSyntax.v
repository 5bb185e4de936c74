(* Model of the parser of the crate regex-syntax 0.7.5 (ast::parse), as far as it reads
   what the printer of the crate writes.  The crate is not part of the repository; this is
   written from memory.  The groups and classes that are open are on a stack in the crate
   and are calls here.  Left out, and answered with None like an error: set operations in
   classes, escapes that are never printed (\d, \n, \u, ...), look-around, \p without
   braces.  The limit of 250 on the nesting is checked apart, by [nest_depth]. *)
From Verif Require Export Model.RegexAdapter.

(* ParserI::bump_space: white space and comments, while the flag x is set *)
Fixpoint skip_space (in_comment : bool) (s : str) : str :=
  match s with
  | [] => []
  | c :: s' =>
    if in_comment then skip_space (negb (c =? 10)%N) s'
    else if is_whitespace c then skip_space false s'
    else if (c =? 35)%N then skip_space true s'
    else s
  end.
Definition skip (x : bool) (s : str) : str := if x then skip_space false s else s.

Definition rflag_eqb (a b : rflag) : bool :=
  match a, b with
  | RfCaseInsensitive, RfCaseInsensitive | RfMultiLine, RfMultiLine | RfDotMatchesNewLine, RfDotMatchesNewLine
  | RfIgnoreWhitespace, RfIgnoreWhitespace | RfUnicode, RfUnicode => true
  | _, _ => false
  end.
Definition ritem_eqb (a b : rflags_item) : bool :=
  match a, b with
  | RNegation, RNegation => true
  | RFlag f, RFlag g => rflag_eqb f g
  | _, _ => false
  end.
(* ParserI::parse_flag; the flags U and R are never printed *)
Definition read_flag (c : char) : option rflag :=
  if (c =? 105)%N then Some RfCaseInsensitive
  else if (c =? 109)%N then Some RfMultiLine
  else if (c =? 115)%N then Some RfDotMatchesNewLine
  else if (c =? 117)%N then Some RfUnicode
  else if (c =? 120)%N then Some RfIgnoreWhitespace
  else None.
(* ParserI::parse_flags: up to a colon or a closing parenthesis, which is read too;
   repeated items and a dash at the end are errors *)
Fixpoint read_flags (items : list rflags_item) (s : str) : option (list rflags_item * char * str) :=
  match s with
  | [] => None
  | c :: s' =>
    if ((c =? 58) || (c =? 41))%N then
      match last items (RFlag RfUnicode) with RNegation => None | _ => Some (items, c, s') end
    else
      let item := if (c =? 45)%N then Some RNegation else option_map RFlag (read_flag c) in
      match item with
      | None => None
      | Some i => if existsb (ritem_eqb i) items then None else read_flags (items ++ [i]) s'
      end
  end.
(* Flags::flag_state *)
Fixpoint flag_state (negated : bool) (f : rflag) (items : list rflags_item) : option bool :=
  match items with
  | [] => None
  | RNegation :: l => flag_state true f l
  | RFlag g :: l => if rflag_eqb f g then Some (negb negated) else flag_state negated f l
  end.
Definition x_after (items : list rflags_item) (x : bool) : bool :=
  match flag_state false RfIgnoreWhitespace items with Some b => b | None => x end.

(* ParserI::parse_capture_name, after the opening angle *)
Definition capture_char (first : bool) (c : char) : bool :=
  (c =? 95)%N || is_ascii_alpha c || negb first && is_ascii_digit c.
Fixpoint read_name (acc : str) (s : str) : option (str * str) :=
  match s with
  | [] => None
  | c :: s' =>
    if (c =? 62)%N then match acc with [] => None | _ => Some (acc, s') end
    else if capture_char (match acc with [] => true | _ => false end) c then read_name (acc ++ [c]) s'
    else None
  end.

(* ParserI::parse_group, after the opening parenthesis *)
Inductive opened := OSetFlags (f : list rflags_item) | OCapture | ONamed (name : str) | OGroup (f : list rflags_item).
Definition strip (p s : str) : option str :=
  if str_eqb (firstn (length p) s) p then Some (skipn (length p) s) else None.
Definition read_open (x : bool) (s : str) : option (opened * str) :=
  let s := skip x s in
  match strip (chars "?=") s, strip (chars "?!") s, strip (chars "?<=") s, strip (chars "?<!") s with
  | None, None, None, None =>
    match strip (chars "?P<") s, strip (chars "?<") s, strip (chars "?") s with
    | Some s1, _, _ | None, Some s1, _ =>
      match read_name [] s1 with Some (n, s2) => Some (ONamed n, s2) | None => None end
    | None, None, Some s1 =>
      match read_flags [] s1 with
      | Some (f, c, s2) =>
        if (c =? 41)%N then match f with [] => None | _ => Some (OSetFlags f, s2) end
        else Some (OGroup f, s2)
      | None => None
      end
    | None, None, None => Some (OCapture, s)
    end
  | _, _, _, _ => None
  end.

(* ParserI::parse_hex_brace, after the brace *)
Fixpoint read_hex (x : bool) (acc : str) (s : str) : option (str * str) :=
  match s with
  | [] => None
  | c :: s' =>
    if (c =? 125)%N then Some (acc, s')
    else if x && is_whitespace c then read_hex x acc s'
    else match hex_value c with Some _ => read_hex x (acc ++ [c]) s' | None => None end
  end.
(* ParserI::parse_unicode_class, after the brace *)
Fixpoint read_property (x : bool) (acc : str) (s : str) : option (str * str) :=
  match s with
  | [] => None
  | c :: s' =>
    if (c =? 125)%N then Some (acc, s')
    else if x && is_whitespace c then read_property x acc s'
    else read_property x (acc ++ [c]) s'
  end.

(* ParserI::parse_primitive and parse_escape *)
Inductive primitive := MLiteral (l : rliteral) | MAssertion (a : rassertion) | MDot | MUnicode (negated : bool) (name : str).
Definition read_escape (x : bool) (s : str) : option (primitive * str) :=
  match s with
  | [] => None
  | c :: s' =>
    if is_meta_character c then Some (MLiteral {| rl_kind := RMeta; rl_c := c |}, s')
    else if (c =? 120)%N then
      match strip (chars "{") s' with
      | Some s1 =>
        match read_hex x [] s1 with
        | Some (h, s2) =>
          match from_str_radix16 h with
          | Some n => match char_from_u32 n with
                      | Some d => Some (MLiteral {| rl_kind := RHexBrace; rl_c := d |}, s2)
                      | None => None
                      end
          | None => None
          end
        | None => None
        end
      | None => None
      end
    else if ((c =? 112) || (c =? 80))%N then
      match strip (chars "{") s' with
      | Some s1 => match read_property x [] s1 with
                   | Some (n, s2) => Some (MUnicode (c =? 80)%N n, s2)
                   | None => None
                   end
      | None => None
      end
    else if (c =? 65)%N then Some (MAssertion RStartText, s')
    else if (c =? 122)%N then Some (MAssertion REndText, s')
    else if (c =? 98)%N then Some (MAssertion RWordBoundary, s')
    else if (c =? 66)%N then Some (MAssertion RNotWordBoundary, s')
    else None
  end.
Definition read_primitive (x : bool) (s : str) : option (primitive * str) :=
  match s with
  | [] => None
  | c :: s' =>
    if (c =? 92)%N then read_escape x s'
    else if (c =? 46)%N then Some (MDot, s')
    else if (c =? 94)%N then Some (MAssertion RStartLine, s')
    else if (c =? 36)%N then Some (MAssertion REndLine, s')
    else Some (MLiteral {| rl_kind := RVerbatim; rl_c := c |}, s')
  end.

(* ---- classes ---- *)
(* ParserI::parse_set_class_item *)
Definition read_item_primitive (x : bool) (s : str) : option (primitive * str) :=
  match s with
  | [] => None
  | c :: s' =>
    if (c =? 92)%N then read_escape x s'
    else Some (MLiteral {| rl_kind := RVerbatim; rl_c := c |}, s')
  end.
Definition item_of (p : primitive) : option class_item :=
  match p with
  | MLiteral l => Some (KLiteral l)
  | MUnicode n name => Some (KUnicode n name)
  | _ => None
  end.
(* ParserI::parse_set_class_range *)
Definition read_item (x : bool) (s : str) : option (class_item * str) :=
  match read_item_primitive x s with
  | None => None
  | Some (p, s1) =>
    let single := option_map (fun i => (i, skip x s1)) (item_of p) in
    match skip x s1 with
    | [] => None
    | c :: s2 =>
      if negb (c =? 45)%N then single
      else
        match skip x s2 with
        | [] => None
        | d :: _ =>
          if ((d =? 93) || (d =? 45))%N then single
          else
            match read_item_primitive x (skip x s2) with
            | Some (MLiteral b, s3) =>
              match p with
              | MLiteral a => if (rl_c a <=? rl_c b)%N then Some (KRange a b, s3) else None
              | _ => None
              end
            | _ => None
            end
        end
    end
  end.
(* ParserI::maybe_parse_ascii_class, after [: *)
Definition all_ascii_kinds : list ascii_kind :=
  [Alnum; Alpha; AsciiAll; Blank; Cntrl; Digit; Graph; Lower; Print; Punct; Space; Upper; Word; Xdigit].
Definition read_ascii (s : str) : option (class_item * str) :=
  let (negated, s1) := match strip (chars "^") s with Some s1 => (true, s1) | None => (false, s) end in
  match find (fun k => match strip (ascii_name k ++ chars ":]") s1 with Some _ => true | None => false end) all_ascii_kinds with
  | Some k => match strip (ascii_name k ++ chars ":]") s1 with Some s2 => Some (KAscii negated k, s2) | None => None end
  | None => None
  end.
(* ParserI::parse_set_class_open, after the bracket: the negation and the first items *)
Fixpoint read_dashes (fuel : nat) (x : bool) (acc : list class_item) (s : str) : list class_item * str :=
  match fuel, s with
  | S fuel', 45%N :: s' => read_dashes fuel' x (acc ++ [KLiteral {| rl_kind := RVerbatim; rl_c := 45%N |}]) (skip x s')
  | _, _ => (acc, s)
  end.
Definition read_class_open (x : bool) (s : str) : bool * list class_item * str :=
  let s := skip x s in
  let (negated, s) := match strip (chars "^") s with Some s1 => (true, skip x s1) | None => (false, s) end in
  let (items, s) := read_dashes (length s) x [] s in
  match items, s with
  | [], 93%N :: s' => (negated, [KLiteral {| rl_kind := RVerbatim; rl_c := 93%N |}], skip x s')
  | _, _ => (negated, items, s)
  end.
(* ParserI::parse_set_class, up to and with the closing bracket *)
Fixpoint read_items (fuel : nat) (x : bool) (acc : list class_item) (s : str) : option (list class_item * str) :=
  match fuel with
  | 0 => None
  | S fuel' =>
    match skip x s with
    | [] => None
    | c :: s' =>
      if (c =? 91)%N then
        match (match strip (chars ":") s' with Some s1 => read_ascii s1 | None => None end) with
        | Some (i, s2) => read_items fuel' x (acc ++ [i]) s2
        | None =>
          let '(negated, first, s1) := read_class_open x s' in
          match read_items fuel' x first s1 with
          | Some (l, s2) => read_items fuel' x (acc ++ [KBracketed negated l]) s2
          | None => None
          end
        end
      else if (c =? 93)%N then Some (acc, s')
      else if ((c =? 38) || (c =? 45) || (c =? 126))%N &&
              match s' with d :: _ => (c =? d)%N | [] => false end then None
      else
        match read_item x (c :: s') with
        | Some (i, s1) => read_items fuel' x (acc ++ [i]) s1
        | None => None
        end
    end
  end.

(* ---- repetitions ---- *)
(* a repetition needs something before it *)
Definition repeatable (a : rast) : bool := match a with REmpty | RFlags _ => false | _ => true end.
Fixpoint pop_last {A} (l : list A) : option (list A * A) :=
  match l with
  | [] => None
  | [a] => Some ([], a)
  | a :: l' => match pop_last l' with Some (r, z) => Some (a :: r, z) | None => None end
  end.
(* ParserI::parse_decimal; white space is skipped before, and under x between and after
   the digits (never printed, so only the digits are read here) *)
Definition read_decimal (s : str) : option (N * str) :=
  match digit0 s with
  | ([], _) => None
  | (d, s') => match u32_from_str d with Some n => Some (n, s') | None => None end
  end.
(* ParserI::parse_counted_repetition, after the brace; without the final ? *)
Definition read_count (s : str) : option (rep_kind * str) :=
  match read_decimal s with
  | None => None
  | Some (n, s1) =>
    match strip (chars ",}") s1, strip (chars ",") s1, strip (chars "}") s1 with
    | Some s2, _, _ => Some (RAtLeast n, s2)
    | None, Some s2, _ =>
      match read_decimal s2 with
      | Some (m, s3) =>
        match strip (chars "}") s3 with
        | Some s4 => if (n <=? m)%N then Some (RBounded n m, s4) else None
        | None => None
        end
      | None => None
      end
    | None, None, Some s2 => Some (RExactly n, s2)
    | None, None, None => None
    end
  end.
Definition read_lazy (s : str) : bool * str :=
  match strip (chars "?") s with Some s' => (false, s') | None => (true, s) end.

(* ---- expressions ---- *)
(* Concat::into_ast and Alternation::into_ast *)
Definition cat (l : list rast) : rast := match l with [] => REmpty | [a] => a | _ => RConcat l end.
Definition finish (alts cur : list rast) : rast :=
  match alts with [] => cat cur | _ => RAlternation (alts ++ [cat cur]) end.
Definition wrap (o : opened) (a : rast) : rast :=
  match o with OSetFlags f => RFlags f | OCapture => RCapture a | ONamed n => RNamed n a | OGroup f => RGroup f a end.
Definition of_primitive (p : primitive) : rast :=
  match p with
  | MLiteral l => RLiteral l | MAssertion a => RAssertion a | MDot => RDot | MUnicode n name => RClassUnicode n name
  end.

(* ParserI::parse_with_comments, up to the end or a closing parenthesis.  [names] are the
   names of groups so far, a repeated name is an error. *)
Fixpoint read_body (fuel : nat) (x : bool) (names : list str) (alts cur : list rast) (s : str)
  : option (rast * list str * str) :=
  match fuel with
  | 0 => None
  | S fuel' =>
    match skip x s with
    | [] => Some (finish alts cur, names, [])
    | c :: s' =>
      if (c =? 124)%N then read_body fuel' x names (alts ++ [cat cur]) [] s'
      else if (c =? 41)%N then Some (finish alts cur, names, c :: s')
      else if (c =? 40)%N then
        match read_open x s' with
        | None => None
        | Some (OSetFlags f, s1) => read_body fuel' (x_after f x) names alts (cur ++ [RFlags f]) s1
        | Some (o, s1) =>
          let repeated := match o with ONamed n => existsb (str_eqb n) names | _ => false end in
          let names := match o with ONamed n => names ++ [n] | _ => names end in
          let x' := match o with OGroup f => x_after f x | _ => x end in
          if repeated then None
          else
            match read_body fuel' x' names [] [] s1 with
            | Some (a, names, 41%N :: s2) => read_body fuel' x names alts (cur ++ [wrap o a]) s2
            | _ => None
            end
        end
      else if (c =? 91)%N then
        let '(negated, first, s1) := read_class_open x s' in
        match read_items fuel' x first s1 with
        | Some (l, s2) => read_body fuel' x names alts (cur ++ [RClass negated l]) s2
        | None => None
        end
      else if ((c =? 63) || (c =? 42) || (c =? 43))%N then
        match pop_last cur with
        | Some (before, a) =>
          if repeatable a then
            let kind := if (c =? 63)%N then RZeroOrOne else if (c =? 42)%N then RZeroOrMore else ROneOrMore in
            let (greedy, s1) := read_lazy s' in
            read_body fuel' x names alts (before ++ [RRepetition kind greedy a]) s1
          else None
        | None => None
        end
      else if (c =? 123)%N then
        match pop_last cur with
        | Some (before, a) =>
          if repeatable a then
            match read_count s' with
            | Some (kind, s1) =>
              let (greedy, s2) := read_lazy (skip x s1) in
              read_body fuel' x names alts (before ++ [RRepetition kind greedy a]) s2
            | None => None
            end
          else None
        | None => None
        end
      else
        match read_primitive x (c :: s') with
        | Some (p, s1) => read_body fuel' x names alts (cur ++ [of_primitive p]) s1
        | None => None
        end
    end
  end.

(* ParserI::parse; a closing parenthesis without an opening one is an error *)
Definition reread (s : str) : option rast :=
  match read_body (S (length s)) false [] [] [] s with
  | Some (a, _, []) => Some a
  | _ => None
  end.

(* NestLimiter: bracketed classes, repetitions, groups, alternations and concatenations
   count; in a class, nested classes and unions.  The default limit is 250.  Here a class
   counts as a union even if it has one item, so the depth is never too small. *)
Definition nest_limit : nat := 250.
Fixpoint item_depth (i : class_item) : nat :=
  match i with
  | KBracketed _ l => S (S (list_max (map item_depth l)))
  | _ => 0
  end.
Fixpoint nest_depth (a : rast) : nat :=
  match a with
  | RClass _ l => S (S (list_max (map item_depth l)))
  | RRepetition _ _ b | RCapture b | RNamed _ b | RGroup _ b => S (nest_depth b)
  | RAlternation l | RConcat l => S (list_max (map nest_depth l))
  | _ => 0
  end.
