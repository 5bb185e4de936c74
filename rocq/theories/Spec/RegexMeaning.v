(* What patterns mean: which part of a text a tree of the SDS syntax matches, and which
   part a tree of the regex crate matches.

   A meaning relates a position of a text, the choices made, and the position reached.
   The choices are recorded in the order in which they are made, numbered by preference:
   an alternative by its place, and for every optional round of a repetition 0 for the
   preferred choice.  Two meanings that agree have the same matches with the same
   preferences, so also the same first match. *)
From Verif Require Export Model.RegexAdapter Spec.Pattern.

Record env := {
  same_letter : char -> char -> Prop;         (* differ in case only *)
  has_property : str -> char -> Prop;         (* the Unicode property of that name *)
  unicode_word : char -> Prop;                (* the word characters of Unicode *)
}.

Definition meaning := nat -> list nat -> nat -> Prop.
Definition same_meaning (A B : meaning) : Prop := forall i t j, A i t j <-> B i t j.

(* ---- shared operations ---- *)
Definition one (text : str) (P : char -> Prop) : meaning :=
  fun i t j => t = [] /\ j = S i /\ exists c, nth_error text i = Some c /\ P c.
Definition here (P : nat -> Prop) : meaning := fun i t j => t = [] /\ j = i /\ P i.
Definition nothing : meaning := here (fun _ => True).
Definition andthen (A B : meaning) : meaning :=
  fun i t j => exists k t1 t2, A i t1 k /\ B k t2 j /\ t = t1 ++ t2.
(* at least [lo] and at most [hi] times *)
Inductive times (A : meaning) (greedy : bool) : nat -> option nat -> meaning :=
| tm_must : forall lo hi i t k u j, A i t k -> times A greedy lo (option_map pred hi) k u j ->
    times A greedy (S lo) hi i (t ++ u) j
| tm_full : forall i, times A greedy 0 (Some 0) i [] i
| tm_stop : forall hi i, hi <> Some 0 -> times A greedy 0 hi i [if greedy then 1 else 0] i
| tm_again : forall hi i t k u j, hi <> Some 0 -> A i t k ->
    times A greedy 0 (option_map pred hi) k u j ->
    times A greedy 0 hi i ((if greedy then 0 else 1) :: t ++ u) j.

Definition at_char (text : str) (i : nat) (P : char -> Prop) : Prop :=
  exists c, nth_error text i = Some c /\ P c.
Definition ascii_word (c : char) : Prop :=
  (97 <= c <= 122 \/ 65 <= c <= 90 \/ 48 <= c <= 57 \/ c = 95)%N.
Definition boundary (text : str) (word : char -> Prop) (i : nat) : Prop :=
  ~ ((exists k, i = S k /\ at_char text k word) <-> at_char text i word).
Definition line_start (text : str) (multi : bool) (i : nat) : Prop :=
  i = 0 \/ multi = true /\ exists k, i = S k /\ at_char text k (eq 10%N).
Definition line_end (text : str) (multi : bool) (i : nat) : Prop :=
  i = length text \/ multi = true /\ at_char text i (eq 10%N).

(* the POSIX classes *)
Definition in_ascii_class (k : ascii_kind) (c : char) : Prop :=
  match k with
  | Alnum => 48 <= c <= 57 \/ 65 <= c <= 90 \/ 97 <= c <= 122
  | Alpha => 65 <= c <= 90 \/ 97 <= c <= 122
  | AsciiAll => c <= 127
  | Blank => c = 9 \/ c = 32
  | Cntrl => c <= 31 \/ c = 127
  | Digit => 48 <= c <= 57
  | Graph => 33 <= c <= 126
  | Lower => 97 <= c <= 122
  | Print => 32 <= c <= 126
  | Punct => 33 <= c <= 47 \/ 58 <= c <= 64 \/ 91 <= c <= 96 \/ 123 <= c <= 126
  | Space => 9 <= c <= 13 \/ c = 32
  | Upper => 65 <= c <= 90
  | Word => 48 <= c <= 57 \/ 65 <= c <= 90 \/ c = 95 \/ 97 <= c <= 122
  | Xdigit => 48 <= c <= 57 \/ 65 <= c <= 70 \/ 97 <= c <= 102
  end%N.

Definition flip_if (negated : bool) (P : Prop) : Prop := if negated then ~ P else P.
(* the set, with the letters of the other case if case is ignored *)
Definition any_case (E : env) (i : bool) (S : char -> Prop) (c : char) : Prop :=
  S c \/ i = true /\ exists d, S d /\ same_letter E c d.

(* ---- the SDS syntax ---- *)
Record mode := { mi : bool; mm : bool; ms : bool; mx : bool }.
Definition mode0 : mode := {| mi := false; mm := false; ms := false; mx := false |}.
(* a flag that is removed is off, otherwise one that is added is on *)
Definition is_flag (x y : flag) : bool :=
  match x, y with
  | CaseInsensitive, CaseInsensitive | MultiLine, MultiLine
  | DotMatchesNewLine, DotMatchesNewLine | IgnoreWhitespace, IgnoreWhitespace => true
  | _, _ => false
  end.
Definition set_flag (f : flags) (x : flag) (old : bool) : bool :=
  if existsb (is_flag x) (fl_remove f) then false
  else if existsb (is_flag x) (fl_add f) then true else old.
Definition set_flags (f : flags) (m : mode) : mode :=
  {| mi := set_flag f CaseInsensitive (mi m); mm := set_flag f MultiLine (mm m);
     ms := set_flag f DotMatchesNewLine (ms m); mx := set_flag f IgnoreWhitespace (mx m) |}.

(* the white space that x lets be ignored *)
Definition blank (c : char) : bool := ((9 <=? c) && (c <=? 13) || (c =? 32))%N.
Definition horizontal (c : char) : Prop := (c = 32 \/ c = 9)%N.
Definition vertical (c : char) : Prop := (10 <= c <= 13)%N.
Definition in_perl_class (p : perl_class) (c : char) : Prop :=
  match p with
  | PDigit => 48 <= c <= 57
  | PNonDigit => ~ 48 <= c <= 57
  | PSpace => c = 32 \/ 9 <= c <= 13
  | PNonSpace => ~ (c = 32 \/ 9 <= c <= 13)
  | PWord => ascii_word c
  | PNonWord => ~ ascii_word c
  end%N.
Definition in_property (E : env) (i : bool) (u : unicode_property) (c : char) : Prop :=
  flip_if (up_negate u) (any_case E i (has_property E (up_name u)) c).
Definition in_item (E : env) (i : bool) (it : bracket_item) (c : char) : Prop :=
  match it with
  | BLiteral d => any_case E i (eq d) c
  | BRange a b => any_case E i (fun d => a <= d <= b)%N c
  | BPerl p => in_perl_class p c
  | BUnicode u => in_property E i u c
  | BAscii n k => flip_if n (any_case E i (in_ascii_class k) c)
  | BHorizontal => horizontal c | BNotHorizontal => ~ horizontal c
  | BVertical => vertical c | BNotVertical => ~ vertical c
  end.
Definition in_class (E : env) (m : mode) (k : char_class) (c : char) : Prop :=
  match k with
  | CBracket n items => flip_if n (exists it, In it items /\ in_item E (mi m) it c)
  | CPerl p => in_perl_class p c
  | CDot => ms m = true \/ c <> 10%N
  | CUnicode u => in_property E (mi m) u c
  | CHorizontal => horizontal c | CNotHorizontal => ~ horizontal c
  | CVertical => vertical c | CNotVertical => ~ vertical c
  end.

(* the assertions; the meaning of $ and \Z is given in two ways *)
Definition last_newline (text : str) (i : nat) : Prop :=
  at_char text i (eq 10%N) /\ S i = length text.
(* as in PCRE: at the end, or before a newline that ends the text, without matching it *)
Definition end_before (text : str) (multi : bool) : meaning :=
  here (fun i => line_end text multi i \/ last_newline text i).
(* as in the comments of the adapter: a newline is matched if there is one *)
Definition end_with (text : str) (multi : bool) : meaning :=
  andthen (times (one text (eq 10%N)) true 0 (Some 1)) (here (line_end text multi)).
Definition asserted (ends : bool -> meaning) (text : str) (m : mode) (a : assertion_type) : meaning :=
  match a with
  | WordBoundary => here (boundary text ascii_word)
  | NotWordBoundary => here (fun i => ~ boundary text ascii_word i)
  | StartLine => here (line_start text (mm m))
  | EndLine => ends (mm m)
  | StartText => here (eq 0)
  | EndText => here (eq (length text))
  | EndTextOptionalNewline => ends false
  end.

Definition least (q : quantifier_kind) : nat :=
  match q with
  | ZeroOrMore | ZeroOrOne => 0 | OneOrMore => 1
  | RangeExact n | RangeMin n | RangeMinMax n _ => N.to_nat n
  end.
Definition most (q : quantifier_kind) : option nat :=
  match q with
  | ZeroOrMore | OneOrMore | RangeMin _ => None | ZeroOrOne => Some 1
  | RangeExact n | RangeMinMax _ n => Some (N.to_nat n)
  end.

(* the flags in force after a tree; groups give them back *)
Fixpoint after (m : mode) (a : ast) : mode :=
  match a with
  | AFlags f => set_flags f m
  | AConcat l | AAlternation l => fold_left after l m
  | ARepetition _ b => after m b
  | _ => m
  end.

Section Sds.
Variable E : env.
Variable ends : bool -> meaning.
Variable text : str.

Fixpoint means (m : mode) (a : ast) {struct a} : meaning :=
  match a with
  | AEmpty | AFlags _ => nothing
  | ALiteral l =>
    if mx m && negb (lit_escaped l) && blank (lit_c l) then nothing
    else one text (any_case E (mi m) (eq (lit_c l)))
  | AClass k => one text (in_class E m k)
  | AAssertion k => asserted ends text m k
  | ARepetition q b =>
    let rounds (A : meaning) := times A (negb (q_lazy q)) (least (q_kind q)) (most (q_kind q)) in
    match b with
    | AConcat l =>
      (* quoted text, as in \Qab\E*: a quantifier is about the last character *)
      (fix last (m : mode) (l : list ast) : meaning :=
         match l with
         | [] => nothing
         | a :: l' =>
           match l' with
           | [] => rounds (means m a)
           | _ => andthen (means m a) (last (after m a) l')
           end
         end) m l
    | _ => rounds (means m b)
    end
  | ACapturing b | ANamed _ b => means m b
  | ANonCapturing f b => means (set_flags f m) b
  | AConcat l =>
    (fix all (m : mode) (l : list ast) : meaning :=
       match l with
       | [] => nothing
       | a :: l' => andthen (means m a) (all (after m a) l')
       end) m l
  | AAlternation l =>
    (fix any (m : mode) (k : nat) (l : list ast) : meaning :=
       match l with
       | [] => fun _ _ _ => False
       | a :: l' => fun i t j => (exists u, t = k :: u /\ means m a i u j) \/ any (after m a) (S k) l' i t j
       end) m 0 l
  end.
End Sds.

(* ---- the syntax of the regex crate ---- *)
Record rmode := { ri : bool; rm : bool; rs : bool; ru : bool }.
(* as the adapter's regexes are built: Unicode on, the rest off *)
Definition rmode0 : rmode := {| ri := false; rm := false; rs := false; ru := true |}.
(* the flags of a group: on before the dash, off after it *)
Fixpoint set_items (on : bool) (l : list rflags_item) (m : rmode) : rmode :=
  match l with
  | [] => m
  | RNegation :: l' => set_items false l' m
  | RFlag f :: l' =>
    set_items on l'
      match f with
      | RfCaseInsensitive => {| ri := on; rm := rm m; rs := rs m; ru := ru m |}
      | RfMultiLine => {| ri := ri m; rm := on; rs := rs m; ru := ru m |}
      | RfDotMatchesNewLine => {| ri := ri m; rm := rm m; rs := on; ru := ru m |}
      | RfUnicode => {| ri := ri m; rm := rm m; rs := rs m; ru := on |}
      | RfIgnoreWhitespace => m
      end
  end.
Fixpoint in_class_item (E : env) (i : bool) (it : class_item) (c : char) : Prop :=
  match it with
  | KLiteral l => any_case E i (eq (rl_c l)) c
  | KRange a b => any_case E i (fun d => rl_c a <= d <= rl_c b)%N c
  | KAscii n k => flip_if n (any_case E i (in_ascii_class k) c)
  | KUnicode n name => flip_if n (any_case E i (has_property E name) c)
  | KBracketed n l =>
    flip_if n (any_case E i
      ((fix some (l : list class_item) (c : char) : Prop :=
          match l with [] => False | it :: l' => in_class_item E i it c \/ some l' c end) l) c)
  end.
Definition rleast (q : rep_kind) : nat :=
  match q with
  | RZeroOrMore | RZeroOrOne => 0 | ROneOrMore => 1
  | RExactly n | RAtLeast n | RBounded n _ => N.to_nat n
  end.
Definition rmost (q : rep_kind) : option nat :=
  match q with
  | RZeroOrMore | ROneOrMore | RAtLeast _ => None | RZeroOrOne => Some 1
  | RExactly n | RBounded _ n => Some (N.to_nat n)
  end.
Definition rasserted (E : env) (text : str) (m : rmode) (a : rassertion) : nat -> Prop :=
  match a with
  | RStartLine => line_start text (rm m)
  | REndLine => line_end text (rm m)
  | RStartText => eq 0
  | REndText => eq (length text)
  | RWordBoundary => boundary text (if ru m then unicode_word E else ascii_word)
  | RNotWordBoundary => fun i => ~ boundary text (if ru m then unicode_word E else ascii_word) i
  end.
Fixpoint rafter (m : rmode) (a : rast) : rmode :=
  match a with
  | RFlags f => set_items true f m
  | RConcat l | RAlternation l => fold_left rafter l m
  | RRepetition _ _ b => rafter m b
  | _ => m
  end.

Section Rust.
Variable E : env.
Variable text : str.

Fixpoint rmeans (m : rmode) (a : rast) {struct a} : meaning :=
  match a with
  | REmpty | RFlags _ => nothing
  | RLiteral l => one text (any_case E (ri m) (eq (rl_c l)))
  | RDot => one text (fun c => rs m = true \/ c <> 10%N)
  | RAssertion k => here (rasserted E text m k)
  | RClassUnicode n name => one text (in_class_item E (ri m) (KUnicode n name))
  | RClass n items => one text (in_class_item E (ri m) (KBracketed n items))
  | RRepetition k greedy b => times (rmeans m b) greedy (rleast k) (rmost k)
  | RCapture b | RNamed _ b => rmeans m b
  | RGroup f b => rmeans (set_items true f m) b
  | RConcat l =>
    (fix all (m : rmode) (l : list rast) : meaning :=
       match l with
       | [] => nothing
       | a :: l' => andthen (rmeans m a) (all (rafter m a) l')
       end) m l
  | RAlternation l =>
    (fix any (m : rmode) (k : nat) (l : list rast) : meaning :=
       match l with
       | [] => fun _ _ _ => False
       | a :: l' => fun i t j => (exists u, t = k :: u /\ rmeans m a i u j) \/ any (rafter m a) (S k) l' i t j
       end) m 0 l
  end.
End Rust.

(* what is known of the environment: case is a matter of letters *)
Definition plain_env (E : env) : Prop :=
  (forall c, same_letter E c c) /\
  (forall c d, same_letter E c d -> same_letter E d c) /\
  (forall c d e, same_letter E c d -> same_letter E d e -> same_letter E c e) /\
  (forall c d, same_letter E c d -> (c <= 64)%N -> c = d).

(* ---- the patterns whose conversion is faithful ---- *)
(* white space for the regex crate that is not ASCII *)
Definition foreign_space (c : char) : Prop :=
  In c ([133; 160; 5760; 8192; 8193; 8194; 8195; 8196; 8197; 8198; 8199; 8200; 8201; 8202;
         8232; 8233; 8239; 8287; 12288])%N.
Definition item_faithful (i : bool) (it : bracket_item) : Prop :=
  match it with
  | BRange a b => (a <= b)%N
  | BPerl PWord | BPerl PNonWord => i = false
  | _ => True
  end.
Definition class_faithful (i : bool) (k : char_class) : Prop :=
  match k with
  | CBracket _ items => forall it, In it items -> item_faithful i it
  | CPerl PWord | CPerl PNonWord => i = false
  | _ => True
  end.
(* a single thing that is matched, and so can be repeated *)
Definition repeats_one (m : mode) (a : ast) : Prop :=
  match a with
  | ALiteral l => ~ (mx m = true /\ lit_escaped l = false /\ blank (lit_c l) = true)
  | AAssertion EndLine | AAssertion EndTextOptionalNewline => False
  | AClass _ | AAssertion _ | ACapturing _ | ANonCapturing _ _ | ANamed _ _ => True
  | AEmpty | AFlags _ | AConcat _ | AAlternation _ | ARepetition _ _ => False
  end.
(* several quoted characters *)
Definition quoted_text (a : ast) : Prop :=
  exists c d l, a = AConcat (map (fun c => ALiteral {| lit_c := c; lit_escaped := true |}) (c :: d :: l)).
Definition ordered (q : quantifier_kind) : Prop :=
  match q with RangeMinMax n m => (n <= m)%N | _ => True end.
Fixpoint faithful (m : mode) (a : ast) : Prop :=
  match a with
  | AEmpty | AAssertion _ => True
  | ALiteral l => mx m = true -> ~ foreign_space (lit_c l)
  | AClass k => class_faithful (mi m) k
  | AFlags f => fl_add f <> [] \/ fl_remove f <> []
  | ARepetition q b => (repeats_one m b \/ quoted_text b) /\ ordered (q_kind q) /\ faithful m b
  | ACapturing b | ANamed _ b => faithful m b
  | ANonCapturing f b => faithful (set_flags f m) b
  | AConcat l | AAlternation l =>
    (fix all (m : mode) (l : list ast) : Prop :=
       match l with
       | [] => True
       | a :: l' => faithful m a /\ all (after m a) l'
       end) m l
  end.
(* the names of the groups *)
Fixpoint group_names (a : ast) : list str :=
  match a with
  | ANamed n b => n :: group_names b
  | ACapturing b | ANonCapturing _ b | ARepetition _ b => group_names b
  | AConcat l | AAlternation l => flat_map group_names l
  | _ => []
  end.

(* no assertion about the end of the text that lets a newline follow *)
Fixpoint no_ends (a : ast) : Prop :=
  match a with
  | AAssertion EndLine | AAssertion EndTextOptionalNewline => False
  | ARepetition _ b | ACapturing b | ANamed _ b | ANonCapturing _ b => no_ends b
  | AConcat l | AAlternation l =>
    (fix all (l : list ast) : Prop := match l with [] => True | a :: l' => no_ends a /\ all l' end) l
  | _ => True
  end.

(* the end of the match that is preferred at a position: no match has earlier choices *)
Inductive earlier : list nat -> list nat -> Prop :=
| ea_here : forall a b t u, a < b -> earlier (a :: t) (b :: u)
| ea_later : forall a t u, earlier t u -> earlier (a :: t) (a :: u).
Definition prefers (A : meaning) (i j : nat) : Prop :=
  exists t, A i t j /\ forall u k, A i u k -> ~ earlier u t.

(* the text matched from one position to another, whatever the choices *)
Definition matched (A : meaning) (i j : nat) : Prop := exists t, A i t j.
(* a pattern and the tree the regex crate reads from its conversion *)
Definition patterns_meet (pattern : str) (a : ast) (b : rast) (read : str -> option rast) : Prop :=
  exists t, parse_regex_pattern 51 pattern = Ret (Ok a) /\ convert_to_rust_regex 51 pattern = Ret (Ok t) /\ read t = Some b.
