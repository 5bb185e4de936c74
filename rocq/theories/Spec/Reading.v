(* Specification of how the front of a text is read as a part of a pattern.

   [Spec.Pattern] says which text may stand for which tree, and there a text may stand for
   several trees: "a{2}" is a repetition, but also the four characters.  The relations here
   also take the text that follows, and say where a reading must not stop or must not be
   taken because of it.  [X_read a s rest]: at the front of [s], an X is read as [a], and
   [rest] is left. *)
From Verif Require Export Spec.Pattern.

(* ---- literals ---- *)
(* an escape \x takes two hexadecimal digits if there are two, and braces if they are
   closed anywhere later *)
Definition complete_hex (t rest : str) : Prop :=
  forall h, t = chars "\x" ++ h -> length h < 2 ->
  (forall c d r, rest = c :: r -> ~ hex_digit_is c d) /\
  (h = [] -> forall u v, rest <> chars "{" ++ u ++ chars "}" ++ v).
Definition literal_read (bracketed : bool) (c : char) (e : bool) (s rest : str) : Prop :=
  exists t, literal_text bracketed c e t /\ s = t ++ rest /\ complete_hex t rest.

(* ---- brackets ---- *)
(* the texts in brackets that stand for a class *)
Inductive named_item : bracket_item -> str -> Prop :=
| ci_perl : forall p t, perl_text p t -> named_item (BPerl p) t
| ci_unicode : forall u t, unicode_text u t -> named_item (BUnicode u) t
| ci_ascii : forall k t, ascii_text k t -> named_item (BAscii false k) (chars "[:" ++ t ++ chars ":]")
| ci_not_ascii : forall k t, ascii_text k t -> named_item (BAscii true k) (chars "[:^" ++ t ++ chars ":]")
| ci_h : named_item BHorizontal (chars "\h") | ci_H : named_item BNotHorizontal (chars "\H")
| ci_v : named_item BVertical (chars "\v") | ci_V : named_item BNotVertical (chars "\V").
Definition class_ahead (s : str) : Prop := exists i t r, named_item i t /\ s = t ++ r.
(* a literal begins here, as far as the first characters tell *)
Definition literal_ahead (s : str) : Prop := exists c e t r, literal_text true c e t /\ s = t ++ r.

Inductive item_read : list bracket_item -> str -> str -> Prop :=
| ir_class : forall i t rest, named_item i t -> item_read [i] (t ++ rest) rest
| ir_quoted : forall l rest, no_end l ->
    item_read (map BLiteral l) (chars "\Q" ++ l ++ chars "\E" ++ rest) rest
| ir_range : forall a e1 b e2 s s' rest, ~ class_ahead s ->
    literal_read true a e1 s (chars "-" ++ s') -> literal_read true b e2 s' rest ->
    item_read [BRange a b] s rest
| ir_literal : forall c e s rest, ~ class_ahead s -> literal_read true c e s rest ->
    (forall s', rest = chars "-" ++ s' -> ~ literal_ahead s') -> item_read [BLiteral c] s rest.
Inductive items_read : list bracket_item -> str -> str -> Prop :=
| isr_end : forall rest, items_read [] (chars "]" ++ rest) rest
| isr_item : forall i l s s' rest, item_read i s s' -> items_read l s' rest -> items_read (i ++ l) s rest.

(* [^] after the opening bracket negates; a closing bracket right after that is a literal *)
Inductive class_read : char_class -> str -> str -> Prop :=
| cr_plain : forall c t rest, class_text c t -> (forall n i, c <> CBracket n i) -> class_read c (t ++ rest) rest
| cr_bracket : forall n items s rest, (forall r, s <> chars "]" ++ r) ->
    (n = false -> forall r, s <> chars "^" ++ r) -> items <> [] -> items_read items s rest ->
    class_read (CBracket n items) ((if n : bool then chars "[^" else chars "[") ++ s) rest
| cr_closing : forall n items s rest, items_read items s rest ->
    class_read (CBracket n (BLiteral 93 :: items)) ((if n : bool then chars "[^]" else chars "[]") ++ s) rest.

(* ---- quantifiers ---- *)
Definition quantifier_read (q : quantifier) (s rest : str) : Prop :=
  exists t, quantifier_text q t /\ s = t ++ rest /\ (q_lazy q = false -> forall r, rest <> chars "?" ++ r).

(* ---- expressions, inside [d] groups ---- *)
Definition closes (s : str) : Prop := s = [] \/ exists r, s = chars ")" ++ r.
Definition ends_branch (s : str) : Prop := closes s \/ exists r, s = chars "|" ++ r.
Definition alternatives (l : list ast) : ast := match l with [a] => a | _ => AAlternation l end.
Definition sequence (l : list ast) : ast := match l with [a] => a | _ => AConcat l end.
(* how a named group begins *)
Inductive named_opening : str -> str -> Prop :=
| no_angle : named_opening (chars "(?<") (chars ">")
| no_p : named_opening (chars "(?P<") (chars ">")
| no_quote : named_opening (chars "(?'") (chars "'").

Inductive atom_read : nat -> ast -> str -> str -> Prop :=
| ar_quoted : forall d l rest, no_end l -> atom_read d (quoted l) (chars "\Q" ++ l ++ chars "\E" ++ rest) rest
| ar_literal : forall d c e t rest, literal_text false c e t -> complete_hex t rest ->
    ~ names_class t -> t <> chars "\b" ->
    atom_read d (ALiteral {| lit_c := c; lit_escaped := e |}) (t ++ rest) rest
| ar_class : forall d c s rest, class_read c s rest -> atom_read d (AClass c) s rest
| ar_assertion : forall d a t rest, assertion_text a t -> atom_read d (AAssertion a) (t ++ rest) rest
| ar_flags : forall d f t rest, flags_text f t ->
    atom_read d (AFlags f) (chars "(?" ++ t ++ chars ")" ++ rest) rest
| ar_capture : forall d a s rest, expression_read (S d) a s (chars ")" ++ rest) ->
    atom_read d (ACapturing a) (chars "(" ++ s) rest
| ar_group : forall d f t a s rest, flags_text f t -> expression_read (S d) a s (chars ")" ++ rest) ->
    atom_read d (ANonCapturing f a) (chars "(?" ++ t ++ chars ":" ++ s) rest
| ar_named : forall d o c n a s rest, named_opening o c -> name_text n ->
    expression_read (S d) a s (chars ")" ++ rest) ->
    atom_read d (ANamed n a) (o ++ n ++ c ++ s) rest
with piece_read : nat -> ast -> str -> str -> Prop :=
| pr_atom : forall d a s rest, atom_read d a s rest -> (forall q r, ~ quantifier_read q rest r) ->
    piece_read d a s rest
| pr_repeat : forall d a q s s' rest, atom_read d a s s' -> quantifier_read q s' rest ->
    piece_read d (ARepetition q a) s rest
with pieces_read : nat -> list ast -> str -> str -> Prop :=
| psr_one : forall d a s rest, piece_read d a s rest -> ends_branch rest -> pieces_read d [a] s rest
| psr_more : forall d a l s s' rest, piece_read d a s s' -> pieces_read d l s' rest -> pieces_read d (a :: l) s rest
with branches_read : nat -> list ast -> str -> str -> Prop :=
| brr_last : forall d a s rest, branch_read d a s rest -> closes rest -> branches_read d [a] s rest
| brr_more : forall d a l s s' rest, branch_read d a s (chars "|" ++ s') -> branches_read d l s' rest ->
    branches_read d (a :: l) s rest
with branch_read : nat -> ast -> str -> str -> Prop :=
| br_empty : forall d s, ends_branch s -> branch_read d AEmpty s s
| br_pieces : forall d l s rest, pieces_read d l s rest -> branch_read d (sequence l) s rest
with expression_read : nat -> ast -> str -> str -> Prop :=
| er_branches : forall d l s rest, d < 50 -> branches_read d l s rest -> expression_read d (alternatives l) s rest.

(* the whole text is read *)
Definition pattern_read (a : ast) (s : str) : Prop := expression_read 0 a s [].
