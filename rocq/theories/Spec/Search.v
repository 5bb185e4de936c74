(* Specification of regex and keyword searches *)
From Verif Require Export Model.RegexRule Spec.Text.

(* A regex picks at most one match at each starting offset; searching from an offset
   gives the first start at or after it (leftmost semantics; assertions look at the
   whole text, so the offset does not influence what matches).  [at_ s a = Some b]
   says that the match starting at [a] ends at [b]. *)
Record leftmost (find : str -> nat -> option (nat * nat)) (at_ : str -> nat -> option nat)
  : Prop := {
  lm_range : forall s a b, at_ s a = Some b -> a < b /\ boundary s a /\ boundary s b;
  lm_some : forall s i a b, boundary s i -> find s i = Some (a, b) ->
    i <= a /\ at_ s a = Some b /\ forall j, i <= j < a -> at_ s j = None;
  lm_none : forall s i, boundary s i -> find s i = None -> forall j, i <= j -> at_ s j = None
}.

(* Keyword search: [occ s a b] says that a keyword occurs at [a..b]; the earliest
   search returns an occurrence with the smallest end. *)
Record earliest (find : str -> nat -> option (nat * nat)) (occ : str -> nat -> nat -> Prop)
  : Prop := {
  ea_range : forall s a b, occ s a b -> a < b /\ boundary s a /\ boundary s b;
  ea_some : forall s i a b, boundary s i -> find s i = Some (a, b) ->
    i <= a /\ occ s a b /\ forall a' b', occ s a' b' -> i <= a' -> b <= b';
  ea_none : forall s i, boundary s i -> find s i = None -> forall a b, occ s a b -> a < i
}.

(* [n] characters between the byte offsets [a] and [b] *)
Definition chars_between (s : str) (a b n : nat) : Prop :=
  exists t, part_at s a b t /\ length t = n.

(* [a] is at or after [k], by at most [look_ahead] characters *)
Definition near_keyword (look_ahead : nat) (s : str) (k a : nat) : Prop :=
  exists n, chars_between s k a n /\ n <= look_ahead.

(* the last [n] elements *)
Definition lastn {A} (n : nat) (l : list A) : list A := skipn (length l - n) l.

Definition not_dash (c : N) : bool := negb ((c =? 45)%N || (c =? 95)%N).

(* The text examined for excluded keywords before a match: the [look_ahead + 1]
   characters before the match (one more than the window, as context), the first
   character of the match (as context), all without '-' and '_'. *)
Definition excluded_text (look_ahead : nat) (before : str) (c : N) : str :=
  filter not_dash (lastn (look_ahead + 1) before ++ [c]).
(* the part of it in which a keyword counts *)
Definition excluded_from (look_ahead : nat) (before : str) (c : N) : nat :=
  if length before <? look_ahead + 1 then 0
  else nbytes (firstn 1 (excluded_text look_ahead before c)).
Definition excluded_to (look_ahead : nat) (before : str) (c : N) : nat :=
  nbytes (removelast (excluded_text look_ahead before c)).

(* an excluded keyword is found before the match starting at [a] *)
Definition excluded_keyword_before (xk : excluded_keywords) (s : str) (a : nat) : Prop :=
  exists before c after,
    s = before ++ c :: after /\ nbytes before = a /\
    xk_match_in xk (excluded_text (xk_look_ahead xk) before c)
      (excluded_from (xk_look_ahead xk) before c)
      (excluded_to (xk_look_ahead xk) before c) = true.

(* the situation in which the search span is reversed: the window is full, and only
   one character is left of the examined text, of several bytes *)
Definition span_reversed (look_ahead : nat) (s : str) (a : nat) : Prop :=
  exists before c after x,
    s = before ++ c :: after /\ nbytes before = a /\
    look_ahead + 1 <= length before /\
    excluded_text look_ahead before c = [x] /\ 2 <= nbytes [x].

Section Rule.
Variable r : regex_rule.
Variable at_ : str -> nat -> option nat.

(* a match of the regex that is not a false positive; [chk] tells whether excluded
   keywords are taken into account *)
Definition true_positive (chk : bool) (s : str) (a b : nat) : Prop :=
  at_ s a = Some b /\
  (forall valid t, rr_validator r = Some valid -> part_at s a b t -> valid t = true) /\
  (chk = true -> forall xk, rr_excluded r = Some xk -> ~ excluded_keyword_before xk s a).

(* the excluded keyword check of this rule can be carried out in [s] *)
Definition checkable (s : str) : Prop :=
  forall xk a b, rr_excluded r = Some xk -> at_ s a = Some b ->
    ~ span_reversed (xk_look_ahead xk) s a.

(* [ms] are all true positives from [start] on, taking the leftmost one and going on
   after its end *)
Fixpoint scan_chain (chk : bool) (s : str) (start : nat) (ms : list (nat * nat)) : Prop :=
  match ms with
  | [] => forall a b, start <= a -> ~ true_positive chk s a b
  | (a, b) :: ms' =>
      start <= a /\ true_positive chk s a b /\
      (forall j c, start <= j < a -> ~ true_positive chk s j c) /\
      scan_chain chk s b ms'
  end.
End Rule.
