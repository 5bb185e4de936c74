(* What the patterns built for keywords match *)
From Verif Require Export Spec.Search Model.Validation.

(* ASCII word characters *)
Definition word_char (o : option char) : bool :=
  match o with
  | Some c => in_range 48 57 c || in_range 65 90 c || in_range 97 122 c || (c =? 95)%N
  | None => false
  end.

Section Patterns.
(* characters are compared up to [fold] (case-insensitive compilation) *)
Variable fold : char -> char.

(* the pattern reads the text [t] between the characters [prev] and [next] *)
Fixpoint kw_reads (pat : kw_pattern) (prev : option char) (t : str) (next : option char) : bool :=
  match pat with
  | [] => match t with [] => true | _ => false end
  | KwBoundary :: pat' =>
      xorb (word_char prev) (word_char (match t with c :: _ => Some c | [] => next end)) &&
      kw_reads pat' prev t next
  | KwLit c :: pat' =>
      match t with
      | d :: t' => (fold c =? fold d)%N && kw_reads pat' (Some d) t' next
      | [] => false
      end
  end.

(* one of the patterns matches at the byte range [a..b] of [s] *)
Definition kw_occurs (pats : list kw_pattern) (s : str) (a b : nat) : Prop :=
  exists pat before t after, In pat pats /\ s = before ++ t ++ after /\
    nbytes before = a /\ nbytes (before ++ t) = b /\
    kw_reads pat (hd_error (rev before)) t (hd_error after) = true.

(* a search in a span finds something iff there is an occurrence inside the span *)
Definition span_search (search : str -> nat -> nat -> bool) (occ : str -> nat -> nat -> Prop) : Prop :=
  forall s a b, search s a b = true <-> exists k e, a <= k /\ e <= b /\ occ s k e.

(* A keyword occurs in the [look_ahead] characters before the match starting at [a],
   after removal of '-' and '_' from the text. *)
Definition excluded_as_documented (pats : list kw_pattern) (look_ahead : nat) (s : str) (a : nat) : Prop :=
  exists before c after, s = before ++ c :: after /\ nbytes before = a /\
    let far := firstn (length before - look_ahead) before in
    exists k e, kw_occurs pats (filter not_dash s) k e /\
      nbytes (filter not_dash far) <= k /\ e <= nbytes (filter not_dash before).

(* the characters next to the window are not removed: the first of the match and the
   last one before the window *)
Definition context_kept (look_ahead : nat) (s : str) (a : nat) : Prop :=
  forall before c after, s = before ++ c :: after -> nbytes before = a ->
    not_dash c = true /\
    forall x, nth_error (rev before) look_ahead = Some x -> not_dash x = true.
End Patterns.

(* Search functions that may find empty matches *)
Record leftmost_any (find : str -> nat -> option (nat * nat)) (at_ : str -> nat -> option nat)
  : Prop := {
  la_range : forall s a b, at_ s a = Some b -> a <= b /\ boundary s a /\ boundary s b;
  la_some : forall s i a b, boundary s i -> find s i = Some (a, b) ->
    i <= a /\ at_ s a = Some b /\ forall j, i <= j < a -> at_ s j = None;
  la_none : forall s i, boundary s i -> find s i = None -> forall j, i <= j -> at_ s j = None
}.

(* offsets from which the repeated search continues after non-empty matches *)
Inductive reached (find : str -> nat -> option (nat * nat)) (s : str) : nat -> Prop :=
| reached_start : reached find s 0
| reached_next : forall i a b, reached find s i -> find s i = Some (a, b) -> a < b -> reached find s b.
