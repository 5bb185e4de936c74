(* Model of sds/src/proximity_keywords/{mod,included_keywords,excluded_keywords}.rs *)
From Verif Require Export Model.Path.

(* proximity_keywords/mod.rs 20, 21, 26 *)
Definition max_keyword_count : nat := 50.
Definition max_look_ahead_character_count : nat := 50.
Definition excluded_keywords_removed_chars : list char := [45; 95]%N. (* - _ *)

(* proximity_keywords/mod.rs 434-450 *)
Inductive keyword_error :=
| TooManyKeywords
| EmptyKeyword
| KeywordTooLong (n : nat)
| InvalidLookAheadCharacterCount.

Inductive result (A E : Type) := Ok (a : A) | Err (e : E).
Arguments Ok {A E} a.
Arguments Err {A E} e.

(* scanner/regex_rule/config.rs 138-148 *)
Record keywords_config := {
  kc_look_ahead : nat;
  kc_included : list str;
  kc_excluded : list str
}.

(* [char::is_whitespace] (Unicode White_Space), used by [str::trim] *)
Definition is_whitespace (c : char) : bool :=
  in_range 9 13 c || (c =? 32)%N || (c =? 133)%N || (c =? 160)%N || (c =? 5760)%N
  || in_range 8192 8202 c || (c =? 8232)%N || (c =? 8233)%N || (c =? 8239)%N
  || (c =? 8287)%N || (c =? 12288)%N.
Fixpoint trim_start (s : str) : str :=
  match s with
  | [] => []
  | c :: s' => if is_whitespace c then trim_start s' else s
  end.
(* [str::trim] *)
Definition trim (s : str) : str := rev (trim_start (rev (trim_start s))).

(* The regex AST built for a keyword (mod.rs 243-260, 371-390): a concatenation of
   ASCII word boundaries and literal characters.  The whole pattern is the
   alternation of the keywords, compiled case-insensitively (mod.rs 222-230). *)
Inductive kw_item := KwBoundary | KwLit (c : char).
Definition kw_pattern := list kw_item.

(* proximity_keywords/mod.rs 238-240 *)
Definition should_push_word_boundary (c : char) : bool := is_ascii_alpha c || is_ascii_digit c.

Definition first_char (s : str) : option char := hd_error s.
Definition last_char (s : str) : option char := hd_error (rev s).

Definition boundary_if (o : option char) : outcome kw_pattern :=
  let* c := unwrap o in
  Ret (if should_push_word_boundary c then [KwBoundary] else []).

(* proximity_keywords/mod.rs 243-260 *)
Definition keyword_content_pattern (kw : str) : outcome kw_pattern :=
  let* a := boundary_if (first_char kw) in
  let* b := boundary_if (last_char kw) in
  Ret (a ++ map KwLit kw ++ b).

(* proximity_keywords/mod.rs 371-390 *)
Definition keyword_path_pattern (kw : str) : outcome kw_pattern :=
  let* a := boundary_if (first_char kw) in
  let* b := boundary_if (last_char kw) in
  Ret (a ++ map (fun c => KwLit (to_ascii_lower c)) (standardize_path_chars kw) ++ b).

(* proximity_keywords/mod.rs 179-192: one keyword *)
Definition compile_keyword (look_ahead : nat) (removed : list char) (kw : str)
  : outcome (result (kw_pattern * kw_pattern) keyword_error) :=
  if look_ahead <? length kw then Ret (Err (KeywordTooLong look_ahead))
  else
    let trimmed := remove_chars removed (trim kw) in
    match trimmed with
    | [] => Ret (Err EmptyKeyword)
    | _ =>
      let* c := keyword_content_pattern trimmed in
      let* p := keyword_path_pattern trimmed in
      Ret (Ok (c, p))
    end.

(* [collect::<Result<Vec<_>, _>>]: the first error wins *)
Fixpoint compile_each (look_ahead : nat) (removed : list char) (kws : list str)
  : outcome (result (list (kw_pattern * kw_pattern)) keyword_error) :=
  match kws with
  | [] => Ret (Ok [])
  | kw :: kws' =>
    let* r := compile_keyword look_ahead removed kw in
    match r with
    | Err e => Ret (Err e)
    | Ok p =>
      let* rs := compile_each look_ahead removed kws' in
      match rs with
      | Err e => Ret (Err e)
      | Ok ps => Ret (Ok (p :: ps))
      end
    end
  end.

(* proximity_keywords/mod.rs 167-208: content and path alternations *)
Definition compile_keywords (look_ahead : nat) (removed : list char) (kws : list str)
  : outcome (result (option (list kw_pattern * list kw_pattern)) keyword_error) :=
  match kws with
  | [] => Ret (Ok None)
  | _ =>
    let* r := compile_each look_ahead removed kws in
    match r with
    | Err e => Ret (Err e)
    | Ok ps => Ret (Ok (Some (map fst ps, map snd ps)))
    end
  end.

(* proximity_keywords/mod.rs 43-101; the compiled regexes are represented by the
   alternations they are built from *)
Definition compile_keywords_proximity_config (c : keywords_config)
  : outcome (result (option (list kw_pattern * list kw_pattern) *
                     option (list kw_pattern * list kw_pattern)) keyword_error) :=
  if (kc_look_ahead c =? 0) || (max_look_ahead_character_count <? kc_look_ahead c)
  then Ret (Err InvalidLookAheadCharacterCount)
  else if (max_keyword_count <? length (kc_included c))
       || (max_keyword_count <? length (kc_excluded c))
  then Ret (Err TooManyKeywords)
  else
    let* i := compile_keywords (kc_look_ahead c) [] (kc_included c) in
    match i with
    | Err e => Ret (Err e)
    | Ok inc =>
      let* x := compile_keywords (kc_look_ahead c) excluded_keywords_removed_chars (kc_excluded c) in
      match x with
      | Err e => Ret (Err e)
      | Ok exc => Ret (Ok (inc, exc))
      end
    end.

(* proximity_keywords/mod.rs 108-113 *)
Definition next_char_index (content : str) (start : nat) : outcome (option nat) :=
  let* rest := slice_from content start in
  Ret (option_map (fun p => start + fst p) (iter_nth (char_indices rest) 1)).

(* proximity_keywords/mod.rs 115-117 *)
Definition prev_char_index (content : str) (start : nat) : outcome (option nat) :=
  let* before := slice_to content start in
  Ret (option_map fst (iter_next_back (char_indices before))).

(* proximity_keywords/mod.rs 125-145, without the debug assertions (see Model/Debug.v) *)
Definition is_index_within_prefix (content : str) (prefix_start target prefix_size : nat)
  : outcome bool :=
  if target <? prefix_start + prefix_size then Ret true
  else
    let* rest := slice_from content prefix_start in
    Ret (match iter_nth (char_indices rest) prefix_size with
         | None => true
         | Some (i, _) => target <=? prefix_start + i
         end).

(* proximity_keywords/mod.rs 119-123 *)
Record prefix_start := { ps_start : nat; ps_used_all_chars : bool }.

(* proximity_keywords/mod.rs 147-165; [look_ahead_char_count - 1] underflows for 0 *)
Definition get_prefix_start (match_start look_ahead : nat) (content : str)
  : outcome prefix_start :=
  let* prefix := slice_to content match_start in
  match look_ahead with
  | 0 => Panic
  | S n =>
    Ret (match iter_nth_back (char_indices prefix) n with
         | Some (i, _) => {| ps_start := i; ps_used_all_chars := true |}
         | None => {| ps_start := 0; ps_used_all_chars := false |}
         end)
  end.

(* included_keywords.rs 5-8: compiled included keywords.  The two searches stand
   for the regex engine: [ik_find content start] is the earliest search of
   included_keywords.rs 34-40, [ik_path_match] is mod.rs 103-106. *)
Record included_keywords := {
  ik_look_ahead : nat;
  ik_find : str -> nat -> option (nat * nat);
  ik_path_match : str -> bool
}.

(* excluded_keywords.rs 8-12; [xk_match_in stripped a b] stands for
   [search_half(Input::new(stripped).earliest(true).span(a..b)).is_some()] *)
Record excluded_keywords := {
  xk_look_ahead : nat;
  xk_match_in : str -> nat -> nat -> bool
}.

(* [regex_automata::Input::span] panics unless end <= len and start <= end + 1 *)
Definition check_span (s : str) (a b : nat) : outcome unit :=
  if (b <=? blen s) && (a <=? b + 1) then Ret tt else Panic.

(* excluded_keywords.rs 43-60: the stripped context and the searched span *)
Definition excluded_window (content : str) (match_start look_ahead : nat)
  : outcome (str * nat * nat) :=
  let* ps := get_prefix_start match_start (look_ahead + 1) content in
  let* ne := next_char_index content match_start in
  let prefix_end := match ne with Some i => i | None => blen content end in
  let* window := slice content (ps_start ps) prefix_end in
  let stripped := remove_chars excluded_keywords_removed_chars window in
  let* pe := prev_char_index stripped (blen stripped) in
  let span_end := match pe with Some i => i | None => 0 end in
  let* span_start :=
    (if ps_used_all_chars ps then
       let* n := next_char_index stripped 0 in
       Ret (match n with Some i => i | None => blen stripped end)
     else Ret 0) in
  Ret (stripped, span_start, span_end).

(* excluded_keywords.rs 32-66 *)
Definition contains_excluded_keyword_match (xk : excluded_keywords) (content : str)
    (match_start : nat) : outcome bool :=
  let* w := excluded_window content match_start (xk_look_ahead xk) in
  let '(stripped, a, b) := w in
  let* _ := check_span stripped a b in
  Ret (xk_match_in xk stripped a b).

(* included_keywords.rs 26-30 *)
Definition skip_to (cur start : nat) : nat := if cur <? start then start else cur.

(* included_keywords.rs 32-50: the found keyword start and the new cursor *)
Definition keyword_next (ik : included_keywords) (content : str) (start : nat)
  : outcome (option (nat * nat)) :=
  match ik_find ik content start with
  | None => Ret None
  | Some (a, b) =>
    let* n := next_char_index content a in
    Ret (Some (a, match n with Some i => i | None => b end))
  end.
