(* Model of sds/src/path.rs and of the path standardisation in
   sds/src/proximity_keywords/mod.rs *)
From Verif Require Export Model.Str.

(* path.rs 15-20 *)
Inductive segment := Field (name : str) | Index (i : nat).

(* path.rs 10-13 *)
Definition path := list segment.

(* derived [PartialEq] of PathSegment and Path, path.rs 10, 15 *)
Definition segment_eqb (a b : segment) : bool :=
  match a, b with
  | Field x, Field y => str_eqb x y
  | Index i, Index j => i =? j
  | _, _ => false
  end.
Fixpoint path_eqb (a b : path) : bool :=
  match a, b with
  | [], [] => true
  | x :: a', y :: b' => segment_eqb x y && path_eqb a' b'
  | _, _ => false
  end.

(* path.rs 101-103 *)
Definition is_index (s : segment) : bool :=
  match s with Index _ => true | Field _ => false end.

(* path.rs 43-56 *)
Fixpoint zip_all_eq (a b : path) : bool :=
  match a, b with
  | x :: a', y :: b' => segment_eqb x y && zip_all_eq a' b'
  | _, _ => true
  end.
Definition starts_with (self prefix : path) : bool :=
  if length self <? length prefix then false else zip_all_eq prefix self.

(* proximity_keywords/mod.rs 37 *)
Definition link_chars : list char := [45; 95; 46; 32; 47]%N. (* - _ . space / *)
(* proximity_keywords/mod.rs 39 *)
Definition unified_link_char : char := 46%N.

(* proximity_keywords/mod.rs 262-267 *)
Inductive char_type := Regular | Uppercase | Separator.

(* proximity_keywords/mod.rs 269-280 *)
Definition get_char_type (c : char) : char_type :=
  if existsb (N.eqb c) link_chars then Separator
  else if is_ascii_upper c then Uppercase
  else Regular.

(* proximity_keywords/mod.rs 282-287 *)
Inductive bypass := BypassLower | BypassUpper | NoBypass.

(* proximity_keywords/mod.rs 289-313; the two accumulators are the mutable
   locals of the loop *)
Fixpoint bypass_loop (s : str) (all_lower all_upper : bool) : bypass :=
  match s with
  | [] => if all_lower then BypassLower else BypassUpper
  | c :: s' =>
    let is_upper := is_ascii_upper c in
    let is_lower := is_ascii_lower c in
    if negb is_lower && negb is_upper then NoBypass
    else
      let al := all_lower && is_lower in
      let au := all_upper && is_upper in
      if negb al && negb au then NoBypass
      else bypass_loop s' al au
  end.
Definition should_bypass_standardize_path (s : str) : bypass := bypass_loop s true true.

(* proximity_keywords/mod.rs 317-368: the characters given to the closure, in
   order.  [kw_length - 2] is only evaluated when a second character exists, so
   the byte length is at least 2 and it cannot underflow. *)
Fixpoint standardize_loop (kw_length : nat) (i : nat) (previous : char) (rest : str) : str :=
  match rest with
  | [] => []
  | current :: rest' =>
    let is_last_char := i =? kw_length - 2 in
    let pushed :=
      match is_last_char, get_char_type previous, get_char_type current with
      | true, _, _ => [current]
      | _, _, Regular => [current]
      | _, Separator, _ => [current]
      | _, Uppercase, Uppercase => [current]
      | _, Regular, Uppercase => [unified_link_char; current]
      | _, _, Separator => [unified_link_char]
      end in
    pushed ++ standardize_loop kw_length (S i) current rest'
  end.
Definition standardize_path_chars (s : str) : str :=
  match s with
  | [] => []
  | c :: rest => c :: standardize_loop (blen s) 0 c rest
  end.

(* path.rs 79-85: one field, as appended to the sanitized path *)
Definition sanitize_field (f : str) : str :=
  match should_bypass_standardize_path f with
  | NoBypass => map to_ascii_lower (standardize_path_chars f)
  | BypassLower | BypassUpper => map to_ascii_lower f
  end.

(* path.rs 70-90; [i] is the position in the path *)
Fixpoint sanitize_at (i : nat) (p : path) : str :=
  match p with
  | [] => []
  | Field f :: p' =>
      (if i =? 0 then [] else [unified_link_char]) ++ sanitize_field f ++ sanitize_at (S i) p'
  | Index _ :: p' => sanitize_at (S i) p'
  end.
Definition sanitize (p : path) : str := sanitize_at 0 p.

(* path.rs 113-131 *)
Definition sanitize_segment (s : segment) : option str :=
  match s with
  | Field f =>
      Some (match should_bypass_standardize_path f with
            | BypassLower => f
            | BypassUpper => map to_ascii_lower f
            | NoBypass => map to_ascii_lower (standardize_path_chars f)
            end)
  | Index _ => None
  end.

(* decimal digits of a usize, as printed by [write!("{}")] *)
Fixpoint decimal_loop (fuel n : nat) (acc : str) : str :=
  match fuel with
  | 0 => acc
  | S fuel' =>
    let acc' := N.of_nat (48 + n mod 10) :: acc in
    if n <? 10 then acc' else decimal_loop fuel' (n / 10) acc'
  end.
Definition decimal (n : nat) : str := decimal_loop (S n) n [].

(* path.rs 142-159 *)
Fixpoint display_at (i : nat) (p : path) : str :=
  match p with
  | [] => []
  | Field f :: p' => (if i =? 0 then [] else [46%N]) ++ f ++ display_at (S i) p'
  | Index n :: p' => [91%N] ++ decimal n ++ [93%N] ++ display_at (S i) p'
  end.
Definition display (p : path) : str := display_at 0 p.
