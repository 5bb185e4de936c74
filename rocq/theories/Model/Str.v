(* Rust [&str] / [String]: a sequence of Unicode scalar values, addressed by
   UTF-8 byte offsets.  This is the part of [core::str] that the scanner uses;
   it is not code of the repository. *)
From Verif Require Export Model.Base.

Notation char := N (only parsing).
Notation str := (list N) (only parsing).

(* [char::len_utf8] *)
Definition clen (c : char) : nat :=
  if (c <? 128)%N then 1
  else if (c <? 2048)%N then 2
  else if (c <? 65536)%N then 3
  else 4.

(* [str::len] : length in bytes *)
Fixpoint blen (s : str) : nat :=
  match s with
  | [] => 0
  | c :: s' => clen c + blen s'
  end.

(* [s.split_at(n)]; [None] when [n] is out of range or not a char boundary *)
Fixpoint split_at (s : str) (n : nat) {struct s} : option (str * str) :=
  match n with
  | 0 => Some ([], s)
  | _ =>
    match s with
    | [] => None
    | c :: s' =>
      if clen c <=? n then
        match split_at s' (n - clen c) with
        | Some (a, b) => Some (c :: a, b)
        | None => None
        end
      else None
    end
  end.

(* [str::is_char_boundary] *)
Definition is_char_boundary (s : str) (n : nat) : bool :=
  match split_at s n with Some _ => true | None => false end.

(* [&s[n..]], [&s[..n]], [&s[a..b]] *)
Definition slice_from (s : str) (n : nat) : outcome str :=
  match split_at s n with Some (_, b) => Ret b | None => Panic end.
Definition slice_to (s : str) (n : nat) : outcome str :=
  match split_at s n with Some (a, _) => Ret a | None => Panic end.
Definition slice (s : str) (a b : nat) : outcome str :=
  if a <=? b then
    let* p := slice_to s b in slice_from p a
  else Panic.

(* [String::replace_range(a..b, r)] *)
Definition replace_range (s : str) (a b : nat) (r : str) : outcome str :=
  if a <=? b then
    match split_at s b with
    | Some (p, q) =>
      match split_at p a with
      | Some (p1, _) => Ret (p1 ++ r ++ q)
      | None => Panic
      end
    | None => Panic
    end
  else Panic.

(* [str::char_indices], started at byte offset [off] *)
Fixpoint char_indices_at (off : nat) (s : str) : list (nat * char) :=
  match s with
  | [] => []
  | c :: s' => (off, c) :: char_indices_at (off + clen c) s'
  end.
Definition char_indices (s : str) : list (nat * char) := char_indices_at 0 s.

(* [Iterator::nth], [DoubleEndedIterator::nth_back], [next_back] *)
Definition iter_nth {A} (l : list A) (n : nat) : option A := nth_error l n.
Definition iter_nth_back {A} (l : list A) (n : nat) : option A := nth_error (rev l) n.
Definition iter_next_back {A} (l : list A) : option A := iter_nth_back l 0.

(* ASCII classes of [char] *)
Definition in_range (lo hi c : N) : bool := ((lo <=? c) && (c <=? hi))%N.
Definition is_ascii_digit (c : char) : bool := in_range 48 57 c.
Definition is_ascii_upper (c : char) : bool := in_range 65 90 c.
Definition is_ascii_lower (c : char) : bool := in_range 97 122 c.
Definition is_ascii_alpha (c : char) : bool := is_ascii_upper c || is_ascii_lower c.
Definition is_ascii_alnum (c : char) : bool := is_ascii_alpha c || is_ascii_digit c.
Definition to_ascii_lower (c : char) : char := if is_ascii_upper c then (c + 32)%N else c.
Definition to_ascii_upper (c : char) : char := if is_ascii_lower c then (c - 32)%N else c.

(* [char::to_digit(10)] *)
Definition to_digit10 (c : char) : option N :=
  if is_ascii_digit c then Some (c - 48)%N else None.

(* equality of strings *)
Fixpoint str_eqb (a b : str) : bool :=
  match a, b with
  | [], [] => true
  | x :: a', y :: b' => (x =? y)%N && str_eqb a' b'
  | _, _ => false
  end.

(* [str::replace(&[char], "")]: drop all characters of the list *)
Definition remove_chars (cs : list char) (s : str) : str :=
  filter (fun c => negb (existsb (N.eqb c) cs)) s.
