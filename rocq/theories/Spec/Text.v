(* Specification vocabulary for texts, independent of the model's offset
   arithmetic: the UTF-8 encoding itself, and positions as prefixes. *)
From Coq Require Export List NArith ZArith.
Export ListNotations.

(* UTF-8 encoding of one scalar value *)
Definition utf8_bytes (c : N) : list N :=
  (if c <? 128 then [c]
   else if c <? 2048 then [192 + c / 64; 128 + c mod 64]
   else if c <? 65536 then [224 + c / 4096; 128 + (c / 64) mod 64; 128 + c mod 64]
   else [240 + c / 262144; 128 + (c / 4096) mod 64; 128 + (c / 64) mod 64; 128 + c mod 64])%N.

Definition bytes (s : list N) : list N := flat_map utf8_bytes s.

(* number of bytes of a text *)
Definition nbytes (s : list N) : nat := length (bytes s).

(* [t] is the part of [s] between the byte offsets [a] and [b] (which therefore lie
   on character boundaries) *)
Definition part_at (s : list N) (a b : nat) (t : list N) : Prop :=
  exists p q, s = p ++ t ++ q /\ nbytes p = a /\ nbytes (p ++ t) = b.

(* byte offset [n] is a character boundary of [s] *)
Definition boundary (s : list N) (n : nat) : Prop :=
  exists p q, s = p ++ q /\ nbytes p = n.

(* sum of per-character weights *)
Definition weight (w : N -> nat) (s : list N) : nat := list_sum (map w s).
