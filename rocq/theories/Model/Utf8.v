(* UTF-8: the bytes of a string, and String::from_utf8_lossy.  This is code of the Rust
   standard library (core::str), used by sds-bindings-utils/src/binary_encoding.rs; it
   is not code of the repository. *)
From Verif Require Export Model.Str.

Notation octet := N (only parsing).
Notation octets := (list N) (only parsing).

(* [char::encode_utf8] *)
Definition char_bytes (c : char) : octets :=
  (if c <? 128 then [c]
   else if c <? 2048 then [192 + c / 64; 128 + c mod 64]
   else if c <? 65536 then [224 + c / 4096; 128 + c / 64 mod 64; 128 + c mod 64]
   else [240 + c / 262144; 128 + c / 4096 mod 64; 128 + c / 64 mod 64; 128 + c mod 64])%N.

(* [str::as_bytes] *)
Definition as_bytes (s : str) : octets := flat_map char_bytes s.

(* continuation byte: [b & 0xC0 == 0x80] *)
Definition is_cont (b : octet) : bool := in_range 128 191 b.

(* core::str::lossy, the second byte allowed after the first byte of a sequence of
   three and of four bytes *)
Definition second_of_three (b0 b1 : octet) : bool :=
  ((b0 =? 224) && in_range 160 191 b1 || in_range 225 236 b0 && in_range 128 191 b1
   || (b0 =? 237) && in_range 128 159 b1 || in_range 238 239 b0 && in_range 128 191 b1)%N.
Definition second_of_four (b0 b1 : octet) : bool :=
  ((b0 =? 240) && in_range 144 191 b1 || in_range 241 243 b0 && in_range 128 191 b1
   || (b0 =? 244) && in_range 128 143 b1)%N.

(* U+FFFD *)
Definition replacement_char : char := 65533%N.

(* [String::from_utf8_lossy]: every maximal ill-formed piece becomes one U+FFFD *)
Fixpoint from_utf8_lossy (l : octets) : str :=
  match l with
  | [] => []
  | b0 :: l0 =>
    if (b0 <? 128)%N then b0 :: from_utf8_lossy l0
    else if in_range 194 223 b0 then
      match l0 with
      | b1 :: l1 =>
        if is_cont b1 then ((b0 - 192) * 64 + (b1 - 128))%N :: from_utf8_lossy l1
        else replacement_char :: from_utf8_lossy l0
      | [] => [replacement_char]
      end
    else if in_range 224 239 b0 then
      match l0 with
      | b1 :: l1 =>
        if second_of_three b0 b1 then
          match l1 with
          | b2 :: l2 =>
            if is_cont b2
            then ((b0 - 224) * 4096 + (b1 - 128) * 64 + (b2 - 128))%N :: from_utf8_lossy l2
            else replacement_char :: from_utf8_lossy l1
          | [] => [replacement_char]
          end
        else replacement_char :: from_utf8_lossy l0
      | [] => [replacement_char]
      end
    else if in_range 240 244 b0 then
      match l0 with
      | b1 :: l1 =>
        if second_of_four b0 b1 then
          match l1 with
          | b2 :: l2 =>
            if is_cont b2 then
              match l2 with
              | b3 :: l3 =>
                if is_cont b3
                then ((b0 - 240) * 262144 + (b1 - 128) * 4096 + (b2 - 128) * 64 + (b3 - 128))%N
                     :: from_utf8_lossy l3
                else replacement_char :: from_utf8_lossy l2
              | [] => [replacement_char]
              end
            else replacement_char :: from_utf8_lossy l1
          | [] => [replacement_char]
          end
        else replacement_char :: from_utf8_lossy l0
      | [] => [replacement_char]
      end
    else replacement_char :: from_utf8_lossy l0
  end.
