(* Model of the hash of a match: sds/src/match_action.rs 135-148.
   farmhash::fingerprint64 is the external crate farmhash; [fingerprint64] below follows
   the published algorithm (Hash64 of the namespace farmhashna of Google's FarmHash), and
   the values expected by the unit tests of /repo are theorem C86_expected (they reach the
   branches for 4-7, 8-16, 33-64 and more bytes; C86_expected_lengths reaches the others).
   Simplification: the bytes of a match are a list; reading past the end of the list,
   which the algorithm never does, reads 0. *)
From Verif Require Export Model.MatchAction Model.Utf8.
Local Open Scope N_scope.

(* ---- arithmetic of u64 ---- *)
Definition w64 (n : N) : N := n mod 2 ^ 64.
Definition mul64 (a b : N) : N := w64 (a * b).
Definition rotate64 (v s : N) : N := N.lor (N.shiftr v s) (w64 (N.shiftl v (64 - s))).
Definition shift_mix (v : N) : N := N.lxor v (N.shiftr v 47).
(* the little-endian number of [n] bytes from position [i] *)
Fixpoint little_endian (b : octets) : N :=
  match b with [] => 0 | x :: b' => x + 256 * little_endian b' end.
Definition fetch64 (s : octets) (i : nat) : N := little_endian (firstn 8 (skipn i s)).
Definition fetch32 (s : octets) (i : nat) : N := little_endian (firstn 4 (skipn i s)).
Definition byte_at (s : octets) (i : nat) : N := nth i s 0.

(* ---- farmhash ---- *)
Definition farm_k0 : N := 14097894508562428199.
Definition farm_k1 : N := 13011662864482103923.
Definition farm_k2 : N := 11160318154034397263.
Definition hash_len_16 (u v mul : N) : N :=
  let a := mul64 (N.lxor u v) mul in
  let a := N.lxor a (N.shiftr a 47) in
  let b := mul64 (N.lxor v a) mul in
  let b := N.lxor b (N.shiftr b 47) in
  mul64 b mul.
Definition hash_len_0_16 (s : octets) : N :=
  let len := length s in
  if (8 <=? len)%nat then
    let mul := w64 (farm_k2 + 2 * N.of_nat len) in
    let a := w64 (fetch64 s 0 + farm_k2) in
    let b := fetch64 s (len - 8) in
    let c := w64 (rotate64 b 37 * mul + a) in
    let d := mul64 (rotate64 a 25 + b) mul in
    hash_len_16 c d mul
  else if (4 <=? len)%nat then
    let mul := w64 (farm_k2 + 2 * N.of_nat len) in
    hash_len_16 (N.of_nat len + 8 * fetch32 s 0) (fetch32 s (len - 4)) mul
  else if (0 <? len)%nat then
    let y := byte_at s 0 + 256 * byte_at s (Nat.div2 len) in
    let z := N.of_nat len + 4 * byte_at s (len - 1) in
    mul64 (shift_mix (N.lxor (mul64 y farm_k2) (mul64 z farm_k0))) farm_k2
  else farm_k2.
Definition hash_len_17_32 (s : octets) : N :=
  let len := length s in
  let mul := w64 (farm_k2 + 2 * N.of_nat len) in
  let a := mul64 (fetch64 s 0) farm_k1 in
  let b := fetch64 s 8 in
  let c := mul64 (fetch64 s (len - 8)) mul in
  let d := mul64 (fetch64 s (len - 16)) farm_k2 in
  hash_len_16 (w64 (rotate64 (w64 (a + b)) 43 + rotate64 c 30 + d))
              (w64 (a + rotate64 (w64 (b + farm_k2)) 18 + c)) mul.
Definition hash_len_33_64 (s : octets) : N :=
  let len := length s in
  let mul := w64 (farm_k2 + 2 * N.of_nat len) in
  let a := mul64 (fetch64 s 0) farm_k2 in
  let b := fetch64 s 8 in
  let c := mul64 (fetch64 s (len - 8)) mul in
  let d := mul64 (fetch64 s (len - 16)) farm_k2 in
  let y := w64 (rotate64 (w64 (a + b)) 43 + rotate64 c 30 + d) in
  let z := hash_len_16 y (w64 (a + rotate64 (w64 (b + farm_k2)) 18 + c)) mul in
  let e := mul64 (fetch64 s 16) mul in
  let f := fetch64 s 24 in
  let g := mul64 (y + fetch64 s (len - 32)) mul in
  let h := mul64 (z + fetch64 s (len - 24)) mul in
  hash_len_16 (w64 (rotate64 (w64 (e + f)) 43 + rotate64 g 30 + h))
              (w64 (e + rotate64 (w64 (f + a)) 18 + g)) mul.

(* WeakHashLen32WithSeeds at position [i] *)
Definition weak_hash (s : octets) (i : nat) (a b : N) : N * N :=
  let w := fetch64 s i in
  let x := fetch64 s (i + 8) in
  let y := fetch64 s (i + 16) in
  let z := fetch64 s (i + 24) in
  let a := w64 (a + w) in
  let b := rotate64 (w64 (b + a + z)) 21 in
  let c := a in
  let a := w64 (a + x + y) in
  let b := w64 (b + rotate64 a 44) in
  (w64 (a + z), w64 (b + c)).

(* the state of the loop over blocks of 64 bytes: x, y, z, v, w *)
Record farm_state := { fs_x : N; fs_y : N; fs_z : N; fs_v : N * N; fs_w : N * N }.
(* one block at position [i]; [mul] and [nine] (the factors of w.second and v.first) differ
   between the loop and the last 64 bytes *)
Definition farm_block (s : octets) (mul nine : N) (st : farm_state) (i : nat) : farm_state :=
  let v := fs_v st in
  let w := fs_w st in
  let x := mul64 (rotate64 (w64 (fs_x st + fs_y st + fst v + fetch64 s (i + 8))) 37) mul in
  let y := mul64 (rotate64 (w64 (fs_y st + snd v + fetch64 s (i + 48))) 42) mul in
  let x := N.lxor x (mul64 (snd w) nine) in
  let y := w64 (y + nine * fst v + fetch64 s (i + 40)) in
  let z := mul64 (rotate64 (w64 (fs_z st + fst w)) 33) mul in
  let v := weak_hash s i (mul64 (snd v) mul) (w64 (x + fst w)) in
  let w := weak_hash s (i + 32) (w64 (z + snd w)) (w64 (y + fetch64 s (i + 16))) in
  {| fs_x := z; fs_y := y; fs_z := x; fs_v := v; fs_w := w |}.
Definition hash_long (s : octets) : N :=
  let len := length s in
  let y := w64 (81 * farm_k1 + 113) in
  let z := mul64 (shift_mix (w64 (y * farm_k2 + 113))) farm_k2 in
  let x := w64 (81 * farm_k2 + fetch64 s 0) in
  let blocks := Nat.div (len - 1) 64 in
  let rest := Nat.modulo (len - 1) 64 in
  let st := fold_left (farm_block s farm_k1 1) (map (Nat.mul 64) (List.seq 0 blocks))
              {| fs_x := x; fs_y := y; fs_z := z; fs_v := (0, 0); fs_w := (0, 0) |} in
  let mul := w64 (farm_k1 + 2 * (fs_z st mod 256)) in
  let w := w64 (fst (fs_w st) + N.of_nat rest) in
  let v := w64 (fst (fs_v st) + w) in
  let w := w64 (w + v) in
  let st := farm_block s mul 9
              {| fs_x := fs_x st; fs_y := fs_y st; fs_z := fs_z st;
                 fs_v := (v, snd (fs_v st)); fs_w := (w, snd (fs_w st)) |} (len - 64) in
  hash_len_16 (w64 (hash_len_16 (fst (fs_v st)) (fst (fs_w st)) mul + shift_mix (fs_y st) * farm_k0 + fs_z st))
              (w64 (hash_len_16 (snd (fs_v st)) (snd (fs_w st)) mul + fs_x st)) mul.
Definition fingerprint64 (s : octets) : N :=
  let len := length s in
  if (len <=? 16)%nat then hash_len_0_16 s
  else if (len <=? 32)%nat then hash_len_17_32 s
  else if (len <=? 64)%nat then hash_len_33_64 s
  else hash_long s.

(* ---- match_action.rs ---- *)
(* {:x}: LowerHex of u64 in core::fmt::num writes digits from the last one until the rest is 0;
   a u64 has at most 16 of them *)
Definition hex_digit (d : N) : char := if d <? 10 then 48 + d else 87 + d.
Fixpoint hex_from (digits : nat) (n : N) (after : str) : str :=
  match digits with
  | O => after
  | S k =>
    let after := hex_digit (n mod 16) :: after in
    if n / 16 =? 0 then after else hex_from k (n / 16) after
  end.
Definition lower_hex (n : N) : str := hex_from 16 n [].

(* str::encode_utf16 and u16::to_le_bytes *)
Definition utf16_units (c : char) : list N :=
  if c <? 65536 then [c] else [55296 + (c - 65536) / 1024; 56320 + (c - 65536) mod 1024].
Definition le_bytes (u : N) : octets := [u mod 256; u / 256].
Definition utf16_bytes (s : str) : octets := flat_map le_bytes (flat_map utf16_units s).

(* 135-138 and 140-148; [fp] is farmhash::fingerprint64 *)
Definition hash_text (fp : octets -> N) (m : str) : str := lower_hex (fp (as_bytes m)).
Definition utf16_hash_text (fp : octets -> N) (m : str) : str := lower_hex (fp (utf16_bytes m)).
Definition hashers_of (fp : octets -> N) : hashers := {| hash_utf8 := hash_text fp; hash_utf16 := utf16_hash_text fp |}.
Definition farm_hashers : hashers := hashers_of fingerprint64.
