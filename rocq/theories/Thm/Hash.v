(* The text that replaces a hashed match (C86, C87) *)
From Coq Require Import Lia ZArith.
From Verif Require Import Proofs.HashClaims.

(* A match hashed by MatchAction::Hash becomes the fingerprint of its UTF-8 bytes, a number of
   64 bits, in lower-case hexadecimal without zeros in front: 1 to 16 digits.  This holds for
   any function that gives numbers of 64 bits. *)
Theorem C86_text :
  forall fp m b, (forall x, fp x < 2 ^ 64)%N -> utf8_of m b ->
  hex_numeral (redacted (hashers_of fp) ActHash m) (fp b) /\ 1 <= length (redacted (hashers_of fp) ActHash m) <= 16.
Proof. exact c86_text_lemma. Qed.
Print Assumptions C86_text.

(* "coty", and a fingerprint with four digits *)
Example C86_text_applies : exists b, utf8_of (chars "coty") b /\ (forall x, fingerprint64 x < 2 ^ 64)%N /\
  redacted farm_hashers ActHash (chars "coty") = chars "fdf7528ad7f83901" /\ redacted (hashers_of (fun _ => 43962%N)) ActHash (chars "coty") = chars "abba".
Proof.
  exists (chars "coty"). split; [apply utf8_of_iff; split; [repeat constructor|reflexivity]|]. split; [exact fingerprint64_lt|].
  split; vm_compute; reflexivity.
Qed.

(* A match hashed by MatchAction::Utf16Hash becomes the fingerprint of its UTF-16 bytes, the
   smaller byte of every unit first, written in the same way.  Every text has such bytes. *)
Theorem C86_utf16 :
  forall fp m b, (forall x, fp x < 2 ^ 64)%N -> utf8_of m b -> exists b',
  utf16_of m b' /\ hex_numeral (redacted (hashers_of fp) ActUtf16Hash m) (fp b') /\
  1 <= length (redacted (hashers_of fp) ActUtf16Hash m) <= 16.
Proof. exact c86_utf16_lemma. Qed.
Print Assumptions C86_utf16.

(* a smiling face outside the first plane, and its two surrogates *)
Example C86_utf16_applies : exists b, utf8_of [128522%N] b /\ utf16_of [128522%N] [61; 216; 10; 222]%N /\
  (forall x, fingerprint64 x < 2 ^ 64)%N /\ redacted farm_hashers ActUtf16Hash [128522%N] = chars "268a21f211fdbc0a".
Proof.
  exists (as_bytes [128522%N]). split; [apply utf8_of_iff; split; [repeat constructor; lia|reflexivity]|].
  split; [apply (us_cons 128522 [61; 216; 10; 222] [] [])%N; [apply (cs_pair 0 61 2 10); reflexivity|constructor]|].
  split; [exact fingerprint64_lt|vm_compute; reflexivity].
Qed.

(* Two matches are replaced by the same text exactly when their fingerprints are the same:
   leaving out the zeros in front confuses no two numbers. *)
Theorem C86_same :
  forall fp m m' b b', (forall x, fp x < 2 ^ 64)%N -> utf8_of m b -> utf8_of m' b' ->
  (redacted (hashers_of fp) ActHash m = redacted (hashers_of fp) ActHash m' <-> fp b = fp b').
Proof. exact c86_same_lemma. Qed.
Print Assumptions C86_same.

(* two texts of the tests with different fingerprints, one of them with a zero in front *)
Example C86_same_applies : exists b b', utf8_of (chars "coty") b /\ utf8_of (chars "rand string that has a leading zero after hashing: y") b' /\
  fingerprint64 b <> fingerprint64 b' /\ (fingerprint64 b' < 16 ^ 15)%N.
Proof.
  exists (chars "coty"), (chars "rand string that has a leading zero after hashing: y").
  split; [apply utf8_of_iff; split; [repeat constructor|reflexivity]|]. split; [apply utf8_of_iff; split; [repeat constructor|reflexivity]|].
  split; vm_compute; [discriminate|reflexivity].
Qed.

(* The fingerprint of the crate, on any bytes, is a number of 64 bits, as C86_text asks. *)
Theorem C86_range :
  forall b, (fingerprint64 b < 2 ^ 64)%N.
Proof. exact c86_range_lemma. Qed.
Print Assumptions C86_range.

Example C86_range_applies : (fingerprint64 [] = 11160318154034397263 /\ fingerprint64 (repeat 7 200) <> fingerprint64 (repeat 7 201))%N.
Proof. split; vm_compute; [reflexivity|discriminate]. Qed.

(* The model of the hash gives the values that the unit tests of the repository expect
   (match_action.rs 244-309 and 417-423, scanner/mod.rs 2090-2129): short texts, a character
   of four bytes, texts of 52, 104 and 128 bytes. *)
Theorem C86_expected :
  map (redacted farm_hashers ActHash)
    [chars "coty"; chars "rene"; [128522%N]; repeat 120%N 128; chars "rand string that has a leading zero after hashing: y"]
  = [chars "fdf7528ad7f83901"; chars "51a2842f626aaaec"; chars "6ce17744696c2107"; chars "5170af09fd870c17"; chars "9d99e4b6ad0d289"] /\
  map (redacted farm_hashers ActUtf16Hash)
    [chars "coty"; chars "rene"; [128522%N]; chars "rand string that has a leading zero after hashing: S"]
  = [chars "d6bf038129a9eb52"; chars "8627c79c79ff4b8b"; chars "268a21f211fdbc0a"; chars "8c3ad1a22e2edb1"].
Proof. exact c86_expected_lemma. Qed.
Print Assumptions C86_expected.

(* values published elsewhere for fingerprint64 (the documentation of FARM_FINGERPRINT in BigQuery) *)
Example C86_expected_published :
  map fingerprint64 [chars "1footrue"; chars "2applefalse"; chars "3true"] = [16905089972579912905; 2794438866806483259; 13566585846811780304]%N.
Proof. vm_compute. reflexivity. Qed.
(* values of the table that other implementations of farmhash test themselves with (go-farm,
   golden64), as remembered: the table is not in /repo and could not be looked up *)
Example C86_expected_table : map (fun s => fingerprint64 s)
  [chars "a";
   chars "ab";
   chars "abc";
   chars "abcdefg";
   chars "abcdefghij";
   chars "Nepal premier won't resign.";
   chars "Discard medicine more than two years old.";
   chars "The days of the digital watch are numbered.  -Tom Stoppard"] =
  [12917804110809363939;
   12289600257749001502;
   2640714258260161385;
   4341691227789030229;
   9960479591422212091;
   10282703717779097465;
   16787337721249783077;
   3051060657584739452]%N.
Proof. vm_compute. reflexivity. Qed.
(* the other branches, against a second implementation of the published algorithm, made
   separately from the model (it gives the values of the tests for "coty" and 128 times x) *)
Definition many_letters : octets :=
  chars "abcdefghijklmnopqrstuvwxyz0123456789ABCDEFGHIJKLMNOPQRSTUVWXYZ the quick brown fox jumps over it, then rests a while beside the gate; no more".
Example C86_expected_lengths : map (fun n => fingerprint64 (firstn n many_letters)) [1; 2; 3; 4; 7; 8; 16; 17; 21; 32; 33; 64; 65; 130] =
  [12917804110809363939;
   12289600257749001502;
   2640714258260161385;
   1897425971756105985;
   4341691227789030229;
   18368443631171807497;
   6080716761534418621;
   11394395984755135400;
   11312112610291868778;
   934449955909727258;
   17626719820827885067;
   18256121672606577823;
   4113243979737347790;
   18034776431059081039]%N.
Proof. vm_compute. reflexivity. Qed.

(* Hashing does not keep different secrets apart: here are two tokens of 64 letters and digits
   with the same hash.  Events that hold them come out of the scan as the same event, with the
   same reports, so nothing after the scan can tell the secrets apart. *)
Theorem C87_collision_refuted :
  exists m m', m <> m' /\ length m = 64 /\ length m' = 64 /\ forallb letter_or_digit (m ++ m') = true /\
  redacted farm_hashers ActHash m = redacted farm_hashers ActHash m' /\
  exists t out, build token_engines (builder_new [token_rule]) = Ret (Ok t) /\
    scan simple_event_impl 100 farm_hashers isort (bt_scanner t) [] (SMap [(chars "token", SString m)]) = Ret out /\
    scan simple_event_impl 100 farm_hashers isort (bt_scanner t) [] (SMap [(chars "token", SString m')]) = Ret out /\
    fst out = SMap [(chars "token", SString (chars "ed490559d2d1eec6"))] /\ length (snd out) = 1.
Proof. exact c87_collision_refuted_lemma. Qed.
Print Assumptions C87_collision_refuted.

(* other tokens do not collide *)
Example C87_collision_rare : redacted farm_hashers ActHash token_one <> redacted farm_hashers ActHash (rev token_one).
Proof. vm_compute. discriminate. Qed.

(* Hashes do not all have 16 digits. *)
Theorem C87_width_refuted :
  exists m, redacted farm_hashers ActHash m = chars "9d99e4b6ad0d289" /\ length (redacted farm_hashers ActHash m) = 15.
Proof. exact c87_width_refuted_lemma. Qed.
Print Assumptions C87_width_refuted.

Example C87_width_usual : length (redacted farm_hashers ActHash (chars "coty")) = 16.
Proof. vm_compute. reflexivity. Qed.

