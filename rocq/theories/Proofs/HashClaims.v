(* The text that replaces a hashed match (C86, C87): proofs of the statements of Thm/Hash.v *)
From Coq Require Import Lia ZArith.
From Verif Require Export Proofs.Hash Model.Builder Examples.RegexEngine Examples.Build.

(* a rule that hashes tokens of 64 letters and digits *)
Definition token_rule : rule_config := {|
  cf_pattern := chars "[A-Za-z0-9]{64}"; cf_action := ActHash; cf_scope := ScopeExclude []; cf_keywords := None;
  cf_validator := None; cf_labels := []; cf_validation := None
|}.
Definition token_engines : engines := regex_engines (en_validators literal_engines).
Definition token_one : str := chars "a3Fz9Qk1LmT7xW2sB8yN4cVdR6uE0hJpKgoIqZtCvY5bXwSnDAfUlHeMrPjGiO9T".
Definition token_two : str := chars "a3Fz9Qk1LmT7xW2s69ggvGNwv2B0qpn0KgoIqZtCIHLrSj1UDAfUlHeMrPjGiO9T".
Definition letter_or_digit (c : char) : bool := ((48 <=? c) && (c <=? 57) || (65 <=? c) && (c <=? 90) || (97 <=? c) && (c <=? 122))%N.

Lemma c86_text_lemma :
  forall fp m b, (forall x, fp x < 2 ^ 64)%N -> utf8_of m b ->
  hex_numeral (redacted (hashers_of fp) ActHash m) (fp b) /\ 1 <= length (redacted (hashers_of fp) ActHash m) <= 16.
Proof.
intros fp m b L U. cbn [redacted hashers_of hash_utf8]. unfold hash_text. rewrite (utf8_of_bytes m b U). apply lower_hex_spec, L.
Qed.

Lemma c86_utf16_lemma :
  forall fp m b, (forall x, fp x < 2 ^ 64)%N -> utf8_of m b -> exists b',
  utf16_of m b' /\ hex_numeral (redacted (hashers_of fp) ActUtf16Hash m) (fp b') /\
  1 <= length (redacted (hashers_of fp) ActUtf16Hash m) <= 16.
Proof.
intros fp m b L U. apply (proj1 (utf8_of_iff _ _)) in U as [S _]. destruct (utf16_exists m S) as (b' & B). exists b'. split; [exact B|].
cbn [redacted hashers_of hash_utf16]. unfold utf16_hash_text. rewrite (utf16_of_bytes m b' B). apply lower_hex_spec, L.
Qed.

Lemma c86_same_lemma :
  forall fp m m' b b', (forall x, fp x < 2 ^ 64)%N -> utf8_of m b -> utf8_of m' b' ->
  (redacted (hashers_of fp) ActHash m = redacted (hashers_of fp) ActHash m' <-> fp b = fp b').
Proof.
intros fp m m' b b' L U U'. cbn [redacted hashers_of hash_utf8]. unfold hash_text. rewrite (utf8_of_bytes m b U), (utf8_of_bytes m' b' U').
split; [|intros ->; reflexivity]. intros E. apply (hex_numeral_det (lower_hex (fp b))); [apply lower_hex_spec, L|].
rewrite E. apply lower_hex_spec, L.
Qed.

Lemma c86_range_lemma :
  forall b, (fingerprint64 b < 2 ^ 64)%N.
Proof.
exact fingerprint64_lt.
Qed.

Lemma c86_expected_lemma :
  map (redacted farm_hashers ActHash)
    [chars "coty"; chars "rene"; [128522%N]; repeat 120%N 128; chars "rand string that has a leading zero after hashing: y"]
  = [chars "fdf7528ad7f83901"; chars "51a2842f626aaaec"; chars "6ce17744696c2107"; chars "5170af09fd870c17"; chars "9d99e4b6ad0d289"] /\
  map (redacted farm_hashers ActUtf16Hash)
    [chars "coty"; chars "rene"; [128522%N]; chars "rand string that has a leading zero after hashing: S"]
  = [chars "d6bf038129a9eb52"; chars "8627c79c79ff4b8b"; chars "268a21f211fdbc0a"; chars "8c3ad1a22e2edb1"].
Proof.
split; vm_compute; reflexivity.
Qed.

Lemma c87_collision_refuted_lemma :
  exists m m', m <> m' /\ length m = 64 /\ length m' = 64 /\ forallb letter_or_digit (m ++ m') = true /\
  redacted farm_hashers ActHash m = redacted farm_hashers ActHash m' /\
  exists t out, build token_engines (builder_new [token_rule]) = Ret (Ok t) /\
    scan simple_event_impl 100 farm_hashers isort (bt_scanner t) [] (SMap [(chars "token", SString m)]) = Ret out /\
    scan simple_event_impl 100 farm_hashers isort (bt_scanner t) [] (SMap [(chars "token", SString m')]) = Ret out /\
    fst out = SMap [(chars "token", SString (chars "ed490559d2d1eec6"))] /\ length (snd out) = 1.
Proof.
exists token_one, token_two. split; [discriminate|]. split; [reflexivity|]. split; [reflexivity|]. split; [vm_compute; reflexivity|].
split; [vm_compute; reflexivity|].
destruct (on_built_spec _ (fun t => (scan simple_event_impl 100 farm_hashers isort (bt_scanner t) [] (SMap [(chars "token", SString token_one)]),
  scan simple_event_impl 100 farm_hashers isort (bt_scanner t) [] (SMap [(chars "token", SString token_two)]))) (build token_engines (builder_new [token_rule])) _
  ltac:(vm_compute; reflexivity)) as (t & B & E).
injection E as E1 E2. exists t. eexists. split; [exact B|]. split; [exact E1|]. split; [exact E2|]. split; reflexivity.
Qed.

Lemma c87_width_refuted_lemma :
  exists m, redacted farm_hashers ActHash m = chars "9d99e4b6ad0d289" /\ length (redacted farm_hashers ActHash m) = 15.
Proof.
exists (chars "rand string that has a leading zero after hashing: y"). split; vm_compute; reflexivity.
Qed.

