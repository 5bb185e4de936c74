(* Hashed matches: the printed numeral, the bytes of UTF-16, the range of the fingerprint *)
From Coq Require Import Lia ZifyN ZifyBool.
From Verif Require Export Spec.Hash Proofs.Codec.
Local Open Scope N_scope.

Lemma hex_digit_lower : forall d, d < 16 -> lower_digit (hex_digit d) d.
Proof. intros d L. unfold lower_digit, hex_digit. destruct (d <? 10) eqn:E; [left|right]; lia. Qed.
Lemma hex_from_spec : forall k n after, n < 16 ^ N.of_nat (S k) ->
  exists t, hex_from (S k) n after = t ++ after /\ hex_numeral t n /\ (1 <= length t <= S k)%nat.
Proof.
  induction k as [|k IH]; intros n after L.
  - change (16 ^ N.of_nat 1) with 16 in L. cbn [hex_from]. rewrite (N.mod_small n 16 L), (N.div_small n 16 L). cbn [N.eqb].
    exists [hex_digit n]. split; [reflexivity|]. split; [constructor; apply hex_digit_lower; exact L|cbn; lia].
  - remember (S k) as k'. cbn [hex_from]. pose proof (N.div_mod' n 16) as D. pose proof (N.mod_lt n 16 ltac:(discriminate)) as R.
    destruct (n / 16 =? 0) eqn:E.
    + apply N.eqb_eq in E. exists [hex_digit (n mod 16)]. split; [reflexivity|]. split; [|cbn; lia].
      rewrite E in D. cbn in D. rewrite <- D in *. constructor. apply hex_digit_lower. exact R.
    + apply N.eqb_neq in E. destruct (IH (n / 16) (hex_digit (n mod 16) :: after)) as (t & -> & H & B).
      { subst k'. apply N.div_lt_upper_bound; [discriminate|]. replace (16 * 16 ^ N.of_nat (S k)) with (16 ^ N.of_nat (S (S k))); [exact L|].
        rewrite (Nat2N.inj_succ (S k)), N.pow_succ_r'. reflexivity. }
      exists (t ++ [hex_digit (n mod 16)]). split; [rewrite <- app_assoc; reflexivity|]. split; [|rewrite app_length; cbn; lia].
      rewrite D at 2. rewrite (N.mul_comm 16). constructor; [exact H|lia|apply hex_digit_lower; exact R].
Qed.
Lemma lower_hex_spec : forall n, n < 2 ^ 64 -> hex_numeral (lower_hex n) n /\ (1 <= length (lower_hex n) <= 16)%nat.
Proof.
  intros n L. destruct (hex_from_spec 15 n [] L) as (t & E & H & B). unfold lower_hex. rewrite E, app_nil_r. auto.
Qed.

Lemma lower_digit_det : forall c d d', lower_digit c d -> lower_digit c d' -> d = d'.
Proof. unfold lower_digit. lia. Qed.
Lemma hex_numeral_det : forall t n, hex_numeral t n -> forall n', hex_numeral t n' -> n = n'.
Proof.
  intros t n H. induction H as [c d D|t n c d H IH P D]; intros n' K; inversion K as [c' d' D' E1 E2|t' m c' d' H' P' D' E1 E2].
  - subst. exact (lower_digit_det _ _ _ D D').
  - destruct t' as [|? [|]]; try discriminate E1. inversion H' as [|? ? ? ? ? ? ? Z]; destruct t; discriminate Z.
  - destruct t as [|? [|]]; try discriminate E1. inversion H as [|? ? ? ? ? ? ? Z]; destruct t; discriminate Z.
  - apply app_inj_tail in E1 as [-> ->]. rewrite (IH m H'), (lower_digit_det _ _ _ D D'). reflexivity.
Qed.

(* ---- UTF-16 ---- *)
Lemma char_utf16_bytes : forall c b, char_utf16 c b -> flat_map le_bytes (utf16_units c) = b.
Proof.
  intros c b H. destruct H as [lo hi L1 L2 N|x y z t L1 L2 L3 L4]; unfold utf16_units.
  - destruct (_ <? _) eqn:E; [|lia]. cbn [flat_map le_bytes app]. unfold le_bytes. cbn [app].
    assert (A : (hi * 256 + lo) / 256 = hi) by (symmetry; apply (N.div_unique _ 256 hi lo L1); lia).
    assert (B : (hi * 256 + lo) mod 256 = lo) by (symmetry; apply (N.mod_unique _ 256 hi lo L1); lia).
    rewrite A, B. reflexivity.
  - destruct (_ <? _) eqn:E; [lia|]. replace (65536 + (x * 256 + y) * 1024 + (z * 256 + t) - 65536) with ((x * 256 + y) * 1024 + (z * 256 + t)) by lia.
    assert (A : ((x * 256 + y) * 1024 + (z * 256 + t)) / 1024 = x * 256 + y) by (symmetry; apply (N.div_unique _ 1024 _ (z * 256 + t)); lia).
    assert (B : ((x * 256 + y) * 1024 + (z * 256 + t)) mod 1024 = z * 256 + t) by (symmetry; apply (N.mod_unique _ 1024 (x * 256 + y)); lia).
    rewrite A, B. cbn [flat_map app]. unfold le_bytes. cbn [app].
    assert (A1 : (55296 + (x * 256 + y)) / 256 = 216 + x) by (symmetry; apply (N.div_unique _ 256 _ y); lia).
    assert (B1 : (55296 + (x * 256 + y)) mod 256 = y) by (symmetry; apply (N.mod_unique _ 256 (216 + x)); lia).
    assert (A2 : (56320 + (z * 256 + t)) / 256 = 220 + z) by (symmetry; apply (N.div_unique _ 256 _ t); lia).
    assert (B2 : (56320 + (z * 256 + t)) mod 256 = t) by (symmetry; apply (N.mod_unique _ 256 (220 + z)); lia).
    rewrite A1, B1, A2, B2. reflexivity.
Qed.
Lemma utf16_of_bytes : forall s b, utf16_of s b -> utf16_bytes s = b.
Proof.
  intros s b H. unfold utf16_bytes. induction H as [|c b s bs Hc H IH]; [reflexivity|].
  cbn [flat_map]. rewrite flat_map_app, (char_utf16_bytes c b Hc), IH. reflexivity.
Qed.
Lemma scalar_utf16 : forall c, scalar c -> exists b, char_utf16 c b.
Proof.
  intros c S. unfold scalar in S. destruct (N.lt_ge_cases c 65536) as [L|L].
  - exists [c mod 256; c / 256]. pose proof (N.div_mod' c 256) as D. pose proof (N.mod_lt c 256 ltac:(discriminate)) as R.
    assert (Q : c / 256 < 256) by (apply N.div_lt_upper_bound; lia).
    remember (c / 256) as hi. remember (c mod 256) as lo. assert (c = hi * 256 + lo) as -> by lia. constructor; lia.
  - remember (c - 65536) as u. assert (U : u < 1048576) by lia. assert (c = 65536 + u) as -> by lia.
    pose proof (N.div_mod' u 1024) as D. pose proof (N.mod_lt u 1024 ltac:(discriminate)) as R.
    assert (Q : u / 1024 < 1024) by (apply N.div_lt_upper_bound; lia).
    remember (u / 1024) as p. remember (u mod 1024) as q.
    pose proof (N.div_mod' p 256) as Dp. pose proof (N.mod_lt p 256 ltac:(discriminate)) as Rp.
    pose proof (N.div_mod' q 256) as Dq. pose proof (N.mod_lt q 256 ltac:(discriminate)) as Rq.
    assert (Qp : p / 256 < 4) by (apply N.div_lt_upper_bound; lia). assert (Qq : q / 256 < 4) by (apply N.div_lt_upper_bound; lia).
    remember (p / 256) as x. remember (p mod 256) as y. remember (q / 256) as z. remember (q mod 256) as t.
    exists [y; 216 + x; t; 220 + z]. replace (65536 + u) with (65536 + (x * 256 + y) * 1024 + (z * 256 + t)) by lia. constructor; assumption.
Qed.
Lemma utf16_exists : forall s, Forall scalar s -> exists b, utf16_of s b.
Proof.
  induction 1 as [|c s Hc H [b IH]]; [exists []; constructor|]. destruct (scalar_utf16 c Hc) as (x & X). exists (x ++ b). constructor; assumption.
Qed.

(* ---- the fingerprint is a number of 64 bits ---- *)
Lemma w64_lt : forall n, w64 n < 2 ^ 64.
Proof. intros n. apply N.mod_lt. discriminate. Qed.
Lemma fingerprint64_lt : forall b, fingerprint64 b < 2 ^ 64.
Proof.
  intros b. unfold fingerprint64, hash_len_0_16, hash_len_17_32, hash_len_33_64, hash_long, hash_len_16, mul64.
  repeat match goal with |- context [if ?c then _ else _] => destruct c end; try (cbv zeta; apply w64_lt). reflexivity.
Qed.
