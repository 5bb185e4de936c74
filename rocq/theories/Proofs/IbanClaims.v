(* The IBAN check, with the crate it calls (C98): proofs of the statements of Thm/Iban.v *)
From Coq Require Import Lia ZArith ZifyN ZifyBool.
From Verif Require Export Proofs.Iban Model.Jwt Examples.Iban.

Local Open Scope N_scope.
Definition rotated (s : str) : str := skipn 4 s ++ firstn 4 s.
Lemma parsed_number countries s : iban_parses countries s = true ->
  forallb plain_char (map to_ascii_upper s) = true /\ number (rotated (map to_ascii_upper s)) mod 97 = 1 /\ (length s <= 34)%nat.
Proof.
  unfold iban_parses. destruct s as [|c1 [|c2 [|d1 [|d2 rest]]]]; try discriminate. unfold iban_electronic.
  destruct (_ && Nat.leb (length rest) 30) eqn:G; [|discriminate].
  rewrite !Bool.andb_true_iff in G. destruct G as [[[[[U1 U2] D1] D2] F] L]. apply Nat.leb_le in L.
  rewrite Bool.andb_true_iff, N.eqb_eq. intros [K _].
  assert (forall c, is_ascii_upper c = true -> to_ascii_upper c = c) as Eu.
  { intros c H. unfold to_ascii_upper. destruct (is_ascii_lower c) eqn:E; [|reflexivity]. apply upper_b in H. apply lower_b in E. unfold upper_letter, lower_letter in *. lia. }
  assert (forall c, is_ascii_digit c = true -> to_ascii_upper c = c) as Ed.
  { intros c H. unfold to_ascii_upper. destruct (is_ascii_lower c) eqn:E; [|reflexivity]. apply digit_b in H. apply lower_b in E. unfold is_digit, lower_letter in *. lia. }
  assert (forallb plain_char (c1 :: c2 :: d1 :: d2 :: map to_ascii_upper rest) = true) as P.
  { cbn. unfold plain_char at 1 2 3 4. rewrite U1, U2, D1, D2, !Bool.orb_true_r. cbn. apply plain_upper. exact F. }
  cbn [map]. rewrite (Eu c1 U1), (Eu c2 U2), (Ed d1 D1), (Ed d2 D2). split; [exact P|]. split; [|cbn; lia].
  unfold iban_checksum in K. fold (rotated (c1 :: c2 :: d1 :: d2 :: map to_ascii_upper rest)) in K. rewrite checksum_spec in K; [exact K|].
  unfold rotated. cbn [skipn firstn]. rewrite forallb_app, Bool.andb_true_iff. cbn in P. rewrite !Bool.andb_true_iff in P.
  cbn. rewrite !Bool.andb_true_iff. tauto.
Qed.
Lemma rotated_one (a b : str) : exists u v, forall c, rotated (a ++ c :: b) = u ++ c :: v.
Proof.
  unfold rotated. destruct (Nat.leb (length a) 3) eqn:L; [apply Nat.leb_le in L|apply Nat.leb_gt in L].
  - exists (skipn (4 - length a - 1) b ++ a), (firstn (4 - length a - 1) b). intros c.
    rewrite skipn_app, firstn_app, (skipn_all2 a), (firstn_all2 a) by lia.
    destruct (4 - length a)%nat as [|k] eqn:E; [lia|]. cbn [app skipn firstn]. replace (S k - 1)%nat with k by lia.
    rewrite app_assoc. reflexivity.
  - exists (skipn 4 a), (b ++ firstn 4 a). intros c. rewrite skipn_app, firstn_app. replace (4 - length a)%nat with 0%nat by lia.
    cbn [skipn firstn]. rewrite app_nil_r, <- app_assoc. reflexivity.
Qed.
Lemma rotated_two (a b e : str) : exists u v w, (length v <= length a + length b + length e)%nat /\
  ((forall c d, rotated (a ++ c :: b ++ d :: e) = u ++ c :: v ++ d :: w) \/
   (forall c d, rotated (a ++ c :: b ++ d :: e) = u ++ d :: v ++ c :: w)).
Proof.
  unfold rotated. destruct (Nat.leb (length a) 3) eqn:L; [apply Nat.leb_le in L|apply Nat.leb_gt in L].
  - destruct (Nat.leb (length a + S (length b)) 3) eqn:M; [apply Nat.leb_le in M|apply Nat.leb_gt in M].
    + exists (skipn (4 - length a - 1 - length b - 1) e ++ a), b, (firstn (4 - length a - 1 - length b - 1) e). split; [lia|]. left. intros c d.
      rewrite skipn_app, firstn_app, (skipn_all2 a), (firstn_all2 a) by lia.
      destruct (4 - length a)%nat as [|k] eqn:E; [lia|]. cbn [app skipn firstn].
      rewrite skipn_app, firstn_app, (skipn_all2 b), (firstn_all2 b) by lia.
      replace (S k - 1 - length b)%nat with (k - length b)%nat by lia.
      destruct (k - length b)%nat as [|i] eqn:E'; [lia|]. cbn [app skipn firstn]. replace (S i - 1)%nat with i by lia.
      rewrite <- !app_assoc. reflexivity.
    + exists (skipn (4 - length a - 1) b), (e ++ a), (firstn (4 - length a - 1) b). split; [rewrite app_length; lia|]. right. intros c d.
      rewrite skipn_app, firstn_app, (skipn_all2 a), (firstn_all2 a) by lia.
      destruct (4 - length a)%nat as [|k] eqn:E; [lia|]. cbn [app skipn firstn].
      rewrite skipn_app, firstn_app. replace (k - length b)%nat with 0%nat by lia. cbn [skipn firstn].
      replace (S k - 1)%nat with k by lia. rewrite app_nil_r, <- !app_assoc. cbn [app]. rewrite <- ?app_assoc. reflexivity.
  - exists (skipn 4 a), b, (e ++ firstn 4 a). split; [lia|]. left. intros c d. rewrite skipn_app, firstn_app. replace (4 - length a)%nat with 0%nat by lia.
    cbn [skipn firstn]. rewrite app_nil_r, <- !app_assoc. cbn [app]. rewrite <- ?app_assoc. reflexivity.
Qed.
Lemma kin_alnum an c d : ascii_alphanumeric an -> different_kin c d -> an c = true /\ an d = true.
Proof.
  intros A K. inversion K as [? ? H H' _|? ? c' d' Hc Hd Uc Ud _]; subst; [split; apply A; auto|].
  split; apply A; right; [inversion Hc|inversion Hd]; subst; auto.
Qed.
Lemma kin_weights c d : different_kin c d -> width (to_ascii_upper c) = width (to_ascii_upper d) /\ weight (to_ascii_upper c) <> weight (to_ascii_upper d).
Proof.
  intros K. inversion K as [? ? H H' N|? ? c' d' Hc Hd Uc Ud N]; subst.
  - assert (forall c, is_digit c -> to_ascii_upper c = c) as Ed.
    { intros x Hx. unfold to_ascii_upper. destruct (is_ascii_lower x) eqn:E; [|reflexivity]. apply lower_b in E. unfold is_digit, lower_letter in *. lia. }
    rewrite !Ed by assumption. unfold width, weight. rewrite (proj2 (digit_b c) H), (proj2 (digit_b d) H'). split; [reflexivity|].
    unfold is_digit in *. lia.
  - apply upper_case_b in Hc, Hd. rewrite <- Hc, <- Hd. unfold width, weight.
    assert (forall x, upper_letter x -> is_ascii_digit x = false) as Nd.
    { intros x Hx. apply Bool.not_true_is_false. rewrite digit_b. unfold is_digit, upper_letter in *. lia. }
    rewrite (Nd c' Uc), (Nd d' Ud). split; [reflexivity|]. unfold upper_letter in *. lia.
Qed.

Lemma c98_exact_lemma :
  forall alphanumeric countries s,
  iban_is_valid alphanumeric (iban_parses countries) s = true <->
  exists t, without_separators alphanumeric s t /\ iban countries t.
Proof.
intros an countries s. unfold iban_is_valid. rewrite iban_parses_spec. split.
- intros H. exists (filter an s). split; [apply separators_spec; reflexivity|exact H].
- intros (t & W & H). apply separators_spec in W as ->. exact H.
Qed.

Lemma c98_single_errors_lemma :
  forall alphanumeric countries x c d y, ascii_alphanumeric alphanumeric -> different_kin c d ->
  iban_is_valid alphanumeric (iban_parses countries) (x ++ c :: y) = true ->
  iban_is_valid alphanumeric (iban_parses countries) (x ++ d :: y) = false.
Proof.
intros an countries x c d y A K H. apply Bool.not_true_is_false. intros H'. unfold iban_is_valid in H, H'.
destruct (kin_alnum an c d A K) as [Ac Ad]. rewrite !filter_app in H, H'. cbn [filter] in H, H'. rewrite Ac in H. rewrite Ad in H'.
apply parsed_number in H as (P & N & _), H' as (P' & N' & _). rewrite map_app in P, P', N, N'. cbn [map] in P, P', N, N'.
destruct (rotated_one (map to_ascii_upper (filter an x)) (map to_ascii_upper (filter an y))) as (u & v & R). rewrite R in N, N'.
rewrite forallb_app, Bool.andb_true_iff in P, P'. cbn in P, P'. rewrite Bool.andb_true_iff in P, P'.
destruct (kin_weights c d K) as [W Ne].
apply (changed_number u (to_ascii_upper c) (to_ascii_upper d) v); [apply P|apply P'|exact W|exact Ne|]. rewrite N, N'. reflexivity.
Qed.

Lemma c98_exchanges_lemma :
  forall alphanumeric countries x c y d z, ascii_alphanumeric alphanumeric -> different_kin c d ->
  iban_is_valid alphanumeric (iban_parses countries) (x ++ c :: y ++ d :: z) = true ->
  iban_is_valid alphanumeric (iban_parses countries) (x ++ d :: y ++ c :: z) = false.
Proof.
intros an countries x c y d z A K H. apply Bool.not_true_is_false. intros H'. unfold iban_is_valid in H, H'.
destruct (kin_alnum an c d A K) as [Ac Ad]. rewrite filter_app in H, H'. cbn [filter] in H, H'. rewrite Ac in H. rewrite Ad in H'.
rewrite filter_app in H, H'. cbn [filter] in H, H'. rewrite Ad in H. rewrite Ac in H'.
apply parsed_number in H as (P & N & L), H' as (P' & N' & _).
rewrite map_app in P, P', N, N'. cbn [map] in P, P', N, N'. rewrite map_app in P, P', N, N'. cbn [map] in P, P', N, N'.
rewrite app_length in L. cbn [length] in L. rewrite app_length in L. cbn [length] in L.
destruct (rotated_two (map to_ascii_upper (filter an x)) (map to_ascii_upper (filter an y)) (map to_ascii_upper (filter an z))) as (u & v & w & Lv & R).
rewrite !map_length in Lv.
rewrite forallb_app, Bool.andb_true_iff in P. cbn in P. rewrite Bool.andb_true_iff, forallb_app, Bool.andb_true_iff in P. cbn in P. rewrite Bool.andb_true_iff in P.
destruct P as (_ & Pc & _ & Pd & _). destruct (kin_weights c d K) as [W Ne].
destruct R as [R|R]; rewrite R in N, N'.
- apply (exchanged_number u (to_ascii_upper c) v (to_ascii_upper d) w); [exact Pc|exact Pd|exact W|exact Ne|lia|]. rewrite N, N'. reflexivity.
- apply (exchanged_number u (to_ascii_upper c) v (to_ascii_upper d) w); [exact Pc|exact Pd|exact W|exact Ne|lia|]. rewrite N, N'. reflexivity.
Qed.

Lemma c98_check_digits_lemma :
  forall alphanumeric countries x c d c' d' y, ascii_alphanumeric alphanumeric ->
  Forall upper_letter x -> length x = 2%nat -> is_digit c -> is_digit d -> is_digit c' -> is_digit d' ->
  iban_is_valid alphanumeric (iban_parses countries) (x ++ c :: d :: y) = true ->
  iban_is_valid alphanumeric (iban_parses countries) (x ++ c' :: d' :: y) = true ->
  let n := decimal [c - 48; d - 48] in let n' := decimal [c' - 48; d' - 48] in
  n = n' \/ n = n' + 97 \/ n' = n + 97.
Proof.
intros an countries x c d c' d' y A U L2 Dc Dd Dc' Dd' H H' n n'. unfold iban_is_valid in H, H'.
destruct (two_of _ L2) as (a & b & ->). inversion U as [|? ? Ua U']; subst. inversion U' as [|? ? Ub _]; subst.
cbn [app filter] in H, H'. rewrite (A a), (A b), (A c), (A d) in H by auto. rewrite (A a), (A b), (A c'), (A d') in H' by auto.
apply parsed_number in H as (_ & N & _), H' as (_ & N' & _).
assert (forall c, is_digit c -> to_ascii_upper c = c) as Ed.
{ intros x Hx. unfold to_ascii_upper. destruct (is_ascii_lower x) eqn:E; [|reflexivity]. apply lower_b in E. unfold is_digit, lower_letter in *. lia. }
cbn [map rotated skipn firstn] in N, N'. unfold rotated in N, N'. cbn [skipn firstn] in N, N'. rewrite (Ed c Dc), (Ed d Dd) in N. rewrite (Ed c' Dc'), (Ed d' Dd') in N'.
set (r := map to_ascii_upper (filter an y)) in *.
assert (forall e f, is_digit e -> is_digit f -> number (r ++ [to_ascii_upper a; to_ascii_upper b; e; f]) =
  number (r ++ [to_ascii_upper a; to_ascii_upper b]) * 100 + decimal [e - 48; f - 48]) as S.
{ intros e f He Hf. change [to_ascii_upper a; to_ascii_upper b; e; f] with ([to_ascii_upper a; to_ascii_upper b] ++ [e; f]). rewrite app_assoc, number_app.
  assert (scale [e; f] = 100) as -> by (cbn [scale fold_right]; unfold width; rewrite (proj2 (digit_b e) He), (proj2 (digit_b f) Hf); reflexivity).
  f_equal. unfold number, decimal. cbn [fold_left]. unfold width, weight. rewrite (proj2 (digit_b e) He), (proj2 (digit_b f) Hf). lia. }
rewrite S in N, N' by assumption. fold n in N. fold n' in N'.
assert (n < 100) by (unfold n, decimal; cbn [fold_left]; unfold is_digit in *; lia).
assert (n' < 100) by (unfold n', decimal; cbn [fold_left]; unfold is_digit in *; lia).
rewrite <- N' in N. apply same_remainder in N. destruct N as [q N]. lia.
Qed.

