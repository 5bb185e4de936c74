(* Lemmas about the IBAN check *)
From Coq Require Import Lia ZArith ZifyN ZifyBool Znumtheory.
From Verif Require Export Spec.Iban.
Local Open Scope N_scope.

(* ---- characters ---- *)
Lemma digit_b c : is_ascii_digit c = true <-> is_digit c.
Proof. unfold is_ascii_digit, in_range, is_digit. lia. Qed.
Lemma upper_b c : is_ascii_upper c = true <-> upper_letter c.
Proof. unfold is_ascii_upper, in_range, upper_letter. lia. Qed.
Lemma lower_b c : is_ascii_lower c = true <-> lower_letter c.
Proof. unfold is_ascii_lower, in_range, lower_letter. lia. Qed.
Lemma alnum_b c : is_ascii_alnum c = true <-> is_digit c \/ upper_letter c \/ lower_letter c.
Proof. unfold is_ascii_alnum, is_ascii_alpha. rewrite !Bool.orb_true_iff, digit_b, upper_b, lower_b. tauto. Qed.
Lemma kind_b k c : kind_contains k c = true <-> of_kind k c.
Proof.
  destruct k; cbn [kind_contains].
  - rewrite digit_b. split; [apply ok_digit|inversion 1; assumption].
  - rewrite upper_b. split; [apply ok_upper|inversion 1; assumption].
  - rewrite Bool.orb_true_iff, digit_b, upper_b. split; [intros [H|H]; [apply ok_any_digit|apply ok_any_upper]; exact H|inversion 1; auto].
Qed.
Lemma upper_case_b c d : in_upper_case c d <-> d = to_ascii_upper c.
Proof.
  unfold to_ascii_upper. destruct (is_ascii_lower c) eqn:E.
  - split; [inversion 1; subst; [reflexivity|]|intros ->; apply iu_lower; apply lower_b; exact E].
    exfalso. apply lower_b in E. contradiction.
  - assert (~ lower_letter c) as N by (rewrite <- lower_b, E; discriminate).
    split; [inversion 1; subst; [contradiction|reflexivity]|intros ->; apply iu_other; exact N].
Qed.
Lemma upper_case_list s t : Forall2 in_upper_case s t <-> t = map to_ascii_upper s.
Proof.
  split.
  - induction 1 as [|c d s t Hc H IH]; [reflexivity|]. apply upper_case_b in Hc. cbn. congruence.
  - intros ->. induction s; constructor; [apply upper_case_b; reflexivity|assumption].
Qed.

(* ---- the structure of accounts ---- *)
Lemma match_structure_spec : forall st s, match_structure st s = true <-> structured st s.
Proof.
  induction st as [|[n k] st IH]; intros s; cbn [match_structure].
  - destruct s; split; intros H; try discriminate; try constructor; inversion H; reflexivity.
  - rewrite !Bool.andb_true_iff, IH, Nat.leb_le, forallb_forall. split.
    + intros [[L F] S]. rewrite <- (firstn_skipn n s). constructor; [apply firstn_length_le; exact L| |exact S].
      apply Forall_forall. intros c Hc. apply kind_b. apply F. exact Hc.
    + inversion 1 as [|? ? ? a b L F S E]; subst. split; [split|].
      * rewrite app_length. lia.
      * rewrite firstn_app, Nat.sub_diag, firstn_all. cbn. rewrite app_nil_r. intros c Hc. apply kind_b. rewrite Forall_forall in F. auto.
      * rewrite skipn_app, Nat.sub_diag, skipn_all. exact S.
Qed.

(* ---- the number ---- *)
Definition plain_char (c : char) : bool := is_ascii_digit c || is_ascii_upper c.
Definition char_digits (c : char) : list N :=
  if is_ascii_digit c then [c - 48] else [(c - 55) / 10; (c - 55) mod 10].
Definition spell (s : str) : list N := flat_map char_digits s.
Lemma plain_b c : plain_char c = true <-> is_digit c \/ upper_letter c.
Proof. unfold plain_char. rewrite Bool.orb_true_iff, digit_b, upper_b. tauto. Qed.
Lemma spelled_spec : forall s l, spelled s l <-> forallb plain_char s = true /\ l = spell s.
Proof.
  intros s l. split.
  - induction 1 as [|c s l Hc H [IH1 IH2]|c s l a b Hc Ha Hb E H [IH1 IH2]].
    + split; reflexivity.
    + split; [cbn; rewrite IH1, Bool.andb_true_r; apply plain_b; auto|].
      cbn. unfold char_digits at 1. rewrite (proj2 (digit_b c) Hc). rewrite IH2. reflexivity.
    + split; [cbn; rewrite IH1, Bool.andb_true_r; apply plain_b; auto|].
      assert (is_ascii_digit c = false) as Nd.
      { apply Bool.not_true_is_false. rewrite digit_b. unfold is_digit. unfold upper_letter in Hc. lia. }
      cbn. unfold char_digits at 1. rewrite Nd. cbn. unfold upper_letter in Hc. rewrite IH2.
      assert ((c - 55) / 10 = a) as Ea by (symmetry; apply (N.div_unique _ 10 a b); lia).
      assert ((c - 55) mod 10 = b) as Eb by (symmetry; apply (N.mod_unique _ 10 a b); lia).
      rewrite Ea, Eb. reflexivity.
  - intros [F ->]. induction s as [|c s IH]; [constructor|]. cbn in F. apply Bool.andb_true_iff in F as [Hc F].
    specialize (IH F). cbn. unfold char_digits at 1. destruct (is_ascii_digit c) eqn:D.
    + apply sp_digit; [apply digit_b; exact D|exact IH].
    + assert (upper_letter c) as U by (unfold plain_char in Hc; rewrite D in Hc; apply upper_b; exact Hc).
      unfold upper_letter in U. apply sp_letter; try assumption; pose proof (N.div_mod (c - 55) 10); pose proof (N.mod_lt (c - 55) 10); lia.
Qed.
Lemma bit5_digit c : is_digit c -> N.testbit c 5 = true.
Proof.
  unfold is_digit. intros H.
  assert (c = 48 \/ c = 49 \/ c = 50 \/ c = 51 \/ c = 52 \/ c = 53 \/ c = 54 \/ c = 55 \/ c = 56 \/ c = 57) as K by lia.
  repeat (destruct K as [->|K]; [reflexivity|]). subst. reflexivity.
Qed.
Lemma bit5_upper c : upper_letter c -> N.testbit c 5 = false.
Proof.
  unfold upper_letter. intros H. rewrite N.testbit_eqb.
  assert (c / 2 ^ 5 = 2) as ->; [|reflexivity]. change (2 ^ 5) with 32. symmetry. apply (N.div_unique c 32 2 (c - 64)); lia.
Qed.
(* the weight of a character *)
Definition weight (c : char) : N := if is_ascii_digit c then c - 48 else c - 55.
Definition width (c : char) : N := if is_ascii_digit c then 10 else 100.
Definition number (s : str) : N := fold_left (fun n c => n * width c + weight c) s 0.
Definition scale (s : str) : N := fold_right (fun c n => width c * n) 1 s.
Lemma decimal_app l m : decimal (l ++ m) = fold_left (fun acc d => 10 * acc + d) m (decimal l).
Proof. unfold decimal. apply fold_left_app. Qed.
Lemma spell_number : forall s acc l, forallb plain_char s = true -> acc = decimal l ->
  fold_left (fun n c => n * width c + weight c) s acc = decimal (l ++ spell s).
Proof.
  induction s as [|c s IH]; intros acc l F E.
  - cbn. rewrite app_nil_r. exact E.
  - cbn in F. apply Bool.andb_true_iff in F as [Hc F]. cbn [fold_left spell flat_map].
    rewrite app_assoc. apply IH; [exact F|]. rewrite decimal_app. subst acc.
    unfold width, weight, char_digits. destruct (is_ascii_digit c); cbn [fold_left]; [lia|].
    pose proof (N.div_mod (c - 55) 10). lia.
Qed.
Lemma number_spell s : forallb plain_char s = true -> number s = decimal (spell s).
Proof. intros F. apply (spell_number s 0 []); [exact F|reflexivity]. Qed.
Lemma checksum_number : forall s acc acc', forallb plain_char s = true -> acc = acc' mod 97 ->
  fold_left iban_step s acc = fold_left (fun n c => n * width c + weight c) s acc' mod 97.
Proof.
  induction s as [|c s IH]; intros acc acc' F E; [exact E|].
  cbn in F. apply Bool.andb_true_iff in F as [Hc F]. cbn [fold_left]. apply IH; [exact F|].
  unfold iban_step, width, weight. subst acc. apply plain_b in Hc as [D|U].
  - rewrite (bit5_digit c D), (proj2 (digit_b c) D). rewrite N.add_mod, N.mul_mod_idemp_l, <- N.add_mod by discriminate. reflexivity.
  - rewrite (bit5_upper c U).
    assert (is_ascii_digit c = false) as -> by (apply Bool.not_true_is_false; rewrite digit_b; unfold is_digit; unfold upper_letter in U; lia).
    unfold upper_letter in U. replace (c - 65 + 10) with (c - 55) by lia.
    rewrite N.add_mod, N.mul_mod_idemp_l, <- N.add_mod by discriminate. reflexivity.
Qed.
Lemma checksum_spec s : forallb plain_char s = true -> fold_left iban_step s 0 = number s mod 97.
Proof. intros F. apply checksum_number; [exact F|reflexivity]. Qed.

(* ---- the whole reading ---- *)
Lemma plain_upper s : forallb is_ascii_alnum s = true <-> forallb plain_char (map to_ascii_upper s) = true.
Proof.
  induction s as [|c s IH]; [reflexivity|]. cbn. rewrite !Bool.andb_true_iff, IH. apply and_iff_compat_r.
  rewrite alnum_b, plain_b. unfold to_ascii_upper. destruct (is_ascii_lower c) eqn:E.
  - apply lower_b in E. unfold is_digit, upper_letter, lower_letter in *. lia.
  - assert (~ lower_letter c) by (rewrite <- lower_b, E; discriminate). unfold is_digit, upper_letter, lower_letter in *. lia.
Qed.
Lemma two_of {A} (l : list A) : length l = 2%nat -> exists a b, l = [a; b].
Proof. destruct l as [|a [|b [|c l]]]; try discriminate. eauto. Qed.
Lemma iban_parses_spec countries s : iban_parses countries s = true <-> iban countries s.
Proof.
  unfold iban_parses. split.
  - destruct s as [|c1 [|c2 [|d1 [|d2 rest]]]]; try discriminate. unfold iban_electronic.
    destruct (_ && Nat.leb (length rest) 30) eqn:G; [|discriminate].
    rewrite !Bool.andb_true_iff in G. destruct G as [[[[[U1 U2] D1] D2] F] L]. apply Nat.leb_le in L.
    cbn [firstn skipn iban_checksum]. unfold iban_checksum. cbn [firstn skipn]. rewrite Bool.andb_true_iff, N.eqb_eq. intros [K S].
    destruct (countries [c1; c2]) as [st|] eqn:C; [|discriminate].
    assert (forallb plain_char (map to_ascii_upper rest ++ [c1; c2; d1; d2]) = true) as P.
    { rewrite forallb_app, Bool.andb_true_iff. split; [apply plain_upper; exact F|]. cbn. unfold plain_char. rewrite U1, U2, D1, D2, !Bool.orb_true_r. reflexivity. }
    exists [c1; c2], [d1; d2], rest, st, (map to_ascii_upper rest), (spell (map to_ascii_upper rest ++ [c1; c2; d1; d2])).
    split; [reflexivity|]. split; [reflexivity|].
    split; [constructor; [apply upper_b; exact U1|constructor; [apply upper_b; exact U2|constructor]]|]. split; [reflexivity|].
    split; [constructor; [apply digit_b; exact D1|constructor; [apply digit_b; exact D2|constructor]]|]. split; [exact L|].
    split; [apply upper_case_list; reflexivity|]. split; [exact C|]. split; [apply match_structure_spec; exact S|].
    split; [apply spelled_spec; split; [exact P|reflexivity]|]. rewrite <- number_spell, <- checksum_spec by exact P. exact K.
  - intros (country & check & account & st & up & digits & -> & L2 & U & L2' & D & L & Hu & C & S & P & E).
    destruct (two_of _ L2) as (c1 & c2 & ->), (two_of _ L2') as (d1 & d2 & ->). cbn [app] in *.
    apply upper_case_list in Hu as ->. apply spelled_spec in P as [P ->].
    inversion U as [|? ? U1 U']; subst. inversion U' as [|? ? U2 _]; subst. inversion D as [|? ? D1 D']; subst. inversion D' as [|? ? D2 _]; subst.
    unfold iban_electronic. rewrite (proj2 (upper_b c1) U1), (proj2 (upper_b c2) U2), (proj2 (digit_b d1) D1), (proj2 (digit_b d2) D2).
    assert (forallb is_ascii_alnum account = true) as ->.
    { apply plain_upper. rewrite forallb_app, Bool.andb_true_iff in P. apply P. }
    rewrite (proj2 (Nat.leb_le _ _) L). cbn [andb firstn skipn]. unfold iban_checksum. cbn [firstn skipn].
    rewrite checksum_spec, number_spell, E, C by exact P. cbn. apply match_structure_spec. exact S.
Qed.
Lemma separators_spec an s t : without_separators an s t <-> t = filter an s.
Proof.
  split.
  - induction 1 as [|c s t Hc H IH|c s t Hc H IH]; cbn; [reflexivity| |]; rewrite Hc; congruence.
  - intros ->. induction s as [|c s IH]; cbn; [constructor|]. destruct (an c) eqn:E; [apply ws_keep|apply ws_drop]; assumption.
Qed.

(* ---- errors that are noticed ---- *)
Lemma number_app s t : number (s ++ t) = number s * scale t + number t.
Proof.
  unfold number. rewrite fold_left_app. generalize (fold_left (fun n c => n * width c + weight c) s 0). clear s.
  assert (forall t n, fold_left (fun n c => n * width c + weight c) t n = n * scale t + fold_left (fun n c => n * width c + weight c) t 0) as K.
  { clear t. induction t as [|c t IH]; intros n; cbn [fold_left scale fold_right]; [lia|].
    rewrite (IH (n * width c + weight c)), (IH (0 * width c + weight c)). fold (scale t). lia. }
  intros n. apply K.
Qed.
Lemma number_cons c t : number (c :: t) = weight c * scale t + number t.
Proof. change (c :: t) with ([c] ++ t). rewrite number_app. unfold number at 1. cbn. reflexivity. Qed.
Lemma scale_power s : exists k, scale s = 10 ^ N.of_nat k /\ (length s <= k <= 2 * length s)%nat.
Proof.
  induction s as [|c s (k & E & L)]; [exists 0%nat; split; [reflexivity|cbn; lia]|].
  cbn [scale fold_right length]. fold (scale s). rewrite E. unfold width. destruct (is_ascii_digit c).
  - exists (S k). split; [rewrite Nat2N.inj_succ, N.pow_succ_r'; reflexivity|lia].
  - exists (S (S k)). split; [rewrite !Nat2N.inj_succ, !N.pow_succ_r'; lia|lia].
Qed.
Lemma prime_97 : prime 97.
Proof.
  assert (forall n, (1 <= n < 97)%Z -> rel_prime n 97) as H.
  { intros n Hn. apply Zgcd_1_rel_prime.
    assert (forallb (fun k => Z.gcd (Z.of_nat k) 97 =? 1)%Z (List.seq 1 96) = true) as K by (vm_compute; reflexivity).
    rewrite forallb_forall in K. specialize (K (Z.to_nat n)). rewrite Z2Nat.id in K by lia. apply Z.eqb_eq, K. apply in_seq. lia. }
  apply prime_intro; [lia|exact H].
Qed.
Lemma power_free k : ~ (97 | 10 ^ Z.of_nat k)%Z.
Proof.
  induction k as [|k IH]; [intros [x H]; change (10 ^ Z.of_nat 0)%Z with 1%Z in H; lia|]. rewrite Nat2Z.inj_succ, Z.pow_succ_r by lia. intros H.
  apply (prime_mult _ prime_97) in H as [[x H]|H]; [lia|contradiction].
Qed.
Lemma power_one k : (1 <= k < 96)%nat -> ~ (97 | 10 ^ Z.of_nat k - 1)%Z.
Proof.
  intros Hk H. assert (forallb (fun k => negb ((10 ^ Z.of_nat k - 1) mod 97 =? 0))%Z (List.seq 1 95) = true) as K by (vm_compute; reflexivity).
  rewrite forallb_forall in K. specialize (K k ltac:(apply in_seq; lia)). apply Z.mod_divide in H; [|lia]. rewrite H in K. discriminate.
Qed.
Lemma same_remainder a b : a mod 97 = b mod 97 -> (97 | Z.of_N a - Z.of_N b)%Z.
Proof.
  intros E. apply Z.mod_divide; [lia|]. rewrite Zminus_mod.
  assert (Z.of_N a mod 97 = Z.of_N b mod 97)%Z as ->; [|rewrite Z.sub_diag; reflexivity].
  apply (f_equal Z.of_N) in E. rewrite !N2Z.inj_mod in E. exact E.
Qed.
Lemma weight_small c : plain_char c = true -> weight c < 36.
Proof. intros H. apply plain_b in H. unfold weight. destruct (is_ascii_digit c) eqn:E; [apply digit_b in E|]; unfold is_digit, upper_letter in *; lia. Qed.
(* one character changed, within its kind *)
Lemma changed_number u c d v : plain_char c = true -> plain_char d = true -> width c = width d -> weight c <> weight d ->
  number (u ++ c :: v) mod 97 <> number (u ++ d :: v) mod 97.
Proof.
  intros Pc Pd W Ne E. apply same_remainder in E. rewrite !number_app, !number_cons in E.
  assert (scale (c :: v) = scale (d :: v)) as Es by (cbn; rewrite W; reflexivity). rewrite Es in E.
  destruct (scale_power v) as (k & Ek & _).
  assert ((97 | (Z.of_N (weight c) - Z.of_N (weight d)) * 10 ^ Z.of_nat k))%Z as H.
  { destruct E as [x E]. exists x. rewrite <- E. rewrite !N2Z.inj_add, !N2Z.inj_mul. rewrite Ek, N2Z.inj_pow, nat_N_Z. cbn [Z.of_N]. ring. }
  apply (prime_mult _ prime_97) in H as [H|H]; [|exact (power_free k H)].
  pose proof (weight_small c Pc). pose proof (weight_small d Pd). destruct H as [x H]. lia.
Qed.
(* two characters of one kind exchanged *)
Lemma exchanged_number u c v d w : plain_char c = true -> plain_char d = true -> width c = width d -> weight c <> weight d ->
  (length v <= 46)%nat ->
  number (u ++ c :: v ++ d :: w) mod 97 <> number (u ++ d :: v ++ c :: w) mod 97.
Proof.
  intros Pc Pd W Ne L E. apply same_remainder in E. rewrite !number_app, !number_cons, !number_app, !number_cons in E.
  assert (forall x y, scale (x ++ y) = scale x * scale y) as Sa.
  { induction x as [|z x IH]; intros y; [cbn [app]; change (scale []) with 1; lia|]. cbn [app scale fold_right]. fold (scale (x ++ y)). fold (scale x). rewrite IH. lia. }
  assert (scale (c :: v ++ d :: w) = scale (d :: v ++ c :: w)) as E1.
  { change (c :: v ++ d :: w) with ([c] ++ v ++ [d] ++ w). change (d :: v ++ c :: w) with ([d] ++ v ++ [c] ++ w). rewrite !Sa.
    cbn [scale fold_right]. rewrite W. reflexivity. }
  assert (scale (d :: w) = scale (c :: w)) as E2 by (cbn; rewrite W; reflexivity).
  rewrite E1, !Sa, E2 in E.
  destruct (scale_power w) as (k & Ek & _), (scale_power v) as (j & Ej & Lj).
  assert (scale (c :: w) = width c * scale w) as E3 by reflexivity. rewrite E3 in E.
  assert (exists i, width c = 10 ^ N.of_nat i /\ (1 <= i <= 2)%nat) as (i & Ei & Li).
  { unfold width. destruct (is_ascii_digit c); [exists 1%nat|exists 2%nat]; split; try reflexivity; lia. }
  assert ((97 | (Z.of_N (weight c) - Z.of_N (weight d)) * (10 ^ Z.of_nat k * (10 ^ Z.of_nat (j + i) - 1))))%Z as H.
  { destruct E as [x E]. exists x. rewrite <- E. rewrite !N2Z.inj_add, !N2Z.inj_mul. rewrite Ek, Ej, Ei, !N2Z.inj_pow, !nat_N_Z. cbn [Z.of_N].
    rewrite Nat2Z.inj_add, Z.pow_add_r by lia. ring. }
  apply (prime_mult _ prime_97) in H as [H|H].
  - pose proof (weight_small c Pc). pose proof (weight_small d Pd). destruct H as [x H]. lia.
  - apply (prime_mult _ prime_97) in H as [H|H]; [exact (power_free k H)|]. apply (power_one (j + i)) in H; [exact H|lia].
Qed.
