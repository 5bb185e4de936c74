(* Checksums catch typing errors (C104): proofs of the statements of Thm/Typing.v *)
From Coq Require Import Lia ZifyN.
From Verif Require Export Proofs.ChecksumsClaims.
Local Open Scope N_scope.

Ltac Zify.zify_post_hook ::= Z.div_mod_to_equations.
(* ---- weighted sums ---- *)
Fixpoint weigh (ws ds : list N) : N :=
  match ws, ds with w :: ws', d :: ds' => w * d + weigh ws' ds' | _, _ => 0 end.
Lemma weigh_app : forall x ws y, weigh ws (x ++ y) = weigh ws x + weigh (skipn (length x) ws) y.
Proof.
  induction x as [|d x IH]; intros ws y; cbn [app length skipn]; [destruct ws; reflexivity|].
  destruct ws as [|w ws]; [reflexivity|]. cbn [weigh skipn]. rewrite IH. lia.
Qed.
Lemma weigh_at : forall x ws v y, (length x < length ws)%nat ->
  weigh ws (x ++ v :: y) = weigh ws x + nth (length x) ws 0 * v + weigh (skipn (S (length x)) ws) y.
Proof.
  induction x as [|d x IH]; intros [|w ws] v y H; cbn [length] in H; try lia.
  - simpl. lia.
  - specialize (IH ws v y ltac:(lia)). simpl app. simpl length. cbn [weigh]. rewrite IH. simpl nth. simpl skipn. destruct ws; simpl skipn; lia.
Qed.
Definition nhs_weights : list N := [10; 9; 8; 7; 6; 5; 4; 3; 2; 1].
Definition nir_weights : list N :=
  [1000000000000; 100000000000; 10000000000; 1000000000; 100000000; 10000000; 1000000; 100000; 10000; 1000; 100; 10; 1; 10; 1].
Lemma nhs_weighed : forall l, nhs_number l -> length l = 10%nat /\ weigh nhs_weights l mod 11 = 0.
Proof.
  intros l (d1 & d2 & d3 & d4 & d5 & d6 & d7 & d8 & d9 & d10 & -> & K). split; [reflexivity|]. cbn [weigh nhs_weights].
  revert K. cbv zeta. remember (10 * d1 + 9 * d2 + 8 * d3 + 7 * d4 + 6 * d5 + 5 * d6 + 4 * d7 + 3 * d8 + 2 * d9) as S. intros (K1 & K2).
  replace (10 * d1 + (9 * d2 + (8 * d3 + (7 * d4 + (6 * d5 + (5 * d6 + (4 * d7 + (3 * d8 + (2 * d9 + (1 * d10 + 0)))))))))) with (S + d10) by lia.
  clear HeqS. revert K2. destruct (N.eqb_spec (11 - S mod 11) 11) as [E|E]; intros K2; lia.
Qed.
Lemma nir_weighed : forall l, nir_number l -> length l = 15%nat /\ weigh nir_weights l mod 97 = 0.
Proof.
  intros l (number & key & -> & L1 & L2 & K). split; [rewrite app_length; lia|].
  do 13 (destruct number as [|? number]; [discriminate L1|]). destruct number; [|discriminate L1].
    do 2 (destruct key as [|? key]; [discriminate L2|]). destruct key; [|discriminate L2].
    match goal with |- weigh _ (?a ++ ?b) mod _ = _ => assert (E : weigh nir_weights (a ++ b) = Spec.Checksums.decimal a + Spec.Checksums.decimal b) end.
    { unfold Spec.Checksums.decimal. cbn [weigh nir_weights app fold_left]. lia. }
    rewrite E, K. match goal with |- (?x + _) mod _ = _ => generalize x end. intros x. lia.
Qed.
(* a change of one digit changes the sum *)
Lemma single_nhs : forall x v v' y, length (x ++ v :: y) = 10%nat -> v <= 9 -> v' <= 9 ->
  weigh nhs_weights (x ++ v :: y) mod 11 = 0 -> weigh nhs_weights (x ++ v' :: y) mod 11 = 0 -> v = v'.
Proof.
  intros x v v' y L V V' H H'. rewrite app_length in L. cbn [length] in L.
  rewrite weigh_at in H, H' by (cbn [nhs_weights length]; lia). revert H H'.
  generalize (weigh (skipn (S (length x)) nhs_weights) y) (weigh nhs_weights x). intros B A.
  assert (I : In (length x) (List.seq 0 10)) by (apply in_seq; lia). revert I. generalize (length x).
  intros i I. cbn [List.seq In] in I. repeat (destruct I as [<-|I]; [cbn [nth nhs_weights]; lia|]). destruct I.
Qed.
Lemma swapped_nhs : forall x v u y, length (x ++ v :: u :: y) = 10%nat -> v <= 9 -> u <= 9 ->
  weigh nhs_weights (x ++ v :: u :: y) mod 11 = 0 -> weigh nhs_weights (x ++ u :: v :: y) mod 11 = 0 -> v = u.
Proof.
  intros x v u y L V V' H H'. rewrite app_length in L. cbn [length] in L.
  rewrite weigh_at in H, H' by (cbn [nhs_weights length]; lia).
  change (u :: y) with ([] ++ u :: y) in H. change (v :: y) with ([] ++ v :: y) in H'.
  rewrite weigh_at in H, H' by (rewrite skipn_length; cbn [nhs_weights length]; lia). revert H H'. cbn [length].
  generalize (weigh (skipn 1 (skipn (S (length x)) nhs_weights)) y) (weigh (skipn (S (length x)) nhs_weights) []) (weigh nhs_weights x). intros B C A.
  assert (I : In (length x) (List.seq 0 9)) by (apply in_seq; lia). revert I. generalize (length x).
  intros i I. cbn [List.seq In] in I. repeat (destruct I as [<-|I]; [cbn [nth nhs_weights skipn]; lia|]). destruct I.
Qed.
Lemma single_nir : forall x v v' y, length (x ++ v :: y) = 15%nat -> v <= 9 -> v' <= 9 ->
  weigh nir_weights (x ++ v :: y) mod 97 = 0 -> weigh nir_weights (x ++ v' :: y) mod 97 = 0 -> v = v'.
Proof.
  intros x v v' y L V V' H H'. rewrite app_length in L. cbn [length] in L.
  rewrite weigh_at in H, H' by (cbn [nir_weights length]; lia). revert H H'.
  generalize (weigh (skipn (S (length x)) nir_weights) y) (weigh nir_weights x). intros B A.
  assert (I : In (length x) (List.seq 0 15)) by (apply in_seq; lia). revert I. generalize (length x).
  intros i I. cbn [List.seq In] in I. repeat (destruct I as [<-|I]; [cbn [nth nir_weights]; lia|]). destruct I.
Qed.
Lemma swapped_nir : forall x v u y, length (x ++ v :: u :: y) = 15%nat -> v <= 9 -> u <= 9 ->
  weigh nir_weights (x ++ v :: u :: y) mod 97 = 0 -> weigh nir_weights (x ++ u :: v :: y) mod 97 = 0 -> v = u.
Proof.
  intros x v u y L V V' H H'. rewrite app_length in L. cbn [length] in L.
  rewrite weigh_at in H, H' by (cbn [nir_weights length]; lia).
  change (u :: y) with ([] ++ u :: y) in H. change (v :: y) with ([] ++ v :: y) in H'.
  rewrite weigh_at in H, H' by (rewrite skipn_length; cbn [nir_weights length]; lia). revert H H'. cbn [length].
  generalize (weigh (skipn 1 (skipn (S (length x)) nir_weights)) y) (weigh (skipn (S (length x)) nir_weights) []) (weigh nir_weights x). intros B C A.
  assert (I : In (length x) (List.seq 0 14)) by (apply in_seq; lia). revert I. generalize (length x).
  intros i I. cbn [List.seq In] in I. repeat (destruct I as [<-|I]; [cbn [nth nir_weights skipn]; lia|]). destruct I.
Qed.
(* ---- the digits of texts ---- *)
Lemma no_digits : forall m, Forall (fun k => ~ is_digit k) m -> digits_of m = [].
Proof. intros m Hm. induction Hm as [|k m Hk Hm IH]; [reflexivity|]. simpl. rewrite digit_none by exact Hk. exact IH. Qed.
Lemma digits_one : forall x c y, is_digit c -> digits_of (x ++ c :: y) = digits_of x ++ (c - 48) :: digits_of y.
Proof. intros x c y H. rewrite digits_app. simpl. rewrite (digit_some c H). reflexivity. Qed.
Lemma digits_two : forall x c m d y, is_digit c -> is_digit d -> Forall (fun k => ~ is_digit k) m ->
  digits_of (x ++ c :: m ++ d :: y) = digits_of x ++ (c - 48) :: (d - 48) :: digits_of y.
Proof. intros x c m d y Hc Hd Hm. rewrite digits_one by exact Hc. rewrite digits_app, (no_digits m Hm). simpl. rewrite (digit_some d Hd). reflexivity. Qed.
Lemma nhs_padded : forall s, (length (digits_of s) <= 10)%nat -> nhs_is_valid s = true -> nhs_number (repeat 0 (10 - length (digits_of s)) ++ digits_of s).
Proof.
  intros s L H. apply (proj1 c34_other_lengths_refuted_lemma s (digits_of s)) in H as (_ & H); [|apply has_digits_spec; reflexivity].
  revert L H. generalize (digits_of s). intros l L H. do 11 (destruct l as [|? l]; [exact H|]). cbn [length] in L. lia.
Qed.

Lemma c104_nhs_lemma :
  forall x c y l, has_digits (x ++ c :: y) l -> (length l <= 10)%nat -> is_digit c ->
  nhs_is_valid (x ++ c :: y) = true ->
  (forall c', is_digit c' -> c' <> c -> nhs_is_valid (x ++ c' :: y) = false) /\
  (forall m d z, y = m ++ d :: z -> Forall (fun k => ~ is_digit k) m -> is_digit d -> d <> c ->
     nhs_is_valid (x ++ d :: m ++ c :: z) = false).
Proof.
  intros x c y l Hl L Hc V. apply has_digits_spec in Hl. subst l. split.
  - intros c' Hc' Hn. destruct (nhs_is_valid (x ++ c' :: y)) eqn:V'; [exfalso|reflexivity].
    rewrite (digits_one x c y Hc) in L.
    apply nhs_padded in V; [|rewrite (digits_one x c y Hc); exact L]. apply nhs_padded in V'; [|rewrite (digits_one x c' y Hc'); rewrite app_length in *; exact L].
    rewrite (digits_one x c y Hc) in V. rewrite (digits_one x c' y Hc') in V'.
    apply nhs_weighed in V as (V1 & V2). apply nhs_weighed in V' as (V1' & V2'). rewrite app_length in V1, V1'. cbn [length] in *.
    rewrite !app_length in V1', V2'. rewrite !app_length in V1, V2. cbn [length] in *. rewrite app_assoc in V2, V2'.
    unfold is_digit in *. apply Hn. enough (c - 48 = c' - 48) by lia.
    eapply single_nhs; [|lia|lia|exact V2|exact V2']. clear -L. rewrite !app_length in *. rewrite repeat_length. cbn [length] in *. lia.
  - intros m d z -> Hm Hd Hn. destruct (nhs_is_valid (x ++ d :: m ++ c :: z)) eqn:V'; [exfalso|reflexivity].
    rewrite (digits_two x c m d z Hc Hd Hm) in L.
    apply nhs_padded in V; [|rewrite (digits_two x c m d z Hc Hd Hm); exact L]. apply nhs_padded in V'; [|rewrite (digits_two x d m c z Hd Hc Hm); rewrite app_length in *; exact L].
    rewrite (digits_two x c m d z Hc Hd Hm) in V. rewrite (digits_two x d m c z Hd Hc Hm) in V'.
    apply nhs_weighed in V as (V1 & V2). apply nhs_weighed in V' as (V1' & V2').
    rewrite !app_length in V1', V2'. rewrite !app_length in V1, V2. cbn [length] in *. rewrite app_assoc in V2, V2'.
    unfold is_digit in *. apply Hn. enough (c - 48 = d - 48) by lia.
    eapply swapped_nhs; [|lia|lia|exact V2|exact V2']. clear -L. rewrite !app_length in *. rewrite repeat_length. cbn [length] in *. lia.
Qed.

Lemma c104_nir_lemma :
  forall x c y, is_digit c -> nir_is_valid (x ++ c :: y) = true ->
  (forall c', is_digit c' -> c' <> c -> nir_is_valid (x ++ c' :: y) = false) /\
  (forall m d z, y = m ++ d :: z -> Forall (fun k => ~ is_digit k) m -> is_digit d -> d <> c ->
     nir_is_valid (x ++ d :: m ++ c :: z) = false).
Proof.
  intros x c y Hc V.
  assert (W : forall s, nir_is_valid s = true -> length (digits_of s) = 15%nat /\ weigh nir_weights (digits_of s) mod 97 = 0).
  { intros s H. apply (c35_insee_key_lemma s (digits_of s)) in H; [|apply has_digits_spec; reflexivity].
    apply nir_weighed in H as (H1 & H2); auto. }
  apply W in V as (V1 & V2). split.
  - intros c' Hc' Hn. destruct (nir_is_valid (x ++ c' :: y)) eqn:V'; [exfalso|reflexivity]. apply W in V' as (V1' & V2').
    rewrite (digits_one x c y Hc) in V1, V2. rewrite (digits_one x c' y Hc') in V1', V2'.
    unfold is_digit in *. apply Hn. enough (c - 48 = c' - 48) by lia. eapply single_nir; [exact V1|lia|lia|exact V2|exact V2'].
  - intros m d z -> Hm Hd Hn. destruct (nir_is_valid (x ++ d :: m ++ c :: z)) eqn:V'; [exfalso|reflexivity]. apply W in V' as (V1' & V2').
    rewrite (digits_two x c m d z Hc Hd Hm) in V1, V2. rewrite (digits_two x d m c z Hd Hc Hm) in V1', V2'.
    unfold is_digit in *. apply Hn. enough (c - 48 = d - 48) by lia. eapply swapped_nir; [exact V1|lia|lia|exact V2|exact V2'].
Qed.

(* ---- CRC-32 ---- *)
Definition word32 (c : N) : Prop := c < 4294967296.
Lemma bit32 : forall c, word32 c -> N.testbit c 32 = false.
Proof.
  intros c H. rewrite N.testbit_eqb. unfold word32 in H. change (2 ^ 32) with 4294967296. rewrite N.div_small by exact H. reflexivity.
Qed.
Lemma top_bit : forall c, word32 c -> N.testbit (crc_bit c) 31 = N.odd c.
Proof.
  intros c H. unfold crc_bit. destruct (N.odd c).
  - rewrite N.lxor_spec, N.shiftr_spec'. change (31 + 1) with 32. rewrite bit32 by exact H. reflexivity.
  - rewrite N.shiftr_spec'. change (31 + 1) with 32. apply bit32. exact H.
Qed.
Lemma bit_injective : forall c d, word32 c -> word32 d -> crc_bit c = crc_bit d -> c = d.
Proof.
  intros c d Hc Hd E. pose proof (f_equal (fun n => N.testbit n 31) E) as O. cbn beta in O. rewrite !top_bit in O by assumption.
  assert (S : N.shiftr c 1 = N.shiftr d 1).
  { unfold crc_bit in E. rewrite O in E. destruct (N.odd d); [|exact E].
    apply (f_equal (fun n => N.lxor n 3988292384)) in E. rewrite !N.lxor_assoc, N.lxor_nilpotent, !N.lxor_0_r in E. exact E. }
  rewrite <- !N.div2_spec in S. rewrite (N.div2_odd c), (N.div2_odd d), S, O. reflexivity.
Qed.
Lemma bit_word : forall c, word32 c -> word32 (crc_bit c).
Proof.
  unfold word32. intros c Hc. unfold crc_bit. assert (N.shiftr c 1 < 4294967296) by (rewrite N.shiftr_div_pow2; change (2 ^ 1) with 2; lia).
  destruct (N.odd c); [apply lxor_lt; [assumption|reflexivity]|assumption].
Qed.
Lemma iter_word : forall n c, word32 c -> word32 (Nat.iter n crc_bit c).
Proof. induction n as [|n IH]; intros c H; [exact H|]. apply bit_word, IH, H. Qed.
Lemma iter_injective : forall n c d, word32 c -> word32 d -> Nat.iter n crc_bit c = Nat.iter n crc_bit d -> c = d.
Proof.
  induction n as [|n IH]; intros c d Hc Hd E; [exact E|]. apply IH; try assumption. apply bit_injective; try (apply iter_word; assumption). exact E.
Qed.
Lemma byte_word : forall c b, word32 c -> b < 256 -> word32 (crc_byte c b).
Proof. intros c b Hc Hb. unfold crc_byte. apply iter_word. apply lxor_lt; [exact Hc|]. unfold word32 in *. lia. Qed.
Lemma fold_word : forall x c, word32 c -> Forall (fun b => b < 256) x -> word32 (fold_left crc_byte x c).
Proof. induction x as [|b x IH]; intros c Hc Hx; [exact Hc|]. inversion Hx; subst. cbn [fold_left]. apply IH; [apply byte_word; assumption|assumption]. Qed.
Lemma lxor_inj_r : forall a b c, N.lxor a c = N.lxor b c -> a = b.
Proof. intros a b c E. apply (f_equal (fun n => N.lxor n c)) in E. rewrite !N.lxor_assoc, N.lxor_nilpotent, !N.lxor_0_r in E. exact E. Qed.
Lemma fold_injective : forall x c d, word32 c -> word32 d -> Forall (fun b => b < 256) x ->
  fold_left crc_byte x c = fold_left crc_byte x d -> c = d.
Proof.
  induction x as [|b x IH]; intros c d Hc Hd Hx E; [exact E|]. inversion Hx; subst. cbn [fold_left] in E.
  apply IH in E; try (apply byte_word; assumption); [|assumption]. unfold crc_byte in E.
  apply iter_injective in E; try (apply lxor_lt; unfold word32 in *; lia). exact (lxor_inj_r _ _ _ E).
Qed.
(* the bytes of a block as one number, the first lowest *)
Fixpoint block (x : list N) : N := match x with [] => 0 | b :: x' => N.lxor b (N.shiftl (block x') 8) end.
Lemma bit_double : forall s t, crc_bit (N.lxor s (N.double t)) = N.lxor (crc_bit s) t.
Proof.
  intros s t. unfold crc_bit.
  assert (O : N.odd (N.lxor s (N.double t)) = N.odd s).
  { rewrite <- !N.bit0_odd, N.lxor_spec, N.double_spec, N.testbit_even_0, xorb_false_r. reflexivity. }
  assert (S : N.shiftr (N.lxor s (N.double t)) 1 = N.lxor (N.shiftr s 1) t).
  { rewrite N.shiftr_lxor. f_equal. rewrite <- N.div2_spec. apply N.div2_double. }
  rewrite O, S. destruct (N.odd s); [|reflexivity].
  rewrite !N.lxor_assoc. f_equal. apply N.lxor_comm.
Qed.
Lemma iter_shift : forall n s t, Nat.iter n crc_bit (N.lxor s (N.shiftl t (N.of_nat n))) = N.lxor (Nat.iter n crc_bit s) t.
Proof.
  induction n as [|n IH]; intros s t; [rewrite N.shiftl_0_r; reflexivity|].
  rewrite Nat2N.inj_succ. simpl Nat.iter.
  assert (E : N.shiftl t (N.succ (N.of_nat n)) = N.shiftl (N.double t) (N.of_nat n)).
  { rewrite !N.shiftl_mul_pow2, N.pow_succ_r'. replace (N.double t) with (2 * t) by (destruct t; reflexivity). lia. }
  rewrite E, IH. apply bit_double.
Qed.
Lemma iter_plus : forall m n c, Nat.iter (m + n) crc_bit c = Nat.iter m crc_bit (Nat.iter n crc_bit c).
Proof. induction m as [|m IH]; intros n c; [reflexivity|]. simpl. rewrite IH. reflexivity. Qed.
Lemma fold_block : forall x c, fold_left crc_byte x c = Nat.iter (8 * length x) crc_bit (N.lxor c (block x)).
Proof.
  induction x as [|b x IH]; intros c; [cbn; rewrite N.lxor_0_r; reflexivity|]. cbn [fold_left block]. rewrite IH. unfold crc_byte at 1.
  rewrite <- (iter_shift 8). replace (8 * length (b :: x))%nat with (8 * length x + 8)%nat by (cbn [length]; lia).
  rewrite iter_plus. do 2 f_equal. change (N.of_nat 8) with 8. rewrite N.lxor_assoc. reflexivity.
Qed.
Lemma block_plus : forall b t, b < 256 -> N.lxor b (N.shiftl t 8) = b + 256 * t.
Proof.
  intros b t H. rewrite N.shiftl_mul_pow2. change (2 ^ 8) with 256. rewrite <- N.add_nocarry_lxor; [lia|].
  apply N.bits_inj. intros i. rewrite N.land_spec, N.bits_0. destruct (N.lt_ge_cases i 8) as [L|L].
  - replace (t * 256) with (t * 2 ^ 8) by reflexivity. rewrite N.mul_pow2_bits_low by exact L. apply andb_false_r.
  - assert (N.testbit b i = false) as ->; [|reflexivity]. destruct (N.eq_dec b 0) as [->|Z]; [apply N.bits_0|].
    apply N.bits_above_log2. apply N.lt_le_trans with 8; [|exact L]. apply N.log2_lt_pow2; [lia|exact H].
Qed.
Lemma block_bound : forall x, Forall (fun b => b < 256) x -> block x < 256 ^ N.of_nat (length x).
Proof.
  intros x H. induction H as [|b x Hb H IH]; [reflexivity|]. cbn [block length]. rewrite block_plus by exact Hb. rewrite Nat2N.inj_succ, N.pow_succ_r'. lia.
Qed.
Lemma block_injective : forall x y, length x = length y -> Forall (fun b => b < 256) x -> Forall (fun b => b < 256) y -> block x = block y -> x = y.
Proof.
  induction x as [|b x IH]; intros [|d y] L Hx Hy E; try discriminate L; [reflexivity|]. inversion Hx; subst. inversion Hy; subst.
  cbn [block] in E. rewrite !block_plus in E by assumption. assert (b = d /\ block x = block y) as [-> E'] by lia. f_equal. apply IH; auto.
Qed.
Lemma crc_burst : forall p x y q, Forall (fun b => b < 256) (p ++ x ++ q) -> Forall (fun b => b < 256) y ->
  length x = length y -> (length x <= 4)%nat -> crc32 (p ++ x ++ q) = crc32 (p ++ y ++ q) -> x = y.
Proof.
  intros p x y q H Hy L L4 E. apply Forall_app in H as (Hp & H). apply Forall_app in H as (Hx & Hq).
  unfold crc32 in E. apply lxor_inj_r in E. rewrite !fold_left_app in E.
  set (c := fold_left crc_byte p 4294967295) in *. assert (Hc : word32 c) by (apply fold_word; [reflexivity|exact Hp]).
  apply fold_injective in E; try (apply fold_word; assumption); [|exact Hq].
  rewrite !fold_block, <- L in E.
  assert (B : forall z, Forall (fun b => b < 256) z -> length z = length x -> word32 (N.lxor c (block z))).
  { intros z Hz Lz. apply lxor_lt; [exact Hc|]. pose proof (block_bound z Hz). rewrite Lz in H.
    assert (256 ^ N.of_nat (length x) <= 256 ^ 4) by (apply N.pow_le_mono_r; lia). change (256 ^ 4) with 4294967296 in H0. lia. }
  apply iter_injective in E; [|apply B; auto|apply B; auto].
  rewrite (N.lxor_comm c (block x)), (N.lxor_comm c (block y)) in E. apply lxor_inj_r in E. apply block_injective; auto.
Qed.
Lemma alnum_bytes : forall x, Forall alnum x -> Forall (fun b => b < 256) x.
Proof. intros x H. eapply Forall_impl; [|exact H]. intros c Hc. unfold alnum in Hc. lia. Qed.
Lemma last_underscore : forall p x p' x', p ++ 95 :: x = p' ++ 95 :: x' -> Forall alnum x -> Forall alnum x' -> x = x'.
Proof.
  assert (N95 : ~ alnum 95) by (unfold alnum; lia).
  induction p as [|a p IH]; intros x [|a' p'] x' E Hx Hx'; cbn [app] in E.
  - injection E as ->. reflexivity.
  - injection E as _ ->. exfalso. apply N95. rewrite Forall_forall in Hx. apply Hx. apply in_elt.
  - injection E as _ <-. exfalso. apply N95. rewrite Forall_forall in Hx'. apply Hx'. apply in_elt.
  - injection E as _ E. exact (IH x p' x' E Hx Hx').
Qed.
Lemma token_read : forall prefix payload check, Forall alnum (payload ++ check) -> length check = 6%nat ->
  github_is_valid crc32 (prefix ++ 95 :: payload ++ check) = true -> base62_value check = crc32 payload /\ 62 ^ 5 <= crc32 payload.
Proof.
  intros prefix payload check A L V. apply (c36_six_digit_checksums_lemma crc32 c36_crc32_is_32_bits_lemma) in V as (payload' & (prefix' & check' & E & A' & _ & L' & B) & G).
  cbn [app] in E. apply last_underscore in E; [|exact A|exact A'].
  assert (payload = payload' /\ check = check') as [-> ->]; [|auto].
  apply (f_equal (@length _)) in E as E'. rewrite !app_length in E'. assert (Lp : length payload = length payload') by lia.
  clear -E Lp. revert payload' Lp E. induction payload as [|a l IH]; intros [|b l'] Lp E; try discriminate Lp; [auto|].
  injection E as -> E. destruct (IH l' (f_equal pred Lp) E) as [-> ->]. auto.
Qed.

Lemma c104_github_lemma :
  forall prefix p x q check, Forall alnum (p ++ x ++ q ++ check) -> length check = 6%nat ->
  github_is_valid crc32 (prefix ++ [95] ++ p ++ x ++ q ++ check) = true ->
  (forall y, Forall alnum y -> length y = length x -> (length x <= 4)%nat -> y <> x ->
     github_is_valid crc32 (prefix ++ [95] ++ p ++ y ++ q ++ check) = false) /\
  (forall check', Forall alnum check' -> length check' = 6%nat -> check' <> check ->
     github_is_valid crc32 (prefix ++ [95] ++ p ++ x ++ q ++ check') = false).
Proof.
  intros prefix p x q check A L V. cbn [app] in V.
  assert (Ap : Forall alnum p /\ Forall alnum x /\ Forall alnum q /\ Forall alnum check) by (rewrite !Forall_app in A; tauto). destruct Ap as (A1 & A2 & A3 & A4).
  assert (R : forall z, p ++ z ++ q ++ check = (p ++ z ++ q) ++ check) by (intros z; rewrite <- !app_assoc; reflexivity).
  rewrite R in V. assert (B : base62_value check = crc32 (p ++ x ++ q) /\ 62 ^ 5 <= crc32 (p ++ x ++ q)) by (apply (token_read prefix); [rewrite !Forall_app; tauto|exact L|exact V]). destruct B as (B & G). split.
  - intros y Ay Ly L4 Hn. clear V. cbn [app]. rewrite R. destruct (github_is_valid crc32 _) eqn:V'; [exfalso|reflexivity].
    assert (B' : base62_value check = crc32 (p ++ y ++ q)) by (apply (token_read prefix); [rewrite !Forall_app; tauto|exact L|exact V']). apply Hn. symmetry.
    apply (crc_burst p x y q); [apply alnum_bytes; rewrite !Forall_app; tauto|apply alnum_bytes; exact Ay|congruence|exact L4|congruence].
  - intros check' A' L' Hn. clear V. cbn [app]. replace (p ++ x ++ q ++ check') with ((p ++ x ++ q) ++ check') by (rewrite <- !app_assoc; reflexivity).
    destruct (github_is_valid crc32 _) eqn:V'; [exfalso|reflexivity].
    assert (B' : base62_value check' = crc32 (p ++ x ++ q)) by (apply (token_read prefix); [rewrite !Forall_app; tauto|exact L'|exact V']). apply Hn.
    assert (C : crc32 (p ++ x ++ q) < 4294967296) by (apply c36_crc32_is_32_bits_lemma, alnum_bytes; rewrite !Forall_app; tauto).
    rewrite <- (proj2 (encode_six _ check' C L' A') (conj B' G)). apply (encode_six _ check C L A4). auto.
Qed.

Lemma c104_nhs_eleven_refuted_lemma :
  exists x c c' y, is_digit c /\ is_digit c' /\ c <> c' /\ nhs_is_valid (x ++ c :: y) = true /\ nhs_is_valid (x ++ c' :: y) = true.
Proof.
  exists [57], 49, 50, [48; 55; 55; 56; 52; 52; 52; 52; 57].
  split; [|split; [|split; [discriminate|split; vm_compute; reflexivity]]]; unfold is_digit; split; discriminate.
Qed.

