(* Checksum validators (C32-C37, C65): proofs of the statements of Thm/Checksums.v *)
From Coq Require Import Lia ZifyN.
From Verif Require Export Spec.Checksums Examples.Engine.
Local Open Scope N_scope.

Ltac Zify.zify_post_hook ::= Z.div_mod_to_equations.

(* ---- digits ---- *)
Lemma digit_some : forall c, is_digit c -> to_digit10 c = Some (c - 48).
Proof.
  intros c [H1 H2]. unfold to_digit10, is_ascii_digit, in_range.
  apply N.leb_le in H1, H2. rewrite H1, H2. reflexivity.
Qed.
Lemma digit_none : forall c, ~ is_digit c -> to_digit10 c = None.
Proof.
  intros c H. unfold to_digit10, is_ascii_digit, in_range. destruct ((48 <=? c) && (c <=? 57)) eqn:E; [|reflexivity].
  apply andb_prop in E. rewrite !N.leb_le in E. destruct (H E).
Qed.
Lemma digit_dec : forall c, is_digit c \/ ~ is_digit c.
Proof. intros c. unfold is_digit. lia. Qed.
Lemma to_digit_le : forall c d, to_digit10 c = Some d -> d <= 9 /\ is_digit c /\ d = c - 48.
Proof.
  intros c d H. destruct (digit_dec c) as [Hd|Hd].
  - rewrite digit_some in H by exact Hd. injection H as <-. unfold is_digit in *. lia.
  - rewrite digit_none in H by exact Hd. discriminate H.
Qed.

Fixpoint digits_of (s : str) : list N :=
  match s with
  | [] => []
  | c :: s' => match to_digit10 c with Some d => d :: digits_of s' | None => digits_of s' end
  end.
Lemma has_digits_spec : forall s l, has_digits s l <-> l = digits_of s.
Proof.
  split.
  - intros H. induction H as [|c s l Hc H IH|c s l Hc H IH]; simpl; [reflexivity| |].
    + rewrite digit_some by exact Hc. congruence.
    + rewrite digit_none by exact Hc. exact IH.
  - intros ->. induction s as [|c s IH]; simpl; [constructor|]. destruct (digit_dec c) as [Hc|Hc].
    + rewrite digit_some by exact Hc. constructor; assumption.
    + rewrite digit_none by exact Hc. constructor; assumption.
Qed.
Lemma digits_app : forall a b, digits_of (a ++ b) = digits_of a ++ digits_of b.
Proof. induction a as [|c a IH]; intros b; simpl; [reflexivity|]. rewrite IH. destruct (to_digit10 c); reflexivity. Qed.
Lemma digits_rev : forall s, digits_of (rev s) = rev (digits_of s).
Proof.
  induction s as [|c s IH]; simpl; [reflexivity|]. rewrite digits_app, IH. simpl.
  destruct (to_digit10 c); [reflexivity|apply app_nil_r].
Qed.
Lemma digits_le : forall s d, In d (digits_of s) -> d <= 9.
Proof.
  induction s as [|c s IH]; intros d H; simpl in H; [destruct H|].
  destruct (to_digit10 c) as [x|] eqn:E; [|auto]. destruct H as [<-|H]; [apply (to_digit_le c x E)|auto].
Qed.
Lemma digits_length : forall s, (length (digits_of s) <= length s)%nat.
Proof. induction s as [|c s IH]; simpl; [lia|]. destruct (to_digit10 c); simpl; lia. Qed.
Lemma next_digit_none : forall s, get_next_digit s = None <-> digits_of s = [].
Proof.
  induction s as [|c s IH]; simpl; [tauto|]. destruct (to_digit10 c); [|exact IH]. split; intros H; discriminate H.
Qed.
Lemma next_digit_some : forall s d r, get_next_digit s = Some (d, r) -> digits_of s = d :: digits_of r.
Proof.
  induction s as [|c s IH]; intros d r H; simpl in *; [discriminate H|]. destruct (to_digit10 c).
  - injection H as <- <-. reflexivity.
  - apply IH, H.
Qed.

(* ---- Luhn ---- *)
Lemma luhn_loop_total : forall rest sum odd, sum + 9 * N.of_nat (length (digits_of rest)) < 4294967296 ->
  luhn_loop rest sum odd = sum + luhn_total (negb odd) (digits_of rest).
Proof.
  induction rest as [|c rest IH]; intros sum odd H; cbn [luhn_loop digits_of]; [cbn [luhn_total]; lia|].
  cbn [digits_of] in H. destruct (to_digit10 c) as [d|] eqn:E; [|apply IH; exact H].
  apply to_digit_le in E as (E & _). cbn [length] in H. cbn [luhn_total]. unfold add32.
  destruct odd; cbn [negb].
  - rewrite IH; cbn [negb]; rewrite N.mod_small by lia; lia.
  - destruct (4 <? d) eqn:E4; [apply N.ltb_lt in E4|apply N.ltb_ge in E4];
      (rewrite IH; cbn [negb]; rewrite N.mod_small by lia; lia).
Qed.

Definition short (s : str) : Prop := 9 * N.of_nat (length s) < 4294967296.

Lemma luhn_spec : forall s, short s -> (luhn_is_valid s = true <-> luhn (digits_of s)).
Proof.
  intros s Hs. unfold luhn_is_valid, luhn. destruct (get_next_digit (rev s)) as [[c rest]|] eqn:E.
  - apply next_digit_some in E. assert (Hlen := digits_length s). unfold short in Hs.
    rewrite digits_rev in E. assert (Hl : length (digits_of s) = S (length (digits_of rest))).
    { rewrite <- rev_length, E. reflexivity. }
    rewrite E. cbn [luhn_total]. rewrite luhn_loop_total by lia. cbn [negb].
    assert (Hc : c <= 9). { apply (digits_le s). apply in_rev. rewrite E. left. reflexivity. }
    rewrite N.eqb_eq. split.
    + intros H. split; [intros K; rewrite K in Hl; discriminate Hl|]. lia.
    + intros [_ H]. lia.
  - apply next_digit_none in E. rewrite digits_rev in E. apply (f_equal (@rev N)) in E. rewrite rev_involutive in E.
    simpl in E. rewrite E. split; [intros H; discriminate H|]. intros [H _]. congruence.
Qed.

Lemma luhn_total_app : forall l1 l2 b,
  luhn_total b (l1 ++ l2) = luhn_total b l1 + luhn_total (xorb b (Nat.odd (length l1))) l2.
Proof.
  induction l1 as [|d l1 IH]; intros l2 b; cbn [app luhn_total length].
  - rewrite xorb_false_r. lia.
  - rewrite IH, Nat.odd_succ, <- Nat.negb_odd. destruct b, (Nat.odd (length l1)); cbn [xorb negb]; lia.
Qed.

Lemma c32_luhn_formula_lemma :
  forall s l, 9 * N.of_nat (length s) < 4294967296 -> has_digits s l -> (luhn_is_valid s = true <-> luhn l).
Proof.
  intros s l Hs Hl. apply has_digits_spec in Hl. subst l. apply luhn_spec. exact Hs.
Qed.

Lemma c32_single_digit_errors_lemma :
  forall x c c' y, 9 * N.of_nat (length (x ++ c :: y)) < 4294967296 -> is_digit c -> is_digit c' -> c <> c' ->
  luhn_is_valid (x ++ c :: y) = true -> luhn_is_valid (x ++ c' :: y) = false.
Proof.
  intros x c c' y Hs Hc Hc' Hne H. destruct (luhn_is_valid (x ++ c' :: y)) eqn:E; [exfalso|reflexivity].
  assert (Hs' : short (x ++ c' :: y)) by (unfold short; rewrite app_length in *; exact Hs).
  apply luhn_spec in H as [_ H]; [|exact Hs]. apply luhn_spec in E as [_ E]; [|exact Hs'].
  rewrite digits_app in H, E. simpl in H, E. rewrite (digit_some c Hc) in H. rewrite (digit_some c' Hc') in E.
  rewrite rev_app_distr in H, E. simpl in H, E. rewrite <- app_assoc in H, E. rewrite luhn_total_app in H, E.
  cbn [app luhn_total] in H, E. unfold is_digit in *.
  revert H E. generalize (luhn_total false (rev (digits_of y))) as A.
  generalize (luhn_total (negb (xorb false (Nat.odd (length (rev (digits_of y)))))) (rev (digits_of x))) as B.
  intros B A H E. destruct (xorb false _); lia.
Qed.

Lemma c32_transpositions_lemma :
  forall x c m d y, 9 * N.of_nat (length (x ++ c :: m ++ d :: y)) < 4294967296 -> is_digit c -> is_digit d ->
  Forall (fun k => ~ is_digit k) m -> c <> d -> ~ (c = 48 /\ d = 57) -> ~ (c = 57 /\ d = 48) ->
  luhn_is_valid (x ++ c :: m ++ d :: y) = true -> luhn_is_valid (x ++ d :: m ++ c :: y) = false.
Proof.
  intros x c m d y Hs Hc Hd Hm Hne H1 H2 H. destruct (luhn_is_valid (x ++ d :: m ++ c :: y)) eqn:E; [exfalso|reflexivity].
  assert (Hs' : short (x ++ d :: m ++ c :: y)).
  { unfold short. rewrite app_length in *. simpl in *. rewrite app_length in *. exact Hs. }
  apply luhn_spec in H as [_ H]; [|exact Hs]. apply luhn_spec in E as [_ E]; [|exact Hs'].
  assert (Em : digits_of m = []).
  { clear -Hm. induction Hm as [|k m Hk Hm IH]; [reflexivity|]. simpl. rewrite digit_none by exact Hk. exact IH. }
  rewrite digits_app in H, E. simpl in H, E. rewrite digits_app, Em in H, E. simpl in H, E.
  rewrite (digit_some c Hc), (digit_some d Hd) in H, E. rewrite rev_app_distr in H, E. simpl in H, E. rewrite <- !app_assoc in H, E.
  rewrite luhn_total_app in H, E. cbn [app luhn_total] in H, E. unfold is_digit in *. rewrite negb_involutive in H, E.
  revert H E. generalize (luhn_total false (rev (digits_of y))) as A.
  generalize (luhn_total (xorb false (Nat.odd (length (rev (digits_of y))))) (rev (digits_of x))) as B.
  intros B A H E. destruct (xorb false _); cbn [negb] in *; lia.
Qed.

(* ---- Chinese ID ---- *)
Lemma chinese_sum_spec : forall s cs sum, (length s <= length cs)%nat ->
  (Forall is_digit s /\ chinese_sum cs s sum = Some (sum + fold_right N.add 0 (map (fun x => fst x * snd x) (combine cs (map (fun d => d - 48) s))))) \/
  (~ Forall is_digit s /\ chinese_sum cs s sum = None).
Proof.
  induction s as [|c s IH]; intros [|k cs] sum H; simpl in H; try lia.
  - left. split; [constructor|]. simpl. f_equal. lia.
  - left. split; [constructor|]. simpl. f_equal. lia.
  - cbn [chinese_sum]. destruct (digit_dec c) as [Hc|Hc].
    + rewrite (digit_some c Hc). destruct (IH cs (sum + k * (c - 48))) as [[Hf ->]|[Hf ->]]; [lia| |].
      * left. split; [constructor; assumption|]. cbn [map combine fold_right fst snd]. f_equal. lia.
      * right. split; [|reflexivity]. intros K. inversion K; subst. auto.
    + rewrite (digit_none c Hc). right. split; [|reflexivity]. intros K. inversion K; subst. auto.
Qed.

Lemma digits_blen : forall s, Forall is_digit s -> blen s = length s.
Proof.
  intros s H. induction H as [|c s Hc H IH]; [reflexivity|]. simpl. rewrite IH.
  unfold is_digit in Hc. unfold clen. destruct (c <? 128) eqn:E; [reflexivity|]. apply N.ltb_ge in E. lia.
Qed.

Lemma check_char_spec : forall S c, to_ascii_upper c = chinese_check_char S <-> exists v, iso_value c v /\ (S + v) mod 11 = 1.
Proof.
  intros S c.
  assert (Hv : forall v, iso_value c v -> (is_digit c /\ v = c - 48 /\ to_ascii_upper c = c) \/ (c = 88 /\ v = 10 /\ to_ascii_upper c = 88) \/ (c = 120 /\ v = 10 /\ to_ascii_upper c = 88)).
  { intros v [x Hx| |]; [left|right; left|right; right]; try (split; [reflexivity|split; reflexivity]).
    split; [exact Hx|]. split; [reflexivity|]. unfold to_ascii_upper, is_ascii_lower, in_range. unfold is_digit in Hx.
    destruct ((97 <=? x) && (x <=? 122)) eqn:E; [|reflexivity]. apply andb_prop in E. rewrite !N.leb_le in E. lia. }
  assert (Hcc : chinese_check_char S = 49 /\ S mod 11 = 0 \/ chinese_check_char S = 48 /\ S mod 11 = 1 \/
                chinese_check_char S = 88 /\ S mod 11 = 2 \/ chinese_check_char S = 60 - S mod 11 /\ 3 <= S mod 11 <= 10).
  { unfold chinese_check_char. assert (Hr : S mod 11 < 11) by (apply N.mod_lt; lia). destruct (S mod 11) as [|[ [p|p|]|[p|p|]|]] eqn:E; auto; right; right; right; lia. }
  split.
  - intros H.
    assert (Hup : to_ascii_upper c = c \/ (97 <= c <= 122 /\ to_ascii_upper c = c - 32)).
    { unfold to_ascii_upper, is_ascii_lower, in_range. destruct ((97 <=? c) && (c <=? 122)) eqn:E; [|left; reflexivity].
      apply andb_prop in E. rewrite !N.leb_le in E. right. auto. }
    assert (Hc : is_digit c \/ c = 88 \/ c = 120) by (unfold is_digit; lia).
    destruct Hc as [Hc|[->| ->]].
    + exists (c - 48). split; [constructor; exact Hc|]. unfold is_digit in Hc. lia.
    + exists 10. split; [constructor|]. lia.
    + exists 10. split; [constructor|]. change (to_ascii_upper 120) with 88 in H. lia.
  - intros (v & Hv1 & H). apply Hv in Hv1. unfold is_digit in Hv1. lia.
Qed.

Lemma coefficients_base2 : forall front, length front = 17%nat -> forall v,
  base2 (front ++ [v]) mod 11 =
  (fold_right N.add 0 (map (fun x => fst x * snd x) (combine chinese_id_coefficients front)) + v) mod 11.
Proof.
  intros front H v. do 17 (destruct front as [|? front]; [discriminate H|]). destruct front; [|discriminate H].
  unfold base2, chinese_id_coefficients. cbn [app fold_left combine map fold_right fst snd].
  match goal with |- ?A mod 11 = ?B mod 11 =>
    let M := constr:(ltac:(idtac; exact 0)) in
    assert (exists q, A = B + q * 11) as [q Hq] end.
  { exists (11915 * n + 5957 * n0 + 2978 * n1 + 1489 * n2 + 744 * n3 + 372 * n4 + 186 * n5 + 93 * n6 + 46 * n7 + 23 * n8 + 11 * n9 + 5 * n10 + 2 * n11 + n12). lia. }
  rewrite Hq. apply N.mod_add. discriminate.
Qed.

Lemma iso_clen : forall c v, iso_value c v -> clen c = 1%nat.
Proof.
  intros c v [x Hx| |]; try reflexivity. unfold is_digit in Hx. unfold clen.
  destruct (x <? 128) eqn:E; [reflexivity|]. apply N.ltb_ge in E. lia.
Qed.

Lemma blen_app2 : forall a b, blen (a ++ b) = (blen a + blen b)%nat.
Proof. induction a as [|c a IH]; intros b; simpl; [reflexivity|]. rewrite IH. lia. Qed.

Lemma clen_1 : forall c, (1 <= clen c)%nat.
Proof. intros c. unfold clen. repeat match goal with |- context [if ?b then _ else _] => destruct b end; lia. Qed.

Lemma c33_iso7064_lemma :
  forall s, chinese_id_is_valid s = true <-> iso7064_mod_11_2 s.
Proof.
  intros s. unfold chinese_id_is_valid. change (chinese_id_length - 1)%nat with 17%nat. unfold chinese_id_length. split.
  - destruct (Nat.eqb (blen s) 18) eqn:El; [|intros H; discriminate H]. apply Nat.eqb_eq in El. cbn [negb].
    destruct (chinese_sum_spec (firstn 17 s) chinese_id_coefficients 0) as [[Hf ->]|[Hf ->]];
      [rewrite firstn_length; apply Nat.le_min_l| |intros H; discriminate H].
    intros H.
    assert (Hlen : (length (firstn 17 s) = 17)%nat).
    { rewrite firstn_length. destruct (Nat.le_gt_cases 17 (length s)); [lia|]. exfalso.
      rewrite firstn_all2 in Hf by lia. apply digits_blen in Hf. lia. }
    assert (Hsk : blen (skipn 17 s) = 1%nat).
    { apply digits_blen in Hf. pose proof (blen_app2 (firstn 17 s) (skipn 17 s)) as E. rewrite firstn_skipn in E. lia. }
    destruct (skipn 17 s) as [|c [|c' r]] eqn:Ek; [discriminate Hsk| |].
    2:{ simpl in Hsk. pose proof (clen_1 c). pose proof (clen_1 c'). lia. }
    assert (Es : s = firstn 17 s ++ [c]) by (rewrite <- Ek, firstn_skipn; reflexivity).
    rewrite Es in H at 1. rewrite rev_app_distr in H. simpl (hd_error _) in H. apply N.eqb_eq in H.
    apply check_char_spec in H as (v & Hv & Hm). exists (firstn 17 s), c, (map (fun d => d - 48) (firstn 17 s)), v.
    split; [exact Es|]. split; [exact Hlen|]. split; [exact Hf|]. split; [reflexivity|]. split; [exact Hv|].
    rewrite coefficients_base2 by (rewrite map_length; exact Hlen). rewrite N.add_0_l in Hm. exact Hm.
  - intros (front & c & values & v & -> & Hlen & Hf & -> & Hv & Hm).
    rewrite blen_app2, (digits_blen _ Hf), Hlen. simpl (blen [c]). rewrite (iso_clen _ _ Hv). cbn [Nat.add Nat.eqb negb].
    rewrite firstn_app, Hlen, Nat.sub_diag, firstn_all2 by lia. cbn [firstn]. rewrite app_nil_r.
    destruct (chinese_sum_spec front chinese_id_coefficients 0) as [[_ ->]|[K _]]; [rewrite Hlen; apply Nat.le_refl| |destruct (K Hf)].
    rewrite rev_app_distr. simpl (hd_error _). apply N.eqb_eq, check_char_spec. exists v. split; [exact Hv|].
    rewrite coefficients_base2 in Hm by (rewrite map_length; exact Hlen). rewrite N.add_0_l. exact Hm.
Qed.

Lemma base2_inj : forall l a b,
  fold_left (fun acc x => 2 * acc + x) l a mod 11 = fold_left (fun acc x => 2 * acc + x) l b mod 11 -> a mod 11 = b mod 11.
Proof.
  induction l as [|x l IH]; intros a b H; cbn [fold_left] in H; [exact H|]. apply IH in H. lia.
Qed.
Definition iso_val (c : char) : N := if (48 <=? c) && (c <=? 57) then c - 48 else 10.
Lemma iso_val_spec : forall c v, iso_value c v -> iso_val c = v.
Proof.
  intros c v [x Hx| |]; try reflexivity. unfold iso_val. destruct Hx as [H1 H2]. apply N.leb_le in H1, H2. rewrite H1, H2. reflexivity.
Qed.
Definition iso_ok (c : char) : Prop := is_digit c \/ c = 88 \/ c = 120.
Lemma iso_vals : forall s, iso7064_mod_11_2 s -> base2 (map iso_val s) mod 11 = 1 /\ Forall iso_ok s /\ length s = 18%nat /\
  forall i c, (i < 17)%nat -> nth_error s i = Some c -> is_digit c.
Proof.
  intros s (front & c & values & v & -> & Hl & Hf & -> & Hv & Hm).
  assert (E : map iso_val front = map (fun d => d - 48) front).
  { apply map_ext_in. intros d Hd. rewrite Forall_forall in Hf. apply iso_val_spec. constructor. auto. }
  rewrite map_app, E. simpl map at 2. rewrite (iso_val_spec _ _ Hv). split; [exact Hm|]. split; [|split].
  - apply Forall_app. split; [|constructor; [|constructor]].
    + eapply Forall_impl; [|exact Hf]. intros a Ha. left. exact Ha.
    + destruct Hv; [left; assumption|right; left; reflexivity|right; right; reflexivity].
  - rewrite app_length, Hl. reflexivity.
  - intros i d Hi Hn. rewrite nth_error_app1 in Hn by lia. rewrite Forall_forall in Hf. apply Hf. eapply nth_error_In; eauto.
Qed.

Lemma c33_single_errors_lemma :
  forall x c c' y, chinese_id_is_valid (x ++ c :: y) = true -> chinese_id_is_valid (x ++ c' :: y) = true ->
  c = c' \/ (y = [] /\ (c = 88 \/ c = 120) /\ (c' = 88 \/ c' = 120)).
Proof.
  intros x c c' y H H'. apply c33_iso7064_lemma in H, H'.
  apply iso_vals in H as (H & Ho & Hl & Hd), H' as (H' & Ho' & _ & Hd').
  apply Forall_app in Ho as [_ Ho], Ho' as [_ Ho']. apply Forall_inv in Ho, Ho'.
  rewrite map_app in H, H'. simpl map in H, H'. unfold base2 in H, H'. rewrite fold_left_app in H, H'. cbn [fold_left] in H, H'.
  rewrite <- H' in H. apply base2_inj in H.
  assert (Hv : iso_val c = iso_val c').
  { assert (Hb : forall k, iso_ok k -> iso_val k <= 10).
    { intros k [Hk|[->| ->]]; try (vm_compute; discriminate). rewrite (iso_val_spec k (k - 48)) by (constructor; exact Hk).
      unfold is_digit in Hk. lia. }
    apply Hb in Ho, Ho'. lia. }
  assert (Hx : forall k, iso_ok k -> is_digit k /\ iso_val k = k - 48 /\ iso_val k <= 9 \/ (k = 88 \/ k = 120) /\ iso_val k = 10).
  { intros k [Hk|[->| ->]]; [left|right; split; auto; reflexivity|right; split; auto; reflexivity].
    rewrite (iso_val_spec k (k - 48)) by (constructor; exact Hk). unfold is_digit in *. lia. }
  destruct (Hx c Ho) as [(H1 & H2 & H3)|[H1 H2]], (Hx c' Ho') as [(H4 & H5 & H6)|[H4 H5]]; try (exfalso; lia).
  - left. unfold is_digit in *. lia.
  - right. split; [|auto]. destruct y as [|k y]; [reflexivity|]. exfalso.
    rewrite app_length in Hl. simpl in Hl. assert (Hi : (length x < 17)%nat) by lia.
    specialize (Hd (length x) c Hi). rewrite nth_error_app2, Nat.sub_diag in Hd by lia.
    specialize (Hd eq_refl). unfold is_digit in Hd. lia.
Qed.

Lemma c33_transpositions_lemma :
  forall x c d y, chinese_id_is_valid (x ++ c :: d :: y) = true -> chinese_id_is_valid (x ++ d :: c :: y) = true -> c = d.
Proof.
  intros x c d y H H'. apply c33_iso7064_lemma in H, H'.
  apply iso_vals in H as (H & Ho & Hl & Hd), H' as (H' & Ho' & _ & Hd').
  rewrite app_length in Hl. simpl in Hl. assert (Hi : (length x < 17)%nat) by lia.
  specialize (Hd (length x) c Hi). specialize (Hd' (length x) d Hi).
  rewrite nth_error_app2, Nat.sub_diag in Hd, Hd' by lia. specialize (Hd eq_refl). specialize (Hd' eq_refl).
  rewrite map_app in H, H'. simpl map in H, H'. unfold base2 in H, H'. rewrite fold_left_app in H, H'. cbn [fold_left] in H, H'.
  rewrite <- H' in H. apply base2_inj in H.
  rewrite (iso_val_spec c (c - 48)), (iso_val_spec d (d - 48)) in H by (constructor; assumption).
  unfold is_digit in *. lia.
Qed.

(* ---- NHS ---- *)
Fixpoint nhs_dloop (rest : list N) (nb_digit : nat) (total_sum check_digit : N) : option (N * N) :=
  match rest with
  | [] => Some (total_sum, check_digit)
  | digit :: rest' =>
      if Nat.ltb 10 nb_digit then None
      else if Nat.ltb nb_digit 9 then
        nhs_dloop rest' (S nb_digit) (total_sum + digit * nhs_multiplier_from_number_idx nb_digit) check_digit
      else nhs_dloop rest' (S nb_digit) total_sum digit
  end.
Lemma nhs_loop_digits : forall rest nb t c, nhs_loop rest nb t c = nhs_dloop (digits_of rest) nb t c.
Proof.
  induction rest as [|k rest IH]; intros nb t c; simpl; [reflexivity|]. destruct (to_digit10 k); [|apply IH].
  simpl. destruct (Nat.ltb 10 nb); [reflexivity|]. destruct (Nat.ltb nb 9); apply IH.
Qed.
Definition nhs_ok (x : option (N * N)) : bool :=
  match x with
  | None => false
  | Some (total_sum, check_digit) =>
    let identifier := 11 - total_sum mod 11 in
    let identifier := if identifier =? 11 then 0 else identifier in
    if identifier =? 10 then false else identifier =? check_digit
  end.
Lemma nhs_valid_digits : forall s, nhs_is_valid s = nhs_ok (nhs_dloop (rev (digits_of s)) 0 0 0).
Proof. intros s. unfold nhs_is_valid. rewrite nhs_loop_digits, digits_rev. reflexivity. Qed.

Lemma nhs_ok_spec : forall T k, k <= 9 -> (nhs_ok (Some (T, k)) = true <-> (T + k) mod 11 = 0).
Proof.
  intros T k Hk. unfold nhs_ok. destruct (11 - T mod 11 =? 11) eqn:E1; [apply N.eqb_eq in E1|apply N.eqb_neq in E1].
  - change (0 =? 10) with false. cbn [negb]. rewrite N.eqb_eq. lia.
  - destruct (11 - T mod 11 =? 10) eqn:E2; [apply N.eqb_eq in E2|apply N.eqb_neq in E2].
    + split; [intros H; discriminate H|]. intros H. lia.
    + rewrite N.eqb_eq. lia.
Qed.
Lemma nhs_std_spec : forall d1 d2 d3 d4 d5 d6 d7 d8 d9 d10, d10 <= 9 ->
  (nhs_number [d1; d2; d3; d4; d5; d6; d7; d8; d9; d10] <->
   (10 * d1 + 9 * d2 + 8 * d3 + 7 * d4 + 6 * d5 + 5 * d6 + 4 * d7 + 3 * d8 + 2 * d9 + d10) mod 11 = 0).
Proof.
  intros d1 d2 d3 d4 d5 d6 d7 d8 d9 d10 Hd. unfold nhs_number. split.
  - intros (e1 & e2 & e3 & e4 & e5 & e6 & e7 & e8 & e9 & e10 & E & H). injection E as <- <- <- <- <- <- <- <- <- <-.
    cbv zeta in H. revert H.
    generalize (10 * d1 + 9 * d2 + 8 * d3 + 7 * d4 + 6 * d5 + 5 * d6 + 4 * d7 + 3 * d8 + 2 * d9) as T. intros T [H1 H2].
    destruct (11 - T mod 11 =? 11) eqn:E; [apply N.eqb_eq in E|apply N.eqb_neq in E]; lia.
  - intros H. exists d1, d2, d3, d4, d5, d6, d7, d8, d9, d10. split; [reflexivity|]. cbv zeta. revert H.
    generalize (10 * d1 + 9 * d2 + 8 * d3 + 7 * d4 + 6 * d5 + 5 * d6 + 4 * d7 + 3 * d8 + 2 * d9) as T. intros T H.
    destruct (11 - T mod 11 =? 11) eqn:E; [apply N.eqb_eq in E|apply N.eqb_neq in E]; lia.
Qed.
Lemma two_sums : forall A B K, A + B = 11 * K -> (A mod 11 = 0 <-> B mod 11 = 0).
Proof. intros A B K H. lia. Qed.

(* the ten digits the check is about: filled up with zeros on the left, or without the
   second of eleven *)
Definition nhs_digits (l : list N) : list N :=
  match l with
  | [d0; _; d2; d3; d4; d5; d6; d7; d8; d9; d10] => [d0; d2; d3; d4; d5; d6; d7; d8; d9; d10]
  | _ => repeat 0 (10 - length l) ++ l
  end.
Lemma nhs_dloop_long : forall l n t c, (11 <= n)%nat -> nhs_dloop l n t c = None \/ l = [].
Proof.
  intros [|x l] n t c H; [right; reflexivity|left]. cbn [nhs_dloop].
  assert (Nat.ltb 10 n = true) as -> by (apply Nat.ltb_lt; lia). reflexivity.
Qed.
Lemma nhs_all : forall l, (forall d, In d l -> d <= 9) ->
  (nhs_ok (nhs_dloop (rev l) 0 0 0) = true <-> (length l <= 11)%nat /\ nhs_number (nhs_digits l)).
Proof.
  intros l Hle.
  do 12 (destruct l as [|? l];
    [cbv [nhs_digits length repeat Nat.sub app]; cbn [rev app];
     cbv [nhs_dloop Nat.ltb Nat.leb];
     change (nhs_multiplier_from_number_idx 0) with 10; change (nhs_multiplier_from_number_idx 1) with 9;
     change (nhs_multiplier_from_number_idx 2) with 8; change (nhs_multiplier_from_number_idx 3) with 7;
     change (nhs_multiplier_from_number_idx 4) with 6; change (nhs_multiplier_from_number_idx 5) with 5;
     change (nhs_multiplier_from_number_idx 6) with 4; change (nhs_multiplier_from_number_idx 7) with 3;
     change (nhs_multiplier_from_number_idx 8) with 2;
     rewrite nhs_ok_spec by (try lia; apply Hle; simpl; tauto);
     rewrite nhs_std_spec by (try lia; apply Hle; simpl; tauto);
     match goal with |- (?A mod 11 = 0) <-> (_ /\ (?B mod 11 = 0)) =>
       assert (exists K, A + B = 11 * K) as [K HK];
       [match goal with H : forall d, In d ?L -> _ |- _ => first
          [exists (fold_right N.add 0 L); cbn [fold_right]; lia
          |match L with ?a :: _ :: ?r => exists (fold_right N.add 0 (a :: r)); cbn [fold_right]; lia end] end
       |rewrite (two_sums A B K HK)]
     end;
     split; [intros H; split; [repeat constructor|exact H]|intros [_ H]; exact H]|]).
  split.
  - intros H. exfalso. revert H.
    match goal with |- nhs_ok (nhs_dloop (rev ?L) 0 0 0) = true -> False =>
      assert (Hn : forall r n t c, (12 <= length r + n)%nat -> nhs_dloop r n t c = None \/ (r = [] /\ (12 <= n)%nat)) end.
    { clear. induction r as [|x r IH]; intros n t c H; [right; split; [reflexivity|simpl in H; lia]|]. left. cbn [nhs_dloop].
      destruct (Nat.ltb 10 n) eqn:E; [reflexivity|]. apply Nat.ltb_ge in E.
      destruct (Nat.ltb n 9); (edestruct IH as [IH'|[_ IH']]; [|exact IH'|lia]; simpl in H; lia). }
    match goal with |- nhs_ok (nhs_dloop (rev ?L) 0 0 0) = true -> False =>
      destruct (Hn (rev L) 0%nat 0 0) as [->|[E _]]; [rewrite rev_length; simpl; lia|discriminate|] end.
    apply (f_equal (@length N)) in E. rewrite rev_length in E. discriminate E.
  - intros [H _]. simpl in H. lia.
Qed.

Lemma c34_ten_digits_lemma :
  forall s l, has_digits s l -> length l = 10%nat -> (nhs_is_valid s = true <-> nhs_number l).
Proof.
  intros s l Hl Hlen. apply has_digits_spec in Hl. subst l. rewrite nhs_valid_digits.
  rewrite nhs_all by (apply digits_le).
  assert (E : nhs_digits (digits_of s) = digits_of s).
  { destruct (digits_of s) as [|a l]; [discriminate Hlen|]. do 9 (destruct l as [|? l]; [discriminate Hlen|]).
    destruct l; [reflexivity|discriminate Hlen]. }
  rewrite E, Hlen. split; [intros [_ H]; exact H|]. intros H. split; [repeat constructor|exact H].
Qed.

Lemma c34_other_lengths_refuted_lemma :
  (forall s l, has_digits s l ->
   (nhs_is_valid s = true <-> (length l <= 11)%nat /\
      nhs_number (match l with
                  | [d0; _; d2; d3; d4; d5; d6; d7; d8; d9; d10] => [d0; d2; d3; d4; d5; d6; d7; d8; d9; d10]
                  | _ => repeat 0 (10 - length l) ++ l
                  end))) /\
nhs_is_valid [] = true /\ nhs_is_valid (text "91077844449") = true /\ nhs_is_valid (text "0-19") = true.
Proof.
  split; [|split; [reflexivity|split; reflexivity]].
  intros s l Hl. apply has_digits_spec in Hl. subst l. rewrite nhs_valid_digits. apply nhs_all. apply digits_le.
Qed.

(* ---- NIR ---- *)
Lemma app_same_length : forall (a b c d : list N), length a = length c -> a ++ b = c ++ d -> a = c /\ b = d.
Proof.
  induction a as [|x a IH]; intros b [|y c] d Hl H; simpl in *; try discriminate Hl; [auto|].
  injection Hl as Hl. injection H as -> H. destruct (IH b c d Hl H) as [-> ->]. auto.
Qed.
Lemma next_digits_some : forall n s t t' s', get_next_digit_chars n s t = Some (t', s') ->
  exists l, digits_of s = l ++ digits_of s' /\ length l = n /\ t' = fold_left (fun acc d => 10 * acc + d) l t.
Proof.
  induction n as [|n IH]; intros s t t' s' H; cbn [get_next_digit_chars] in H.
  - injection H as <- <-. exists []. auto.
  - destruct (get_next_digit s) as [[d r]|] eqn:E; [|discriminate H]. apply next_digit_some in E.
    apply IH in H as (l & Hl & Hn & Ht). exists (d :: l). rewrite E, Hl. split; [reflexivity|]. split; [simpl; congruence|].
    rewrite Ht. cbn [fold_left]. f_equal. lia.
Qed.
Lemma next_digits_none : forall n s t, get_next_digit_chars n s t = None -> (length (digits_of s) < n)%nat.
Proof.
  induction n as [|n IH]; intros s t H; cbn [get_next_digit_chars] in H; [discriminate H|].
  destruct (get_next_digit s) as [[d r]|] eqn:E.
  - apply next_digit_some in E. apply IH in H. rewrite E. simpl. lia.
  - apply next_digit_none in E. rewrite E. simpl. lia.
Qed.

Lemma c35_insee_key_lemma :
  forall s l, has_digits s l -> (nir_is_valid s = true <-> nir_number l).
Proof.
  intros s l Hl. apply has_digits_spec in Hl. subst l. unfold nir_is_valid, nir_number.
  destruct (get_next_digit_chars 13 s 0) as [[t s1]|] eqn:E1.
  - apply next_digits_some in E1 as (l1 & H1 & Hl1 & ->).
    destruct (get_next_digit_chars 2 s1 0) as [[k s2]|] eqn:E2.
    + apply next_digits_some in E2 as (l2 & H2 & Hl2 & ->).
      destruct (get_next_digit s2) as [[d s3]|] eqn:E3.
      * apply next_digit_some in E3. split; [intros H; discriminate H|]. intros (nb & key & H & Hn & Hk & _). exfalso.
        apply (f_equal (@length N)) in H. rewrite H1, H2, E3, !app_length in H. simpl in H. lia.
      * apply next_digit_none in E3. rewrite E3, app_nil_r in H2. rewrite H2 in H1. rewrite H1. rewrite N.eqb_eq. split.
        -- intros H. exists l1, l2. split; [reflexivity|]. unfold decimal. auto.
        -- intros (nb & key & H & Hn & Hk & Hd).
           assert (l1 = nb /\ l2 = key) as [<- <-].
           { apply app_same_length; [congruence|exact H]. }
           symmetry. exact Hd.
    + apply next_digits_none in E2. split; [intros H; discriminate H|]. intros (nb & key & H & Hn & Hk & _). exfalso.
      apply (f_equal (@length N)) in H. rewrite H1, !app_length in H. lia.
  - apply next_digits_none in E1. split; [intros H; discriminate H|]. intros (nb & key & H & Hn & Hk & _). exfalso.
    apply (f_equal (@length N)) in H. rewrite !app_length in H. lia.
Qed.

(* ---- splitting ---- *)
Lemma split_none : forall sep s, ~ In sep s -> split_on sep s = [s].
Proof.
  induction s as [|c s IH]; intros H; simpl; [reflexivity|]. destruct (c =? sep) eqn:E.
  - apply N.eqb_eq in E. destruct H. left. exact E.
  - rewrite IH; [reflexivity|]. intros K. apply H. right. exact K.
Qed.
Lemma split_cons : forall sep a b, ~ In sep a -> split_on sep (a ++ sep :: b) = a :: split_on sep b.
Proof.
  induction a as [|c a IH]; intros b H; simpl; [rewrite N.eqb_refl; reflexivity|]. destruct (c =? sep) eqn:E.
  - apply N.eqb_eq in E. destruct H. left. exact E.
  - rewrite IH; [reflexivity|]. intros K. apply H. right. exact K.
Qed.
Lemma first_sep : forall (sep : char) s, In sep s -> exists a b, s = a ++ sep :: b /\ ~ In sep a.
Proof.
  induction s as [|c s IH]; intros H; [destruct H|]. destruct (N.eq_dec c sep) as [->|Hne].
  - exists [], s. split; [reflexivity|intros []].
  - destruct H as [H|H]; [destruct (Hne H)|]. destruct (IH H) as (a & b & -> & Ha). exists (c :: a), b.
    split; [reflexivity|]. intros [K|K]; auto.
Qed.
Lemma split_ind : forall sep (P : str -> Prop),
  (forall s, ~ In sep s -> P s) -> (forall a b, ~ In sep a -> P b -> P (a ++ sep :: b)) -> forall s, P s.
Proof.
  intros sep P H1 H2 s. remember (length s) as n eqn:En. revert s En.
  induction n as [n IH] using (well_founded_induction Wf_nat.lt_wf). intros s ->.
  destruct (in_dec N.eq_dec sep s) as [Hin|Hin]; [|apply H1; exact Hin].
  destruct (first_sep sep s Hin) as (a & b & -> & Ha). apply H2; [exact Ha|]. eapply IH; [|reflexivity].
  rewrite app_length. simpl. lia.
Qed.
Lemma split_nonempty : forall sep s, split_on sep s <> [].
Proof.
  intros sep s. destruct (in_dec N.eq_dec sep s) as [Hin|Hin].
  - destruct (first_sep sep s Hin) as (a & b & -> & Ha). rewrite split_cons by exact Ha. discriminate.
  - rewrite split_none by exact Hin. discriminate.
Qed.
Lemma last_segment : forall sep s, In sep s ->
  (2 <= length (split_on sep s))%nat /\ exists pre, s = pre ++ sep :: last (split_on sep s) [] /\ ~ In sep (last (split_on sep s) []).
Proof.
  intros sep s. pattern s. apply (split_ind sep); clear s.
  - intros s H K. destruct (H K).
  - intros a b Ha IH _. rewrite split_cons by exact Ha. pose proof (split_nonempty sep b) as Hne.
    destruct (split_on sep b) as [|p ps] eqn:E; [congruence|]. split; [simpl; lia|].
    change (last (a :: p :: ps) []) with (last (p :: ps) (@nil N)).
    destruct (in_dec N.eq_dec sep b) as [Hb|Hb].
    + destruct (IH Hb) as (_ & pre & Hp & Hn). exists (a ++ sep :: pre). rewrite <- app_assoc. cbn [app]. rewrite <- Hp. auto.
    + rewrite split_none in E by exact Hb. injection E as <- <-. exists a. auto.
Qed.
Lemma last_sep_unique : forall (sep : char) a b a' b', a ++ sep :: b = a' ++ sep :: b' -> ~ In sep b -> ~ In sep b' -> b = b'.
Proof.
  induction a as [|c a IH]; intros b a' b' H Hb Hb'; destruct a' as [|c' a']; simpl in H.
  - injection H as H. exact H.
  - injection H as -> ->. destruct Hb. apply in_or_app. right. left. reflexivity.
  - injection H as -> <-. destruct Hb'. apply in_or_app. right. left. reflexivity.
  - injection H as _ H. eapply IH; eauto.
Qed.

(* ---- base 62 ---- *)
Lemma alnum_spec : forall c, is_ascii_alnum c = true <-> alnum c.
Proof.
  intros c. unfold is_ascii_alnum, is_ascii_alpha, is_ascii_upper, is_ascii_lower, is_ascii_digit, in_range, alnum.
  rewrite !orb_true_iff, !andb_true_iff, !N.leb_le. tauto.
Qed.
Lemma base62_char_ok : forall d, d < 62 -> alnum (base62_char d) /\ base62_digit (base62_char d) = d.
Proof.
  intros d H. unfold base62_char, base62_digit, alnum.
  destruct (d <? 10) eqn:E1; [apply N.ltb_lt in E1|apply N.ltb_ge in E1].
  - assert (48 + d <=? 57 = true) as -> by (apply N.leb_le; lia). lia.
  - destruct (d <? 36) eqn:E2; [apply N.ltb_lt in E2|apply N.ltb_ge in E2].
    + assert (65 + (d - 10) <=? 57 = false) as -> by (apply N.leb_gt; lia).
      assert (65 + (d - 10) <=? 90 = true) as -> by (apply N.leb_le; lia). lia.
    + assert (97 + (d - 36) <=? 57 = false) as -> by (apply N.leb_gt; lia).
      assert (97 + (d - 36) <=? 90 = false) as -> by (apply N.leb_gt; lia). lia.
Qed.
Lemma base62_digit_inj : forall c d, alnum c -> alnum d -> base62_digit c = base62_digit d -> c = d.
Proof.
  intros c d Hc Hd. unfold alnum in *. unfold base62_digit.
  destruct (c <=? 57) eqn:E1, (d <=? 57) eqn:E2, (c <=? 90) eqn:E3, (d <=? 90) eqn:E4;
    rewrite ?N.leb_le, ?N.leb_gt in *; lia.
Qed.
Lemma base62_digit_lt : forall c, alnum c -> base62_digit c < 62.
Proof.
  intros c Hc. unfold alnum in Hc. unfold base62_digit.
  destruct (c <=? 57) eqn:E1, (c <=? 90) eqn:E3; rewrite ?N.leb_le, ?N.leb_gt in *; lia.
Qed.
Lemma base62_snoc : forall s c, base62_value (s ++ [c]) = 62 * base62_value s + base62_digit c.
Proof. intros. unfold base62_value. rewrite fold_left_app. reflexivity. Qed.
Lemma base62_lt : forall s, Forall alnum s -> base62_value s < 62 ^ N.of_nat (length s).
Proof.
  intros s. induction s as [|c s IH] using rev_ind; intros H; [reflexivity|].
  apply Forall_app in H as [Hs Hc]. apply Forall_inv in Hc. specialize (IH Hs).
  rewrite base62_snoc, app_length. simpl length. rewrite Nat.add_1_r, Nat2N.inj_succ, N.pow_succ_r'.
  pose proof (base62_digit_lt c Hc). lia.
Qed.
Lemma base62_inj : forall n s t, length s = n -> length t = n -> Forall alnum s -> Forall alnum t ->
  base62_value s = base62_value t -> s = t.
Proof.
  induction n as [|n IH]; intros s t Hs Ht As At H.
  - destruct s; [|discriminate Hs]. destruct t; [reflexivity|discriminate Ht].
  - destruct (rev s) as [|c s'] eqn:Es; [apply (f_equal (@length N)) in Es; rewrite rev_length, Hs in Es; discriminate Es|].
    destruct (rev t) as [|d t'] eqn:Et; [apply (f_equal (@length N)) in Et; rewrite rev_length, Ht in Et; discriminate Et|].
    apply (f_equal (@rev N)) in Es, Et. rewrite rev_involutive in Es, Et. simpl in Es, Et. subst s t.
    rewrite app_length in Hs, Ht. simpl in Hs, Ht. apply Forall_app in As as [As Ac], At as [At Ad].
    apply Forall_inv in Ac, Ad. rewrite !base62_snoc in H.
    pose proof (base62_digit_lt c Ac). pose proof (base62_digit_lt d Ad).
    assert (Hd : base62_digit c = base62_digit d) by lia.
    assert (Hv : base62_value (rev s') = base62_value (rev t')) by lia.
    apply base62_digit_inj in Hd; [|assumption|assumption]. subst d. f_equal. apply IH; try assumption; lia.
Qed.
Lemma base62_digits_spec : forall fuel n acc, 0 < n -> n < 62 ^ N.of_nat fuel ->
  exists ds, base62_digits fuel n acc = ds ++ acc /\ ds <> [] /\ Forall alnum ds /\ base62_value ds = n /\
    62 ^ N.of_nat (length ds - 1) <= n.
Proof.
  induction fuel as [|f IH]; intros n acc H0 Hn; [simpl in Hn; lia|].
  cbn [base62_digits]. destruct (n =? 0) eqn:E; [apply N.eqb_eq in E; lia|]. clear E.
  assert (Hr : n mod 62 < 62) by (apply N.mod_lt; discriminate).
  destruct (base62_char_ok _ Hr) as [Ha Hd].
  destruct (N.eq_dec (n / 62) 0) as [Hz|Hz].
  - exists [base62_char (n mod 62)]. rewrite Hz. split; [destruct f; reflexivity|]. split; [discriminate|].
    split; [constructor; [exact Ha|constructor]|]. unfold base62_value. cbn [fold_left length Nat.sub]. rewrite Hd.
    change (62 ^ N.of_nat 0) with 1. lia.
  - rewrite Nat2N.inj_succ, N.pow_succ_r' in Hn.
    destruct (IH (n / 62) (base62_char (n mod 62) :: acc)) as (ds & E & Hne & Hal & Hv & Hlo); [lia|lia|].
    exists (ds ++ [base62_char (n mod 62)]). rewrite E, <- app_assoc. split; [reflexivity|].
    split; [destruct ds; discriminate|]. split; [apply Forall_app; split; [exact Hal|constructor; [exact Ha|constructor]]|].
    rewrite base62_snoc, Hv, Hd. split; [lia|]. rewrite app_length. simpl length.
    destruct ds as [|x ds]; [congruence|]. simpl length in *. rewrite Nat.add_1_r. cbn [Nat.sub] in *. rewrite Nat.sub_0_r in *.
    rewrite Nat2N.inj_succ, N.pow_succ_r'. lia.
Qed.
Lemma str_eqb_true : forall a b, str_eqb a b = true <-> a = b.
Proof.
  induction a as [|x a IH]; intros [|y b]; simpl; try (split; intros H; [discriminate H|discriminate H]); [tauto|].
  rewrite andb_true_iff, N.eqb_eq, IH. split; [intros [-> ->]; reflexivity|intros H; injection H as -> ->; auto].
Qed.
Lemma encode_six : forall n check, n < 4294967296 -> length check = 6%nat -> Forall alnum check ->
  (base62_encode n = check <-> base62_value check = n /\ 916132832 <= n).
Proof.
  intros n check Hn Hl Ha. unfold base62_encode. destruct (n =? 0) eqn:E0.
  - apply N.eqb_eq in E0. split; [intros <-; discriminate Hl|]. lia.
  - apply N.eqb_neq in E0. destruct (base62_digits_spec 22 n []) as (ds & E & Hne & Had & Hv & Hlo); [lia| |].
    { eapply N.lt_trans; [exact Hn|]. vm_compute. reflexivity. }
    rewrite app_nil_r in E. rewrite E. split.
    + intros <-. split; [exact Hv|]. rewrite Hl in Hlo. exact Hlo.
    + intros [Hc Hb]. pose proof (base62_lt ds Had) as Hhi. rewrite Hv in Hhi.
      assert (Hds : length ds = 6%nat).
      { destruct (Nat.lt_trichotomy (length ds) 6) as [K|[K|K]]; [|exact K|]; exfalso.
        - assert (62 ^ N.of_nat (length ds) <= 62 ^ 5) by (apply N.pow_le_mono_r; lia).
          change (62 ^ 5) with 916132832 in *. lia.
        - assert (62 ^ 6 <= 62 ^ N.of_nat (length ds - 1)) by (apply N.pow_le_mono_r; lia).
          change (62 ^ 6) with 56800235584 in *. lia. }
      eapply base62_inj; eauto. congruence.
Qed.

Lemma c36_six_digit_checksums_lemma :
  forall crc, (forall bytes, Forall (fun b => b < 256) bytes -> crc bytes < 4294967296) -> forall s,
  github_is_valid crc s = true <-> exists payload, github_token crc s payload /\ 62 ^ 5 <= crc payload.
Proof.
  intros crc Hcrc0 s. unfold github_is_valid. cbv zeta.
  assert (Hcrc : forall b, Forall alnum b -> crc b < 4294967296).
  { intros b Hb. apply Hcrc0. eapply Forall_impl; [|exact Hb]. intros c Hc. unfold alnum in Hc. lia. }
  destruct (in_dec N.eq_dec 95 s) as [Hin|Hin].
  2:{ rewrite split_none by exact Hin. cbn [length Nat.ltb Nat.leb]. split; [intros H; discriminate H|].
      intros (p & (pre & chk & -> & _) & _). destruct Hin. apply in_or_app. right. left. reflexivity. }
  destruct (last_segment 95 s Hin) as (Hlen & pre & Es & Hno). set (lp := last (split_on 95 s) []) in *.
  assert (Nat.ltb (length (split_on 95 s)) 2 = false) as -> by (apply Nat.ltb_ge; exact Hlen).
  assert (Hal95 : forall l : str, Forall alnum l -> ~ In 95 l).
  { intros l H K. rewrite Forall_forall in H. apply H in K. unfold alnum in K. lia. }
  split.
  - destruct (forallb is_ascii_alnum lp) eqn:Ea; [|intros H; discriminate H]. cbn [negb].
    destruct (Nat.leb (length lp) 6) eqn:El; [intros H; discriminate H|]. apply Nat.leb_gt in El. intros H.
    apply str_eqb_true in H. assert (Hal : Forall alnum lp).
    { apply Forall_forall. intros c Hc. apply alnum_spec. rewrite forallb_forall in Ea. auto. }
    exists (firstn (length lp - 6) lp). rewrite <- (firstn_skipn (length lp - 6) lp) in Hal.
    apply encode_six in H; [|apply Hcrc; apply Forall_app in Hal; tauto|rewrite skipn_length; lia|apply Forall_app in Hal; tauto].
    destruct H as [Hv Hb]. split; [|exact Hb]. exists pre, (skipn (length lp - 6) lp).
    split; [rewrite firstn_skipn; exact Es|]. split; [exact Hal|].
    split; [intros K; apply (f_equal (@length N)) in K; rewrite firstn_length in K; simpl in K; lia|].
    split; [rewrite skipn_length; lia|exact Hv].
  - intros (payload & (pre' & chk & Es' & Hal & Hne & Hl6 & Hv) & Hb).
    assert (El : lp = payload ++ chk).
    { eapply last_sep_unique; [rewrite <- Es; exact Es'|exact Hno|apply Hal95; exact Hal]. }
    rewrite El. assert (forallb is_ascii_alnum (payload ++ chk) = true) as ->.
    { apply forallb_forall. intros c Hc. apply alnum_spec. rewrite Forall_forall in Hal. auto. }
    cbn [negb]. rewrite app_length, Hl6.
    assert (0 < length payload)%nat by (destruct payload; [congruence|simpl; lia]).
    assert (Nat.leb (length payload + 6) 6 = false) as -> by (apply Nat.leb_gt; lia).
    replace (length payload + 6 - 6)%nat with (length payload) by lia.
    rewrite firstn_app, skipn_app, Nat.sub_diag, firstn_all, skipn_all. cbn [firstn skipn app]. rewrite app_nil_r.
    apply str_eqb_true, encode_six; [apply Hcrc; apply Forall_app in Hal; tauto|exact Hl6|apply Forall_app in Hal; tauto|]. split; [exact Hv|].
    change (62 ^ 5) with 916132832 in Hb. exact Hb.
Qed.

Lemma lxor_lt : forall a b, a < 4294967296 -> b < 4294967296 -> N.lxor a b < 4294967296.
Proof.
  intros a b Ha Hb. change 4294967296 with (2 ^ 32) in *.
  destruct (N.eq_dec (N.lxor a b) 0) as [->|Hz]; [reflexivity|].
  apply N.log2_lt_pow2; [lia|].
  assert (Hl : forall x, x < 2 ^ 32 -> N.log2 x < 32).
  { intros x Hx. destruct (N.eq_dec x 0) as [->|Hx0]; [reflexivity|]. apply N.log2_lt_pow2; [lia|exact Hx]. }
  pose proof (N.log2_lxor a b). apply Hl in Ha, Hb. lia.
Qed.

Lemma c36_crc32_is_32_bits_lemma :
  forall bytes, Forall (fun b => b < 256) bytes -> crc32 bytes < 4294967296.
Proof.
  intros bytes H. unfold crc32. apply lxor_lt; [|reflexivity].
  assert (Hbit : forall c, c < 4294967296 -> crc_bit c < 4294967296).
  { intros c Hc. unfold crc_bit. assert (N.shiftr c 1 < 4294967296).
    { rewrite N.shiftr_div_pow2. change (2 ^ 1) with 2. lia. }
    destruct (N.odd c); [apply lxor_lt; [assumption|reflexivity]|assumption]. }
  assert (Hgen : forall c, c < 4294967296 -> fold_left crc_byte bytes c < 4294967296).
  { induction H as [|b bytes Hb H IH]; intros c Hc; [exact Hc|]. cbn [fold_left]. apply IH. unfold crc_byte.
    simpl Nat.iter. do 8 apply Hbit. apply lxor_lt; [exact Hc|]. lia. }
  apply Hgen. reflexivity.
Qed.

Lemma c36_padded_checksum_refuted_lemma :
  let payload := text "abcdefghijklmnopqrstuvwxyz0000" in
exists check, github_token crc32 (text "ghp_" ++ payload ++ check) payload /\
  github_is_valid crc32 (text "ghp_" ++ payload ++ check) = false.
Proof.
  exists (text "0mKPu7"). split; [|vm_compute; reflexivity].
  exists (text "ghp"), (text "0mKPu7"). split; [reflexivity|].
  split; [|split; [discriminate|split; [reflexivity|vm_compute; reflexivity]]].
  apply Forall_forall. intros c Hc. apply alnum_spec.
  assert (Hf : forallb is_ascii_alnum (text "abcdefghijklmnopqrstuvwxyz0000" ++ text "0mKPu7") = true) by (vm_compute; reflexivity).
  rewrite forallb_forall in Hf. exact (Hf c Hc).
Qed.

(* ---- JWT ---- *)
Lemma split_three : forall s a b c, split_on 46 s = [a; b; c] <-> three_segments s a b c.
Proof.
  intros s a b c. unfold three_segments. split.
  - intros H. assert (Hin : In 46 s).
    { destruct (in_dec N.eq_dec 46 s) as [Hin|Hin]; [exact Hin|]. rewrite split_none in H by exact Hin. discriminate H. }
    destruct (first_sep 46 s Hin) as (x & r & -> & Hx). rewrite split_cons in H by exact Hx. injection H as <- H.
    assert (Hin2 : In 46 r).
    { destruct (in_dec N.eq_dec 46 r) as [Hin2|Hin2]; [exact Hin2|]. rewrite split_none in H by exact Hin2. discriminate H. }
    destruct (first_sep 46 r Hin2) as (y & r2 & -> & Hy). rewrite split_cons in H by exact Hy. injection H as <- H.
    destruct (in_dec N.eq_dec 46 r2) as [Hin3|Hin3].
    + destruct (first_sep 46 r2 Hin3) as (z & r3 & -> & Hz). rewrite split_cons in H by exact Hz. injection H as _ H.
      destruct (split_nonempty 46 r3 H).
    + rewrite split_none in H by exact Hin3. injection H as <-. auto.
  - intros (-> & Ha & Hb & Hc). simpl. rewrite split_cons by exact Ha. f_equal. rewrite split_cons by exact Hb. f_equal.
    apply split_none. exact Hc.
Qed.
Lemma map_get_in : forall A (m : list (str * A)) k v, NoDup (map fst m) -> (map_get m k = Some v <-> In (k, v) m).
Proof.
  induction m as [|[k' v'] m IH]; intros k v H; simpl; [split; [intros K; discriminate K|intros []]|].
  inversion H as [|? ? Hni Hnd]; subst. destruct (str_eqb k' k) eqn:E.
  - apply str_eqb_true in E. subst k'. split.
    + intros K. injection K as <-. left. reflexivity.
    + intros [K|K]; [congruence|]. destruct Hni. change k with (fst (k, v)). apply in_map. exact K.
  - rewrite IH by exact Hnd. split; [auto|]. intros [K|K]; [|exact K]. injection K as -> ->.
    assert (str_eqb k k = true) by (apply str_eqb_true; reflexivity). congruence.
Qed.

Lemma c37_accepted_tokens_lemma :
  forall decode number now s,
  (forall x m, decode x = Some (JObject m) -> NoDup (map fst m)) ->
  (jwt_is_valid decode number now s = true <->
   exists header payload signature h p,
     three_segments s header payload signature /\ decode header = Some h /\ decode payload = Some p /\
     forall m e, p = JObject m -> In (text "exp", e) m -> exists n t, e = JNumber n /\ number n = Some t /\ (now < t)%Z).
Proof.
  intros decode number now s Hnd. unfold jwt_is_valid, jwt_decode_segments. split.
  - intros H. destruct (split_on 46 s) as [|a [|b [|c [|? ?]]]] eqn:E; try discriminate H.
    apply split_three in E. destruct (decode a) as [h|] eqn:Ea; [|discriminate H].
    destruct (decode b) as [p|] eqn:Eb; [|discriminate H]. exists a, b, c, h, p.
    split; [exact E|]. split; [exact Ea|]. split; [exact Eb|]. intros m e -> Hin.
    apply map_get_in in Hin; [|eapply Hnd; exact Eb]. cbn [json_field] in H. change exp_name with (text "exp") in H.
    rewrite Hin in H. destruct e as [| |n| | |]; cbn [json_as_i64] in H; try discriminate H.
    destruct (number n) as [t|] eqn:En; [|discriminate H]. exists n, t. split; [reflexivity|]. split; [exact En|].
    apply Z.ltb_lt. exact H.
  - intros (a & b & c & h & p & E & Ea & Eb & H). apply split_three in E. rewrite E, Ea, Eb.
    destruct (json_field p exp_name) as [e|] eqn:Ef; [|reflexivity]. destruct p as [| | | | |m]; try discriminate Ef.
    cbn [json_field] in Ef. apply map_get_in in Ef; [|eapply Hnd; exact Eb].
    destruct (H m e eq_refl Ef) as (n & t & -> & Hn & Ht). cbn [json_as_i64]. rewrite Hn. apply Z.ltb_lt. exact Ht.
Qed.

Lemma c37_non_object_refuted_lemma :
  forall decode number now header payload signature h p,
  ~ In 46 header -> ~ In 46 payload -> ~ In 46 signature ->
  decode header = Some h -> decode payload = Some p -> (forall m, p <> JObject m) ->
  jwt_is_valid decode number now (header ++ [46] ++ payload ++ [46] ++ signature) = true.
Proof.
  intros decode number now header payload signature h p H1 H2 H3 Hh Hp Hno.
  unfold jwt_is_valid, jwt_decode_segments.
  assert (split_on 46 (header ++ [46] ++ payload ++ [46] ++ signature) = [header; payload; signature]) as ->.
  { apply split_three. unfold three_segments. auto. }
  rewrite Hh, Hp. destruct p as [| | | | |m]; try reflexivity. destruct (Hno m eq_refl).
Qed.

Lemma c65_iban_ignores_separators_lemma :
  forall alphanumeric parses s x t, Forall (fun c => alphanumeric c = false) x ->
  iban_is_valid alphanumeric parses (s ++ x ++ t) = iban_is_valid alphanumeric parses (s ++ t).
Proof.
  intros alphanumeric parses s x t H. unfold iban_is_valid. f_equal. rewrite !filter_app. f_equal.
  assert (filter alphanumeric x = []) as ->; [|reflexivity].
  induction H as [|c x Hc H IH]; [reflexivity|]. simpl. rewrite Hc. exact IH.
Qed.

