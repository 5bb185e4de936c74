(* Decoding of JWT segments *)
From Coq Require Import Lia ZifyN ZifyBool ZifyNat.
From Verif Require Export Model.Jwt Spec.Jwt Proofs.JsonText Proofs.Lossy.
From Verif Require Import Proofs.Json Proofs.Text.

(* ---- bits ---- *)
Lemma bits_length : forall k n, length (bits k n) = k.
Proof. induction k as [|k IH]; intros n; [reflexivity|]. cbn [bits]. rewrite app_length, IH. cbn. lia. Qed.
Lemma bits_app : forall k j n, bits (j + k) n = bits j (n / 2 ^ N.of_nat k)%N ++ bits k n.
Proof.
  induction k as [|k IH]; intros j n.
  - rewrite Nat.add_0_r. cbn [bits N.of_nat]. rewrite N.div_1_r, app_nil_r. reflexivity.
  - rewrite Nat.add_succ_r. cbn [bits]. rewrite IH, app_assoc. f_equal. f_equal. f_equal.
    rewrite N.div2_div, N.div_div by lia. f_equal. rewrite Nat2N.inj_succ, N.pow_succ_r'. reflexivity.
Qed.
Lemma bits_mod : forall k a b, bits k (a * 2 ^ N.of_nat k + b)%N = bits k b.
Proof.
  induction k as [|k IH]; intros a b; [reflexivity|]. cbn [bits]. rewrite Nat2N.inj_succ, N.pow_succ_r'. f_equal.
  - rewrite <- (IH a (N.div2 b)). f_equal. rewrite !N.div2_div. replace (a * (2 * 2 ^ N.of_nat k) + b)%N with (b + (a * 2 ^ N.of_nat k) * 2)%N by lia.
    rewrite N.div_add by discriminate. apply N.add_comm.
  - replace (a * (2 * 2 ^ N.of_nat k) + b)%N with (b + 2 * (a * 2 ^ N.of_nat k))%N by lia. rewrite N.odd_add_mul_2. reflexivity.
Qed.
Lemma bits_join : forall j k a b, (b < 2 ^ N.of_nat k)%N -> bits j a ++ bits k b = bits (j + k) (a * 2 ^ N.of_nat k + b)%N.
Proof.
  intros j k a b H. rewrite bits_app, bits_mod. f_equal. f_equal. rewrite N.div_add_l by (apply N.pow_nonzero; lia).
  rewrite N.div_small by exact H. lia.
Qed.
Lemma bits_zero : forall k, bits k 0 = repeat false k.
Proof.
  induction k as [|k IH]; [reflexivity|]. cbn [bits]. change (N.div2 0) with 0%N. rewrite IH. change (N.odd 0) with false.
  symmetry. apply repeat_cons.
Qed.
Lemma bits_inj : forall k a b, (a < 2 ^ N.of_nat k)%N -> (b < 2 ^ N.of_nat k)%N -> bits k a = bits k b -> a = b.
Proof.
  induction k as [|k IH]; intros a b Ha Hb H; [cbn in Ha, Hb; lia|]. cbn [bits] in H. apply app_inj_tail in H as [H K].
  rewrite Nat2N.inj_succ, N.pow_succ_r' in Ha, Hb. apply IH in H.
  - rewrite (N.div2_odd a), (N.div2_odd b), H, K. reflexivity.
  - rewrite N.div2_div. apply N.div_lt_upper_bound; lia.
  - rewrite N.div2_div. apply N.div_lt_upper_bound; lia.
Qed.

(* ---- base64 ---- *)
Lemma base64_value_spec : forall c v, base64_value c = Some v <-> nth_error base64_alphabet (N.to_nat v) = Some c /\ (v < 64)%N.
Proof.
  intros c v. split.
  - intros H. assert (Hc : (c < 128)%N).
    { unfold base64_value in H. destruct (in_range 65 90 c) eqn:E1; [apply in_range_spec in E1; lia|].
      destruct (in_range 97 122 c) eqn:E2; [apply in_range_spec in E2; lia|].
      destruct (in_range 48 57 c) eqn:E3; [apply in_range_spec in E3; lia|].
      destruct (N.eqb_spec c 45); [lia|]. destruct (N.eqb_spec c 95); [lia|discriminate H]. }
    assert (K : forallb (fun i => match base64_value (N.of_nat i) with
      | Some v => match nth_error base64_alphabet (N.to_nat v) with Some d => (d =? N.of_nat i)%N | None => false end && (v <? 64)%N
      | None => true end) (seq 0 128) = true) by (vm_compute; reflexivity).
    rewrite forallb_forall in K. specialize (K (N.to_nat c)). rewrite in_seq, N2Nat.id, H in K.
    assert (L := K ltac:(lia)). apply andb_true_iff in L as [L1 L2]. destruct (nth_error base64_alphabet (N.to_nat v)); [|discriminate L1].
    apply N.eqb_eq in L1 as ->. split; [reflexivity|lia].
  - intros [H Hv].
    assert (K : forallb (fun i => match nth_error base64_alphabet i with
      | Some c => match base64_value c with Some v => (v =? N.of_nat i)%N | None => false end | None => true end) (seq 0 64) = true) by (vm_compute; reflexivity).
    rewrite forallb_forall in K. specialize (K (N.to_nat v)). rewrite in_seq, H in K. assert (L := K ltac:(lia)).
    destruct (base64_value c) as [w|]; [|discriminate L]. apply N.eqb_eq in L. f_equal. lia.
Qed.
Lemma six_value : forall c v s l, base64_value c = Some v -> six_bits s l -> six_bits (c :: s) (bits 6 v ++ l).
Proof.
  intros c v s l H K. apply base64_value_spec in H as [H _]. rewrite <- (N2Nat.id v). constructor; assumption.
Qed.
Lemma six_inv : forall c s l, six_bits (c :: s) l -> exists v l', base64_value c = Some v /\ (v < 64)%N /\ six_bits s l' /\ l = bits 6 v ++ l'.
Proof.
  intros c s l H. inversion H as [|c' v s' l' Hv K E1 E2]; subst.
  assert (L : v < 64) by (change 64 with (length base64_alphabet); apply nth_error_Some; rewrite Hv; discriminate).
  exists (N.of_nat v), l'. split; [apply base64_value_spec; rewrite Nat2N.id; split; [exact Hv|lia]|]. split; [lia|]. split; [exact K|reflexivity].
Qed.
Lemma six_length : forall s l, six_bits s l -> length l = 6 * length s.
Proof. intros s l H. induction H; [reflexivity|]. rewrite app_length, bits_length, IHsix_bits. cbn [length]. lia. Qed.
Lemma octet_bits_length : forall b, length (flat_map (bits 8) b) = 8 * length b.
Proof. induction b as [|x b IH]; [reflexivity|]. cbn [flat_map length]. rewrite app_length, bits_length, IH. lia. Qed.

Lemma bits_4 : forall a b c d, (b < 64 -> c < 64 -> d < 64 ->
  bits 6 a ++ bits 6 b ++ bits 6 c ++ bits 6 d = bits 24 (a * 262144 + b * 4096 + c * 64 + d))%N.
Proof.
  intros a b c d Hb Hc Hd. rewrite (bits_join 6 6 c d) by exact Hd. rewrite (bits_join 6 12 b) by (cbn; lia). rewrite (bits_join 6 18 a) by (cbn; lia).
  cbn [Nat.add N.of_nat Pos.of_succ_nat Pos.succ N.pow Pos.pow Pos.iter Pos.mul]. f_equal. lia.
Qed.
Lemma bits_3 : forall x y z, (y < 256 -> z < 256 ->
  bits 8 x ++ bits 8 y ++ bits 8 z = bits 24 (x * 65536 + y * 256 + z))%N.
Proof.
  intros x y z Hy Hz. rewrite (bits_join 8 8 y z) by exact Hz. rewrite (bits_join 8 16 x) by (cbn; lia). cbn [Nat.add]. f_equal.
  change (2 ^ N.of_nat 16)%N with 65536%N. change (2 ^ N.of_nat 8)%N with 256%N. lia.
Qed.
Lemma four_bytes : forall a b c d x y z, (a < 64 -> b < 64 -> c < 64 -> d < 64 -> x < 256 -> y < 256 -> z < 256 ->
  (bits 6 a ++ bits 6 b ++ bits 6 c ++ bits 6 d = bits 8 x ++ bits 8 y ++ bits 8 z <->
   x = a * 4 + b / 16 /\ y = b mod 16 * 16 + c / 4 /\ z = c mod 4 * 64 + d))%N.
Proof.
  intros a b c d x y z Ha Hb Hc Hd Hx Hy Hz. rewrite bits_4, bits_3 by assumption. split.
  - intros H. apply bits_inj in H; [lia| |]; change (2 ^ N.of_nat 24)%N with 16777216%N; lia.
  - intros H. f_equal. lia.
Qed.
Lemma two_bytes : forall a b x, (a < 64 -> b < 64 -> x < 256 ->
  (bits 6 a ++ bits 6 b = bits 8 x ++ repeat false 4 <-> b mod 16 = 0 /\ x = a * 4 + b / 16))%N.
Proof.
  intros a b x Ha Hb Hx. rewrite <- bits_zero, !bits_join by (cbn; lia). cbn [Nat.add].
  change (2 ^ N.of_nat 6)%N with 64%N. change (2 ^ N.of_nat 4)%N with 16%N. split.
  - intros H. apply bits_inj in H; [lia| |]; change (2 ^ N.of_nat 12)%N with 4096%N; lia.
  - intros H. f_equal. lia.
Qed.
Lemma three_bytes : forall a b c x y, (a < 64 -> b < 64 -> c < 64 -> x < 256 -> y < 256 ->
  (bits 6 a ++ bits 6 b ++ bits 6 c = bits 8 x ++ bits 8 y ++ repeat false 2 <->
   c mod 4 = 0 /\ x = a * 4 + b / 16 /\ y = b mod 16 * 16 + c / 4))%N.
Proof.
  intros a b c x y Ha Hb Hc Hx Hy. rewrite <- bits_zero. rewrite (bits_join 6 6 b c) by exact Hc. rewrite (bits_join 8 2 y 0) by (cbn; lia).
  rewrite !bits_join by (cbn; lia). cbn [Nat.add].
  change (2 ^ N.of_nat 6)%N with 64%N. change (2 ^ N.of_nat 2)%N with 4%N. change (2 ^ N.of_nat 12)%N with 4096%N. change (2 ^ N.of_nat 10)%N with 1024%N. split.
  - intros H. apply bits_inj in H; [lia| |]; change (2 ^ N.of_nat 18)%N with 262144%N; lia.
  - intros H. f_equal. lia.
Qed.
Lemma app_split : forall (A : Type) (a b c d : list A), length a = length c -> a ++ b = c ++ d -> a = c /\ b = d.
Proof.
  intros A a. induction a as [|x a IH]; intros b [|y c] d L E; try discriminate L; [auto|]. injection L as L. injection E as -> E.
  apply IH in E as [-> ->]; auto.
Qed.
Lemma base64_sound : forall n s b, length s <= n -> base64_decode s = Some b -> base64url b s.
Proof.
  induction n as [|n IH]; intros s b Hn H.
  - destruct s; [|cbn in Hn; lia]. injection H as <-. split; [constructor|]. exists 0. split; [lia|constructor].
  - destruct s as [|a [|b' [|c [|d s]]]]; cbn [base64_decode] in H; [|discriminate H| | |].
    + injection H as <-. split; [constructor|]. exists 0. split; [lia|constructor].
    + apply obind_some in H as (va & Ea & H). apply obind_some in H as (vb & Eb & H). destruct (N.eqb_spec (vb mod 16) 0) as [E|]; [|discriminate H].
      injection H as <-. pose proof (proj2 (proj1 (base64_value_spec _ _) Ea)) as La. pose proof (proj2 (proj1 (base64_value_spec _ _) Eb)) as Lb.
      split; [constructor; [lia|constructor]|]. exists 4. split; [lia|]. cbn [flat_map]. rewrite app_nil_r.
      rewrite <- (proj2 (two_bytes va vb (va * 4 + vb / 16) La Lb ltac:(lia)) (conj E eq_refl)). rewrite <- (app_nil_r (bits 6 vb)).
      apply six_value; [exact Ea|]. apply six_value; [exact Eb|constructor].
    + apply obind_some in H as (va & Ea & H). apply obind_some in H as (vb & Eb & H). apply obind_some in H as (vc & Ec & H).
      destruct (N.eqb_spec (vc mod 4) 0) as [E|]; [|discriminate H].
      injection H as <-. pose proof (proj2 (proj1 (base64_value_spec _ _) Ea)) as La. pose proof (proj2 (proj1 (base64_value_spec _ _) Eb)) as Lb.
      pose proof (proj2 (proj1 (base64_value_spec _ _) Ec)) as Lc.
      split; [repeat constructor; lia|]. exists 2. split; [lia|]. cbn [flat_map]. rewrite app_nil_r, <- app_assoc.
      rewrite <- (proj2 (three_bytes va vb vc (va * 4 + vb / 16) (vb mod 16 * 16 + vc / 4) La Lb Lc ltac:(lia) ltac:(lia)) (conj E (conj eq_refl eq_refl))). rewrite <- (app_nil_r (bits 6 vc)).
      apply six_value; [exact Ea|]. apply six_value; [exact Eb|]. apply six_value; [exact Ec|constructor].
    + apply obind_some in H as (va & Ea & H). apply obind_some in H as (vb & Eb & H). apply obind_some in H as (vc & Ec & H).
      apply obind_some in H as (vd & Ed & H). apply obind_some in H as (l & El & H). injection H as <-.
      pose proof (proj2 (proj1 (base64_value_spec _ _) Ea)) as La. pose proof (proj2 (proj1 (base64_value_spec _ _) Eb)) as Lb.
      pose proof (proj2 (proj1 (base64_value_spec _ _) Ec)) as Lc. pose proof (proj2 (proj1 (base64_value_spec _ _) Ed)) as Ld.
      apply IH in El as (Fl & k & Hk & K); [|cbn in Hn; lia].
      split; [repeat (apply Forall_cons; [lia|]); exact Fl|]. exists k. split; [exact Hk|]. cbn [flat_map].
      rewrite !app_assoc. rewrite <- (app_assoc (bits 8 _) (bits 8 _) (bits 8 _)).
      rewrite <- (proj2 (four_bytes va vb vc vd (va * 4 + vb / 16) (vb mod 16 * 16 + vc / 4) (vc mod 4 * 64 + vd) La Lb Lc Ld ltac:(lia) ltac:(lia) ltac:(lia)) (conj eq_refl (conj eq_refl eq_refl))).
      rewrite <- !app_assoc. repeat (apply six_value; [assumption|]). exact K.
Qed.
Lemma base64_complete : forall n s b, length s <= n -> base64url b s -> base64_decode s = Some b.
Proof.
  induction n as [|n IH]; intros s b Hn (F & k & Hk & H); pose proof (six_length _ _ H) as L; rewrite app_length, octet_bits_length, repeat_length in L.
  - destruct s; [|cbn in Hn; lia]. destruct b; [reflexivity|cbn in L; lia].
  - destruct s as [|a s]; [destruct b; [reflexivity|cbn in L; lia]|]. destruct s as [|b1 s]; [cbn in L; lia|].
    apply six_inv in H as (va & l1 & Ea & La & H & E). apply six_inv in H as (vb & l2 & Eb & Lb & H & ->).
    destruct s as [|c s].
    + inversion H; subst. cbn [length] in L. destruct b as [|x [|y b]]; cbn [length] in L; [lia| |lia]. assert (k = 4) as -> by lia.
      inversion F as [|? ? Hx F']; subst. cbn [flat_map] in E. rewrite !app_nil_r in E. symmetry in E.
      apply (two_bytes va vb x La Lb Hx) in E as [E ->]. cbn [base64_decode]. rewrite Ea, Eb. cbn [obind]. rewrite E. reflexivity.
    + apply six_inv in H as (vc & l3 & Ec & Lc & H & ->). destruct s as [|d s].
      * inversion H; subst. cbn [length] in L. destruct b as [|x [|y [|z b]]]; cbn [length] in L; [lia|lia| |lia]. assert (k = 2) as -> by lia.
        inversion F as [|? ? Hx F']; subst. inversion F' as [|? ? Hy F'']; subst. cbn [flat_map] in E. rewrite !app_nil_r, <- app_assoc in E. symmetry in E.
        apply (three_bytes va vb vc x y La Lb Lc Hx Hy) in E as (E & -> & ->). cbn [base64_decode]. rewrite Ea, Eb, Ec. cbn [obind]. rewrite E. reflexivity.
      * apply six_inv in H as (vd & l4 & Ed & Ld & H & ->). cbn [length] in L, Hn.
        destruct b as [|x [|y [|z b]]]; cbn [length] in L; [lia|lia|lia|].
        inversion F as [|? ? Hx F']; subst. inversion F' as [|? ? Hy F'']; subst. inversion F'' as [|? ? Hz F3]; subst.
        cbn [flat_map] in E.
        assert (E' : (bits 6 va ++ bits 6 vb ++ bits 6 vc ++ bits 6 vd) ++ l4 = (bits 8 x ++ bits 8 y ++ bits 8 z) ++ flat_map (bits 8) b ++ repeat false k).
        { rewrite <- !app_assoc. rewrite <- !app_assoc in E. symmetry. exact E. }
        apply app_split in E' as [E1 ->]; [|rewrite !app_length, !bits_length; reflexivity].
        apply (four_bytes va vb vc vd x y z La Lb Lc Ld Hx Hy Hz) in E1 as (-> & -> & ->).
        cbn [base64_decode]. rewrite Ea, Eb, Ec, Ed. cbn [obind]. rewrite (IH s b); [reflexivity|lia|].
        split; [exact F3|]. exists k. split; [exact Hk|exact H].
Qed.
Lemma base64_decode_spec : forall s b, base64_decode s = Some b <-> base64url b s.
Proof. intros s b. split; [apply (base64_sound (length s))|apply (base64_complete (length s))]; lia. Qed.

(* ---- documents ---- *)
Lemma from_utf8_spec : forall b s, from_utf8 b = Some s <-> utf8_of s b.
Proof.
  intros b s. unfold from_utf8. split.
  - destruct (str_eqb (as_bytes (from_utf8_lossy b)) b) eqn:E; [|discriminate]. apply str_eqb_eq in E. intros H. injection H as <-.
    apply utf8_of_iff. split; [|auto]. pose proof (proj2 (lossy_iff b _) eq_refl) as R. clear E. induction R as [|c b rest s Hc R IH|bad rest s Hb R IH]; constructor.
    + exact (utf8_scalar _ _ Hc).
    + exact IH.
    + unfold scalar. lia.
    + exact IH.
  - intros H. rewrite (lossy_utf8 _ _ H), (utf8_of_bytes _ _ H), (proj2 (str_eqb_eq b b) eq_refl). reflexivity.
Qed.
Lemma last_members_in : forall m k v, In (k, v) (last_members m) <-> last_member m k v.
Proof.
  induction m as [|[k' v'] m IH]; intros k v; cbn [last_members].
  - split; [intros []|]. intros (a & b & E & _). destruct a; discriminate E.
  - cbn [fst]. assert (X : existsb (fun y => str_eqb (fst y) k') m = true <-> In k' (map fst m)).
    { rewrite existsb_exists, in_map_iff. split; intros (y & A & B); exists y; [apply str_eqb_eq in B|]; split; auto. apply str_eqb_eq. exact A. }
    destruct (existsb (fun y => str_eqb (fst y) k') m).
    + rewrite IH. split.
      * intros (a & b & -> & N). exists ((k', v') :: a), b. auto.
      * intros (a & b & E & N). destruct a as [|x a]; [|injection E as _ ->; exists a, b; auto].
        injection E as -> -> ->. exfalso. apply N, X. reflexivity.
    + cbn [In]. rewrite IH. split.
      * intros [E|(a & b & -> & N)].
        -- injection E as -> ->. exists [], m. split; [reflexivity|]. intros K. apply X in K. discriminate K.
        -- exists ((k', v') :: a), b. auto.
      * intros (a & b & E & N). destruct a as [|x a]; [left; injection E as -> -> _; reflexivity|]. right. injection E as _ ->. exists a, b. auto.
Qed.
Lemma last_members_distinct : forall m, NoDup (map fst (last_members m)).
Proof.
  induction m as [|[k v] m IH]; [constructor|]. cbn [last_members fst]. destruct (existsb (fun y => str_eqb (fst y) k) m) eqn:E; [exact IH|].
  cbn [map fst]. constructor; [|exact IH]. intros K. apply in_map_iff in K as ([k' v'] & Hk & K). cbn in Hk. subst k'.
  apply last_members_in in K as (a & b & -> & _). rewrite existsb_app in E. cbn [existsb fst] in E. rewrite (proj2 (str_eqb_eq k k) eq_refl) in E.
  rewrite orb_true_r in E. discriminate E.
Qed.
Lemma numbers_in_spec : forall finite v, numbers_in finite v = true <-> forall n, number_within n v -> finite n = true.
Proof.
  intros finite v. induction v as [|b|t|s|l IH|m IH] using json_ind'; cbn [numbers_in].
  - split; [intros _ n H; inversion H|reflexivity].
  - split; [intros _ n H; inversion H|reflexivity].
  - split; [intros H n K; inversion K; subst; exact H|intros H; apply H; constructor].
  - split; [intros _ n H; inversion H|reflexivity].
  - rewrite Forall_forall in IH. rewrite forallb_forall. split.
    + intros H n K. inversion K; subst. apply (proj1 (IH v ltac:(assumption))); [apply H|]; assumption.
    + intros H v Hv. apply IH; [exact Hv|]. intros n K. apply H. econstructor; eassumption.
  - rewrite Forall_forall in IH. rewrite forallb_forall. split.
    + intros H n K. inversion K as [| |? k v ? Hi Hw]; subst. apply (proj1 (IH (k, v) Hi)); [apply (H (k, v)); exact Hi|exact Hw].
    + intros H [k v] Hv. apply (IH (k, v)); [exact Hv|]. intros n K. apply H. econstructor; eassumption.
Qed.
Lemma decode_segment_spec : forall finite s w, decode_segment finite s = Some w <-> exists v, segment_holds finite v s /\ w = json_value v.
Proof.
  intros finite s w. unfold decode_segment, json_from_slice, segment_holds. split.
  - intros H. apply obind_some in H as (b & Eb & H). apply obind_some in H as (t & Et & H). apply obind_some in H as (v & Ev & H).
    destruct (numbers_in finite v) eqn:E; [|discriminate H]. injection H as <-. exists v. split; [|reflexivity].
    exists b, t. apply base64_decode_spec in Eb. apply from_utf8_spec in Et. apply json_reads in Ev as [Ev Ed].
    pose proof (proj1 (numbers_in_spec finite v) E). auto.
  - intros (v & (b & t & Hb & Ht & Hv & Hd & Hn) & ->). apply base64_decode_spec in Hb. apply from_utf8_spec in Ht.
    rewrite Hb. cbn [obind]. rewrite Ht. cbn [obind]. rewrite (proj2 (json_reads t v) (conj Hv Hd)). cbn [obind].
    rewrite (proj2 (numbers_in_spec finite v) Hn). reflexivity.
Qed.

(* ---- numbers ---- *)
Lemma digits_numerals : forall t, t <> [] -> (forallb is_ascii_digit t = true <-> numerals t).
Proof.
  intros t Ht. unfold numerals. rewrite forallb_forall, Forall_forall. split.
  - intros H. split; [exact Ht|]. intros c Hc. specialize (H c Hc). unfold is_ascii_digit in H. apply in_range_spec in H. unfold digit. lia.
  - intros [_ H] c Hc. specialize (H c Hc). unfold digit in H. unfold is_ascii_digit. apply in_range_spec. lia.
Qed.
Lemma number_as_i64_spec : forall t z, json_number t -> (number_as_i64 t = Some z <-> i64_text t z).
Proof.
  intros t z H. assert (NE : t <> [] /\ forall t', t = 45%N :: t' -> t' <> []).
  { destruct H as (g & i & f & e & Hg & Hi & _ & _ & ->).
    assert (i <> [] /\ forall t', i <> 45%N :: t') as [I1 I2].
    { destruct Hi as [-> |[[A B] _]]; [split; intros; discriminate|]. split; [exact A|]. intros t' ->. inversion B as [|? ? D _]; subst. unfold digit in D. lia. }
    destruct Hg as [-> | ->]; destruct i as [|c i]; try contradiction.
    - split; [discriminate|]. cbn [app]. intros t' E. injection E as -> _. destruct (I2 i eq_refl).
    - split; [discriminate|]. cbn. intros t' E. injection E as <-. discriminate. }
  destruct NE as [N1 N2]. clear H.
  assert (M : forall t', t = 45%N :: t' -> (number_as_i64 t = Some z <-> i64_text t z)).
  { intros t' ->. specialize (N2 t' eq_refl). cbn [number_as_i64]. split.
    - destruct (forallb is_ascii_digit t') eqn:E; [|discriminate]. apply digits_numerals in E; [|exact N2].
      destruct ((0 <? digits_value t') && (digits_value t' <=? 2 ^ 63))%N eqn:R; [|discriminate]. intros K. injection K as <-.
      apply andb_true_iff in R as [R1 R2]. apply N.ltb_lt in R1. apply N.leb_le in R2.
      apply (it_negative t'); [split; [exact E|reflexivity]|split; assumption].
    - intros K. inversion K as [? n [[_ F] _] Hr|u n [Hn ->] [R1 R2] E]; subst.
      + inversion F as [|? ? D _]; subst. unfold digit in D. lia.
      + rewrite (proj2 (digits_numerals t' N2) Hn). fold (digits_value t') in *.
        rewrite (proj2 (N.ltb_lt _ _) R1), (proj2 (N.leb_le _ _) R2). reflexivity. }
  destruct t as [|c t]; [contradiction|]. destruct (N.eq_dec c 45) as [->|Hc]; [apply (M t); reflexivity|].
  assert (E : number_as_i64 (c :: t) = if forallb is_ascii_digit (c :: t) then
      let n := digits_value (c :: t) in if (n <? 2 ^ 63)%N then Some (Z.of_N n) else None else None).
  { unfold number_as_i64. destruct c as [|p]; [reflexivity|]. repeat (destruct p as [p|p|]; try reflexivity). contradiction. }
  rewrite E. clear E. split.
  - destruct (forallb is_ascii_digit (c :: t)) eqn:E; [|discriminate]. apply digits_numerals in E; [|exact N1]. cbn zeta.
    destruct (N.ltb_spec (digits_value (c :: t)) (2 ^ 63)) as [R|]; [|discriminate]. intros K. injection K as <-.
    apply it_natural; [split; [exact E|reflexivity]|exact R].
  - intros K. inversion K as [? n [Hn ->] R|u n _ _ E]; subst.
    + rewrite (proj2 (digits_numerals (c :: t) N1) Hn). cbn zeta. fold (digits_value (c :: t)) in *. rewrite (proj2 (N.ltb_lt _ _) R). reflexivity.
    + congruence.
Qed.
