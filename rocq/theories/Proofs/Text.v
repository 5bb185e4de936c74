(* Facts on the string model: offsets are prefixes *)
From Coq Require Import Lia.
From Verif Require Export Model.Str Spec.Text.

Lemma bind_ret : forall A B (m : outcome A) (f : A -> outcome B) b,
  bind m f = Ret b <-> exists a, m = Ret a /\ f a = Ret b.
Proof.
  intros A B [a| |] f b; simpl; split.
  - eauto.
  - intros (a' & E & F). inversion E; subst; auto.
  - discriminate.
  - intros (a' & E & F). discriminate.
  - discriminate.
  - intros (a' & E & F). discriminate.
Qed.

Lemma utf8_bytes_length : forall c, length (utf8_bytes c) = clen c.
Proof.
  intros c. unfold utf8_bytes, clen.
  destruct (c <? 128)%N; [reflexivity|].
  destruct (c <? 2048)%N; [reflexivity|].
  destruct (c <? 65536)%N; reflexivity.
Qed.

Lemma nbytes_blen : forall s, nbytes s = blen s.
Proof.
  induction s as [|c s IH]; [reflexivity|].
  unfold nbytes, bytes in *. simpl. rewrite app_length, utf8_bytes_length, IH. reflexivity.
Qed.

Lemma clen_pos : forall c, 1 <= clen c.
Proof.
  intros c. unfold clen.
  destruct (c <? 128)%N; [lia|]. destruct (c <? 2048)%N; [lia|]. destruct (c <? 65536)%N; lia.
Qed.

Lemma blen_app : forall a b, blen (a ++ b) = blen a + blen b.
Proof. induction a; simpl; intros; [reflexivity|]. rewrite IHa; lia. Qed.

Lemma blen_cons : forall c a, blen (c :: a) = clen c + blen a.
Proof. reflexivity. Qed.

Lemma blen_length : forall s, length s <= blen s.
Proof. induction s as [|c s IH]; simpl; [lia|]. pose proof (clen_pos c); lia. Qed.

Lemma blen_zero : forall s, blen s = 0 -> s = [].
Proof. intros [|c s] H; [reflexivity|]. simpl in H. pose proof (clen_pos c); lia. Qed.

Lemma nbytes_app : forall a b, nbytes (a ++ b) = nbytes a + nbytes b.
Proof. intros. rewrite !nbytes_blen. apply blen_app. Qed.

Lemma split_at_spec : forall s n p q,
  split_at s n = Some (p, q) <-> s = p ++ q /\ blen p = n.
Proof.
  induction s as [|c s IH]; intros n p q; destruct n as [|n].
  - simpl. split.
    + intros E; inversion E; auto.
    + intros [E L]. symmetry in E. apply app_eq_nil in E as [-> ->]. reflexivity.
  - simpl. split; [discriminate|]. intros [E L].
    symmetry in E. apply app_eq_nil in E as [-> ->]. discriminate.
  - simpl. split.
    + intros E; inversion E; auto.
    + intros [E L]. apply blen_zero in L as ->. simpl in E. subst. reflexivity.
  - cbn [split_at]. split.
    + destruct (clen c <=? S n) eqn:Hc; [|discriminate].
      apply Nat.leb_le in Hc.
      destruct (split_at s (S n - clen c)) as [[a b]|] eqn:Hs; [|discriminate].
      intros E; inversion E; subst. apply IH in Hs as [-> L].
      split; [reflexivity|]. simpl. lia.
    + intros [E L]. destruct p as [|c' p]; [discriminate|].
      simpl in E, L. inversion E; subst c' s.
      assert (Hc : clen c <=? S n = true) by (apply Nat.leb_le; lia).
      rewrite Hc.
      assert (Hs : split_at (p ++ q) (S n - clen c) = Some (p, q)).
      { apply IH. split; [reflexivity|lia]. }
      rewrite Hs. reflexivity.
Qed.

Lemma split_at_app : forall p q, split_at (p ++ q) (blen p) = Some (p, q).
Proof. intros. apply split_at_spec. auto. Qed.

Lemma split_at_app' : forall s p q n, s = p ++ q -> n = blen p -> split_at s n = Some (p, q).
Proof. intros; subst. apply split_at_app. Qed.

Lemma slice_from_spec : forall s n q,
  slice_from s n = Ret q <-> exists p, s = p ++ q /\ blen p = n.
Proof.
  intros s n q. unfold slice_from.
  destruct (split_at s n) as [[p' q']|] eqn:E.
  - apply split_at_spec in E as H. destruct H as [-> L]. split.
    + intros F; inversion F; subst. eauto.
    + intros (p & Hp & Hl). rewrite Hp in E. subst n. rewrite <- Hl in E.
      rewrite split_at_app in E. inversion E; subst. reflexivity.
  - split; [discriminate|]. intros (p & -> & L).
    rewrite (split_at_app' _ p q) in E by auto. discriminate.
Qed.

Lemma slice_to_spec : forall s n p,
  slice_to s n = Ret p <-> exists q, s = p ++ q /\ blen p = n.
Proof.
  intros s n p. unfold slice_to.
  destruct (split_at s n) as [[p' q']|] eqn:E.
  - apply split_at_spec in E as H. destruct H as [-> L]. split.
    + intros F; inversion F; subst. eauto.
    + intros (q & Hp & Hl). rewrite Hp in E. subst n. rewrite <- Hl in E.
      rewrite split_at_app in E. inversion E; subst. reflexivity.
  - split; [discriminate|]. intros (q & -> & L).
    rewrite (split_at_app' _ p q) in E by auto. discriminate.
Qed.

Lemma slice_spec : forall s a b t,
  slice s a b = Ret t <-> exists p q, s = p ++ t ++ q /\ blen p = a /\ blen (p ++ t) = b.
Proof.
  intros s a b t. unfold slice. split.
  - destruct (a <=? b); [|discriminate]. intros H.
    apply bind_ret in H as (pt & H1 & H2).
    apply slice_to_spec in H1 as (q & -> & Lb).
    apply slice_from_spec in H2 as (p & -> & La).
    exists p, q. rewrite app_assoc. auto.
  - intros (p & q & -> & La & Lb).
    assert (Hle : a <=? b = true) by (apply Nat.leb_le; rewrite blen_app in Lb; lia).
    rewrite Hle. apply bind_ret. exists (p ++ t). split.
    + apply slice_to_spec. exists q. rewrite app_assoc. auto.
    + apply slice_from_spec. eauto.
Qed.

Lemma slice_part : forall s a b t, slice s a b = Ret t <-> part_at s a b t.
Proof.
  intros. rewrite slice_spec. unfold part_at.
  split; intros (p & q & H); exists p, q; rewrite ?nbytes_blen in *; auto.
Qed.

Lemma slice_app : forall p t q, slice (p ++ t ++ q) (blen p) (blen p + blen t) = Ret t.
Proof. intros. apply slice_spec. exists p, q. rewrite blen_app. auto. Qed.

Lemma replace_range_app : forall p t q r,
  replace_range (p ++ t ++ q) (blen p) (blen p + blen t) r = Ret (p ++ r ++ q).
Proof.
  intros. unfold replace_range.
  assert (H : blen p <=? blen p + blen t = true) by (apply Nat.leb_le; lia). rewrite H.
  rewrite (split_at_app' _ (p ++ t) q); [|rewrite app_assoc; reflexivity|rewrite blen_app; reflexivity].
  rewrite split_at_app. reflexivity.
Qed.

Lemma app_inj_blen : forall a b c d, a ++ b = c ++ d -> blen a = blen c -> a = c /\ b = d.
Proof.
  intros a b c d E L.
  pose proof (split_at_app a b) as H1. rewrite E, L, split_at_app in H1.
  inversion H1; auto.
Qed.

(* two prefixes of the same text are comparable *)
Lemma app_prefix_le : forall a b c d, a ++ b = c ++ d -> blen a <= blen c ->
  exists m, c = a ++ m /\ b = m ++ d.
Proof.
  induction a as [|x a IH]; intros b c d E L.
  - exists c. auto.
  - destruct c as [|y c]; simpl in L.
    { pose proof (clen_pos x). lia. }
    simpl in E. inversion E; subst y. destruct (IH b c d H1) as (m & -> & ->); [lia|].
    exists m. auto.
Qed.

Lemma part_at_unique : forall s a b t t', part_at s a b t -> part_at s a b t' -> t = t'.
Proof.
  intros s a b t t' H H'. apply slice_part in H, H'. congruence.
Qed.

Lemma is_char_boundary_spec : forall s n, is_char_boundary s n = true <-> boundary s n.
Proof.
  intros s n. unfold is_char_boundary, boundary. split.
  - destruct (split_at s n) as [[p q]|] eqn:E; [|discriminate].
    apply split_at_spec in E as [-> L]. intros _. exists p, q. rewrite nbytes_blen. auto.
  - intros (p & q & -> & L). rewrite nbytes_blen in L.
    rewrite (split_at_app' _ p q); auto.
Qed.

Lemma str_eqb_eq : forall a b, str_eqb a b = true <-> a = b.
Proof.
  induction a as [|x a IH]; intros [|y b]; simpl; split; intro H; try discriminate; auto.
  - apply andb_prop in H as [H1 H2]. apply N.eqb_eq in H1. apply IH in H2. congruence.
  - inversion H; subst. rewrite N.eqb_refl. apply IH. reflexivity.
Qed.
Lemma str_eqb_refl : forall a, str_eqb a a = true.
Proof. intros; apply str_eqb_eq; reflexivity. Qed.
Lemma str_eqb_neq : forall a b, str_eqb a b = false <-> a <> b.
Proof.
  intros a b. split.
  - intros H E. apply str_eqb_eq in E. congruence.
  - intros H. destruct (str_eqb a b) eqn:E; [|reflexivity]. apply str_eqb_eq in E; contradiction.
Qed.

(* char_indices *)
Lemma char_indices_at_length : forall s o, length (char_indices_at o s) = length s.
Proof. induction s; simpl; intros; auto. Qed.

Lemma char_indices_at_app : forall a b o,
  char_indices_at o (a ++ b) = char_indices_at o a ++ char_indices_at (o + blen a) b.
Proof.
  induction a; simpl; intros.
  - f_equal. lia.
  - rewrite IHa. rewrite Nat.add_assoc. reflexivity.
Qed.

Lemma char_indices_nth : forall s o n,
  nth_error (char_indices_at o s) n =
  match nth_error s n with
  | Some c => Some (o + blen (firstn n s), c)
  | None => None
  end.
Proof.
  induction s as [|c s IH]; intros o n; destruct n as [|n]; simpl; auto.
  - f_equal. f_equal. lia.
  - rewrite IH. destruct (nth_error s n); [|reflexivity]. f_equal. f_equal. lia.
Qed.


Lemma nth_error_rev : forall A (l : list A) n, n < length l ->
  nth_error (rev l) n = nth_error l (length l - S n).
Proof.
  induction l as [|x l IH]; intros n H; [simpl in H; lia|].
  cbn [rev length] in *. destruct (Nat.eq_dec n (length l)) as [->|Hn].
  - rewrite nth_error_app2 by (rewrite rev_length; lia).
    rewrite rev_length, !Nat.sub_diag. reflexivity.
  - rewrite nth_error_app1 by (rewrite rev_length; lia).
    rewrite IH by lia. replace (S (length l) - S n) with (S (length l - S n)) by lia.
    reflexivity.
Qed.

Lemma char_indices_nth_back : forall s n, n < length s ->
  exists c, iter_nth_back (char_indices s) n = Some (blen (firstn (length s - S n) s), c)
            /\ nth_error s (length s - S n) = Some c.
Proof.
  intros s n H. unfold iter_nth_back, char_indices.
  rewrite nth_error_rev by (rewrite char_indices_at_length; lia).
  rewrite char_indices_at_length, char_indices_nth.
  destruct (nth_error s (length s - S n)) as [c|] eqn:E.
  - exists c. auto.
  - apply nth_error_None in E. lia.
Qed.

Lemma iter_nth_back_none : forall A (l : list A) n, length l <= n -> iter_nth_back l n = None.
Proof. intros. unfold iter_nth_back. apply nth_error_None. rewrite rev_length. auto. Qed.

Lemma as_usize_of_nat : forall n, as_usize (Z.of_nat n) = Ret n.
Proof.
  intros. unfold as_usize. destruct (Z.of_nat n <? 0)%Z eqn:E.
  - apply Z.ltb_lt in E. lia.
  - rewrite Nat2Z.id. reflexivity.
Qed.
Lemma as_usize_eq : forall z n, z = Z.of_nat n -> as_usize z = Ret n.
Proof. intros; subst; apply as_usize_of_nat. Qed.

Lemma weight_app : forall w a b, weight w (a ++ b) = weight w a + weight w b.
Proof. intros. unfold weight. rewrite map_app, list_sum_app. reflexivity. Qed.

Lemma weight_clen : forall s, weight clen s = blen s.
Proof. unfold weight. induction s; simpl; auto. Qed.
