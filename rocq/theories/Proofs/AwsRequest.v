(* Lemmas on the requests that validate AWS keys *)
From Coq Require Import Lia ZArith.
From Verif Require Import Proofs.Text Proofs.Binary.
From Verif Require Export Spec.AwsRequest.

Lemma value_from : forall t n, fold_left (fun n c => n * 10 + (c - 48))%N t n = (n * 10 ^ N.of_nat (length t) + decimal_value t)%N.
Proof.
  unfold decimal_value. induction t as [|c t IH]; intros n; cbn [fold_left length].
  - cbn. lia.
  - rewrite IH, (IH (0 * 10 + (c - 48))%N). rewrite Nat2N.inj_succ, N.pow_succ_r'. lia.
Qed.
Lemma value_app : forall t u, decimal_value (t ++ u) = (decimal_value t * 10 ^ N.of_nat (length u) + decimal_value u)%N.
Proof. intros t u. unfold decimal_value at 1. rewrite fold_left_app, value_from. reflexivity. Qed.
Lemma value_zeros : forall k, decimal_value (repeat 48%N k) = 0%N.
Proof.
  induction k as [|k IH]; [reflexivity|]. change (repeat 48%N (S k)) with ([48%N] ++ repeat 48%N k). rewrite value_app, IH. reflexivity.
Qed.

(* a numeral without zeros in front is short *)
Lemma reads_short : forall t n w, reads_as t n -> 0 < w -> (N.of_nat n < 10 ^ N.of_nat w)%N -> length t <= w.
Proof.
  intros t n w (A & B & C & D) W L. destruct t as [|c t]; [contradiction|]. destruct (N.eq_dec c 48) as [->|Hc].
  - rewrite (D t eq_refl). cbn. lia.
  - assert (Hd : is_digit c) by (apply B; left; reflexivity). unfold is_digit in Hd.
    change (c :: t) with ([c] ++ t) in C. rewrite value_app in C.
    destruct (le_lt_dec (length (c :: t)) w) as [K|K]; [exact K|]. cbn [length] in K.
    assert (P : (10 ^ N.of_nat w <= 10 ^ N.of_nat (length t))%N) by (apply N.pow_le_mono_r; lia).
    assert (E : decimal_value [c] = (c - 48)%N) by (unfold decimal_value; cbn; lia). rewrite E in C. nia.
Qed.
Lemma padded_spec : forall w n, 0 < w -> (N.of_nat n < 10 ^ N.of_nat w)%N -> fixed_digits w n (padded w n).
Proof.
  intros w n W L. pose proof (decimal_reads n) as R. pose proof (reads_short _ _ _ R W L) as S. destruct R as (A & B & C & D).
  unfold padded. split; [|split].
  - rewrite app_length, repeat_length. lia.
  - intros c I. apply in_app_or in I as [I|I]; [apply repeat_spec in I; subst c; unfold is_digit; lia|apply B; exact I].
  - rewrite value_app, value_zeros. rewrite C. lia.
Qed.

Lemma amz_date_spec : forall d, common_era d -> iso_basic d (amz_date d).
Proof.
  intros d (Y & M & D & H & I & S). unfold amz_date, year_text.
  assert (E : ((0 <=? dt_year d) && (dt_year d <=? 9999))%Z = true) by (apply andb_true_intro; split; apply Z.leb_le; lia). rewrite E.
  exists (padded 4 (Z.to_nat (dt_year d))), (padded 2 (dt_month d)), (padded 2 (dt_day d)), (padded 2 (dt_hour d)), (padded 2 (dt_minute d)), (padded 2 (dt_second d)).
  split; [reflexivity|]. split; [lia|]. split; [apply padded_spec; [lia|]; change (10 ^ N.of_nat 4)%N with 10000%N; lia|].
  do 4 (split; [apply padded_spec; [lia|]; change (10 ^ N.of_nat 2)%N with 100%N; lia|]). apply padded_spec; [lia|]; change (10 ^ N.of_nat 2)%N with 100%N; lia.
Qed.

Lemma fixed_det : forall w n n' t, fixed_digits w n t -> fixed_digits w n' t -> n = n'.
Proof. intros w n n' t (_ & _ & A) (_ & _ & B). rewrite A in B. apply Nat2N.inj. exact B. Qed.
Lemma app_split : forall {A} (a b a' b' : list A), length a = length a' -> a ++ b = a' ++ b' -> a = a' /\ b = b'.
Proof.
  intros A. induction a as [|x a IH]; intros b a' b' L E; destruct a' as [|x' a']; try discriminate L.
  - split; [reflexivity|exact E].
  - injection E as -> E. injection L as L. destruct (IH b a' b' L E) as [-> ->]. auto.
Qed.
Lemma iso_det : forall d d' t, iso_basic d t -> iso_basic d' t -> d = d'.
Proof.
  intros d d' t (y & m & a & h & i & s & -> & P & Y & M & A & H & I & S) (y' & m' & a' & h' & i' & s' & E & P' & Y' & M' & A' & H' & I' & S').
  assert (K : forall w n n' u u', fixed_digits w n u -> fixed_digits w n' u' -> length u = length u')
    by (intros w n n' u u' (L & _) (L' & _); congruence).
  apply app_split in E as [-> E]; [|exact (K _ _ _ _ _ Y Y')]. apply app_split in E as [-> E]; [|exact (K _ _ _ _ _ M M')].
  apply app_split in E as [-> E]; [|exact (K _ _ _ _ _ A A')]. apply app_split in E as [_ E]; [|reflexivity].
  apply app_split in E as [-> E]; [|exact (K _ _ _ _ _ H H')]. apply app_split in E as [-> E]; [|exact (K _ _ _ _ _ I I')].
  apply app_split in E as [-> _]; [|exact (K _ _ _ _ _ S S')].
  pose proof (fixed_det _ _ _ _ Y Y'). pose proof (fixed_det _ _ _ _ M M'). pose proof (fixed_det _ _ _ _ A A').
  pose proof (fixed_det _ _ _ _ H H'). pose proof (fixed_det _ _ _ _ I I'). pose proof (fixed_det _ _ _ _ S S').
  destruct d, d'; cbn in *. f_equal; try assumption. lia.
Qed.
