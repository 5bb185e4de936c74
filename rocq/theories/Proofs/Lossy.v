(* String::from_utf8_lossy against its specification *)
From Coq Require Import Lia ZifyN ZifyBool.
From Verif Require Import Proofs.Text.
From Verif Require Export Proofs.Codec.

(* the beginnings of characters that are not whole *)
Definition cutb (t : octets) : bool :=
  match t with
  | [] => true
  | [b0] => in_range 194 244 b0
  | [b0; b1] => in_range 224 239 b0 && second_of_three b0 b1 || in_range 240 244 b0 && second_of_four b0 b1
  | [b0; b1; b2] => in_range 240 244 b0 && second_of_four b0 b1 && is_cont b2
  | _ => false
  end.

Lemma three_utf8 : forall b0 b1 b2, in_range 224 239 b0 = true -> second_of_three b0 b1 = true -> is_cont b2 = true ->
  char_utf8 ((b0 - 224) * 4096 + (b1 - 128) * 64 + (b2 - 128)) [b0; b1; b2]%N.
Proof.
  intros b0 b1 b2 H0 H1 H2. unfold second_of_three, is_cont in *.
  rewrite !orb_true_iff, !andb_true_iff, !in_range_spec, !N.eqb_eq in H1. apply in_range_spec in H0, H2.
  replace b0 with (224 + (b0 - 224))%N at 2 by lia. replace b1 with (128 + (b1 - 128))%N at 2 by lia.
  replace b2 with (128 + (b2 - 128))%N at 2 by lia. constructor; lia.
Qed.
Lemma four_utf8 : forall b0 b1 b2 b3, in_range 240 244 b0 = true -> second_of_four b0 b1 = true -> is_cont b2 = true -> is_cont b3 = true ->
  char_utf8 ((b0 - 240) * 262144 + (b1 - 128) * 4096 + (b2 - 128) * 64 + (b3 - 128)) [b0; b1; b2; b3]%N.
Proof.
  intros b0 b1 b2 b3 H0 H1 H2 H3. unfold second_of_four, is_cont in *.
  rewrite !orb_true_iff, !andb_true_iff, !in_range_spec, !N.eqb_eq in H1. apply in_range_spec in H0, H2, H3.
  replace b0 with (240 + (b0 - 240))%N at 2 by lia. replace b1 with (128 + (b1 - 128))%N at 2 by lia.
  replace b2 with (128 + (b2 - 128))%N at 2 by lia. replace b3 with (128 + (b3 - 128))%N at 2 by lia. constructor; lia.
Qed.
Lemma two_utf8 : forall b0 b1, in_range 194 223 b0 = true -> is_cont b1 = true ->
  char_utf8 ((b0 - 192) * 64 + (b1 - 128)) [b0; b1]%N.
Proof.
  intros b0 b1 H0 H1. unfold is_cont in *. apply in_range_spec in H0, H1.
  replace b0 with (192 + (b0 - 192))%N at 2 by lia. replace b1 with (128 + (b1 - 128))%N at 2 by lia. constructor; lia.
Qed.

(* what a well-formed character looks like *)
Lemma char_utf8_inv : forall c b, char_utf8 c b ->
  match b with
  | [b0] => (b0 < 128)%N
  | [b0; b1] => in_range 194 223 b0 = true /\ is_cont b1 = true
  | [b0; b1; b2] => in_range 224 239 b0 = true /\ second_of_three b0 b1 = true /\ is_cont b2 = true
  | [b0; b1; b2; b3] => in_range 240 244 b0 = true /\ second_of_four b0 b1 = true /\ is_cont b2 = true /\ is_cont b3 = true
  | _ => False
  end.
Proof.
  intros c b H. unfold second_of_three, second_of_four, is_cont.
  destruct H; rewrite ?orb_true_iff, ?andb_true_iff, ?in_range_spec, ?N.eqb_eq; lia.
Qed.

Lemma some_second_of_three : forall b0, in_range 224 239 b0 = true -> exists b1, second_of_three b0 b1 = true.
Proof.
  intros b0 H. apply in_range_spec in H. exists (if (b0 =? 237)%N then 128 else 160)%N.
  unfold second_of_three. rewrite !orb_true_iff, !andb_true_iff, !in_range_spec, !N.eqb_eq.
  destruct (b0 =? 237)%N eqn:E; lia.
Qed.
Lemma some_second_of_four : forall b0, in_range 240 244 b0 = true -> exists b1, second_of_four b0 b1 = true.
Proof.
  intros b0 H. apply in_range_spec in H. exists (if (b0 =? 244)%N then 128 else 144)%N.
  unfold second_of_four. rewrite !orb_true_iff, !andb_true_iff, !in_range_spec, !N.eqb_eq.
  destruct (b0 =? 244)%N eqn:E; lia.
Qed.
Lemma cutb_spec : forall t, cut_short t <-> cutb t = true.
Proof.
  assert (K : is_cont 128 = true) by reflexivity.
  intros t. split.
  - intros (c & more & Hm & H). apply char_utf8_inv in H. destruct more as [|m more]; [destruct Hm; reflexivity|].
    destruct t as [|b0 [|b1 [|b2 [|b3 t]]]]; cbn [app cutb] in *.
    + reflexivity.
    + destruct more as [|m1 [|m2 [|m3 more]]]; [| | |destruct H]; destruct H as (H & _); apply in_range_spec; apply in_range_spec in H; lia.
    + destruct more as [|m1 [|m2 more]]; [| |destruct H]; destruct H as (H1 & H2 & _); rewrite H1, H2; rewrite ?orb_true_r; reflexivity.
    + destruct more as [|m1 more]; [|destruct H]. destruct H as (H1 & H2 & H3 & _). rewrite H1, H2, H3. reflexivity.
    + exfalso. destruct t as [|b4 t]; cbn in H; destruct H.
  - intros H. destruct t as [|b0 [|b1 [|b2 [|b3 t]]]]; cbn [cutb] in H; try discriminate H.
    + exists 0%N, [0%N]. split; [discriminate|]. constructor. lia.
    + apply in_range_spec in H. destruct (N.le_gt_cases b0 223); [|destruct (N.le_gt_cases b0 239)].
      * eexists _, [128%N]. split; [discriminate|]. apply two_utf8; [apply in_range_spec; lia|exact K].
      * destruct (some_second_of_three b0) as (b1 & K1); [apply in_range_spec; lia|].
        eexists _, [b1; 128%N]. split; [discriminate|]. apply three_utf8; [apply in_range_spec; lia|exact K1|exact K].
      * destruct (some_second_of_four b0) as (b1 & K1); [apply in_range_spec; lia|].
        eexists _, [b1; 128%N; 128%N]. split; [discriminate|]. apply four_utf8; [apply in_range_spec; lia|exact K1|exact K|exact K].
    + apply orb_true_iff in H as [H|H]; apply andb_true_iff in H as [H0 H1].
      * eexists _, [128%N]. split; [discriminate|]. apply three_utf8; [exact H0|exact H1|exact K].
      * eexists _, [128%N; 128%N]. split; [discriminate|]. apply four_utf8; [exact H0|exact H1|exact K|exact K].
    + apply andb_true_iff in H as [H H2]. apply andb_true_iff in H as [H0 H1].
      eexists _, [128%N]. split; [discriminate|]. apply four_utf8; [exact H0|exact H1|exact H2|exact K].
Qed.

(* ill-formed pieces, decided *)
Lemma ill_by : forall bad rest, (forall c b after, char_utf8 c b -> bad ++ rest <> b ++ after) ->
  (length bad = 1 \/ bad <> [] /\ cutb bad = true) -> (forall x y, rest = x ++ y -> x <> [] -> cutb (bad ++ x) = false) -> ill_formed bad rest.
Proof.
  intros bad rest H1 H2 H3. split; [exact H1|]. split.
  - destruct H2 as [H2|[H2 H4]]; [left; exact H2|right; split; [exact H2|apply cutb_spec; exact H4]].
  - intros x y E Hx K. apply cutb_spec in K. rewrite (H3 x y E Hx) in K. discriminate K.
Qed.
Ltac no_char :=
  let c := fresh in let b := fresh in let H := fresh "Hc" in let E := fresh "E" in
  intros c b ? H E; apply char_utf8_inv in H;
  destruct b as [|? [|? [|? [|? [|? ?]]]]]; cbn [app] in *; try contradiction; injection E as; subst;
  repeat match goal with H : _ /\ _ |- _ => destruct H end; try congruence; rewrite ?in_range_spec in *; try lia.
Ltac no_longer :=
  let x := fresh "x" in let y := fresh "y" in let E := fresh "E" in let H := fresh "Hx" in
  intros x y E H; destruct x as [|? [|? [|? x]]]; [destruct H; reflexivity| | |]; cbn [app cutb] in *; try discriminate E; try injection E as; subst.
Lemma lossy_spec : forall n b, length b <= n -> read_lossily b (from_utf8_lossy b).
Proof.
  induction n as [|n IH]; intros b Hn.
  { destruct b; [constructor|cbn in Hn; lia]. }
  destruct b as [|b0 l0]; [constructor|]. cbn [length] in Hn. cbn [from_utf8_lossy].
  assert (R0 : read_lossily l0 (from_utf8_lossy l0)) by (apply IH; lia).
  destruct (b0 <? 128)%N eqn:E1.
  { apply N.ltb_lt in E1. apply (rl_char b0 [b0]); [constructor; exact E1|exact R0]. }
  apply N.ltb_ge in E1.
  destruct (in_range 194 223 b0) eqn:E2.
  { assert (N3 : in_range 224 239 b0 = false) by (unfold in_range in *; lia).
    assert (N4 : in_range 240 244 b0 = false) by (unfold in_range in *; lia).
    destruct l0 as [|b1 l1].
    - apply (rl_bad [b0] []); [|constructor]. apply ill_by; [no_char|left; reflexivity|]. intros x y E Hx. destruct x; [destruct Hx; reflexivity|discriminate E].
    - assert (R1 : read_lossily l1 (from_utf8_lossy l1)) by (apply IH; cbn in Hn; lia).
      destruct (is_cont b1) eqn:E3.
      + apply (rl_char _ [b0; b1]); [apply two_utf8; auto|exact R1].
      + apply (rl_bad [b0] (b1 :: l1)); [|exact R0]. apply ill_by; [no_char|left; reflexivity|].
        intros x y E Hx. destruct x as [|x0 [|x1 [|x2 x]]]; [destruct Hx; reflexivity| | |]; cbn [app cutb]; rewrite ?N3, ?N4; reflexivity. }
  destruct (in_range 224 239 b0) eqn:E3.
  { assert (N4 : in_range 240 244 b0 = false) by (unfold in_range in *; lia).
    destruct l0 as [|b1 l1].
    - apply (rl_bad [b0] []); [|constructor]. apply ill_by; [no_char|left; reflexivity|]. intros x y E Hx. destruct x; [destruct Hx; reflexivity|discriminate E].
    - assert (R1 : read_lossily l1 (from_utf8_lossy l1)) by (apply IH; cbn in Hn; lia).
      destruct (second_of_three b0 b1) eqn:E4.
      + destruct l1 as [|b2 l2].
        * apply (rl_bad [b0; b1] []); [|constructor]. apply ill_by; [no_char|right; split; [discriminate|cbn; rewrite E3, E4; reflexivity]|].
          intros x y E Hx. destruct x; [destruct Hx; reflexivity|discriminate E].
        * assert (R2 : read_lossily l2 (from_utf8_lossy l2)) by (apply IH; cbn in Hn; lia).
          destruct (is_cont b2) eqn:E5.
          -- apply (rl_char _ [b0; b1; b2]); [apply three_utf8; auto|exact R2].
          -- apply (rl_bad [b0; b1] (b2 :: l2)); [|exact R1]. apply ill_by; [no_char|right; split; [discriminate|cbn; rewrite E3, E4; reflexivity]|].
             intros x y E Hx. destruct x as [|x0 [|x1 x]]; [destruct Hx; reflexivity| |]; cbn [app cutb]; rewrite ?N4; reflexivity.
      + apply (rl_bad [b0] (b1 :: l1)); [|exact R0]. apply ill_by; [no_char|left; reflexivity|].
        intros x y E Hx. destruct x as [|x0 [|x1 [|x2 x]]]; [destruct Hx; reflexivity| | |]; injection E as <- E; cbn [app cutb]; rewrite ?N4, ?E4, ?andb_false_r; reflexivity. }
  destruct (in_range 240 244 b0) eqn:E4.
  { destruct l0 as [|b1 l1].
    - apply (rl_bad [b0] []); [|constructor]. apply ill_by; [no_char|left; reflexivity|]. intros x y E Hx. destruct x; [destruct Hx; reflexivity|discriminate E].
    - assert (R1 : read_lossily l1 (from_utf8_lossy l1)) by (apply IH; cbn in Hn; lia).
      destruct (second_of_four b0 b1) eqn:E5.
      + destruct l1 as [|b2 l2].
        * apply (rl_bad [b0; b1] []); [|constructor]. apply ill_by; [no_char|right; split; [discriminate|cbn; rewrite E4, E5, orb_true_r; reflexivity]|].
          intros x y E Hx. destruct x; [destruct Hx; reflexivity|discriminate E].
        * assert (R2 : read_lossily l2 (from_utf8_lossy l2)) by (apply IH; cbn in Hn; lia).
          destruct (is_cont b2) eqn:E6.
          -- destruct l2 as [|b3 l3].
             ++ apply (rl_bad [b0; b1; b2] []); [|constructor]. apply ill_by; [no_char|right; split; [discriminate|cbn; rewrite E4, E5, E6; reflexivity]|].
                intros x y E Hx. destruct x; [destruct Hx; reflexivity|discriminate E].
             ++ assert (R3 : read_lossily l3 (from_utf8_lossy l3)) by (apply IH; cbn in Hn; lia).
                destruct (is_cont b3) eqn:E7.
                ** apply (rl_char _ [b0; b1; b2; b3]); [apply four_utf8; auto|exact R3].
                ** apply (rl_bad [b0; b1; b2] (b3 :: l3)); [|exact R2]. apply ill_by; [no_char|right; split; [discriminate|cbn; rewrite E4, E5, E6; reflexivity]|].
                   intros x y E Hx. destruct x as [|x0 x]; [destruct Hx; reflexivity|]; reflexivity.
          -- apply (rl_bad [b0; b1] (b2 :: l2)); [|exact R1]. apply ill_by; [no_char|right; split; [discriminate|cbn; rewrite E4, E5, orb_true_r; reflexivity]|].
             intros x y E Hx. destruct x as [|x0 [|x1 x]]; [destruct Hx; reflexivity| |]; injection E as <- E; cbn [app cutb]; rewrite ?E6, ?andb_false_r; reflexivity.
      + apply (rl_bad [b0] (b1 :: l1)); [|exact R0]. apply ill_by; [no_char|left; reflexivity|].
        intros x y E Hx. destruct x as [|x0 [|x1 [|x2 x]]]; [destruct Hx; reflexivity| | |]; injection E as <- E; cbn [app cutb]; rewrite ?E3, ?E5, ?andb_false_r; reflexivity. }
  apply (rl_bad [b0] l0); [|exact R0]. apply ill_by; [no_char|left; reflexivity|].
  intros x y E Hx. destruct x as [|x0 [|x1 [|x2 x]]]; [destruct Hx; reflexivity| | |]; cbn [app cutb]; rewrite ?E3, ?E4; reflexivity.
Qed.

Lemma longer_split : forall (b1 r1 b2 r2 : octets), b1 ++ r1 = b2 ++ r2 -> length b1 <= length b2 -> exists x, b2 = b1 ++ x /\ r1 = x ++ r2.
Proof.
  induction b1 as [|a b1 IH]; intros r1 b2 r2 E L; [exists b2; auto|]. destruct b2 as [|a' b2]; [cbn in L; lia|].
  injection E as -> E. cbn in L. destruct (IH r1 b2 r2 E) as (x & -> & ->); [lia|]. exists x. auto.
Qed.
Lemma lossy_unique : forall b s, read_lossily b s -> forall s', read_lossily b s' -> s = s'.
Proof.
  intros b s H. induction H as [|c b rest s Hc H IH|bad rest s Hb H IH].
  - intros s' H'. inversion H' as [|c b rest s Hc H E|bad rest s Hb H E]; [reflexivity| |].
    + apply app_eq_nil in E as [-> ->]. inversion Hc.
    + apply app_eq_nil in E as [-> ->]. destruct Hb as (_ & [K|[K _]] & _); [discriminate K|destruct K; reflexivity].
  - intros s' H'. inversion H' as [E|c' b' rest' s2 Hc' H2 E|bad rest' s2 Hb H2 E].
    + symmetry in E. apply app_eq_nil in E as [-> ->]. inversion Hc.
    + assert (c' = c).
      { pose proof (lossy_char c b rest Hc) as E1. pose proof (lossy_char c' b' rest' Hc') as E2. rewrite E, E1 in E2. injection E2 as K _. auto. }
      subst c'. rewrite <- (char_utf8_bytes _ _ Hc), <- (char_utf8_bytes _ _ Hc') in E. apply app_inv_head in E. subst rest'. f_equal. auto.
    + exfalso. destruct Hb as (K & _). exact (K c b rest Hc E).
  - intros s' H'. inversion H' as [E|c' b' rest' s2 Hc' H2 E|bad' rest' s2 Hb' H2 E].
    + symmetry in E. apply app_eq_nil in E as [-> ->]. destruct Hb as (_ & [K|[K _]] & _); [discriminate K|destruct K; reflexivity].
    + exfalso. destruct Hb as (K & _). exact (K c' b' rest' Hc' (eq_sym E)).
    + assert (Q : forall b1 r1 b2 r2, ill_formed b1 r1 -> ill_formed b2 r2 -> b1 ++ r1 = b2 ++ r2 -> length b1 < length b2 -> False).
      { intros b1 r1 b2 r2 (_ & L1 & M1) (_ & L2 & M2) EQ Hlt.
        assert (exists x, b2 = b1 ++ x /\ r1 = x ++ r2) as (x & -> & ->).
        { apply longer_split; [exact EQ|lia]. }
        assert (NE : x <> []) by (intros ->; rewrite app_nil_r in Hlt; lia).
        apply (M1 x r2 eq_refl NE). destruct L2 as [L2|[_ L2]]; [|exact L2].
        destruct L1 as [L1|[L1 _]]; [lia|]. destruct b1; [destruct L1; reflexivity|]. cbn in L2. rewrite app_length in L2. destruct x; [congruence|cbn in L2; lia]. }
      assert (length bad = length bad') as Hl.
      { destruct (Nat.lt_trichotomy (length bad) (length bad')) as [K|[K|K]]; [exfalso|exact K|exfalso].
        - exact (Q _ _ _ _ Hb Hb' (eq_sym E) K).
        - exact (Q _ _ _ _ Hb' Hb E K). }
      assert (bad' = bad /\ rest' = rest) as [-> ->]; [|f_equal; auto].
      revert Hl E. clear. revert bad'. induction bad as [|a bad IH]; intros [|a' bad'] L E; try discriminate L; [auto|].
      injection L as L. injection E as -> E. destruct (IH bad' L E) as [-> ->]. auto.
Qed.
Lemma lossy_iff : forall b s, read_lossily b s <-> s = from_utf8_lossy b.
Proof.
  intros b s. split.
  - intros H. exact (lossy_unique b s H _ (lossy_spec (length b) b (le_n _))).
  - intros ->. exact (lossy_spec (length b) b (le_n _)).
Qed.
