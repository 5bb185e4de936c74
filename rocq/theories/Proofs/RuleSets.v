(* What other rules of a scanner change: lemmas *)
From Coq Require Import Lia.
From Verif Require Import Proofs.Text Proofs.Apply Proofs.Overlap.
From Verif Require Export Proofs.Claims Spec.RuleSets.

Section One.
Variable sc : scanner.
Variable E : encoding.
Variable w : char -> nat.
Variable h : hashers.
Variable p : path.

(* one piece, standing after [po] before and after [pw] afterwards *)
Definition row_ok (po pw : str) (u : cut) (m : internal_match E) (o : rule_match) : Prop :=
  exists r, nth_error (sc_rules sc) (im_rule m) = Some r /\
    nbytes po = im_start m /\ nbytes (po ++ cut_old u) = im_end m /\
    cut_new u = redacted h (rule_action r) (cut_old u) /\
    rm_rule o = im_rule m /\ rm_path o = p /\ rm_kind o = replacement_type (rule_action r) /\
    rm_start o = weight w pw /\ rm_end o = weight w (pw ++ cut_new u) /\
    rm_shift o = (Z.of_nat (weight w (pw ++ cut_new u)) - Z.of_nat (weight w (po ++ cut_old u)))%Z /\
    rm_value o = (if sc_return_matches sc then Some (cut_old u) else None) /\
    rm_status o = match rule_validation r with Some _ => NotChecked | None => NotAvailable end.

(* as string_scanned, with the candidates given by [P] *)
Definition cut_so (P : nat * nat * nat -> Prop) (c c' : str) (outs : list rule_match) : Prop :=
  exists (cands kept : list (internal_match E)) (g0 : str) (cs : list cut),
    (forall k, In k (map key cands) <-> P k) /\
    resolved (sc_rules sc) cands kept /\
    c = original g0 cs /\ c' = rewritten g0 cs /\
    length cs = length kept /\ length outs = length kept /\
    forall k m o, nth_error kept k = Some m -> nth_error outs k = Some o ->
      exists u, nth_error cs k = Some u /\
        row_ok (original g0 (firstn k cs)) (rewritten g0 (firstn k cs)) u m o.

Lemma cut_so_of : forall fs blocked strs c c' outs,
  string_scanned sc fs blocked E w h strs p c c' outs ->
  cut_so (fun k => candidate sc fs blocked p c k /\ ~ suppressed sc fs blocked strs c k) c c' outs.
Proof.
  intros fs blocked strs c c' outs (cands & kept & g0 & cs & H1 & H2 & H3 & H4 & H5 & H6 & H7).
  exists cands, kept, g0, cs. repeat (split; [assumption|]). intros k m o Hm Ho.
  destruct (H7 k m o Hm Ho) as (u & r & Hu & Hr & Hrest). exists u. split; [exact Hu|]. exists r. auto.
Qed.

Lemma cut_so_ext : forall (P Q : nat * nat * nat -> Prop) c c' outs, (forall k, P k <-> Q k) -> cut_so P c c' outs -> cut_so Q c c' outs.
Proof.
  intros P Q c c' outs HPQ (cands & kept & g0 & cs & H1 & H). exists cands, kept, g0, cs. split; [|exact H].
  intros k. rewrite H1. apply HPQ.
Qed.

Lemma cut_so_unique : forall (P : nat * nat * nat -> Prop) c c1 c2 o1 o2, (forall i a b, P (i, a, b) -> a < b) ->
  cut_so P c c1 o1 -> cut_so P c c2 o2 -> c1 = c2 /\ o1 = o2.
Proof.
  intros P c c1 c2 o1 o2 Hne
    (cands1 & kept1 & g1 & cs1 & Hc1 & Hr1 & Ho1 & Hw1 & Hl1 & Hlo1 & Hk1)
    (cands2 & kept2 & g2 & cs2 & Hc2 & Hr2 & Ho2 & Hw2 & Hl2 & Hlo2 & Hk2).
  assert (Hkeys : forall k, In k (map key cands1) <-> In k (map key cands2)).
  { intros k. rewrite Hc1, Hc2. reflexivity. }
  assert (Hne1 : forall m, In m cands1 -> nonempty m).
  { intros m Hm. apply (in_map key) in Hm. apply Hc1 in Hm. exact (Hne _ _ _ Hm). }
  assert (Hne2 : forall m, In m cands2 -> nonempty m).
  { intros m Hm. apply (in_map key) in Hm. apply Hc2 in Hm. exact (Hne _ _ _ Hm). }
  pose proof (resolved_unique (sc_rules sc) cands1 cands2 kept1 kept2 Hne1 Hne2 Hkeys Hr1 Hr2) as Hkk.
  assert (Hlen : length kept1 = length kept2) by (rewrite <- (map_length key), Hkk, map_length; reflexivity).
  assert (Hnth : forall k m1 m2, nth_error kept1 k = Some m1 -> nth_error kept2 k = Some m2 -> key m1 = key m2).
  { intros k m1 m2 H1 H2. apply (map_nth_error key) in H1, H2. rewrite Hkk in H1. congruence. }
  assert (Hget : forall k, k < length kept1 -> exists m1 m2 x1 x2,
            nth_error kept1 k = Some m1 /\ nth_error kept2 k = Some m2 /\
            nth_error o1 k = Some x1 /\ nth_error o2 k = Some x2).
  { intros k Hk.
    destruct (nth_error kept1 k) as [m1|] eqn:E1; [|apply nth_error_None in E1; lia].
    destruct (nth_error kept2 k) as [m2|] eqn:E2; [|apply nth_error_None in E2; lia].
    destruct (nth_error o1 k) as [x1|] eqn:E3; [|apply nth_error_None in E3; lia].
    destruct (nth_error o2 k) as [x2|] eqn:E4; [|apply nth_error_None in E4; lia].
    exists m1, m2, x1, x2. auto. }
  destruct (cuts_unique cs1 cs2 g1 g2) as [Eg Ec].
  - congruence.
  - congruence.
  - intros k u1 u2 Hu1 Hu2.
    destruct (Hget k) as (m1 & m2 & x1 & x2 & Em1 & Em2 & Ex1 & Ex2).
    { rewrite <- Hl1. apply nth_error_Some. congruence. }
    destruct (Hk1 k m1 x1 Em1 Ex1) as (v1 & Hv1 & r1 & Hn1 & Hs1 & He1 & Hnew1 & _).
    destruct (Hk2 k m2 x2 Em2 Ex2) as (v2 & Hv2 & r2 & Hn2 & Hs2 & He2 & Hnew2 & _).
    pose proof (Hnth k m1 m2 Em1 Em2) as Hkey. unfold key in Hkey.
    injection Hkey as Hir Hst Hen.
    assert (v1 = u1) by congruence. assert (v2 = u2) by congruence. subst v1 v2.
    split; [congruence|]. split; [congruence|]. intros Hold.
    assert (r1 = r2) by congruence. congruence.
  - subst g2 cs2. split; [congruence|].
    apply nth_ext with (d := {| rm_rule := 0; rm_path := []; rm_kind := RKNone; rm_start := 0; rm_end := 0;
                                rm_shift := 0%Z; rm_value := None; rm_status := NotChecked |})
                       (d' := {| rm_rule := 0; rm_path := []; rm_kind := RKNone; rm_start := 0; rm_end := 0;
                                rm_shift := 0%Z; rm_value := None; rm_status := NotChecked |}); [congruence|].
    intros k Hk. destruct (Hget k) as (m1 & m2 & x1 & x2 & Em1 & Em2 & Ex1 & Ex2); [lia|].
    rewrite (nth_error_nth _ _ _ Ex1), (nth_error_nth _ _ _ Ex2).
    destruct (Hk1 k m1 x1 Em1 Ex1) as (v1 & Hv1 & r1 & Hn1 & Hs1 & He1 & Hnew1 & F1 & F2 & F3 & F4 & F5 & F6 & F7 & F8).
    destruct (Hk2 k m2 x2 Em2 Ex2) as (v2 & Hv2 & r2 & Hn2 & Hs2 & He2 & Hnew2 & G1 & G2 & G3 & G4 & G5 & G6 & G7 & G8).
    pose proof (Hnth k m1 m2 Em1 Em2) as Hkey. unfold key in Hkey. injection Hkey as Hir Hst Hen.
    assert (v1 = v2) by congruence. subst v2.
    assert (r1 = r2) by congruence. subst r2.
    destruct x1, x2; simpl in *. congruence.
Qed.

(* ---- leaving out the rules that change nothing ---- *)
Lemma changes_mutates : forall m : internal_match E, changes sc (im_rule m) = true <-> mutates (sc_rules sc) m.
Proof.
  intros m. unfold changes, mutates. destruct (nth_error (sc_rules sc) (im_rule m)) as [r|].
  - split.
    + intros H. exists r. split; [reflexivity|]. intros E0. rewrite E0 in H. discriminate H.
    + intros (r' & Hr & Hn). injection Hr as <-. destruct (rule_action r); congruence.
  - split; [discriminate|]. intros (r & Hr & _). discriminate Hr.
Qed.

Definition alters (m : internal_match E) : bool := changes sc (im_rule m).

Lemma sorted_filter : forall A (R : A -> A -> Prop) (f : A -> bool) l, StronglySorted R l -> StronglySorted R (filter f l).
Proof.
  intros A R f l H. induction H as [|x l H IH HF]; simpl; [constructor|].
  destruct (f x); [|exact IH]. constructor; [exact IH|]. apply Forall_forall. intros y Hy.
  apply filter_In in Hy as [Hy _]. rewrite Forall_forall in HF. auto.
Qed.
Lemma sorted_apart : forall (l : list (internal_match E)) i j a b,
  StronglySorted (fun a b => im_start a < im_start b) l ->
  nth_error l i = Some a -> nth_error l j = Some b -> i <> j -> im_start a <> im_start b.
Proof.
  intros l i j a b H. revert i j. induction H as [|x l H IH HF]; intros [|i] [|j] Hi Hj Hn; try discriminate; try congruence.
  - injection Hi as ->. simpl in Hj. apply nth_error_In in Hj. rewrite Forall_forall in HF. specialize (HF b Hj). lia.
  - injection Hj as ->. simpl in Hi. apply nth_error_In in Hi. rewrite Forall_forall in HF. specialize (HF a Hi). lia.
  - simpl in Hi, Hj. apply (IH i j Hi Hj). congruence.
Qed.

Lemma resolved_alters : forall ms out, resolved (sc_rules sc) ms out ->
  resolved (sc_rules sc) (filter alters ms) (filter alters out).
Proof.
  intros ms out [H1 H2 H3 H4]. split.
  - intros o Ho. apply filter_In in Ho as [Ho Hf]. apply filter_In. auto.
  - apply sorted_filter, H2.
  - intros i j a b Hn Ha Hb.
    pose proof (sorted_apart _ _ _ _ _ (sorted_filter _ _ alters _ H2) Ha Hb Hn) as Hs.
    apply nth_error_In in Ha, Hb. apply filter_In in Ha as [Ha _]. apply filter_In in Hb as [Hb _].
    apply In_nth_error in Ha as (i' & Ha). apply In_nth_error in Hb as (j' & Hb).
    apply (H3 i' j' a b); auto. intros ->. congruence.
  - intros m Hm. apply filter_In in Hm as [Hm Hf]. specialize (H4 m Hm). split.
    + intros (o & Ho & Hk) (x & Hx & Hrest). apply filter_In in Ho as [Ho _]. apply filter_In in Hx as [Hx _].
      apply (proj1 H4); eauto.
    + intros Hno. destruct (proj2 H4) as (o & Ho & Hk).
      * intros (x & Hx & Hr & Hv). apply Hno. exists x. split; [|auto]. apply filter_In. split; [exact Hx|].
        apply changes_mutates. apply changes_mutates in Hf. destruct Hr as [[Hr _]|[Hr _]]; tauto.
      * exists o. split; [|exact Hk]. apply filter_In. split; [exact Ho|]. unfold alters in *.
        unfold key in Hk. injection Hk as -> _ _. exact Hf.
Qed.

Definition row : Type := cut * internal_match E * rule_match.
Fixpoint rows_ok (po pw : str) (rows : list row) : Prop :=
  match rows with
  | [] => True
  | (u, m, o) :: rest => row_ok po pw u m o /\ rows_ok (po ++ cut_old u ++ cut_gap u) (pw ++ cut_new u ++ cut_gap u) rest
  end.
Fixpoint merge (g : str) (rows : list row) : str * list row :=
  match rows with
  | [] => (g, [])
  | (u, m, o) :: rest =>
      if alters m then
        let '(g', rest') := merge (cut_gap u) rest in
        (g, ({| cut_old := cut_old u; cut_new := cut_new u; cut_gap := g' |}, m, o) :: rest')
      else merge (g ++ cut_old u ++ cut_gap u) rest
  end.
Definition olds (rows : list row) : str := flat_map (fun x => cut_old (fst (fst x)) ++ cut_gap (fst (fst x))) rows.
Definition news (rows : list row) : str := flat_map (fun x => cut_new (fst (fst x)) ++ cut_gap (fst (fst x))) rows.

Lemma unaltered : forall po pw u m o, row_ok po pw u m o -> alters m = false -> cut_new u = cut_old u.
Proof.
  intros po pw u m o (r & Hr & _ & _ & Hn & _) Ha. unfold alters, changes in Ha. rewrite Hr in Ha.
  rewrite Hn. destruct (rule_action r); try discriminate Ha. reflexivity.
Qed.

Lemma merge_ok : forall rows po pw g, rows_ok (po ++ g) (pw ++ g) rows ->
  let '(g', rows') := merge g rows in
  rows_ok (po ++ g') (pw ++ g') rows' /\
  g ++ olds rows = g' ++ olds rows' /\ g ++ news rows = g' ++ news rows' /\
  rows' = map (fun x => (fst (fst x), snd (fst x), snd x)) rows' /\
  map (fun x => snd (fst x)) rows' = filter alters (map (fun x => snd (fst x)) rows) /\
  map snd rows' = changing sc (map snd rows).
Proof.
  induction rows as [|[[u m] o] rows IH]; intros po pw g H.
  - simpl. repeat split; auto.
  - simpl in H. destruct H as [Hr H]. cbn [merge].
    assert (Ho : changes sc (rm_rule o) = alters m).
    { destruct Hr as (r & _ & _ & _ & _ & -> & _). reflexivity. }
    destruct (alters m) eqn:Ha.
    + specialize (IH ((po ++ g) ++ cut_old u) ((pw ++ g) ++ cut_new u) (cut_gap u)).
      rewrite <- (app_assoc (po ++ g)), <- (app_assoc (pw ++ g)) in IH. specialize (IH H).
      destruct (merge (cut_gap u) rows) as [g' rows'].
      destruct IH as (I1 & I2 & I3 & I4 & I5 & I6).
      split; [|split; [|split; [|split; [|split]]]].
      * simpl. split.
        -- destruct Hr as (r & Hr). exists r. exact Hr.
        -- rewrite !app_assoc in *. exact I1.
      * simpl. f_equal. rewrite <- !app_assoc. f_equal. exact I2.
      * simpl. f_equal. rewrite <- !app_assoc. f_equal. exact I3.
      * simpl. f_equal. exact I4.
      * simpl. rewrite Ha. f_equal. exact I5.
      * unfold changing in *. simpl. rewrite Ho. f_equal. exact I6.
    + pose proof (unaltered _ _ _ _ _ Hr Ha) as Hn. rewrite Hn in H.
      specialize (IH po pw (g ++ cut_old u ++ cut_gap u)).
      rewrite !app_assoc in IH. rewrite !app_assoc in H. specialize (IH H).
      rewrite <- !app_assoc in IH.
      destruct (merge (g ++ cut_old u ++ cut_gap u) rows) as [g' rows'].
      destruct IH as (I1 & I2 & I3 & I4 & I5 & I6). split; [exact I1|].
      split; [|split; [|split; [exact I4|split]]].
      * rewrite <- I2. simpl. rewrite <- !app_assoc. reflexivity.
      * rewrite <- I3. simpl. rewrite Hn, <- !app_assoc. reflexivity.
      * simpl. rewrite Ha. exact I5.
      * unfold changing in *. simpl. rewrite Ho. exact I6.
Qed.

Lemma rows_of : forall cs kept outs po pw, length cs = length kept -> length outs = length kept ->
  (forall k m o, nth_error kept k = Some m -> nth_error outs k = Some o ->
     exists u, nth_error cs k = Some u /\ row_ok (original po (firstn k cs)) (rewritten pw (firstn k cs)) u m o) ->
  rows_ok po pw (combine (combine cs kept) outs).
Proof.
  induction cs as [|u cs IH]; intros [|m kept] [|o outs] po pw H1 H2 H; try discriminate; simpl; auto.
  split.
  - destruct (H 0 m o eq_refl eq_refl) as (u' & Hu & Hr). injection Hu as <-.
    unfold original, rewritten in Hr. simpl in Hr. rewrite !app_nil_r in Hr. exact Hr.
  - apply IH; [simpl in *; lia|simpl in *; lia|]. intros k m' o' Hm Ho.
    destruct (H (S k) m' o' Hm Ho) as (u' & Hu & Hr). exists u'. split; [exact Hu|].
    unfold original, rewritten in *. simpl in Hr. rewrite <- !app_assoc in *. exact Hr.
Qed.
Lemma of_rows : forall rows po pw, rows_ok po pw rows ->
  let cs := map (fun x => fst (fst x)) rows in
  forall k m o, nth_error (map (fun x => snd (fst x)) rows) k = Some m -> nth_error (map snd rows) k = Some o ->
    exists u, nth_error cs k = Some u /\ row_ok (original po (firstn k cs)) (rewritten pw (firstn k cs)) u m o.
Proof.
  induction rows as [|[[u m] o] rows IH]; intros po pw H cs [|k] m' o' Hm Ho; try discriminate.
  - simpl in Hm, Ho. injection Hm as <-. injection Ho as <-. exists u. split; [reflexivity|].
    unfold original, rewritten. simpl. rewrite !app_nil_r. apply H.
  - simpl in H, Hm, Ho. destruct H as [_ H]. destruct (IH _ _ H k m' o' Hm Ho) as (u' & Hu & Hr).
    exists u'. split; [exact Hu|]. unfold original, rewritten in *. simpl. rewrite <- !app_assoc in *. exact Hr.
Qed.
Lemma combine_maps : forall A B (l : list A) (k : list B), length l = length k ->
  map fst (combine l k) = l /\ map snd (combine l k) = k.
Proof.
  intros A B l. induction l as [|x l IH]; intros [|y k] H; try discriminate; simpl; auto.
  destruct (IH k) as [H1 H2]; [simpl in H; lia|]. split; f_equal; auto.
Qed.
Lemma olds_original : forall g rows, g ++ olds rows = original g (map (fun x => fst (fst x)) rows).
Proof. intros. unfold olds, original. f_equal. induction rows as [|x l IH]; simpl; [reflexivity|]. rewrite IH. reflexivity. Qed.
Lemma news_rewritten : forall g rows, g ++ news rows = rewritten g (map (fun x => fst (fst x)) rows).
Proof. intros. unfold news, rewritten. f_equal. induction rows as [|x l IH]; simpl; [reflexivity|]. rewrite IH. reflexivity. Qed.

Lemma only_changing : forall P c c' outs, cut_so P c c' outs ->
  cut_so (fun k => P k /\ changes sc (fst (fst k)) = true) c c' (changing sc outs).
Proof.
  intros P c c' outs (cands & kept & g0 & cs & H1 & H2 & H3 & H4 & H5 & H6 & H7).
  pose proof (rows_of cs kept outs g0 g0 H5 H6 H7) as Hrows.
  destruct (combine_maps _ _ cs kept H5) as [M1 M2].
  destruct (combine_maps _ _ (combine cs kept) outs) as [M3 M4].
  { rewrite combine_length. lia. }
  set (rows := combine (combine cs kept) outs) in *.
  assert (R1 : map (fun x : row => fst (fst x)) rows = cs) by (rewrite <- M1, <- M3, map_map; reflexivity).
  assert (R2 : map (fun x : row => snd (fst x)) rows = kept) by (rewrite <- M2, <- M3, map_map; reflexivity).
  pose proof (merge_ok rows [] [] g0 Hrows) as Hm. destruct (merge g0 rows) as [g' rows'].
  destruct Hm as (I1 & I2 & I3 & _ & I5 & I6). simpl in I1.
  rewrite !olds_original in I2. rewrite !news_rewritten in I3.
  fold row in I2, I3. change (cut * internal_match E * rule_match)%type with row in I2, I3, I5, I6, M4.
  rewrite R1 in I2, I3. rewrite R2 in I5. rewrite M4 in I6.
  exists (filter alters cands), (filter alters kept), g', (map (fun x => fst (fst x)) rows').
  split; [|split; [apply resolved_alters, H2|split; [rewrite H3; exact I2|split; [rewrite H4; exact I3|split; [|split]]]]].
  - intros [[i a] b]. rewrite <- H1. split.
    + intros Hin. apply in_map_iff in Hin as (m & Hk & Hin). apply filter_In in Hin as [Hin Ha].
      split; [rewrite <- Hk; apply in_map, Hin|]. unfold key in Hk. injection Hk as <- _ _. exact Ha.
    + intros [Hin Ha]. apply in_map_iff in Hin as (m & Hk & Hin). apply in_map_iff. exists m. split; [exact Hk|].
      apply filter_In. split; [exact Hin|]. unfold key in Hk. injection Hk as Hk _ _. unfold alters. rewrite Hk. exact Ha.
  - rewrite <- I5, !map_length. reflexivity.
  - rewrite <- I5, <- I6, !map_length. reflexivity.
  - rewrite <- I5, <- I6. apply of_rows. exact I1.
Qed.
End One.

(* ---- rules whose matches are apart from those of the others ---- *)
Lemma resolved_apart : forall E rules (ms1 ms2 out1 out2 : list (internal_match E)),
  (forall m, In m ms1 -> nonempty m) -> (forall m, In m ms2 -> nonempty m) ->
  (forall k, In k (map key ms2) -> In k (map key ms1)) ->
  (forall x m, In x ms1 -> In m ms2 -> ~ In (key x) (map key ms2) -> ~ overlaps x m) ->
  resolved rules ms1 out1 -> resolved rules ms2 out2 ->
  forall n m, In m ms2 -> length (filter (fun x => outranksb rules x m) ms2) <= n ->
    (In (key m) (map key out2) <-> In (key m) (map key out1)).
Proof.
  intros E rules ms1 ms2 out1 out2 Hne1 Hne2 Hk Hap H1 H2.
  assert (key_dec : forall (k : nat * nat * nat) l, In k l \/ ~ In k l).
  { intros k l. destruct (in_dec (fun x y : nat * nat * nat => ltac:(repeat decide equality)) k l); auto. }
  assert (Hlt : forall n o m, In o ms2 -> In m ms2 -> outranks rules o m ->
    length (filter (fun x => outranksb rules x m) ms2) <= n ->
    exists n', n = S n' /\ length (filter (fun x => outranksb rules x o) ms2) <= n').
  { intros n o m Ho Hm Hom Hl.
    assert (length (filter (fun x => outranksb rules x o) ms2) < length (filter (fun x => outranksb rules x m) ms2)).
    { apply filter_length_lt with (y := o).
      - intros x Hx. unfold outranksb.
        destruct (overlap_compare rules x o) eqn:C; try discriminate. intros _.
        apply overlap_compare_gt in C; auto.
        assert (overlap_compare rules x m = Gt) as ->; [|reflexivity].
        apply overlap_compare_gt; auto. eapply outranks_trans; eauto.
      - exact Ho.
      - unfold outranksb. destruct (overlap_compare rules o o) eqn:C; auto.
        apply overlap_compare_gt in C; auto. exfalso. apply (outranks_irrefl rules o o eq_refl C).
      - unfold outranksb. assert (overlap_compare rules o m = Gt) as ->; [|reflexivity].
        apply overlap_compare_gt; auto. }
    exists (pred n). lia. }
  assert (HA : forall m, In m ms2 -> (In (key m) (map key out2) <->
              ~ exists o, In o out2 /\ outranks rules o m /\ overlaps o m)).
  { intros m Hm. rewrite <- (rs_iff _ _ _ H2 m Hm), in_map_iff. firstorder. }
  assert (HB : forall m, In m ms2 -> (In (key m) (map key out1) <->
              ~ exists o, In o out1 /\ outranks rules o m /\ overlaps o m)).
  { intros m Hm. assert (K : In (key m) (map key ms1)) by (apply Hk, in_map, Hm).
    apply in_map_iff in K as (m' & Km & Hm'). rewrite in_map_iff. split.
    - intros (o & Ho1 & Ho2) (o' & Q1 & Q2 & Q3).
      apply (proj1 (rs_iff _ _ _ H1 m' Hm')); [exists o; split; [exact Ho2|congruence]|].
      exists o'. split; [exact Q1|]. split.
      + eapply outranks_key; [symmetry; exact Km|exact Q2].
      + eapply overlaps_key; [symmetry; exact Km|exact Q3].
    - intros Hno. destruct (proj2 (rs_iff _ _ _ H1 m' Hm')) as (o & Ho1 & Ho2).
      + intros (o' & Q1 & Q2 & Q3). apply Hno. exists o'. split; [exact Q1|]. split.
        * eapply outranks_key; [exact Km|exact Q2].
        * eapply overlaps_key; [exact Km|exact Q3].
      + exists o. split; [congruence|exact Ho1]. }
  assert (Hback : forall o m, In o out1 -> In m ms2 -> overlaps o m -> exists o2, In o2 ms2 /\ key o2 = key o).
  { intros o m Ho Hm Hv. destruct (key_dec (key o) (map key ms2)) as [K|K].
    - apply in_map_iff in K as (o2 & K1 & K2). eauto.
    - exfalso. exact (Hap o m (rs_genuine _ _ _ H1 o Ho) Hm K Hv). }
  induction n as [|n IH]; intros m Hm Hl; rewrite (HA m Hm), (HB m Hm); split; intros Hno (o & Ho & Q & V); apply Hno.
  - destruct (Hback o m Ho Hm V) as (o2 & Ho2 & K2).
    destruct (Hlt 0 o2 m Ho2 Hm) as (n' & En & _); [|exact Hl|discriminate En].
    eapply outranks_key_l; [symmetry; exact K2|exact Q].
  - destruct (Hlt 0 o m (rs_genuine _ _ _ H2 o Ho) Hm Q Hl) as (n' & En & _). discriminate En.
  - destruct (Hback o m Ho Hm V) as (o2 & Ho2 & K2).
    assert (Q2 : outranks rules o2 m) by (eapply outranks_key_l; [symmetry; exact K2|exact Q]).
    destruct (Hlt (S n) o2 m Ho2 Hm Q2 Hl) as (n' & En & Hl'). injection En as <-.
    assert (K : In (key o2) (map key out2)).
    { apply (IH o2 Ho2 Hl'). rewrite K2. apply in_map, Ho. }
    apply in_map_iff in K as (o' & K3 & K4). exists o'. split; [exact K4|]. split.
    + eapply outranks_key_l; [symmetry; exact K3|exact Q2].
    + apply overlaps_sym. eapply overlaps_key; [symmetry; rewrite <- K2; rewrite K3; reflexivity|].
      apply overlaps_sym; exact V.
  - assert (Ho2 := rs_genuine _ _ _ H2 o Ho).
    destruct (Hlt (S n) o m Ho2 Hm Q Hl) as (n' & En & Hl'). injection En as <-.
    assert (K : In (key o) (map key out1)) by (apply (IH o Ho2 Hl'), in_map, Ho).
    apply in_map_iff in K as (o' & K3 & K4). exists o'. split; [exact K4|]. split.
    + eapply outranks_key_l; [symmetry; exact K3|exact Q].
    + apply overlaps_sym. eapply overlaps_key; [symmetry; exact K3|]. apply overlaps_sym; exact V.
Qed.

(* ---- the rules in another order ---- *)
Section Reorder.
Variables sc1 sc2 : scanner.
Variables fs1 fs2 : nat -> finder.
Variable pi : nat -> nat.
Variable blocked : list nat.
Hypothesis H : reordered pi sc1 sc2 fs1 fs2.

Lemma ro_back : forall j r2, nth_error (sc_rules sc2) j = Some r2 ->
  exists i r1, j = pi i /\ nth_error (sc_rules sc1) i = Some r1 /\
    rule_action r1 = rule_action r2 /\ rule_scope r1 = rule_scope r2 /\
    rule_validation r1 = rule_validation r2 /\ rule_multipass r1 = rule_multipass r2 /\
    forall c p e kw, fs1 i c p e kw = fs2 j c p e kw.
Proof.
  intros j r2 Hr2. destruct (ro_all _ _ _ _ _ H j) as (i & Hi & <-).
  { apply nth_error_Some. congruence. }
  destruct (nth_error (sc_rules sc1) i) as [r1|] eqn:Hr1; [|apply nth_error_None in Hr1; lia].
  destruct (ro_rules _ _ _ _ _ H i r1 Hr1) as (r2' & Hr2' & Hrest). rewrite Hr2 in Hr2'. injection Hr2' as <-.
  exists i, r1. auto.
Qed.

Lemma not_in_map : forall i, ~ In i blocked <-> ~ In (pi i) (map pi blocked).
Proof.
  intros i. split; intros Hn Hin; apply Hn.
  - apply in_map_iff in Hin as (j & Hj & Hin). apply (ro_once _ _ _ _ _ H) in Hj. congruence.
  - apply in_map, Hin.
Qed.

Lemma ro_candidate : forall p c i a b,
  candidate sc1 fs1 blocked p c (i, a, b) <-> candidate sc2 fs2 (map pi blocked) p c (pi i, a, b).
Proof.
  intros p c i a b. unfold candidate. rewrite <- (ro_wild _ _ _ _ _ H), <- (ro_kw _ _ _ _ _ H). pose proof (not_in_map i) as Hb. split.
  - intros (r & Hr & H1 & H2 & H3 & H4). destruct (ro_rules _ _ _ _ _ H i r Hr) as (r2 & Hr2 & _ & Hs & _ & _ & Hf).
    exists r2. rewrite <- Hs, <- Hf, <- Hb. auto.
  - intros (r2 & Hr2 & H1 & H2 & H3 & H4). destruct (ro_back _ _ Hr2) as (i' & r & Hp & Hr & _ & Hs & _ & _ & Hf).
    apply (ro_once _ _ _ _ _ H) in Hp as <-. exists r. rewrite Hs, Hf, Hb. auto.
Qed.
Lemma ro_found : forall strs t,
  found_excluded sc1 fs1 blocked strs t <-> found_excluded sc2 fs2 (map pi blocked) strs t.
Proof.
  intros strs t. unfold found_excluded. rewrite <- (ro_wild _ _ _ _ _ H), <- (ro_kw _ _ _ _ _ H). split.
  - intros (i & r & p & c & H1 & Hr & H2 & H3 & H4 & H5).
    destruct (ro_rules _ _ _ _ _ H i r Hr) as (r2 & Hr2 & _ & Hs & _ & _ & Hf).
    exists (pi i), r2, p, c. rewrite <- not_in_map, <- Hs, <- Hf. auto 10.
  - intros (j & r2 & p & c & H1 & Hr2 & H2 & H3 & H4 & H5).
    destruct (ro_back _ _ Hr2) as (i & r & -> & Hr & _ & Hs & _ & _ & Hf).
    exists i, r, p, c. rewrite not_in_map, Hs, Hf. auto 10.
Qed.
Lemma ro_suppressed : forall strs c i a b,
  suppressed sc1 fs1 blocked strs c (i, a, b) <-> suppressed sc2 fs2 (map pi blocked) strs c (pi i, a, b).
Proof.
  intros strs c i a b. unfold suppressed. rewrite <- (ro_multipass _ _ _ _ _ H). split.
  - intros (H1 & (r & Hr & Hm) & t & H2 & H3). split; [exact H1|]. split.
    + destruct (ro_rules _ _ _ _ _ H i r Hr) as (r2 & Hr2 & _ & _ & _ & Hmp & _). exists r2. split; [exact Hr2|congruence].
    + exists t. split; [exact H2|]. apply ro_found, H3.
  - intros (H1 & (r2 & Hr2 & Hm) & t & H2 & H3). split; [exact H1|]. split.
    + destruct (ro_back _ _ Hr2) as (i' & r & Hp & Hr & _ & _ & _ & Hmp & _).
      apply (ro_once _ _ _ _ _ H) in Hp as <-. exists r. split; [exact Hr|congruence].
    + exists t. split; [exact H2|]. apply ro_found, H3.
Qed.
Lemma ro_changes : forall i, i < length (sc_rules sc1) -> changes sc1 i = changes sc2 (pi i).
Proof.
  intros i Hi. unfold changes. destruct (nth_error (sc_rules sc1) i) as [r1|] eqn:Hr1; [|apply nth_error_None in Hr1; lia].
  destruct (ro_rules _ _ _ _ _ H i r1 Hr1) as (r2 & -> & -> & _). reflexivity.
Qed.

Definition moved {E} (m : internal_match E) : internal_match E := {|
  im_rule := pi (im_rule m); im_start := im_start m; im_end := im_end m; im_cstart := im_cstart m; im_cend := im_cend m |}.

Lemma moved_outranks : forall E (a b : internal_match E),
  im_rule a < length (sc_rules sc1) -> im_rule b < length (sc_rules sc1) ->
  (im_start a = im_start b -> im_end a = im_end b -> changes sc1 (im_rule a) = changes sc1 (im_rule b) -> im_rule a = im_rule b) ->
  outranks (sc_rules sc1) a b <-> outranks (sc_rules sc2) (moved a) (moved b).
Proof.
  intros E a b Ha Hb Ht. unfold outranks.
  rewrite <- !(changes_mutates sc1 E), <- !(changes_mutates sc2 E). cbn [moved im_rule im_start im_end].
  rewrite <- !ro_changes by assumption.
  split; (intros [L|[L1 L2]]; [left; exact L|right; split; [exact L1|]]);
    (destruct L2 as [L2|[L2 [L3|[L3 L4]]]]; [auto|auto|]); exfalso;
    assert (K : im_rule a = im_rule b) by (apply Ht; auto; destruct (changes sc1 (im_rule a)), (changes sc1 (im_rule b)); tauto || (exfalso; destruct L1; intuition congruence));
    rewrite K in L4; lia.
Qed.

Lemma moved_resolved : forall E (ms out : list (internal_match E)),
  (forall m, In m ms -> im_rule m < length (sc_rules sc1)) ->
  (forall a b, In a ms -> In b ms -> im_start a = im_start b -> im_end a = im_end b ->
     changes sc1 (im_rule a) = changes sc1 (im_rule b) -> im_rule a = im_rule b) ->
  resolved (sc_rules sc1) ms out -> resolved (sc_rules sc2) (map moved ms) (map moved out).
Proof.
  intros E ms out Hin Ht [H1 H2 H3 H4]. split.
  - intros o Ho. apply in_map_iff in Ho as (x & <- & Hx). apply in_map; auto.
  - clear - H2. induction H2 as [|x l HS IH HF]; simpl; constructor; auto. apply Forall_forall. intros y Hy.
    apply in_map_iff in Hy as (z & <- & Hz). rewrite Forall_forall in HF. exact (HF z Hz).
  - intros i j a b Hn Ha Hb. rewrite nth_error_map in Ha, Hb.
    destruct (nth_error out i) as [x|] eqn:Hx; [|discriminate Ha]. destruct (nth_error out j) as [y|] eqn:Hy; [|discriminate Hb].
    injection Ha as <-. injection Hb as <-. exact (H3 i j x y Hn Hx Hy).
  - intros m' Hm'. apply in_map_iff in Hm' as (m & <- & Hm). specialize (H4 m Hm).
    assert (K : (exists o, In o out /\ key o = key m) <-> (exists o, In o (map moved out) /\ key o = key (moved m))).
    { split.
      - intros (o & Ho & Hk). exists (moved o). split; [apply in_map, Ho|]. unfold key in *. injection Hk as E1 E2 E3.
        unfold moved. cbn. congruence.
      - intros (o' & Ho & Hk). apply in_map_iff in Ho as (o & <- & Ho). exists o. split; [exact Ho|]. unfold key in *.
        cbn in Hk. injection Hk as E1 E2 E3. apply (ro_once _ _ _ _ _ H) in E1. congruence. }
    rewrite <- K, H4. split; intros Hno.
    + intros (o' & Ho & Hr & Hv). apply in_map_iff in Ho as (o & <- & Ho). apply Hno. exists o. split; [exact Ho|]. split; [|exact Hv].
      apply moved_outranks in Hr; auto.
    + intros (o & Ho & Hr & Hv). apply Hno. exists (moved o). split; [apply in_map, Ho|]. split; [|exact Hv].
      apply moved_outranks; auto.
Qed.

Lemma moved_cut : forall E w h p (P : nat * nat * nat -> Prop) c c' outs,
  (forall i a b, P (i, a, b) -> i < length (sc_rules sc1)) ->
  (forall i j a b, P (i, a, b) -> P (j, a, b) -> changes sc1 i = changes sc1 j -> i = j) ->
  cut_so sc1 E w h p P c c' outs ->
  cut_so sc2 E w h p (fun k => exists i a b, k = (pi i, a, b) /\ P (i, a, b)) c c' (map (renamed pi) outs).
Proof.
  intros E w h p P c c' outs Hlt Hties (cands & kept & g0 & cs & H1 & H2 & H3 & H4 & H5 & H6 & H7).
  exists (map moved cands), (map moved kept), g0, cs.
  split; [|split; [|split; [exact H3|split; [exact H4|split; [|split]]]]].
  - intros k. rewrite map_map. split.
    + intros Hin. apply in_map_iff in Hin as (m & <- & Hm). exists (im_rule m), (im_start m), (im_end m).
      split; [reflexivity|]. apply H1. exact (in_map key _ _ Hm).
    + intros (i & a & b & -> & Hp). apply H1 in Hp. apply in_map_iff in Hp as (m & Hk & Hm).
      apply in_map_iff. exists m. split; [|exact Hm]. unfold key in *. injection Hk as <- <- <-. reflexivity.
  - apply moved_resolved; [| |exact H2].
    + intros m Hm. apply (Hlt (im_rule m) (im_start m) (im_end m)). apply H1. exact (in_map key _ _ Hm).
    + intros a b Ha Hb E1 E2 Hc. apply (Hties _ _ (im_start a) (im_end a)); [| |exact Hc].
      * apply H1. exact (in_map key _ _ Ha).
      * rewrite E1, E2. apply H1. exact (in_map key _ _ Hb).
  - rewrite map_length. exact H5.
  - rewrite !map_length. exact H6.
  - intros k m' o' Hm Ho. rewrite nth_error_map in Hm, Ho.
    destruct (nth_error kept k) as [m|] eqn:Em; [|discriminate Hm]. injection Hm as <-.
    destruct (nth_error outs k) as [o|] eqn:Eo; [|discriminate Ho]. injection Ho as <-.
    destruct (H7 k m o Em Eo) as (u & Hu & r & Hr & F1 & F2 & F3 & F4 & F5 & F6 & F7 & F8 & F9 & F10 & F11).
    exists u. split; [exact Hu|].
    destruct (ro_rules _ _ _ _ _ H _ r Hr) as (r2 & Hr2 & Ha & _ & Hv & _). exists r2.
    cbn [moved renamed im_rule im_start im_end rm_rule rm_path rm_kind rm_start rm_end rm_shift rm_value rm_status].
    rewrite <- Ha, <- Hv, <- (ro_return _ _ _ _ _ H). rewrite F4. auto 20.
Qed.
End Reorder.

(* ---- the number of a regex rule plays no part in what it finds ---- *)
Definition at_index (i : nat) (r : regex_rule) : regex_rule := {|
  rr_index := i; rr_find := rr_find r; rr_included := rr_included r; rr_excluded := rr_excluded r; rr_validator := rr_validator r |}.

Lemma tp_next_index : forall i r fuel c chk ex start x, tp_next fuel (at_index i r) c chk ex start x = tp_next fuel r c chk ex start x.
Proof.
  intros i r fuel. induction fuel as [|fuel IH]; intros; [reflexivity|]. cbn [tp_next at_index rr_find].
  destruct (rr_find r c start) as [m|]; [|reflexivity].
  change (is_false_positive_match (at_index i r) c m chk) with (is_false_positive_match r c m chk).
  destruct (is_false_positive_match r c m chk) as [fp| |]; cbn [bind]; [|reflexivity|reflexivity]. destruct fp.
  - destruct (get_next_regex_start c m) as [[n|]| |]; cbn [bind]; auto.
  - destruct ex; [|reflexivity]. destruct (slice c (fst m) (snd m)); cbn [bind]; auto.
Qed.
Lemma tp_all_index : forall i r fuel c chk ex start x, tp_all fuel (at_index i r) c chk ex start x = tp_all fuel r c chk ex start x.
Proof.
  intros i r fuel. induction fuel as [|fuel IH]; intros; [reflexivity|]. cbn [tp_all]. rewrite tp_next_index.
  destruct (tp_next (S fuel) r c chk ex start x) as [[[om s'] x']| |]; cbn [bind]; [|reflexivity|reflexivity].
  destruct om; [|reflexivity]. rewrite IH. reflexivity.
Qed.
Lemma kw_inner_index : forall i r ik fuel c ex k start ks x, kw_inner fuel (at_index i r) ik c ex k start ks x = kw_inner fuel r ik c ex k start ks x.
Proof.
  intros i r ik fuel. induction fuel as [|fuel IH]; intros; [reflexivity|]. cbn [kw_inner]. rewrite tp_next_index.
  destruct (tp_next (S fuel) r c false ex start x) as [[[om s'] x']| |]; cbn [bind]; [|reflexivity|reflexivity].
  destruct om as [m|]; [|reflexivity]. destruct (is_index_within_prefix c k (fst m) (ik_look_ahead ik)) as [b| |]; cbn [bind]; [|reflexivity|reflexivity].
  destruct b; [|reflexivity]. rewrite IH. reflexivity.
Qed.
Lemma kw_outer_index : forall i r ik fuel c ex ks x, kw_outer fuel (at_index i r) ik c ex ks x = kw_outer fuel r ik c ex ks x.
Proof.
  intros i r ik fuel. induction fuel as [|fuel IH]; intros; [reflexivity|]. cbn [kw_outer].
  destruct (keyword_next ik c ks) as [[[k k1]|]| |]; cbn [bind]; try reflexivity. rewrite kw_inner_index.
  destruct (kw_inner (S fuel) r ik c ex k k k1 x) as [[[[cont ms] k2] x']| |]; cbn [bind]; try reflexivity.
  destruct cont; [|reflexivity]. rewrite IH. reflexivity.
Qed.
Lemma regex_index : forall i r fuel c p ex kw x,
  regex_string_matches fuel (at_index i r) c p ex [] kw x = regex_string_matches fuel r c p ex [] kw x.
Proof.
  intros i r fuel c p ex kw x. unfold regex_string_matches. cbn [at_index rr_included].
  destruct (rr_included r) as [ik|]; [|apply (tp_all_index i)].
  unfold matches_with_included_keywords. cbn [existsb]. fold (at_index i r). rewrite kw_outer_index.
  destruct (kw_outer fuel r ik c ex 0 x) as [[ms x1]| |]; cbn [bind]; try reflexivity.
  destruct kw; [|reflexivity]. cbn [at_index rr_find]. fold (at_index i r). destruct (rr_find r c 0); [|reflexivity].
  destruct (ik_path_match ik (sanitize p)); [|reflexivity]. rewrite tp_all_index. reflexivity.
Qed.
