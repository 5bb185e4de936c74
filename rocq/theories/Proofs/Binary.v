(* The binary event obeys the laws of events; what Go decodes of a response *)
From Coq Require Import Lia ZifyN Permutation.
From Verif Require Import Proofs.Text Proofs.Scopes Proofs.Events Proofs.Codec.
From Verif Require Export Spec.Codec.

(* ---- storage ---- *)
Lemma path_eqb_refl : forall p, path_eqb p p = true.
Proof. intros. apply path_eqb_eq. reflexivity. Qed.
Lemma path_eqb_neq : forall p q, path_eqb p q = false <-> p <> q.
Proof.
  intros p q. split.
  - intros H E. subst. rewrite path_eqb_refl in H. discriminate.
  - intros H. destruct (path_eqb p q) eqn:E; auto. apply path_eqb_eq in E. contradiction.
Qed.

Lemma get_insert : forall st p v q, storage_get st p = None ->
  storage_get (storage_insert st p v) q = if path_eqb p q then Some v else storage_get st q.
Proof.
  induction st as [|[r x] st IH]; intros p v q H; simpl in *; [reflexivity|].
  destruct (path_eqb r p) eqn:Er; [discriminate|].
  destruct (path_compare p r); simpl; try reflexivity;
    rewrite IH by auto; destruct (path_eqb r q) eqn:Eq; auto;
    destruct (path_eqb p q) eqn:Ep; auto;
    apply path_eqb_eq in Eq, Ep; subst; rewrite path_eqb_refl in Er; discriminate.
Qed.

Lemma insert_perm : forall st p v, Permutation (storage_insert st p v) ((p, v) :: st).
Proof.
  induction st as [|[r x] st IH]; intros p v; simpl; [reflexivity|].
  destruct (path_compare p r); [|reflexivity|]; rewrite IH; apply perm_swap.
Qed.

Lemma get_set : forall st p v q, storage_get (storage_set st p v) q =
  if path_eqb p q then match storage_get st p with Some _ => Some v | None => None end
  else storage_get st q.
Proof.
  induction st as [|[r x] st IH]; intros p v q; simpl.
  - destruct (path_eqb p q); reflexivity.
  - destruct (path_eqb r p) eqn:Er; simpl.
    + apply path_eqb_eq in Er. subst r. destruct (path_eqb p q); reflexivity.
    + rewrite IH. destruct (path_eqb r q) eqn:Eq; auto.
      destruct (path_eqb p q) eqn:Ep; auto.
      apply path_eqb_eq in Eq, Ep. subst. rewrite path_eqb_refl in Er. discriminate.
Qed.

Lemma set_keys : forall st p v, map fst (storage_set st p v) = map fst st.
Proof.
  induction st as [|[r x] st IH]; intros p v; simpl; auto.
  destruct (path_eqb r p); simpl; [reflexivity|]. rewrite IH. reflexivity.
Qed.

Lemma get_none : forall st p, storage_get st p = None <-> ~ In p (map fst st).
Proof.
  induction st as [|[r x] st IH]; intros p; simpl; [tauto|].
  destruct (path_eqb r p) eqn:E.
  - apply path_eqb_eq in E. split; [discriminate|]. intros H. exfalso. auto.
  - apply path_eqb_neq in E. rewrite IH. tauto.
Qed.

Lemma get_in : forall st p v, NoDup (map fst st) -> (storage_get st p = Some v <-> In (p, v) st).
Proof.
  induction st as [|[r x] st IH]; intros p v Hn; simpl in *; [split; [discriminate|tauto]|].
  inversion Hn; subst. destruct (path_eqb r p) eqn:E.
  - apply path_eqb_eq in E. subst r. split.
    + intros H. injection H as <-. auto.
    + intros [H|H]; [injection H as <-; auto|]. exfalso. apply H1. apply in_map_iff. exists (p, v). auto.
  - apply path_eqb_neq in E. rewrite IH by auto. split; auto. intros [H|H]; auto. injection H as <- <-. contradiction.
Qed.

Lemma store_visited_spec : forall log st,
  NoDup (map (fun x => fst (fst x)) log) ->
  (forall x, In x log -> storage_get st (fst (fst x)) = None) ->
  NoDup (map fst st) ->
  NoDup (map fst (store_visited st log)) /\
  forall p v, storage_get (store_visited st log) p = Some v <->
    storage_get st p = Some v \/ exists c, v = (false, c) /\ In (p, c, true) log.
Proof.
  induction log as [|[[p c] b] log IH]; intros st Hn Hd Hs; cbn [store_visited].
  - split; auto. intros p v. split; auto. intros [H|(c & _ & [])]. auto.
  - simpl in Hn. inversion Hn; subst.
    pose proof (Hd _ (or_introl eq_refl)) as Hp. simpl in Hp.
    destruct b.
    + rewrite Hp. destruct (IH (storage_insert st p (false, c))) as [IH1 IH2]; auto.
      * intros x Hx. rewrite get_insert by auto.
        destruct (path_eqb p (fst (fst x))) eqn:E; [|apply Hd; right; auto].
        apply path_eqb_eq in E. subst p. exfalso. apply H1. apply in_map_iff. exists x. auto.
      * apply Permutation_NoDup with (map fst ((p, (false, c)) :: st)).
        -- apply Permutation_map. symmetry. apply insert_perm.
        -- simpl. constructor; auto. apply get_none. auto.
      * split; auto. intros q v. rewrite IH2, get_insert by auto.
        destruct (path_eqb p q) eqn:E.
        -- apply path_eqb_eq in E. subst q. rewrite Hp. split.
           ++ intros [H|(c' & -> & H)]; right; [injection H as <-; exists c|exists c']; simpl; auto.
           ++ intros [H|(c' & -> & [H|H])]; [discriminate| |].
              ** injection H as <-. auto.
              ** right. eauto.
        -- apply path_eqb_neq in E. split.
           ++ intros [H|(c' & -> & H)]; auto. right. exists c'. simpl. auto.
           ++ intros [H|(c' & -> & [H|H])]; auto. injection H as -> ->. contradiction. right. eauto.
    + destruct (IH st) as [IH1 IH2]; auto.
      * intros x Hx. apply Hd. right; auto.
      * split; auto. intros q v. rewrite IH2. split.
        -- intros [H|(c' & -> & H)]; auto. right. exists c'. simpl. auto.
        -- intros [H|(c' & -> & [H|H])]; auto. discriminate H. right. eauto.
Qed.

(* what the string at [p] has become, as the response tells it *)
Definition effective (st : storage) (p : path) (c : str) : str :=
  match storage_get st p with Some (true, x) => x | _ => c end.

Definition binary_holds (strs : list (path * str)) (e : binary_event)
    (l : list (path * str * bool)) : Prop :=
  NoDup (map fst (be_storage e)) /\
  (forall p, In p (map fst (be_storage e)) -> In p (map fst strs)) /\
  forall p c b, In (p, c, b) l ->
    (exists c0, In (p, c0) strs /\ c = effective (be_storage e) p c0) /\
    (b = true -> storage_get (be_storage e) p = Some (false, c)).

Lemma binary_laws : forall E ops strs, strings_of ops = Some strs -> NoDup (map fst strs) ->
  event_laws (binary_event_impl E) {| be_ops := ops; be_storage := [] |} strs (binary_holds strs).
Proof.
  intros E ops strs Hs Hn. constructor; auto.
  - intros log Hl. simpl.
    assert (Hnl : NoDup (map (fun x : path * str * bool => fst (fst x)) log)).
    { rewrite <- Hl in Hn. rewrite map_map in Hn. exact Hn. }
    destruct (store_visited_spec log [] Hnl) as [H1 H2]; [reflexivity|constructor|].
    split; [exact H1|]. split.
    + intros p Hp. cbn [be_storage] in Hp.
      destruct (storage_get (store_visited [] log) p) as [v|] eqn:G; [|apply get_none in G; contradiction].
      apply H2 in G as [G|(c & -> & G)]; [discriminate|]. rewrite <- Hl.
      apply (in_map (fun x => fst (fst x))) in G. rewrite map_map. exact G.
    + intros p c b Hin. cbn [be_storage]. split.
      * exists c. split; [rewrite <- Hl; apply (in_map fst) in Hin; exact Hin|].
        unfold effective. destruct (storage_get (store_visited [] log) p) as [[[|] x]|] eqn:G; auto.
        apply H2 in G as [G|(c' & G & _)]; discriminate.
      * intros ->. apply H2. right. eauto.
  - intros e l p c (_ & _ & H) Hin. simpl. destruct (H p c true Hin) as [_ Hg]. rewrite Hg by auto. reflexivity.
  - intros e l1 p c l2 c' mutated (H1 & H2 & H3) Hm Hnl.
    assert (Hg : storage_get (be_storage e) p = Some (false, c)).
    { apply (H3 p c true); auto. apply in_or_app. right. left. reflexivity. }
    assert (Ho : exists c0, In (p, c0) strs /\ c = effective (be_storage e) p c0).
    { apply (H3 p c true); auto. apply in_or_app. right. left. reflexivity. }
    split; [simpl; rewrite set_keys; exact H1|]. split; [simpl; rewrite set_keys; exact H2|].
    intros q d b Hin. cbn [be_storage ev_set binary_event_impl]. rewrite map_app in Hnl. simpl in Hnl.
    apply NoDup_remove in Hnl as [_ Hnl]. rewrite in_app_iff in Hnl.
    apply in_app_or in Hin. destruct (path_eqb p q) eqn:Eq.
    + apply path_eqb_eq in Eq. subst q.
      assert (Hd : (p, c', false) = (p, d, b)).
      { destruct Hin as [Hin|[Hin|Hin]]; auto.
        - exfalso. apply Hnl. left. apply in_map_iff. exists (p, d, b). auto.
        - exfalso. apply Hnl. right. apply in_map_iff. exists (p, d, b). auto. }
      injection Hd as <- <-. split; [|discriminate].
      destruct Ho as (c0 & Ho1 & Ho2). exists c0. split; auto. unfold effective in *.
      rewrite get_set, path_eqb_refl, Hg. rewrite Hg in Ho2. destruct mutated; auto.
      rewrite Hm; auto.
    + assert (Hold : In (q, d, b) (l1 ++ (p, c, true) :: l2)).
      { apply in_or_app. destruct Hin as [Hin|[Hin|Hin]]; auto.
        - injection Hin as <- <- <-. rewrite path_eqb_refl in Eq. discriminate.
        - right. right. exact Hin. }
      destruct (H3 q d b Hold) as [(c0 & A & B) C].
      unfold effective. rewrite get_set, Eq. split; auto. exists c0. split; auto.
Qed.

(* ---- path text ---- *)
Lemma decimal_loop_app : forall fuel n acc,
  decimal_loop fuel n acc = decimal_loop fuel n [] ++ acc.
Proof.
  induction fuel as [|fuel IH]; intros n acc; cbn [decimal_loop]; [reflexivity|].
  destruct (n <? 10); [reflexivity|]. rewrite IH, (IH _ [_]), <- app_assoc. reflexivity.
Qed.

Lemma decimal_loop_spec : forall fuel n, n < fuel ->
  (forall c, In c (decimal_loop fuel n []) -> is_digit c) /\
  decimal_value (decimal_loop fuel n []) = N.of_nat n /\
  exists h t, decimal_loop fuel n [] = h :: t /\ (n = 0 -> t = []) /\ (0 < n -> h <> 48%N).
Proof.
  induction fuel as [|fuel IH]; intros n Hn; [lia|]. cbn [decimal_loop].
  assert (Hd : is_digit (N.of_nat (48 + n mod 10))).
  { unfold is_digit. pose proof (Nat.mod_upper_bound n 10). lia. }
  destruct (n <? 10) eqn:E.
  - apply Nat.ltb_lt in E. rewrite Nat.mod_small in * by auto. split; [|split].
    + intros c [<-|[]]. exact Hd.
    + unfold decimal_value. cbn [fold_left]. lia.
    + exists (N.of_nat (48 + n)), []. split; [reflexivity|]. split; [auto|]. lia.
  - apply Nat.ltb_ge in E. rewrite decimal_loop_app.
    assert (Hq : n / 10 < fuel). { pose proof (Nat.div_lt n 10). lia. }
    assert (Hq0 : 0 < n / 10) by (apply Nat.div_str_pos; lia).
    destruct (IH (n / 10) Hq) as (H1 & H2 & h & t & H3 & H4 & H5). split; [|split].
    + intros c Hc. apply in_app_or in Hc as [Hc|[<-|[]]]; auto.
    + unfold decimal_value in *. rewrite fold_left_app, H2. cbn [fold_left].
      pose proof (Nat.div_mod n 10). lia.
    + rewrite H3. exists h, (t ++ [N.of_nat (48 + n mod 10)]). split; [reflexivity|].
      split; [lia|]. intros _. apply H5. auto.
Qed.

Lemma decimal_reads : forall n, reads_as (decimal n) n.
Proof.
  intros n. unfold decimal. destruct (decimal_loop_spec (S n) n) as (H1 & H2 & h & t & H3 & H4 & H5); [lia|].
  split; [rewrite H3; discriminate|]. split; auto. split; auto.
  intros t' E. rewrite H3 in E. injection E as -> ->. destruct n as [|n]; [auto|]. exfalso. apply H5; [lia|auto].
Qed.

Lemma decimal_value_app : forall a c, decimal_value (a ++ [c]) = (decimal_value a * 10 + (c - 48))%N.
Proof. intros a c. unfold decimal_value. rewrite fold_left_app. reflexivity. Qed.
Lemma reads_as_unique : forall d1 d2 n, reads_as d1 n -> reads_as d2 n -> d1 = d2.
Proof.
  assert (forall d1, (forall c, In c d1 -> is_digit c) -> (forall t', d1 = 48%N :: t' -> t' = []) -> d1 <> [] ->
          forall d2, (forall c, In c d2 -> is_digit c) -> (forall t', d2 = 48%N :: t' -> t' = []) -> d2 <> [] ->
          decimal_value d1 = decimal_value d2 -> d1 = d2) as K.
  { assert (forall d, d <> [] -> (forall c, In c d -> is_digit c) -> (forall t', d = 48%N :: t' -> t' = []) ->
             decimal_value d = 0%N -> d = [48%N]) as Z.
    { intros d. induction d as [|c a IH] using rev_ind; intros Hn Hd Hz Hv; [destruct (Hn eq_refl)|].
      rewrite decimal_value_app in Hv. assert (is_digit c) as Hc by (apply Hd, in_or_app; right; left; reflexivity).
      unfold is_digit in Hc. assert (c = 48%N) as -> by lia. destruct a as [|x a]; [reflexivity|].
      assert (x :: a = [48%N]) as E.
      { apply IH; [discriminate|intros y Hy; apply Hd, in_or_app; left; exact Hy| |lia].
        intros t' E. injection E as -> ->. specialize (Hz (t' ++ [48%N]) eq_refl). destruct t'; discriminate. }
      injection E as -> ->. specialize (Hz [48%N] eq_refl). discriminate. }
    intros d1. induction d1 as [|c a IH] using rev_ind; intros Hd1 Hz1 Hn1 d2 Hd2 Hz2 Hn2 Hv; [destruct (Hn1 eq_refl)|].
    destruct d2 as [|c2 a2 _] using rev_ind; [destruct (Hn2 eq_refl)|].
    pose proof Hv as Hv'. rewrite !decimal_value_app in Hv.
    assert (is_digit c) as Hc by (apply Hd1, in_or_app; right; left; reflexivity).
    assert (is_digit c2) as Hc2 by (apply Hd2, in_or_app; right; left; reflexivity).
    unfold is_digit in Hc, Hc2.
    assert (decimal_value a = decimal_value a2 /\ c = c2) as (Ea & ->) by lia.
    destruct a as [|x a].
    - destruct a2 as [|y a2]; [reflexivity|]. exfalso.
      assert (y :: a2 = [48%N]) as E.
      { apply Z; [discriminate|intros z Hz; apply Hd2, in_or_app; left; exact Hz| |symmetry; exact Ea].
        intros t' E. injection E as -> ->. specialize (Hz2 (t' ++ [c2]) eq_refl). destruct t'; discriminate. }
      injection E as -> ->. specialize (Hz2 [c2] eq_refl). discriminate.
    - destruct a2 as [|y a2].
      + exfalso. assert (x :: a = [48%N]) as E.
        { apply Z; [discriminate|intros z Hz; apply Hd1, in_or_app; left; exact Hz| |exact Ea].
          intros t' E. injection E as -> ->. specialize (Hz1 (t' ++ [c2]) eq_refl). destruct t'; discriminate. }
        injection E as -> ->. specialize (Hz1 [c2] eq_refl). discriminate.
      + f_equal. apply IH; try discriminate; try exact Ea.
        * intros z Hz. apply Hd1, in_or_app. left. exact Hz.
        * intros t' E. injection E as -> ->. specialize (Hz1 (t' ++ [c2]) eq_refl). destruct t'; discriminate.
        * intros z Hz. apply Hd2, in_or_app. left. exact Hz.
        * intros t' E. injection E as -> ->. specialize (Hz2 (t' ++ [c2]) eq_refl). destruct t'; discriminate. }
  intros d1 d2 n (A1 & A2 & A3 & A4) (B1 & B2 & B3 & B4). apply K; auto. congruence.
Qed.
Lemma display_text : forall p i, path_text (i =? 0) p (display_at i p).
Proof.
  induction p as [|[f|n] p IH]; intros i; cbn [display_at].
  - constructor.
  - destruct (i =? 0); simpl; constructor; apply (IH (S i)).
  - simpl. constructor; [apply decimal_reads|apply (IH (S i))].
Qed.

(* ---- matches ---- *)
Lemma kind_round : forall k, parse_replacement_type (kind_text k) = k.
Proof. intros []; vm_compute; reflexivity. Qed.
Lemma kind_length : forall k, (N.of_nat (length (kind_text k)) < two32)%N.
Proof. intros []; vm_compute; reflexivity. Qed.

Lemma shift_round : forall z, go_int32 (isize_as_u32 z) = signed32 z.
Proof.
  intros z. unfold go_int32, isize_as_u32, signed32.
  assert (0 <= z mod 4294967296 < 4294967296)%Z by (apply Z.mod_pos_bound; lia).
  destruct (Z.to_N (z mod 4294967296) <? 2147483648)%N eqn:E; [apply N.ltb_lt in E|apply N.ltb_ge in E].
  - rewrite Z2N.id by lia. rewrite Z.add_mod by lia. rewrite (Z.mod_small 2147483648) by lia.
    rewrite (Z.mod_small (_ + _)) by lia. lia.
  - rewrite Z2N.id by lia. rewrite Z.add_mod by lia. rewrite (Z.mod_small 2147483648) by lia.
    assert ((z mod 4294967296 + 2147483648) mod 4294967296 = z mod 4294967296 + 2147483648 - 4294967296)%Z as ->.
    { symmetry. apply Z.mod_unique with 1%Z; lia. }
    lia.
Qed.
Lemma isize_lt : forall z, (isize_as_u32 z < two32)%N.
Proof.
  intros z. unfold isize_as_u32, two32.
  assert (0 <= z mod 4294967296 < 4294967296)%Z by (apply Z.mod_pos_bound; lia). lia.
Qed.
Lemma signed32_id : forall z, (-2147483648 <= z < 2147483648)%Z -> signed32 z = z.
Proof. intros. unfold signed32. rewrite Z.mod_small by lia. lia. Qed.

Lemma decode_match : forall o rest, path_fits (rm_path o) ->
  exists g, decode_match_response (tl (encode_match o) ++ rest) = Ret (g, rest) /\
    match_as wrap32 signed32 o g.
Proof.
  intros o rest Hp. destruct (Hp (display (rm_path o)) (display_text _ 0)) as (b & Hb & Hl).
  pose proof (utf8_of_bytes _ _ Hb) as Eb.
  unfold encode_match, tl, decode_match_response, encode_bytes. rewrite <- !app_assoc.
  rewrite buf_be32 by apply as_u32_lt. cbn [bind]. rewrite Eb, next_string_app by auto. cbn [bind].
  rewrite next_string_app by apply kind_length. cbn [bind].
  rewrite buf_be32 by apply as_u32_lt. cbn [bind].
  rewrite buf_be32 by apply as_u32_lt. cbn [bind].
  rewrite buf_be32 by apply isize_lt. cbn [bind]. rewrite kind_round, shift_round.
  eexists. split; [reflexivity|]. split; cbn; auto. exists (display (rm_path o)). split; auto. apply (display_text _ 0).
Qed.

Lemma as_image : forall o g, match_fits o -> match_as wrap32 signed32 o g -> match_image o g.
Proof.
  intros o g [F1 F2 F3 F4] [H1 H2 H3 H4 H5 H6]. unfold wrap32 in *. rewrite N.mod_small in * by auto.
  rewrite signed32_id in * by auto. split; auto.
Qed.

(* ---- mutations ---- *)
Lemma next_utf8 : forall f b rest, utf8_of f b -> (N.of_nat (length b) < two32)%N ->
  next_string (encode_bytes (as_bytes f) ++ rest) = Ret (b, rest).
Proof.
  intros f b rest Hb Hl. rewrite (utf8_of_bytes f b Hb). unfold encode_bytes. rewrite <- app_assoc.
  apply next_string_app, Hl.
Qed.

Lemma decode_mutation_ok : forall p s b rest fuel,
  (forall x, In x p -> segment_fits x) -> utf8_of s b -> (N.of_nat (length b) < two32)%N ->
  length p < fuel ->
  decode_mutation fuel (encode_path p ++ 3%N :: encode_bytes (as_bytes s) ++ rest) = Ret (Ok (b, rest)).
Proof.
  induction p as [|x p IH]; intros s b rest fuel Hp Hb Hl Hf; (destruct fuel as [|fuel]; [simpl in Hf; lia|]).
  - cbn [encode_path app decode_mutation].
    change (3 =? 0)%N with false. change (3 =? 1)%N with false. change (3 =? 3)%N with true.
    rewrite (next_utf8 s b rest) by auto. reflexivity.
  - pose proof (Hp x (or_introl eq_refl)) as Hx. simpl in Hf.
    assert (IH' := IH s b rest fuel (fun y Hy => Hp y (or_intror Hy)) Hb Hl ltac:(lia)).
    destruct x as [f|i]; cbn [encode_path app decode_mutation segment_fits] in *.
    + destruct Hx as (fb & Hfb & Hfl). change (0 =? 0)%N with true. cbn [app].
      rewrite <- app_assoc, (next_utf8 f fb) by auto. cbn [bind snd]. exact IH'.
    + change (1 =? 0)%N with false. change (1 =? 1)%N with true.
      rewrite <- app_assoc, as_u32_id, buf_be32 by auto. cbn [bind snd]. exact IH'.
Qed.

Lemma utf8_inj : forall s1 s2 b, utf8_of s1 b -> utf8_of s2 b -> s1 = s2.
Proof. intros s1 s2 b H1 H2. apply lossy_utf8 in H1, H2. congruence. Qed.
Lemma utf8_fun : forall s b1 b2, utf8_of s b1 -> utf8_of s b2 -> b1 = b2.
Proof. intros s b1 b2 H1 H2. apply utf8_of_bytes in H1, H2. congruence. Qed.

Lemma utf8_eqb : forall s1 b1 s2 b2, utf8_of s1 b1 -> utf8_of s2 b2 -> str_eqb b1 b2 = str_eqb s1 s2.
Proof.
  intros s1 b1 s2 b2 H1 H2. destruct (str_eqb s1 s2) eqn:E.
  - apply str_eqb_eq in E. subst s2. apply str_eqb_eq. eapply utf8_fun; eauto.
  - apply str_eqb_neq in E. apply str_eqb_neq. intros ->. apply E. eapply utf8_inj; eauto.
Qed.

Lemma image_fun :
  (forall e v, go_image e v -> forall v', go_image e v' -> v = v') /\
  (forall l l', go_images l l' -> forall v', go_images l v' -> l' = v') /\
  (forall m m', go_entries m m' -> forall v', go_entries m v' -> m' = v').
Proof.
  apply go_image_mut; intros.
  - inversion H0; subst. f_equal. eapply utf8_fun; eauto.
  - inversion H1; subst. f_equal. auto.
  - inversion H1; subst. f_equal. auto.
  - inversion H; auto.
  - inversion H3; subst. f_equal; auto.
  - inversion H; auto.
  - inversion H4; subst. f_equal; auto. f_equal; auto. eapply utf8_fun; eauto.
Qed.

Lemma entries_get : forall m m', go_entries m m' -> forall k k', utf8_of k k' ->
  match map_get m k with
  | Some c => exists v, map_get m' k' = Some v /\ go_image c v /\
      forall c' v', go_image c' v' -> go_entries (map_set m k c') (go_map_set m' k' v')
  | None => map_get m' k' = None
  end.
Proof.
  intros m m' H. induction H as [|q q' c v m m' Hq Hc Hm IH]; intros k k' Hk; cbn [map_get map_set go_map_set].
  - reflexivity.
  - rewrite (utf8_eqb q q' k k' Hq Hk). destruct (str_eqb q k).
    + exists v. split; auto. split; auto. intros c' v' H'. constructor; auto.
    + specialize (IH k k' Hk). destruct (map_get m k) as [c0|]; auto.
      destruct IH as (v0 & A & B & C). exists v0. split; auto. split; auto.
      intros c' v' H'. constructor; auto.
Qed.

Lemma images_get : forall l l', go_images l l' -> forall i c, nth_error l i = Some c ->
  exists v, nth_error l' i = Some v /\ go_image c v /\
    forall c' v', go_image c' v' -> go_images (list_set l i c') (list_set l' i v').
Proof.
  intros l l' H. induction H as [|c v l l' Hc Hl IH]; intros [|i] d Hd; simpl in Hd; try discriminate.
  - injection Hd as <-. exists v. split; auto. split; auto. intros c' v' H'. simpl. constructor; auto.
  - destruct (IH i d Hd) as (v0 & A & B & C). exists v0. split; auto. split; auto.
    intros c' v' H'. simpl. constructor; auto.
Qed.

(* one mutation, applied in Go *)
Lemma apply_ok : forall p e v s b rest fuel c,
  go_image e v -> simple_get e p = Ret c -> p <> [] ->
  (forall x, In x p -> segment_fits x) -> utf8_of s b -> (N.of_nat (length b) < two32)%N ->
  length p <= fuel ->
  exists tag buf v',
    encode_path p ++ 3%N :: encode_bytes (as_bytes s) ++ rest = tag :: buf /\
    apply_string_mutation fuel v tag buf = Ret (Ok (b, v', rest)) /\
    go_image (simple_set e p s) v'.
Proof.
  induction p as [|x p IH]; intros e v s b rest fuel c Hi Hg Hne Hp Hb Hl Hf; [congruence|].
  destruct fuel as [|fuel]; [simpl in Hf; lia|]. simpl in Hf.
  pose proof (Hp x (or_introl eq_refl)) as Hx.
  destruct x as [f|i]; cbn [encode_path app simple_get simple_set segment_fits] in *.
  - destruct e as [?|?|m]; try discriminate. inversion Hi as [| |? m' Hm]; subst.
    destruct Hx as (fb & Hfb & Hfl).
    pose proof (entries_get m m' Hm f fb Hfb) as Hget.
    destruct (map_get m f) as [d|]; [|discriminate].
    destruct Hget as (vd & Hvd & Hid & Hset).
    eexists _, _.
    destruct p as [|y p].
    + eexists. split; [reflexivity|]. cbn [apply_string_mutation]. change (negb (0 =? 0)%N) with false. cbv iota.
      cbn [encode_path app]. rewrite <- !app_assoc. rewrite (next_utf8 f fb) by auto. cbn [bind app].
      change (3 =? 3)%N with true. rewrite (next_utf8 s b) by auto. cbn [bind]. split; [reflexivity|].
      constructor. apply Hset. cbn [simple_get simple_set] in *. destruct d; try discriminate. constructor. auto.
    + destruct (IH d vd s b rest fuel c Hid Hg) as (tag & buf & v' & E & A & I); auto; [discriminate| |simpl in *; lia|].
      { intros z Hz. apply Hp. right. auto. }
      eexists. split; [reflexivity|]. cbn [apply_string_mutation]. change (negb (0 =? 0)%N) with false. cbv iota. rewrite <- !app_assoc. rewrite (next_utf8 f fb) by auto. cbn [bind].
      rewrite E.
      assert (tag <> 3%N).
      { destruct y; cbn [encode_path app] in E; injection E as <- _; discriminate. }
      rewrite (proj2 (N.eqb_neq _ _)) by auto. rewrite Hvd, A. cbn [bind]. split; [reflexivity|].
      constructor. apply Hset. exact I.
  - destruct e as [?|l|?]; try discriminate. inversion Hi as [|? l' Hm|]; subst.
    destruct (nth_error l i) as [d|] eqn:Hd; [|discriminate].
    destruct (images_get l l' Hm i d Hd) as (vd & Hvd & Hid & Hset).
    eexists _, _.
    destruct p as [|y p].
    + eexists. split; [reflexivity|]. cbn [apply_string_mutation]. change (negb (1 =? 1)%N) with false. cbv iota.
      cbn [encode_path app]. rewrite <- !app_assoc, as_u32_id, buf_be32 by auto. cbn [bind app].
      change (3 =? 3)%N with true. rewrite (next_utf8 s b) by auto. cbn [bind].
      rewrite Nnat.Nat2N.id, Hvd. split; [reflexivity|].
      constructor. apply Hset. cbn [simple_get simple_set] in *. destruct d; try discriminate. constructor. auto.
    + destruct (IH d vd s b rest fuel c Hid Hg) as (tag & buf & v' & E & A & I); auto; [discriminate| |simpl in *; lia|].
      { intros z Hz. apply Hp. right. auto. }
      eexists. split; [reflexivity|]. cbn [apply_string_mutation]. change (negb (1 =? 1)%N) with false. cbv iota. rewrite <- !app_assoc, as_u32_id, buf_be32 by auto. cbn [bind].
      rewrite E.
      assert (tag <> 3%N).
      { destruct y; cbn [encode_path app] in E; injection E as <- _; discriminate. }
      rewrite (proj2 (N.eqb_neq _ _)) by auto. rewrite Nnat.Nat2N.id, Hvd, A. cbn [bind]. split; [reflexivity|].
      constructor. apply Hset. exact I.
Qed.
