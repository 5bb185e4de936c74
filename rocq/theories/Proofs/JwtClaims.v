(* Tokens accepted by the JWT validator, from their characters (C84, C85): proofs of the statements of Thm/Jwt.v *)
From Coq Require Import Lia ZArith.
From Verif Require Export Proofs.Jwt Proofs.ChecksumsClaims Spec.Checks.
From Verif Require Import Proofs.Text.

Lemma text_numbers :
  (forall v t, json_text v t -> forall n, number_within n v -> json_number n) /\
  (forall l t, elements_text l t -> forall v n, In v l -> number_within n v -> json_number n) /\
  (forall l t, members_text l t -> forall k v n, In (k, v) l -> number_within n v -> json_number n).
Proof.
  apply json_texts_ind.
  - intros n K. inversion K.
  - intros n K. inversion K.
  - intros n K. inversion K.
  - intros t H n K. inversion K; subst. exact H.
  - intros s t H n K. inversion K.
  - intros b Hb n K. inversion K as [|? v l H|]; subst. destruct H.
  - intros l t H IH n K. inversion K as [|? v l' Hv Hn|]; subst. exact (IH v n Hv Hn).
  - intros b Hb n K. inversion K as [| |? k v m H]; subst. destruct H.
  - intros m t H IH n K. inversion K as [| |? k v m' Hv Hn]; subst. exact (IH k v n Hv Hn).
  - intros v b t b' Hb H IH Hb' w n [<-|[]] K. exact (IH n K).
  - intros v b t b' l s Hb H IH Hb' Hl IHl w n [<-|Hw] K; [exact (IH n K)|exact (IHl w n Hw K)].
  - intros k v b1 kt b2 b3 t b4 H1 Hk H2 H3 H IH H4 k' w n [E|[]] K. injection E as -> ->. exact (IH n K).
  - intros k v b1 kt b2 b3 t b4 l s H1 Hk H2 H3 H IH H4 Hl IHl k' w n [E|Hw] K; [injection E as -> ->; exact (IH n K)|exact (IHl k' w n Hw K)].
Qed.
Lemma document_numbers : forall v t n, json_document v t -> number_within n v -> json_number n.
Proof. intros v t n (b & u & b' & _ & H & _) K. exact (proj1 text_numbers _ _ H n K). Qed.
Lemma first_dot : forall a a' b b' : str, ~ In 46%N a -> ~ In 46%N a' -> a ++ chars "." ++ b = a' ++ [46%N] ++ b' -> a = a' /\ b = b'.
Proof.
  change (chars ".") with [46%N]. induction a as [|x a IH]; intros [|y a'] b b' N N' E; cbn [app] in E.
  - injection E as ->. auto.
  - injection E as <- _. destruct N'. left. reflexivity.
  - injection E as -> _. destruct N. left. reflexivity.
  - injection E as -> E. destruct (IH a' b b') as [-> ->]; [intros K; apply N; right; exact K|intros K; apply N'; right; exact K|exact E|]. auto.
Qed.
Lemma jwt_names : forall finite x m, decode_segment finite x = Some (JObject m) -> NoDup (map fst m).
Proof.
  intros finite x m H. apply decode_segment_spec in H as (v & _ & E). destruct v; try discriminate E. cbn [json_value] in E. injection E as ->.
  apply last_members_distinct.
Qed.
Lemma value_member : forall m k e, In (k, e) (last_members (map (fun x => (fst x, json_value (snd x))) m)) <->
  exists e', last_member m k e' /\ e = json_value e'.
Proof.
  intros m k e. rewrite last_members_in. split.
  - intros (a & b & E & N). apply map_eq_app in E as (a' & r & -> & <- & E). destruct r as [|[k' v'] r]; [discriminate E|].
    cbn [map fst snd] in E. injection E as <- <- <-. rewrite map_map in N. cbn [fst] in N. exists v'. split; [|reflexivity]. exists a', r. auto.
  - intros (e' & (a & b & -> & N) & ->). exists (map (fun x => (fst x, json_value (snd x))) a), (map (fun x => (fst x, json_value (snd x))) b).
    rewrite map_app, map_map. auto.
Qed.
Lemma value_number : forall e n, json_value e = JNumber n <-> e = JNumber n.
Proof. intros e n. split; [destruct e; intros H; try discriminate H; exact H|intros ->; reflexivity]. Qed.
Lemma segment_number : forall finite m s k n, segment_holds finite (JObject m) s -> last_member m k (JNumber n) -> json_number n.
Proof.
  intros finite m s k n (b & t & _ & _ & D & _) (x & y & -> & _). apply (document_numbers _ _ _ D).
  apply (nw_object _ k (JNumber n)); [apply in_or_app; right; left; reflexivity|constructor].
Qed.
Lemma segment_unique : forall finite s v v', segment_holds finite v s -> segment_holds finite v' s -> json_value v = json_value v'.
Proof.
  intros finite s v v' H H'. assert (A : decode_segment finite s = Some (json_value v)) by (apply decode_segment_spec; eauto).
  assert (B : decode_segment finite s = Some (json_value v')) by (apply decode_segment_spec; eauto). congruence.
Qed.
Lemma last_member_unique : forall m k v v', last_member m k v -> last_member m k v' -> v = v'.
Proof.
  intros m k v v' H H'. apply last_members_in in H, H'. pose proof (last_members_distinct m) as N.
  induction (last_members m) as [|[k0 v0] l IH]; [destruct H|]. cbn [map fst] in N. inversion N as [|? ? N1 N2]; subst.
  destruct H as [H|H], H' as [H'|H'].
  - congruence.
  - injection H as -> ->. destruct N1. apply in_map_iff. exists (k, v'). auto.
  - injection H' as -> ->. destruct N1. apply in_map_iff. exists (k, v). auto.
  - auto.
Qed.

Lemma c84_tokens_lemma :
  forall alphanumeric iban finite now s,
  is_valid_match (jwt_env alphanumeric iban finite now) JwtExpirationChecker s = true <->
  exists header payload signature h p,
    three_segments s header payload signature /\ segment_holds finite h header /\ segment_holds finite p payload /\
    forall m e, p = JObject m -> last_member m (chars "exp") e -> exists n z, e = JNumber n /\ i64_text n z /\ (now < z)%Z.
Proof.
  intros alphanumeric iban finite now s. cbn [is_valid_match jwt_env env_decode_segment env_number env_now].
  rewrite (c37_accepted_tokens_lemma _ _ _ _ (jwt_names finite)). split.
  - intros (header & payload & signature & h & p & H3 & Hh & Hp & He). apply decode_segment_spec in Hh as (h' & Hh & _).
    apply decode_segment_spec in Hp as (p' & Hp & ->). exists header, payload, signature, h', p'. split; [exact H3|]. split; [exact Hh|]. split; [exact Hp|].
    intros m e -> Hm. cbn [json_value] in He. destruct (He _ (json_value e) eq_refl) as (n & z & En & Ez & Hz).
    + apply value_member. exists e. auto.
    + apply (proj1 (value_number e n)) in En. subst e. exists n, z. split; [reflexivity|]. split; [|exact Hz]. apply number_as_i64_spec; [|exact Ez].
      exact (segment_number _ _ _ _ _ Hp Hm).
  - intros (header & payload & signature & h & p & H3 & Hh & Hp & He). exists header, payload, signature, (json_value h), (json_value p).
    split; [exact H3|]. split; [apply decode_segment_spec; eauto|]. split; [apply decode_segment_spec; eauto|].
    intros m e E Hm. destruct p as [| | | | |mp]; try discriminate E. cbn [json_value] in E. injection E as <-. apply value_member in Hm as (e' & Hm & ->).
    destruct (He mp e' eq_refl Hm) as (n & z & -> & Hn & Hz). exists n, z. split; [reflexivity|]. split; [|exact Hz].
    apply number_as_i64_spec; [exact (segment_number _ _ _ _ _ Hp Hm)|exact Hn].
Qed.

Lemma c84_base64_lemma :
  forall s b, (base64_decode s = Some b <-> base64url b s) /\
  forall s', base64_decode s = Some b -> base64_decode s' = Some b -> s = s'.
Proof.
  intros s b. split; [apply base64_decode_spec|]. intros s' H H'.
  apply base64_decode_spec in H as (_ & k & Hk & H), H' as (_ & k' & Hk' & H').
  pose proof (six_length _ _ H) as L. pose proof (six_length _ _ H') as L'. rewrite !app_length, !octet_bits_length, !repeat_length in *.
  assert (k = k') as <- by lia.
  clear L L' Hk Hk'. revert H s' H'. generalize (flat_map (bits 8) b ++ repeat false k). intros l H.
  induction H as [|c v s l Hv H IH]; intros s' H'.
  - inversion H'. reflexivity.
  - destruct s' as [|c' s'].
    + apply six_length in H'. rewrite app_length, bits_length in H'. cbn in H'. lia.
    + apply six_inv in H' as (w & l' & Ew & Lw & H' & E). apply app_split in E as [E ->]; [|rewrite !bits_length; reflexivity].
      assert (Lv : v < 64) by (change 64 with (length base64_alphabet); apply nth_error_Some; rewrite Hv; discriminate).
      apply bits_inj in E; [|change (2 ^ N.of_nat 6)%N with 64%N; lia|change (2 ^ N.of_nat 6)%N with 64%N; lia]. subst w.
      apply base64_value_spec in Ew as [Ew _]. rewrite Nat2N.id in Ew. f_equal; [congruence|apply IH; exact H'].
Qed.

Lemma c84_environment_lemma :
  forall alphanumeric iban finite now, sane_env (jwt_env alphanumeric iban finite now).
Proof.
  intros alphanumeric iban finite now x m H. exact (jwt_names finite x m H).
Qed.

Lemma c85_fraction_refuted_lemma :
  exists header payload h m n now,
  segment_holds (fun _ => true) h header /\ segment_holds (fun _ => true) (JObject m) payload /\
  last_member m (chars "exp") (JNumber n) /\ after_time now n /\
  forall alphanumeric iban finite signature,
    is_valid_match (jwt_env alphanumeric iban finite now) JwtExpirationChecker (header ++ chars "." ++ payload ++ chars "." ++ signature) = false.
Proof.
  exists (text "eyJhbGciOiJIUzI1NiJ9"), (text "eyJleHAiOjIwMDAwMDAwMDAuNX0"), (JObject [(chars "alg", JString (chars "HS256"))]), [(chars "exp", JNumber (chars "2000000000.5"))],
    (chars "2000000000.5"), 1728872000%Z.
  assert (D : forall s v, decode_segment (fun _ => true) s = Some v -> json_value v = v -> forall w, segment_holds (fun _ => true) w s -> json_value w = v).
  { intros s v E _ w Hw. assert (decode_segment (fun _ => true) s = Some (json_value w)) by (apply decode_segment_spec; eauto). congruence. }
  assert (S1 : forall s v b t, base64_decode s = Some b -> from_utf8 b = Some t -> json_from_str t = Some v -> segment_holds (fun _ => true) v s).
  { intros s v b t E1 E2 E3. apply base64_decode_spec in E1. apply from_utf8_spec in E2. apply json_reads in E3 as [E3 E4]. exists b, t. auto. }
  split; [eapply S1; vm_compute; reflexivity|]. split; [eapply S1; vm_compute; reflexivity|].
  split; [exists [], []; split; [reflexivity|intros []]|]. split.
  - exists 20000000005%Z, (-1)%Z. split; [|reflexivity]. exists [], (chars "2000000000"), (chars ".5"), []. split; [reflexivity|].
    split; [left; reflexivity|]. split; [right; split; [split; [discriminate|repeat constructor; unfold digit; vm_compute; discriminate]|discriminate]|].
    exists (chars "5"), 20000000005%N. split; [right; split; [reflexivity|split; [discriminate|repeat constructor; unfold digit; vm_compute; discriminate]]|].
    split; [split; [split; [discriminate|repeat constructor; unfold digit; vm_compute; discriminate]|reflexivity]|]. split; [reflexivity|].
    exists 0%Z. split; [left; split; reflexivity|reflexivity].
  - intros alphanumeric iban finite signature.
    destruct (is_valid_match (jwt_env alphanumeric iban finite 1728872000) JwtExpirationChecker (text "eyJhbGciOiJIUzI1NiJ9" ++ chars "." ++ text "eyJleHAiOjIwMDAwMDAwMDAuNX0" ++ chars "." ++ signature)) eqn:E; [exfalso|reflexivity].
    cbn [is_valid_match jwt_env env_decode_segment env_number env_now] in E. apply (c37_accepted_tokens_lemma _ _ _ _ (jwt_names finite)) in E as (h2 & p2 & s2 & vh & vp & H3 & _ & Hp & He).
    assert (p2 = text "eyJleHAiOjIwMDAwMDAwMDAuNX0").
    { destruct H3 as (E & N1 & N2 & _).
      apply (first_dot (text "eyJhbGciOiJIUzI1NiJ9") h2 _ _ ltac:(vm_compute; intuition discriminate) N1) in E as [_ E].
      apply (first_dot (text "eyJleHAiOjIwMDAwMDAwMDAuNX0") p2 _ _ ltac:(vm_compute; intuition discriminate) N2) in E as [E _]. auto. }
    subst p2. unfold decode_segment in Hp. apply obind_some in Hp as (b & Eb & Hp). vm_compute in Eb. injection Eb as <-.
    unfold json_from_slice in Hp. apply obind_some in Hp as (t & Et & Hp). vm_compute in Et. injection Et as <-.
    apply obind_some in Hp as (v & Ev & Hp). vm_compute in Ev. injection Ev as <-. destruct (numbers_in finite _); [|discriminate Hp]. injection Hp as <-.
    destruct (He _ (JNumber (chars "2000000000.5")) eq_refl) as (n & z & En & Ez & _); [left; reflexivity|]. injection En as <-. vm_compute in Ez. discriminate Ez.
Qed.

Lemma c85_integer_lemma :
  forall alphanumeric iban finite now header payload signature h m n z,
  ~ In 46%N header -> ~ In 46%N payload -> ~ In 46%N signature ->
  segment_holds finite h header -> segment_holds finite (JObject m) payload -> last_member m (chars "exp") (JNumber n) -> i64_text n z ->
  (is_valid_match (jwt_env alphanumeric iban finite now) JwtExpirationChecker (header ++ chars "." ++ payload ++ chars "." ++ signature) = true <-> (now < z)%Z).
Proof.
  intros alphanumeric iban finite now header payload signature h m n z N1 N2 N3 Hh Hp Hm Hn. rewrite c84_tokens_lemma. split.
  - intros (h2 & p2 & s2 & vh & vp & (E & M1 & M2 & _) & _ & Hp2 & He).
    apply (first_dot header h2 _ _ N1 M1) in E as [_ E]. apply (first_dot payload p2 _ _ N2 M2) in E as [<- _].
    pose proof (segment_unique _ _ _ _ Hp Hp2) as U. destruct vp as [| | | | |m2]; try discriminate U. cbn [json_value] in U. injection U as U.
    assert (K : In (chars "exp", JNumber n) (last_members (map (fun x => (fst x, json_value (snd x))) m))) by (apply value_member; exists (JNumber n); auto).
    rewrite U in K. apply value_member in K as (e & Ke & Ee). symmetry in Ee. apply (proj1 (value_number e n)) in Ee. subst e.
    destruct (He m2 _ eq_refl Ke) as (n' & z' & En & Hz' & Hlt). injection En as <-.
    assert (J : json_number n) by exact (segment_number _ _ _ _ _ Hp Hm).
    apply (number_as_i64_spec n z J) in Hn. apply (number_as_i64_spec n z' J) in Hz'. congruence.
  - intros Hlt. exists header, payload, signature, h, (JObject m). split; [split; [reflexivity|auto]|]. split; [exact Hh|]. split; [exact Hp|].
    intros m' e E He. injection E as <-. rewrite (last_member_unique _ _ _ _ He Hm). eauto.
Qed.

