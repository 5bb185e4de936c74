(* What the parsers of bracket items and character classes read, exactly *)
From Coq Require Import Lia ZifyN ZifyBool.
From Verif Require Import Proofs.Text.
From Verif Require Export Proofs.ReadingLiterals.

Lemma psound_ascii_item : psound named_item ascii_class.
Proof.
  intros s i rest E. destruct (psound_ascii_class _ _ _ E) as (t & -> & _).
  apply pbind_ok in E as ([] & s1 & E1 & E). apply pbind_ok in E as (o & r1 & T1 & E).
  apply pbind_ok in E as (k & r2 & T2 & E). apply pbind_ok in E as ([] & r3 & E3 & E). injection E as <- <-.
  apply tag_ok in E1, E3. apply opt_ok in T1.
  assert (K : psound ascii_text (alt [pmap (fun _ => Alnum) (tag (chars "alnum"));
              pmap (fun _ => Alpha) (tag (chars "alpha"));
              pmap (fun _ => AsciiAll) (tag (chars "ascii"));
              pmap (fun _ => Blank) (tag (chars "blank"));
              pmap (fun _ => Cntrl) (tag (chars "cntrl"));
              pmap (fun _ => Digit) (tag (chars "digit"));
              pmap (fun _ => Graph) (tag (chars "graph"));
              pmap (fun _ => Lower) (tag (chars "lower"));
              pmap (fun _ => Print) (tag (chars "print"));
              pmap (fun _ => Punct) (tag (chars "punct"));
              pmap (fun _ => Space) (tag (chars "space"));
              pmap (fun _ => Upper) (tag (chars "upper"));
              pmap (fun _ => Word) (tag (chars "word"));
              pmap (fun _ => Xdigit) (tag (chars "xdigit"))])) by sound_tags.
  destruct (K _ _ _ T2) as (u & -> & Hu). clear K T2. subst r2. rewrite E1. destruct o as [[]|].
  - apply tag_ok in T1. subst s1. exists (chars "[:^" ++ u ++ chars ":]").
    split; [rewrite <- !app_assoc; reflexivity|]. constructor. exact Hu.
  - destruct T1 as [_ <-]. exists (chars "[:" ++ u ++ chars ":]").
    split; [rewrite <- !app_assoc; reflexivity|]. constructor. exact Hu.
Qed.

(* where no class begins, the parsers of classes in brackets stop *)
Lemma no_class_ahead : forall s, ~ class_ahead s ->
  perl_character_class s = PErr /\ tag (chars "\h") s = PErr /\ tag (chars "\H") s = PErr /\
  tag (chars "\v") s = PErr /\ tag (chars "\V") s = PErr /\ ascii_class s = PErr /\ unicode_property_class s = PErr.
Proof.
  intros s H. repeat apply conj.
  - eapply err_of_sound; [exact psound_perl|exact mild_perl|]. intros p t r Hp ->. apply H.
    exists (BPerl p), t, r. split; [constructor; exact Hp|reflexivity].
  - apply tag_err. intros r ->. apply H. exists BHorizontal, (chars "\h"), r. split; [constructor|reflexivity].
  - apply tag_err. intros r ->. apply H. exists BNotHorizontal, (chars "\H"), r. split; [constructor|reflexivity].
  - apply tag_err. intros r ->. apply H. exists BVertical, (chars "\v"), r. split; [constructor|reflexivity].
  - apply tag_err. intros r ->. apply H. exists BNotVertical, (chars "\V"), r. split; [constructor|reflexivity].
  - eapply err_of_sound; [exact psound_ascii_item|exact mild_ascii|]. intros i t r Hi ->. apply H. exists i, t, r. auto.
  - eapply err_of_sound; [exact psound_property|exact mild_property|]. intros u t r Hu ->. apply H.
    exists (BUnicode u), t, r. split; [constructor; exact Hu|reflexivity].
Qed.
Lemma class_not_ahead : forall s, perl_character_class s = PErr -> tag (chars "\h") s = PErr -> tag (chars "\H") s = PErr ->
  tag (chars "\v") s = PErr -> tag (chars "\V") s = PErr -> ascii_class s = PErr -> parse_literal LBracketed s <> PErr ->
  ~ class_ahead s.
Proof.
  intros s H1 H2 H3 H4 H5 H6 H7 (i & t & r & Hi & ->). destruct Hi.
  - rewrite (perl_reads _ _ _ H) in H1. discriminate.
  - destruct u as [n name], H as [_ ->]. cbn [up_negate up_name] in H7. apply H7. rewrite <- !app_assoc. destruct n; reflexivity.
  - destruct (ascii_reads k t r H) as [E _]. rewrite <- !app_assoc in H6. congruence.
  - destruct (ascii_reads k t r H) as [_ E]. rewrite <- !app_assoc in H6. congruence.
  - rewrite tag_app in H2. discriminate.
  - rewrite tag_app in H3. discriminate.
  - rewrite tag_app in H4. discriminate.
  - rewrite tag_app in H5. discriminate.
Qed.
Lemma literal_not_quoted : forall b c e t r, literal_text b c e t -> forall r', t ++ r <> chars "\Q" ++ r'.
Proof.
  intros b c e t r H r' E. destruct H as [c H|c H|l c H|l H|l H|h c Hl H|h c Hn H Hs|h c Hn H Hs]; try discriminate E.
  - injection E as E _. apply H. rewrite E. destruct b; vm_compute; tauto.
  - injection E as E _. apply H. rewrite E. vm_compute; tauto.
  - destruct H; discriminate E.
Qed.
Lemma quoted_err : forall s, (forall r, s <> chars "\Q" ++ r) -> quoted_literals s = PErr.
Proof. intros s H. unfold quoted_literals. rewrite tag_err by exact H. reflexivity. Qed.

Lemma item_reads_as : forall i s rest, item_read i s rest -> bracket_class_item s = POk i rest.
Proof.
  intros i s rest H. destruct H as [i t rest H|l rest H|a e1 b e2 s s' rest Hc Ha Hb|c e s rest Hc H Hd].
  - destruct H as [p t H|u t H|k t H|k t H| | | |]; try reflexivity.
    + destruct H; reflexivity.
    + unfold bracket_class_item.
      assert (K : forall n name r, let s := (if n : bool then chars "\P{" else chars "\p{") ++ name ++ r in
        perl_character_class s = PErr /\ tag (chars "\h") s = PErr /\ tag (chars "\H") s = PErr /\
        tag (chars "\v") s = PErr /\ tag (chars "\V") s = PErr /\ quoted_literals s = PErr /\ ascii_class s = PErr /\
        parse_literal LBracketed s = PErr).
      { intros n name r. destruct n; repeat apply conj; reflexivity. }
      pose proof (property_reads u t rest H) as P. destruct u as [n name], H as [_ Et]. cbn [up_negate up_name] in Et.
      specialize (K n name (chars "}" ++ rest)). cbv zeta in K.
      replace (t ++ rest) with ((if n then chars "\P{" else chars "\p{") ++ name ++ chars "}" ++ rest) in *
        by (rewrite Et, <- !app_assoc; reflexivity).
      destruct K as (K1 & K2 & K3 & K4 & K5 & K6 & K7 & K8).
      cbn [alt]. unfold pmap, bracket_range, bracket_literal. cbn [alt]. unfold pmap.
      rewrite K1, K2, K3, K4, K5, K6, K7, K8, P. reflexivity.
    + rewrite <- !app_assoc. destruct H; reflexivity.
    + rewrite <- !app_assoc. destruct H; reflexivity.
  - unfold bracket_class_item. cbn [alt]. unfold pmap.
    change (perl_character_class (chars "\Q" ++ l ++ chars "\E" ++ rest)) with (@PErr perl_class).
    change (tag (chars "\h") (chars "\Q" ++ l ++ chars "\E" ++ rest)) with (@PErr unit).
    change (tag (chars "\H") (chars "\Q" ++ l ++ chars "\E" ++ rest)) with (@PErr unit).
    change (tag (chars "\v") (chars "\Q" ++ l ++ chars "\E" ++ rest)) with (@PErr unit).
    change (tag (chars "\V") (chars "\Q" ++ l ++ chars "\E" ++ rest)) with (@PErr unit).
    cbn [pbind]. rewrite (quoted_reads l rest H). reflexivity.
  - destruct (no_class_ahead s Hc) as (K1 & K2 & K3 & K4 & K5 & K6 & K7).
    assert (K8 : quoted_literals s = PErr).
    { apply quoted_err. destruct Ha as (t & Ht & -> & _). eapply literal_not_quoted; eauto. }
    unfold bracket_class_item. cbn [alt]. unfold pmap. rewrite K1, K2, K3, K4, K5, K6, K8. cbn [pbind].
    unfold bracket_range.
    rewrite (proj2 (literal_reads LBracketed {| lit_c := a; lit_escaped := e1 |} _ _) Ha). cbn [pbind]. rewrite tag_app. cbn [pbind].
    rewrite (proj2 (literal_reads LBracketed {| lit_c := b; lit_escaped := e2 |} _ _) Hb). reflexivity.
  - destruct (no_class_ahead s Hc) as (K1 & K2 & K3 & K4 & K5 & K6 & K7).
    assert (K8 : quoted_literals s = PErr).
    { apply quoted_err. destruct H as (t & Ht & -> & _). eapply literal_not_quoted; eauto. }
    unfold bracket_class_item. cbn [alt]. unfold pmap. rewrite K1, K2, K3, K4, K5, K6, K8. cbn [pbind].
    apply (literal_reads LBracketed {| lit_c := c; lit_escaped := e |}) in H.
    assert (K9 : bracket_range s = PErr).
    { unfold bracket_range. rewrite H. cbn [pbind]. destruct (tag (chars "-") rest) as [[] r| |x|] eqn:T.
      - apply tag_ok in T. cbn [pbind]. rewrite (proj2 (literal_absent r) (Hd r T)). reflexivity.
      - reflexivity.
      - exfalso. eapply tag_fail; eauto.
      - exfalso. eapply tag_stuck; eauto. }
    rewrite K9. cbn [pbind]. unfold bracket_literal. cbn [alt]. unfold pmap. rewrite H. reflexivity.
Qed.
Lemma item_sound : forall i s rest, bracket_class_item s = POk i rest -> item_read i s rest.
Proof.
  intros i s rest E. unfold bracket_class_item in E. cbn [alt] in E.
  first_alternative E E1; [injection E as <- <-|].
  { apply pmap_ok in E1 as (c & E1 & ->). destruct (psound_perl _ _ _ E1) as (t & -> & Ht). do 2 constructor. exact Ht. }
  first_alternative E E2; [injection E as <- <-|].
  { apply pmap_ok in E2 as ([] & E2 & ->). apply tag_ok in E2. subst. do 2 constructor. }
  first_alternative E E3; [injection E as <- <-|].
  { apply pmap_ok in E3 as ([] & E3 & ->). apply tag_ok in E3. subst. do 2 constructor. }
  first_alternative E E4; [injection E as <- <-|].
  { apply pmap_ok in E4 as ([] & E4 & ->). apply tag_ok in E4. subst. do 2 constructor. }
  first_alternative E E5; [injection E as <- <-|].
  { apply pmap_ok in E5 as ([] & E5 & ->). apply tag_ok in E5. subst. do 2 constructor. }
  first_alternative E E6; [injection E as <- <-|].
  { apply pmap_ok in E6 as (l & E6 & ->). destruct (psound_quoted _ _ _ E6) as (t & -> & Hl & ->).
    rewrite <- !app_assoc. constructor. exact Hl. }
  first_alternative E E7; [injection E as <- <-|].
  { apply pmap_ok in E7 as (l & E7 & ->). destruct (psound_ascii_item _ _ _ E7) as (t & -> & Ht). constructor. exact Ht. }
  apply pmap_err in E1, E2, E3, E4, E5, E7.
  first_alternative E E8; [injection E as <- <-|].
  { apply pmap_ok in E8 as (j & E8 & ->).
    assert (Hc : ~ class_ahead s).
    { apply class_not_ahead; auto. intros K. unfold bracket_range in E8. rewrite K in E8. discriminate. }
    apply pbind_ok in E8 as (a & r1 & T1 & E8). apply pbind_ok in E8 as ([] & r2 & T2 & E8).
    apply pbind_ok in E8 as (b & r3 & T3 & E8). injection E8 as <- <-. apply tag_ok in T2. subst r1.
    eapply ir_range; [exact Hc|apply (literal_reads LBracketed a); exact T1|apply (literal_reads LBracketed b); exact T3]. }
  first_alternative E E9. injection E as <- <-. apply pmap_err in E8. apply pmap_ok in E9 as (j & E9 & ->).
  unfold bracket_literal in E9. cbn [alt] in E9. first_alternative E9 L1.
  - injection E9 as <- <-. apply pmap_ok in L1 as (l & L1 & ->).
    eapply ir_literal; [|apply (literal_reads LBracketed l); exact L1|].
    + apply class_not_ahead; auto. congruence.
    + intros s' ->. apply literal_absent. unfold bracket_range in E8. rewrite L1 in E8. cbn [pbind] in E8.
      rewrite tag_app in E8. cbn [pbind] in E8. destruct (parse_literal LBracketed s'); try discriminate E8. reflexivity.
  - first_alternative E9 L2; [injection E9 as <- <-|].
    { apply pmap_ok in L2 as (l & L2 & ->). destruct (psound_perl _ _ _ L2) as (t & -> & Ht). do 2 constructor. exact Ht. }
    first_alternative E9 L3. injection E9 as <- <-. apply pmap_ok in L3 as (l & L3 & ->).
    destruct (psound_property _ _ _ L3) as (t & -> & Ht). do 2 constructor. exact Ht.
Qed.
Lemma literal_text_nonempty : forall b c e t, literal_text b c e t -> t <> [].
Proof. intros b c e t []; discriminate. Qed.
Lemma item_read_shrinks : forall i s rest, item_read i s rest -> length rest < length s.
Proof.
  intros i s rest H. destruct H as [i t rest H|l rest H|a e1 b e2 s s' rest Hc Ha Hb|c e s rest Hc H Hd].
  - assert (t <> []).
    { destruct H as [p t H|u t H|k t H|k t H| | | |]; try discriminate; [destruct H; discriminate|].
      destruct u as [[] name], H as [_ ->]; discriminate. }
    destruct t; [congruence|]. rewrite app_length. simpl. lia.
  - rewrite !app_length. simpl. lia.
  - destruct Ha as (t & Ht & -> & _), Hb as (u & Hu & -> & _). rewrite !app_length. simpl. lia.
  - destruct H as (t & Ht & -> & _). apply literal_text_nonempty in Ht. destruct t; [congruence|].
    rewrite app_length. simpl. lia.
Qed.
Lemma items_read_many : forall l s rest, items_read l s rest <->
  exists ls, many0 bracket_class_item s = POk ls (chars "]" ++ rest) /\ l = concat ls.
Proof.
  intros l s rest. split.
  - intros H. assert (K : exists ls, run bracket_class_item ls s (chars "]" ++ rest) /\ l = concat ls).
    { induction H as [rest|i l s s' rest Hi _ (ls & IH & ->)].
      - exists []. split; [constructor; reflexivity|reflexivity].
      - exists (i :: ls). split; [|reflexivity]. apply run_step with (s1 := s'); auto.
        + apply item_reads_as. exact Hi.
        + eapply item_read_shrinks; eauto. }
    destruct K as (ls & K & ->). exists ls. split; [apply run_many0; exact K|reflexivity].
  - intros (ls & E & ->). apply many0_run in E; [|eapply sound_shrinks, psound_item].
    remember (chars "]" ++ rest) as r eqn:Er.
    induction E as [s _|i ls s s1 r E _ _ IH]; subst.
    + constructor.
    + cbn [concat]. econstructor; [apply item_sound; exact E|]. apply IH. reflexivity.
Qed.

(* ---- classes ---- *)
Lemma bracket_unfold : forall n s, (n = false -> forall r, s <> chars "^" ++ r) ->
  bracket_character_class ((if n : bool then chars "[^" else chars "[") ++ s) =
  pbind (opt (tag (chars "]")) s) (fun closing s3 =>
  pbind (many0 bracket_class_item s3) (fun items s4 =>
  pbind (tag (chars "]") s4) (fun _ s5 =>
    let i := match closing with Some _ => BLiteral 93%N :: concat items | None => concat items end in
    match i with
    | [] => PErr
    | _ => POk (CBracket n i) s5
    end))).
Proof.
  intros n s H. unfold bracket_character_class. destruct n.
  - change (tag (chars "[") (chars "[^" ++ s)) with (POk tt (chars "^" ++ s)). cbn [pbind]. unfold opt at 1.
    rewrite tag_app. cbn [pbind]. reflexivity.
  - rewrite tag_app. cbn [pbind]. unfold opt at 1. rewrite (tag_err (chars "^") s) by (apply H; reflexivity). reflexivity.
Qed.
Lemma class_bracket : forall s, character_class (chars "[" ++ s) =
  match bracket_character_class (chars "[" ++ s) with PErr => PErr | r => r end.
Proof.
  intros s. unfold character_class. cbn [alt].
  change (pmap (fun _ => CDot) (tag (chars ".")) (chars "[" ++ s)) with (@PErr char_class).
  change (pmap (fun _ => CHorizontal) (tag (chars "\h")) (chars "[" ++ s)) with (@PErr char_class).
  change (pmap (fun _ => CNotHorizontal) (tag (chars "\H")) (chars "[" ++ s)) with (@PErr char_class).
  change (pmap (fun _ => CVertical) (tag (chars "\v")) (chars "[" ++ s)) with (@PErr char_class).
  change (pmap (fun _ => CNotVertical) (tag (chars "\V")) (chars "[" ++ s)) with (@PErr char_class).
  change (pmap CPerl perl_character_class (chars "[" ++ s)) with (@PErr char_class).
  change (pmap CUnicode unicode_property_class (chars "[" ++ s)) with (@PErr char_class). reflexivity.
Qed.
Lemma class_reads_as : forall c s rest, class_read c s rest -> character_class s = POk c rest.
Proof.
  intros c s rest H. destruct H as [c t rest H Hb|n items s rest H1 H2 H3 H4|n items s rest H].
  - destruct H as [| | | | |p t H|u t H|n items t H1 H2|n items t H]; try reflexivity.
    + destruct H; reflexivity.
    + pose proof (property_reads u t rest H) as P. destruct u as [n name], H as [_ Et]. cbn [up_negate up_name] in Et.
      unfold character_class. cbn [alt]. unfold pmap. rewrite P. rewrite Et, <- !app_assoc. destruct n; reflexivity.
    + exfalso. eapply Hb. reflexivity.
    + exfalso. eapply Hb. reflexivity.
  - assert (E : bracket_character_class ((if n then chars "[^" else chars "[") ++ s) = POk (CBracket n items) rest).
    { rewrite (bracket_unfold n s H2). unfold opt. rewrite tag_err by exact H1. cbn [pbind].
      apply items_read_many in H4 as (ls & -> & ->). cbn [pbind]. rewrite tag_app. cbn [pbind].
      destruct (concat ls); [congruence|reflexivity]. }
    destruct n.
    + change (chars "[^" ++ s) with (chars "[" ++ chars "^" ++ s) in *. rewrite class_bracket, E. reflexivity.
    + rewrite class_bracket, E. reflexivity.
  - assert (E : bracket_character_class ((if n then chars "[^" else chars "[") ++ chars "]" ++ s) = POk (CBracket n (BLiteral 93 :: items)) rest).
    { rewrite (bracket_unfold n (chars "]" ++ s)) by (intros _ r K; discriminate K). unfold opt. rewrite tag_app. cbn [pbind].
      apply items_read_many in H as (ls & -> & ->). cbn [pbind]. rewrite tag_app. reflexivity. }
    destruct n.
    + change (chars "[^]" ++ s) with (chars "[" ++ chars "^" ++ chars "]" ++ s).
      rewrite class_bracket. change (chars "[" ++ chars "^" ++ chars "]" ++ s) with (chars "[^" ++ chars "]" ++ s).
      rewrite E. reflexivity.
    + change (chars "[]" ++ s) with (chars "[" ++ chars "]" ++ s). rewrite class_bracket, E. reflexivity.
Qed.
Lemma class_sound : forall c s rest, character_class s = POk c rest -> class_read c s rest.
Proof.
  intros c s rest E. unfold character_class in E. cbn [alt] in E.
  first_alternative E E1; [injection E as <- <-|].
  { apply pmap_ok in E1 as ([] & E1 & ->). apply tag_ok in E1. subst. apply cr_plain; [constructor|discriminate]. }
  first_alternative E E2; [injection E as <- <-|].
  { apply pmap_ok in E2 as ([] & E2 & ->). apply tag_ok in E2. subst. apply cr_plain; [constructor|discriminate]. }
  first_alternative E E3; [injection E as <- <-|].
  { apply pmap_ok in E3 as ([] & E3 & ->). apply tag_ok in E3. subst. apply cr_plain; [constructor|discriminate]. }
  first_alternative E E4; [injection E as <- <-|].
  { apply pmap_ok in E4 as ([] & E4 & ->). apply tag_ok in E4. subst. apply cr_plain; [constructor|discriminate]. }
  first_alternative E E5; [injection E as <- <-|].
  { apply pmap_ok in E5 as ([] & E5 & ->). apply tag_ok in E5. subst. apply cr_plain; [constructor|discriminate]. }
  first_alternative E E6; [injection E as <- <-|].
  { clear E1 E2 E3 E4 E5. apply pbind_ok in E6 as ([] & s1 & T1 & E). apply pbind_ok in E as (neg & s2 & T2 & E).
    apply pbind_ok in E as (cl & s3 & T3 & E). apply pbind_ok in E as (ls & s4 & T4 & E).
    apply pbind_ok in E as ([] & s5 & T5 & E). apply tag_ok in T1, T5. subst s s4. apply opt_ok in T2, T3.
    assert (I : items_read (concat ls) s3 s5) by (apply items_read_many; eauto).
    destruct cl as [[]|].
    - injection E as <- <-. apply tag_ok in T3. subst s2. destruct neg as [[]|].
      + apply tag_ok in T2. subst s1. exact (cr_closing true _ _ _ I).
      + destruct T2 as [_ <-]. exact (cr_closing false _ _ _ I).
    - destruct T3 as [T3 ->]. pose proof (tag_not _ _ T3) as N3.
      assert (E' : POk (CBracket match neg with Some _ => true | None => false end (concat ls)) s5 = POk a rest0 /\ concat ls <> []).
      { destruct (concat ls); [discriminate|]. split; [exact E|discriminate]. }
      destruct E' as [E' Hne]. injection E' as <- <-. destruct neg as [[]|].
      + apply tag_ok in T2. subst s1. apply (cr_bracket true); auto. discriminate.
      + destruct T2 as [T2 ->]. apply (cr_bracket false); auto. intros _. apply (tag_not _ _ T2). }
  first_alternative E E7; [injection E as <- <-|].
  { apply pmap_ok in E7 as (p & E7 & ->). destruct (psound_perl _ _ _ E7) as (t & -> & Ht).
    apply cr_plain; [constructor; exact Ht|discriminate]. }
  first_alternative E E8. injection E as <- <-.
  apply pmap_ok in E8 as (u & E8 & ->). destruct (psound_property _ _ _ E8) as (t & -> & Ht).
  apply cr_plain; [constructor; exact Ht|discriminate].
Qed.
(* where a class cannot begin *)
Lemma class_absent : forall s, (forall r, s <> chars "." ++ r) -> (forall r, s <> chars "[" ++ r) ->
  (forall l r, s = 92%N :: l :: r -> ~ In l (chars "dswDSWhHvVpP")) -> character_class s = PErr.
Proof.
  intros s H1 H2 H3.
  assert (K : forall x r, In x (chars "dswDSWhHvVpP") -> s <> 92%N :: x :: r) by (intros x r Hx E; exact (H3 _ _ E Hx)).
  unfold character_class. cbn [alt]. unfold pmap.
  rewrite (tag_err (chars ".")) by exact H1.
  rewrite (tag_err (chars "\h")) by (intros r; apply (K 104%N); vm_compute; tauto).
  rewrite (tag_err (chars "\H")) by (intros r; apply (K 72%N); vm_compute; tauto).
  rewrite (tag_err (chars "\v")) by (intros r; apply (K 118%N); vm_compute; tauto).
  rewrite (tag_err (chars "\V")) by (intros r; apply (K 86%N); vm_compute; tauto).
  unfold bracket_character_class. rewrite (tag_err (chars "[")) by exact H2.
  assert (P : perl_character_class s = PErr).
  { eapply err_of_sound; [exact psound_perl|exact mild_perl|]. intros p t r Hp.
    destruct Hp; apply K; vm_compute; tauto. }
  assert (U : unicode_property_class s = PErr).
  { eapply err_of_sound; [exact psound_property|exact mild_property|]. intros [n name] t r [_ ->]. cbn [up_negate up_name].
    rewrite <- !app_assoc. destruct n; apply (K _ (123%N :: name ++ chars "}" ++ r)); vm_compute; tauto. }
  rewrite P, U. reflexivity.
Qed.
