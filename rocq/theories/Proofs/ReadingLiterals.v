(* What [parse_literal] reads, exactly *)
From Coq Require Import Lia ZifyN ZifyBool.
From Verif Require Import Proofs.Text.
From Verif Require Export Proofs.ReadingLeaves.

(* ---- hexadecimal numbers ---- *)
Lemma hex_value_of : forall c d, hex_digit_is c d -> hex_value c = Some d.
Proof.
  intros c d H. unfold hex_value, is_ascii_digit, in_range. destruct H as [c H|c H|c H].
  - replace ((48 <=? c) && (c <=? 57))%N with true by lia. reflexivity.
  - replace ((48 <=? c) && (c <=? 57))%N with false by lia.
    replace ((97 <=? c) && (c <=? 102))%N with true by lia. f_equal. lia.
  - replace ((48 <=? c) && (c <=? 57))%N with false by lia.
    replace ((97 <=? c) && (c <=? 102))%N with false by lia.
    replace ((65 <=? c) && (c <=? 70))%N with true by lia. f_equal. lia.
Qed.
Lemma hex_digits_in : forall c d, hex_digit_is c d -> In c hex_digits.
Proof.
  intros c d H. apply in_of_existsb.
  assert (B : ((48 <=? c) && (c <=? 57) || (65 <=? c) && (c <=? 70) || (97 <=? c) && (c <=? 102))%N = true) by (inversion H; lia).
  assert (K : implb ((48 <=? c) && (c <=? 57) || (65 <=? c) && (c <=? 70) || (97 <=? c) && (c <=? 102))%N
    (existsb (N.eqb c) hex_digits) = true).
  { apply (small_cases (fun c => implb ((48 <=? c) && (c <=? 57) || (65 <=? c) && (c <=? 70) || (97 <=? c) && (c <=? 102))%N
    (existsb (N.eqb c) hex_digits))); [vm_compute; reflexivity|]. lia. }
  rewrite B in K. exact K.
Qed.
Lemma hex_is_digits : forall h n, hex_is h n -> forall c, In c h -> exists d, hex_digit_is c d.
Proof.
  induction 1 as [|h n c d _ IH Hd]; intros x Hx; [destruct Hx|].
  apply in_app_or in Hx as [Hx|[<-|[]]]; eauto.
Qed.
Lemma hex_number_snoc : forall h acc n c d, hex_number acc h = Some n -> hex_value c = Some d -> (n * 16 + d <= u32_max)%N ->
  hex_number acc (h ++ [c]) = Some (n * 16 + d)%N.
Proof.
  induction h as [|x h IH]; intros acc n c d H Hc Hl.
  - cbn in H. injection H as ->. cbn [app hex_number]. rewrite Hc.
    destruct (N.leb_spec (n * 16 + d) u32_max); [reflexivity|lia].
  - cbn [app hex_number] in *. destruct (hex_value x); [|discriminate]. destruct (_ <=? _)%N; [|discriminate]. auto.
Qed.
Lemma hex_number_of : forall h n, hex_is h n -> (n <= u32_max)%N -> hex_number 0 h = Some n.
Proof.
  induction 1 as [|h n c d _ IH Hd]; intros Hl; [reflexivity|].
  apply hex_number_snoc; auto; [apply IH; lia|apply hex_value_of; exact Hd].
Qed.
Lemma radix_of : forall h n, hex_is h n -> h <> [] -> (n <= u32_max)%N -> from_str_radix16 h = Some n.
Proof.
  intros h n H Hne Hl. pose proof (hex_number_of _ _ H Hl) as K. pose proof (hex_is_digits _ _ H) as D.
  destruct h as [|c h]; [congruence|]. destruct (D c (or_introl eq_refl)) as (d & Hd).
  assert (c <> 43)%N by (inversion Hd; lia). unfold from_str_radix16. destruct (N.eqb_spec c 43); [contradiction|].
  rewrite K. destruct h; reflexivity.
Qed.
Lemma radix_plus : forall h n, hex_is h n -> h <> [] -> (n <= u32_max)%N -> from_str_radix16 (43%N :: h) = Some n.
Proof.
  intros [|c h] n H Hne Hl; [congruence|]. unfold from_str_radix16. cbn [N.eqb Pos.eqb]. apply hex_number_of; auto.
Qed.
Lemma scalar_char : forall n, scalar_value n -> char_from_u32 n = Some n /\ (n <= u32_max)%N.
Proof.
  intros n H. unfold char_from_u32, scalar_value, u32_max in *.
  replace ((n <? 55296) || (57344 <=? n) && (n <? 1114112))%N with true by lia. split; [reflexivity|lia].
Qed.
Lemma hex_small : forall h n, hex_is h n -> length h <= 2 -> (n < 256)%N.
Proof.
  intros h n H Hl. assert (K : (n < 16 ^ N.of_nat (length h))%N).
  { clear Hl. induction H as [|h n c d _ IH Hd]; [reflexivity|]. rewrite app_length. cbn [length].
    replace (N.of_nat (length h + 1)) with (N.succ (N.of_nat (length h))) by lia. rewrite N.pow_succ_r'.
    assert (d < 16)%N by (inversion Hd; lia). lia. }
  eapply N.lt_le_trans; [exact K|]. change 256%N with (16 ^ 2)%N. apply N.pow_le_mono_r; lia.
Qed.

Lemma until_brace : forall h rest, ~ In 125%N h -> take_until (chars "}") (h ++ chars "}" ++ rest) = POk h (chars "}" ++ rest).
Proof.
  induction h as [|c h IH]; intros rest H; [reflexivity|]. cbn [app take_until].
  rewrite tag_err; [rewrite IH by (intros K; apply H; right; exact K); reflexivity|].
  intros r E. injection E as E _. apply H. left. exact E.
Qed.
Lemma until_none : forall s, ~ In 125%N s -> take_until (chars "}") s = PErr.
Proof.
  induction s as [|c s IH]; intros H; [reflexivity|]. cbn [take_until]. rewrite tag_err.
  - rewrite IH by (intros K; apply H; right; exact K). reflexivity.
  - intros r E. injection E as E _. apply H. left. exact E.
Qed.
Lemma brace_reads : forall h n rest, ~ In 125%N h -> from_str_radix16 h = Some n -> scalar_value n ->
  hex_escaped_literal (chars "x{" ++ h ++ chars "}" ++ rest) = POk n rest.
Proof.
  intros h n rest Hb Hr Hs. unfold hex_escaped_literal. cbn [alt]. rewrite tag_app. cbn [pbind].
  rewrite until_brace by exact Hb. cbn [pbind]. rewrite tag_app. cbn [pbind]. rewrite Hr.
  destruct (scalar_char n Hs) as [-> _]. reflexivity.
Qed.
Lemma hex_upto : forall m h rest, length h <= m -> (forall c, In c h -> In c hex_digits) ->
  (length h < m -> forall c r, rest = c :: r -> ~ In c hex_digits) ->
  many_upto m hex_digit (h ++ rest) = POk h rest.
Proof.
  induction m as [|m IH]; intros h rest Hl Hh Hr.
  - destruct h; [reflexivity|simpl in Hl; lia].
  - destruct h as [|c h]; cbn [app many_upto].
    + unfold hex_digit. rewrite one_of_out; [reflexivity|]. apply Hr. simpl. lia.
    + unfold hex_digit at 1. rewrite one_of_in by (apply Hh; left; reflexivity). cbn [length].
      destruct (Nat.eqb_spec (length (h ++ rest)) (S (length (h ++ rest)))); [lia|].
      rewrite IH; [reflexivity|simpl in Hl; lia| |].
      * intros; apply Hh; right; auto.
      * intros Hlt. apply Hr. simpl. lia.
Qed.
Lemma short_reads : forall h n rest, hex_is h n -> length h <= 2 -> complete_hex (chars "\x" ++ h) rest ->
  hex_escaped_literal (chars "x" ++ h ++ rest) = POk n rest.
Proof.
  intros h n rest H Hl Hc. pose proof (hex_small _ _ H Hl) as Hn.
  assert (Hd : forall c, In c h -> In c hex_digits).
  { intros c Hin. destruct (hex_is_digits _ _ H c Hin) as (d & Hd). eapply hex_digits_in; eauto. }
  unfold hex_escaped_literal. cbn [alt].
  assert (E1 : pbind (tag (chars "x{") (chars "x" ++ h ++ rest)) (fun _ s1 =>
                        pbind (take_until (chars "}") s1) (fun h s2 =>
                        pbind (tag (chars "}") s2) (fun _ s3 => POk (true, h) s3))) = PErr).
  { destruct h as [|c h].
    - destruct (tag (chars "x{") (chars "x" ++ [] ++ rest)) as [u r| |e|] eqn:E; try reflexivity.
      + apply tag_ok in E. cbn [app chars] in E. injection E as E.
        cbn [pbind]. rewrite until_none; [reflexivity|]. intros Hin. apply in_split in Hin as (u1 & u2 & ->).
        destruct (Hc [] eq_refl ltac:(simpl; lia)) as [_ K]. exact (K eq_refl u1 u2 E).
      + exfalso. eapply tag_fail; eauto.
      + exfalso. eapply tag_stuck; eauto.
    - rewrite tag_err; [reflexivity|]. intros r E. injection E as E _.
      destruct (hex_is_digits _ _ H c (or_introl eq_refl)) as (d & D).
      change (N.of_nat (Pos.to_nat 123)) with 123%N in E. inversion D; lia. }
  rewrite E1. rewrite tag_app. cbn [pbind]. rewrite hex_upto; auto.
  - cbn [pbind].
    assert (Hv : (match from_str_radix16 h with Some n => Some n | None => Some 0%N end) = Some n).
    { destruct h as [|c h].
      - inversion H; [reflexivity|]. destruct h; discriminate.
      - rewrite (radix_of _ _ H); [reflexivity|discriminate|unfold u32_max; lia]. }
    destruct (from_str_radix16 h) as [m|]; injection Hv as ->;
      (unfold char_from_u32; replace (n <? 55296)%N with true by lia; reflexivity) ||
      (unfold char_from_u32; reflexivity).
  - intros Hlt c r E K. destruct (hex_digits_are _ K) as (d & _ & D).
    destruct (Hc h eq_refl Hlt) as [K1 _]. exact (K1 c d r E D).
Qed.

(* ---- literals ---- *)
Lemma chars_single : forall (x : char) (c : char) rest, c <> x -> tag [x] (c :: rest) = PErr.
Proof. intros x c rest H. simpl. destruct (N.eqb_spec x c); [congruence|reflexivity]. Qed.
Lemma escaped_none : forall c rest, ~ In c not_escapable -> escaped_literal (c :: rest) = PErr.
Proof.
  intros c rest H. unfold escaped_literal.
  assert (K : forall x, In x not_escapable -> tag [x] (c :: rest) = PErr).
  { intros x Hx. apply chars_single. intros ->. contradiction. }
  assert (X : hex_escaped_literal (c :: rest) = PErr).
  { unfold hex_escaped_literal. cbn [alt].
    rewrite (tag_err (chars "x{")); [cbn [pbind]|].
    - change (chars "x") with [120%N]. rewrite K by (vm_compute; tauto). reflexivity.
    - intros r E. injection E as E _. apply H. rewrite E. vm_compute. tauto. }
  cbn [alt]. unfold pmap, escaped_control_sequence. rewrite X.
  change (chars "a") with [97%N]. change (chars "b") with [98%N]. change (chars "e") with [101%N].
  change (chars "f") with [102%N]. change (chars "n") with [110%N]. change (chars "r") with [114%N].
  change (chars "t") with [116%N]. change (chars "v") with [118%N]. change (chars "c") with [99%N].
  rewrite !K by (vm_compute; tauto). reflexivity.
Qed.
Lemma deny_not_escapable : forall c, In c escaped_literal_deny_list -> In c not_escapable.
Proof.
  intros c H. cbv [escaped_literal_deny_list chars] in H. simpl in H.
  repeat (destruct H as [<-|H]; [vm_compute; tauto|]). destruct H.
Qed.
Lemma letters_are_letters : forall l, (65 <= l <= 90 \/ 97 <= l <= 122)%N -> In l ascii_letters.
Proof.
  intros c H. apply in_of_existsb.
  assert (K : implb ((65 <=? c) && (c <=? 90) || (97 <=? c) && (c <=? 122))%N (existsb (N.eqb c) ascii_letters) = true).
  { apply (small_cases (fun c => implb ((65 <=? c) && (c <=? 90) || (97 <=? c) && (c <=? 122))%N
      (existsb (N.eqb c) ascii_letters))); [vm_compute; reflexivity|]. lia. }
  replace ((65 <=? c) && (c <=? 90) || (97 <=? c) && (c <=? 122))%N with true in K by lia. exact K.
Qed.
Lemma control_reads : forall l rest, (65 <= l <= 90 \/ 97 <= l <= 122)%N ->
  escaped_literal (99%N :: l :: rest) =
  POk {| lit_c := if (l <=? 90)%N then (l - 64)%N else (l - 96)%N; lit_escaped := true |} rest.
Proof.
  intros l rest H. unfold escaped_literal. cbn [alt]. unfold escaped_control_sequence.
  change (tag (chars "c") (99%N :: l :: rest)) with (POk tt (l :: rest)). cbn [pbind].
  rewrite one_of_in by (apply letters_are_letters; exact H). cbn [pbind]. do 2 f_equal.
  unfold to_ascii_lower, is_ascii_upper, in_range. destruct (N.leb_spec l 90).
  - replace ((65 <=? l) && true)%N with true by lia. lia.
  - rewrite andb_false_r. lia.
Qed.
Lemma hex_alternative : forall s, escaped_literal (120%N :: s) =
  pbind (hex_escaped_literal (120%N :: s)) (fun c rest => POk {| lit_c := c; lit_escaped := true |} rest).
Proof.
  intros s. unfold escaped_literal. f_equal.
  change (alt _ (120%N :: s)) with (match hex_escaped_literal (120%N :: s) with PErr => @PErr char | r => r end).
  destruct (hex_escaped_literal (120%N :: s)); reflexivity.
Qed.
Lemma literal_reads_as : forall k c e t rest, literal_text (bracketed k) c e t -> complete_hex t rest ->
  parse_literal k (t ++ rest) = POk {| lit_c := c; lit_escaped := e |} rest.
Proof.
  intros k c e t rest H Hx. unfold parse_literal. destruct H as [c H|c H|l c H|l H|l H|h c Hl H|h c Hn H Hs|h c Hn H Hs].
  - unfold opt. rewrite tag_err.
    + cbn [pbind app]. unfold pmap. rewrite none_of_out; [reflexivity|]. intros K. apply H.
      destruct k; cbn in K |- *; tauto.
    + intros r E. injection E as E _. apply H. rewrite E. destruct k; vm_compute; tauto.
  - change ([92%N; c] ++ rest) with (chars "\" ++ c :: rest). unfold opt. rewrite tag_app. cbn [pbind alt].
    rewrite (escaped_none c rest H). unfold pmap. rewrite none_of_out; [reflexivity|].
    intros K. apply H. apply deny_not_escapable. exact K.
  - destruct H; reflexivity.
  - change ([92%N; 99%N; l] ++ rest) with (chars "\" ++ 99%N :: l :: rest). unfold opt. rewrite tag_app. cbn [pbind alt].
    rewrite (control_reads l rest) by lia. replace (l <=? 90)%N with true by lia. reflexivity.
  - change ([92%N; 99%N; l] ++ rest) with (chars "\" ++ 99%N :: l :: rest). unfold opt. rewrite tag_app. cbn [pbind alt].
    rewrite (control_reads l rest) by lia. replace (l <=? 90)%N with false by lia. reflexivity.
  - change ((chars "\x" ++ h) ++ rest) with (chars "\" ++ 120%N :: h ++ rest). unfold opt. rewrite tag_app. cbn [pbind alt].
    rewrite hex_alternative. change (120%N :: h ++ rest) with (chars "x" ++ h ++ rest).
    rewrite (short_reads h c rest H Hl Hx). reflexivity.
  - rewrite <- !app_assoc. change (chars "\x{" ++ h ++ chars "}" ++ rest) with (chars "\" ++ 120%N :: 123%N :: h ++ chars "}" ++ rest).
    unfold opt. rewrite tag_app. cbn [pbind alt]. rewrite hex_alternative.
    change (120%N :: 123%N :: h ++ chars "}" ++ rest) with (chars "x{" ++ h ++ chars "}" ++ rest).
    rewrite (brace_reads h c rest); [reflexivity| | |exact Hs].
    + intros K. destruct (hex_is_digits _ _ H _ K) as (d & D). inversion D; lia.
    + apply radix_of; auto. apply (scalar_char c Hs).
  - rewrite <- !app_assoc.
    change (chars "\x{+" ++ h ++ chars "}" ++ rest) with (chars "\" ++ 120%N :: 123%N :: (43%N :: h) ++ chars "}" ++ rest).
    unfold opt. rewrite tag_app. cbn [pbind alt]. rewrite hex_alternative.
    change (120%N :: 123%N :: (43%N :: h) ++ chars "}" ++ rest) with (chars "x{" ++ (43%N :: h) ++ chars "}" ++ rest).
    rewrite (brace_reads (43%N :: h) c rest); [reflexivity| | |exact Hs].
    + intros [K|K]; [discriminate K|]. destruct (hex_is_digits _ _ H _ K) as (d & D). inversion D; lia.
    + apply radix_plus; auto. apply (scalar_char c Hs).
Qed.

(* an escape with fewer than two digits *)
Lemma short_text : forall b c e t h, literal_text b c e t -> t = chars "\x" ++ h -> length h < 2 -> hex_is h c /\ e = true.
Proof.
  intros b c e t h H. destruct H as [c H|c H|l c H|l H|l H|g c Hl H|g c Hn H Hs|g c Hn H Hs]; intros E Hlen.
  - discriminate E.
  - injection E as E _. exfalso. apply H. rewrite E. vm_compute. tauto.
  - destruct H; discriminate E.
  - discriminate E.
  - discriminate E.
  - apply app_inv_head in E. subst g. auto.
  - exfalso. injection E as <-. cbn [length app] in Hlen. rewrite app_length in Hlen. cbn in Hlen. lia.
  - exfalso. injection E as <-. cbn [length app] in Hlen. lia.
Qed.
Lemma literal_sound : forall k s l rest, parse_literal k s = POk l rest ->
  literal_read (bracketed k) (lit_c l) (lit_escaped l) s rest.
Proof.
  intros k s l rest E. destruct (psound_literal _ _ _ _ E) as (t & -> & Ht). exists t. split; auto. split; auto.
  intros h Et Hlen. destruct (short_text _ _ _ _ _ Ht Et Hlen) as [Hh _]. subst t. split.
  - intros c d r -> D.
    assert (K : exists h' r', h' ++ r' = h ++ c :: r /\ length r' < S (length r) /\
              exists n, hex_is h' n /\ length h' <= 2 /\ complete_hex (chars "\x" ++ h') r').
    { assert (F : forall x y m r', hex_is [x; y] m -> complete_hex (chars "\x" ++ [x; y]) r').
      { intros x y m r' _ g Eg Hg. apply app_inv_head in Eg. subst g. simpl in Hg. lia. }
      destruct h as [|x [|y h]]; [| |simpl in Hlen; lia].
      - destruct r as [|c2 r].
        + exists [c], []. split; [reflexivity|]. split; [simpl; lia|]. exists (0 * 16 + d)%N.
          split; [apply (hx_snoc []); [constructor|exact D]|]. split; [simpl; lia|].
          intros g Eg Hg. split; [intros ? ? ? K; discriminate K|intros ->; discriminate Eg].
        + destruct (hex_value c2) as [d2|] eqn:E2.
          * apply hex_value_is in E2. exists [c; c2], r. split; [reflexivity|]. split; [simpl; lia|].
            exists ((0 * 16 + d) * 16 + d2)%N.
            assert (X : hex_is [c; c2] ((0 * 16 + d) * 16 + d2)).
            { apply (hx_snoc [c]); [|exact E2]. apply (hx_snoc []); [constructor|exact D]. }
            split; [exact X|]. split; [simpl; lia|]. eapply F; eauto.
          * exists [c], (c2 :: r). split; [reflexivity|]. split; [simpl; lia|]. exists (0 * 16 + d)%N.
            split; [apply (hx_snoc []); [constructor|exact D]|]. split; [simpl; lia|].
            intros g Eg Hg. apply app_inv_head in Eg. subst g. split; [|discriminate].
            intros x y z Ex Dx. injection Ex as -> ->. apply hex_value_of in Dx. congruence.
      - exists [x; c], r. split; [reflexivity|]. split; [simpl; lia|]. exists (lit_c l * 16 + d)%N.
        assert (X : hex_is [x; c] (lit_c l * 16 + d)) by (apply (hx_snoc [x]); assumption).
        split; [exact X|]. split; [simpl; lia|]. eapply F; eauto. }
    destruct K as (h' & r' & Er & Hr & n & Hn & Hl2 & Hc).
    pose proof (literal_reads_as k n true (chars "\x" ++ h') r' (lt_hex _ h' n Hl2 Hn) Hc) as P.
    rewrite <- app_assoc, Er, app_assoc, E in P. injection P as _ P. rewrite <- P in Hr. simpl in Hr. lia.
  - intros -> u v ->. change ((chars "\x" ++ []) ++ chars "{" ++ u ++ chars "}" ++ v) with
      (chars "\" ++ 120%N :: 123%N :: u ++ chars "}" ++ v) in E.
    unfold parse_literal, opt in E. rewrite tag_app in E. cbn [pbind alt] in E. rewrite hex_alternative in E.
    unfold hex_escaped_literal in E. cbn [alt] in E.
    change (tag (chars "x{") (120%N :: 123%N :: u ++ chars "}" ++ v)) with (POk tt (u ++ chars "}" ++ v)) in E.
    cbn [pbind] in E.
    assert (K : exists a r, take_until (chars "}") (u ++ chars "}" ++ v) = POk a (chars "}" ++ r) /\ length r <= length v + length u).
    { clear. induction u as [|c u IH].
      - exists [], v. split; [reflexivity|lia].
      - cbn [app take_until]. destruct (tag (chars "}") (c :: u ++ chars "}" ++ v)) as [x y| |e|] eqn:Et.
        + apply tag_ok in Et. exists [], y. rewrite <- Et. split; [reflexivity|]. injection Et as _ Et.
          rewrite <- Et, !app_length. simpl. lia.
        + destruct IH as (a & r & -> & Hr). exists (c :: a), r. split; [reflexivity|simpl; lia].
        + exfalso. eapply tag_fail; eauto.
        + exfalso. eapply tag_stuck; eauto. }
    destruct K as (a & r & Ea & Hr). rewrite Ea in E. cbn [pbind] in E. rewrite tag_app in E. cbn [pbind] in E.
    destruct (from_str_radix16 a) as [n|]; [|discriminate E]. destruct (char_from_u32 n); [|discriminate E].
    cbn [pbind] in E. injection E as _ E. apply (f_equal (@length N)) in E. simpl in E. rewrite app_length in E. simpl in E. lia.
Qed.
Lemma literal_reads : forall k l s rest,
  parse_literal k s = POk l rest <-> literal_read (bracketed k) (lit_c l) (lit_escaped l) s rest.
Proof.
  intros k [c e] s rest. split; [apply literal_sound|]. intros (t & Ht & -> & Hx). apply literal_reads_as; auto.
Qed.

Lemma hex_never_absent : forall s, hex_escaped_literal (120%N :: s) <> PErr.
Proof.
  intros s E. unfold hex_escaped_literal in E.
  match type of E with pbind ?r _ = _ => destruct r as [[b h] r'| |e|] eqn:Ea end; cbn [pbind] in E; try discriminate E.
  - destruct (match from_str_radix16 h with Some n => Some n | None => if b then None else Some 0%N end) as [n|];
      [|discriminate E]. destruct (char_from_u32 n); discriminate E.
  - cbn [alt] in Ea.
    match type of Ea with match ?x with _ => _ end = _ => destruct x; [discriminate Ea| |discriminate Ea|discriminate Ea] end.
    change (tag (chars "x") (120%N :: s)) with (POk tt s) in Ea. cbn [pbind] in Ea.
    assert (K : forall m r, many_upto m hex_digit r <> PErr).
    { induction m as [|m IH]; intros r; [discriminate|]. cbn [many_upto].
      destruct (hex_digit r) as [a r1| |e|] eqn:O; try discriminate. apply one_of_ok in O as [-> _]. cbn [length].
      destruct (Nat.eqb_spec (length r1) (S (length r1))); [lia|]. specialize (IH r1).
      destruct (many_upto m hex_digit r1); cbn [pbind]; try discriminate. contradiction. }
    destruct (many_upto 2 hex_digit s) eqn:F; cbn [pbind] in Ea; [discriminate Ea| |discriminate Ea|discriminate Ea]. exact (K _ _ F).
Qed.
Lemma hex_fails : forall s e, hex_escaped_literal s = PFail e -> exists r, s = 120%N :: r.
Proof.
  intros s e E. destruct s as [|c s]; [discriminate E|]. destruct (N.eq_dec c 120) as [->|Hn]; [eauto|].
  exfalso. unfold hex_escaped_literal in E. cbn [alt] in E.
  rewrite (tag_err (chars "x{")) in E by (intros r K; injection K as K _; contradiction).
  rewrite (tag_err (chars "x")) in E by (intros r K; injection K as K _; contradiction). discriminate E.
Qed.
Lemma literal_absent : forall s, parse_literal LBracketed s = PErr <-> ~ literal_ahead s.
Proof.
  intros s. split.
  - intros E (c & e & t & r & Ht & ->).
    assert (K : (exists h, t = chars "\x" ++ h) \/ complete_hex t r).
    { destruct t as [|a [|b h]]; try (right; intros h' Eh; discriminate Eh).
      destruct (N.eq_dec a 92) as [->|]; [|right; intros h' Eh; injection Eh as Eh; contradiction].
      destruct (N.eq_dec b 120) as [->|]; [left; exists h; reflexivity|right; intros h' Eh; injection Eh as Eh; contradiction]. }
    destruct K as [(h & ->)|K].
    + unfold parse_literal in E. change ((chars "\x" ++ h) ++ r) with (chars "\" ++ 120%N :: h ++ r) in E.
      unfold opt in E. rewrite tag_app in E. cbn [pbind alt] in E. rewrite hex_alternative in E.
      destruct (hex_escaped_literal (120%N :: h ++ r)) eqn:F; try discriminate E.
      exact (hex_never_absent _ F).
    + rewrite (literal_reads_as LBracketed c e t r Ht K) in E. discriminate E.
  - intros H. pose proof (calm_literal LBracketed s) as Hc. destruct (parse_literal LBracketed s) as [l r| |e|] eqn:E; auto.
    + exfalso. apply H. destruct (psound_literal _ _ _ _ E) as (t & -> & Ht). exists (lit_c l), (lit_escaped l), t, r. auto.
    + exfalso. apply H. unfold parse_literal in E. apply pbind_fail in E as [E|(o & s1 & E1 & E)].
      { apply opt_fail in E. exfalso. eapply tag_fail; eauto. }
      apply opt_ok in E1. destruct o as [[]|].
      * apply tag_ok in E1. subst s. cbn [alt] in E.
        destruct (escaped_literal s1) as [l r| |e'|] eqn:Ee; try discriminate E.
        { unfold pmap in E. pose proof (mild_none_of escaped_literal_deny_list s1) as M.
          destruct (none_of escaped_literal_deny_list s1); simpl in *; try discriminate; contradiction. }
        unfold escaped_literal in Ee. apply pbind_fail in Ee as [Ee|(c & s2 & _ & Ee)]; [|discriminate Ee].
        assert (Hx : exists r, s1 = 120%N :: r).
        { apply alt_fail in Ee as (p & Hp & Ee).
          repeat (destruct Hp as [<-|Hp]; [first
            [ exact (hex_fails _ _ Ee)
            | exfalso; revert Ee;
              match goal with |- ?p s1 = PFail _ -> False =>
                assert (M : mild p) by (unfold escaped_control_sequence; mild); specialize (M s1); intros Ee; rewrite Ee in M; exact M end]|]).
          destruct Hp. }
        destruct Hx as (r & ->). exists 0%N, true, (chars "\x"), r. split; [|reflexivity].
        apply (lt_hex true [] 0%N); [simpl; lia|constructor].
      * unfold pmap in E. pose proof (mild_none_of bracketed_character_class_deny_list s1) as M.
        destruct (none_of bracketed_character_class_deny_list s1); simpl in *; try discriminate; contradiction.
    + destruct Hc.
Qed.
