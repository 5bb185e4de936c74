(* serde_json::from_str reads exactly the JSON texts that are not nested too deep. *)
From Coq Require Import Lia ZifyN ZifyBool.
From Verif Require Export Model.JsonText Spec.JsonText Proofs.Text.

Lemma obind_some : forall A B (o : option A) (f : A -> option B) b, obind o f = Some b <-> exists a, o = Some a /\ f a = Some b.
Proof.
  intros A B [a|] f b; cbn; split.
  - intros H. exists a. split; [reflexivity|exact H].
  - intros (a' & E & H). injection E as ->. exact H.
  - discriminate.
  - intros (a & E & _). discriminate.
Qed.

(* ---- blanks ---- *)
Lemma is_json_blank_iff : forall c, is_json_blank c = true <-> blank c.
Proof. intros c. unfold is_json_blank, blank. cbn [In]. lia. Qed.
Lemma skip_blanks_app : forall b s, blanks b -> skip_blanks (b ++ s) = skip_blanks s.
Proof.
  induction b as [|c b IH]; intros s H; [reflexivity|]. inversion H; subst. cbn [app skip_blanks].
  destruct (is_json_blank c) eqn:E; [apply IH; assumption|]. apply is_json_blank_iff in H2. congruence.
Qed.
Lemma skip_blanks_split : forall s, exists b, blanks b /\ s = b ++ skip_blanks s.
Proof.
  induction s as [|c s IH]; [exists []; split; [constructor|reflexivity]|]. cbn [skip_blanks].
  destruct (is_json_blank c) eqn:E.
  - destruct IH as (b & Hb & Es). exists (c :: b). split; [constructor; [apply is_json_blank_iff; exact E|exact Hb]|].
    cbn [app]. f_equal. exact Es.
  - exists []. split; [constructor|reflexivity].
Qed.
Lemma skip_blanks_id : forall c s, ~ blank c -> skip_blanks (c :: s) = c :: s.
Proof.
  intros c s H. cbn [skip_blanks]. destruct (is_json_blank c) eqn:E; [|reflexivity]. apply is_json_blank_iff in E. contradiction.
Qed.
Lemma skip_all_blanks : forall s, skip_blanks s = [] <-> blanks s.
Proof.
  intros s. split.
  - intros H. destruct (skip_blanks_split s) as (b & Hb & Es). rewrite H, app_nil_r in Es. subst. exact Hb.
  - intros H. rewrite <- (app_nil_r s). rewrite skip_blanks_app by exact H. reflexivity.
Qed.

(* ---- strings ---- *)
Lemma hex_value_iff : forall c d, hex_value c = Some d <-> hex_numeral c d.
Proof.
  intros c d. unfold hex_value, hex_numeral, is_ascii_digit, in_range. split.
  - intros H. repeat match goal with H : (if ?b then _ else _) = _ |- _ => destruct b eqn:?; try (injection H as <-) end; try discriminate; lia.
  - intros H. repeat match goal with |- (if ?b then _ else _) = _ => destruct b eqn:? end; try (f_equal; lia); lia.
Qed.
Lemma hex4_iff : forall a b c d n, hex4 a b c d = Some n <-> four_hex n [a; b; c; d].
Proof.
  intros a b c d n. unfold hex4, four_hex. split.
  - intros H. apply obind_some in H as (x & Ha & H). apply obind_some in H as (y & Hb & H).
    apply obind_some in H as (z & Hc & H). apply obind_some in H as (w & Hd & H). injection H as <-.
    exists a, b, c, d, x, y, z, w. repeat split; try (apply hex_value_iff; assumption). lia.
  - intros (a' & b' & c' & d' & x & y & z & w & E & Ha & Hb & Hc & Hd & ->). injection E as <- <- <- <-.
    apply hex_value_iff in Ha, Hb, Hc, Hd. rewrite Ha, Hb, Hc, Hd. cbn [obind]. f_equal. lia.
Qed.
Lemma four_hex_shape : forall n h, four_hex n h -> exists a b c d, h = [a; b; c; d] /\ hex4 a b c d = Some n.
Proof.
  intros n h H. pose proof H as K. destruct K as (a & b & c & d & x & y & z & w & -> & _).
  exists a, b, c, d. split; [reflexivity|]. apply hex4_iff. exact H.
Qed.
Lemma short_escape_iff : forall e c, short_escape e = Some c <-> In (e, c) json_escapes.
Proof.
  intros e c. unfold short_escape, json_escapes. change (chars """") with [34%N]. change (chars "\") with [92%N].
  change (chars "/") with [47%N]. change (chars "b") with [98%N]. change (chars "f") with [102%N].
  change (chars "n") with [110%N]. change (chars "r") with [114%N]. change (chars "t") with [116%N].
  cbn [pick str_eqb In]. rewrite !andb_true_r.
  split.
  - intros H. repeat match goal with H : (if ?b then _ else _) = _ |- _ => destruct b eqn:?; try (injection H as <-) end; try discriminate;
      repeat match goal with H : (_ =? _)%N = true |- _ => apply N.eqb_eq in H; subst end; tauto.
  - intros H. repeat destruct H as [H|H]; try contradiction; injection H as <- <-; reflexivity.
Qed.
Lemma read_char : forall c t x, json_char c t -> read_string (t ++ x) = (let? (s, rest) := read_string x in Some (c :: s, rest)).
Proof.
  intros c t x H. destruct H as [c H1 H2 H3|e c H|n h H Hn|n m h l H Hm Hn Hl].
  - cbn [app read_string]. destruct (N.eqb_spec c 34); [contradiction|]. destruct (N.ltb_spec c 32); [lia|].
    destruct (N.eqb_spec c 92); [contradiction|]. reflexivity.
  - cbn [app read_string N.eqb Pos.eqb N.ltb N.compare Pos.compare Pos.compare_cont]. apply short_escape_iff in H.
    destruct (N.eqb_spec e 117) as [->|]; [discriminate H|]. rewrite H. reflexivity.
  - apply four_hex_shape in H as (a & b & c & d & -> & H). change (chars "\u") with [92%N; 117%N].
    cbn [app read_string N.eqb Pos.eqb N.ltb N.compare Pos.compare Pos.compare_cont]. rewrite H. cbn [obind]. unfold in_range.
    destruct (((56320 <=? n) && (n <=? 57343))%N) eqn:E1; [lia|]. destruct (((55296 <=? n) && (n <=? 56319))%N) eqn:E2; [lia|]. reflexivity.
  - apply four_hex_shape in H as (a & b & c & d & -> & H). apply four_hex_shape in Hm as (a' & b' & c' & d' & -> & Hm).
    change (chars "\u") with [92%N; 117%N].
    cbn [app read_string N.eqb Pos.eqb N.ltb N.compare Pos.compare Pos.compare_cont]. rewrite H. cbn [obind]. unfold in_range.
    destruct (((56320 <=? n) && (n <=? 57343))%N) eqn:E1; [lia|]. destruct (((55296 <=? n) && (n <=? 56319))%N) eqn:E2; [|lia].
    rewrite Hm. cbn [obind]. destruct (((56320 <=? m) && (m <=? 57343))%N) eqn:E3; [|lia].
    replace ((n - 55296) * 1024 + (m - 56320) + 65536)%N with (65536 + (n - 55296) * 1024 + (m - 56320))%N by lia. reflexivity.
Qed.
Lemma read_string_complete : forall s u rest, json_chars s u -> read_string (u ++ 34%N :: rest) = Some (s, rest).
Proof.
  intros s u rest H. induction H as [|c t s u Hc H IH]; [reflexivity|].
  rewrite <- app_assoc, (read_char _ _ _ Hc), IH. reflexivity.
Qed.
Lemma read_string_sound : forall n x s rest, length x <= n -> read_string x = Some (s, rest) ->
  exists u, json_chars s u /\ x = u ++ 34%N :: rest.
Proof.
  induction n as [|n IH]; intros x s rest Hn H; [destruct x; [discriminate H|simpl in Hn; lia]|].
  assert (D : forall c t x', json_char c t -> x = t ++ x' -> t <> [] ->
    (let? (s, rest) := read_string x' in Some (c :: s, rest)) = Some (s, rest) ->
    exists u, json_chars s u /\ x = u ++ 34%N :: rest).
  { intros c t x' Hc -> Ht E. apply obind_some in E as ([s' r'] & E1 & E2). injection E2 as <- <-.
    apply IH in E1 as (u & Hu & ->); [|rewrite app_length in Hn; destruct t; [contradiction|simpl in Hn; lia]].
    exists (t ++ u). split; [constructor; assumption|rewrite app_assoc; reflexivity]. }
  destruct x as [|c x]; [discriminate H|]. cbn [read_string] in H.
  destruct (N.eqb_spec c 34) as [->|N1]; [injection H as <- <-; exists []; split; [constructor|reflexivity]|].
  destruct (N.ltb_spec c 32) as [|N2]; [discriminate H|].
  destruct (N.eqb_spec c 92) as [->|N3].
  - destruct x as [|e x]; [discriminate H|]. destruct (N.eqb_spec e 117) as [->|N4].
    + destruct x as [|a [|b [|c [|d x]]]]; try discriminate H.
      apply obind_some in H as (v & Hv & H). unfold in_range in H. apply hex4_iff in Hv.
      destruct (((56320 <=? v) && (v <=? 57343))%N) eqn:E1; [discriminate H|].
      destruct (((55296 <=? v) && (v <=? 56319))%N) eqn:E2.
      * destruct x as [|c0 x]; [discriminate H|]. destruct (N.eq_dec c0 92) as [->|Nc].
        2:{ exfalso. clear -H Nc. destruct c0 as [|p]; [discriminate H|].
            do 7 (destruct p as [p|p|]; try discriminate H). contradiction. }
        destruct x as [|c1 x]; [discriminate H|]. destruct (N.eq_dec c1 117) as [->|Nc].
        2:{ exfalso. clear -H Nc. destruct c1 as [|p]; [discriminate H|].
            do 7 (destruct p as [p|p|]; try discriminate H). contradiction. }
        destruct x as [|a' [|b' [|c' [|d' x]]]]; try discriminate H.
        apply obind_some in H as (w & Hw & H). apply hex4_iff in Hw.
        destruct (((56320 <=? w) && (w <=? 57343))%N) eqn:E3; [|discriminate H].
        eapply D; [apply (jc_pair v w _ _ Hv Hw); lia|reflexivity|discriminate|].
        replace (65536 + (v - 55296) * 1024 + (w - 56320))%N with ((v - 55296) * 1024 + (w - 56320) + 65536)%N by lia. exact H.
      * eapply D; [apply (jc_unicode v _ Hv); lia|reflexivity|discriminate|exact H].
    + apply obind_some in H as (v & Hv & H). apply short_escape_iff in Hv.
      eapply D; [apply (jc_short e v Hv)|reflexivity|discriminate|exact H].
  - eapply D; [apply (jc_plain c); assumption|reflexivity|discriminate|exact H].
Qed.

(* ---- numbers ---- *)
Lemma is_digit_iff : forall c, is_ascii_digit c = true <-> digit c.
Proof. intros c. unfold is_ascii_digit, digit, in_range. lia. Qed.
(* what cannot continue a number *)
Definition past_number (s : str) : Prop :=
  match s with [] => True | c :: _ => ~ digit c /\ c <> 46%N /\ c <> 101%N /\ c <> 69%N end.
Definition no_digit (s : str) : Prop := match s with [] => True | c :: _ => ~ digit c end.
Lemma span_digits_app : forall d r, Forall digit d -> no_digit r -> span_digits (d ++ r) = (d, r).
Proof.
  induction d as [|c d IH]; intros r Hd Hr.
  - cbn [app]. destruct r as [|c r]; [reflexivity|]. cbn [span_digits]. destruct (is_ascii_digit c) eqn:E; [|reflexivity].
    apply is_digit_iff in E. contradiction.
  - inversion Hd; subst. cbn [app span_digits]. apply is_digit_iff in H1. rewrite H1, IH by assumption. reflexivity.
Qed.
Lemma span_digits_spec : forall s d r, span_digits s = (d, r) -> s = d ++ r /\ Forall digit d /\ no_digit r.
Proof.
  induction s as [|c s IH]; intros d r H; cbn [span_digits] in H; [injection H as <- <-; repeat split; constructor|].
  destruct (is_ascii_digit c) eqn:E.
  - destruct (span_digits s) as [d' r'] eqn:Es. injection H as <- <-. destruct (IH _ _ eq_refl) as (-> & Hd & Hr).
    repeat split; [|exact Hr]. constructor; [apply is_digit_iff; exact E|exact Hd].
  - injection H as <- <-. repeat split; [constructor|]. cbn. intros K. apply is_digit_iff in K. congruence.
Qed.
Lemma some_digits_app : forall d r, numerals d -> no_digit r -> some_digits (d ++ r) = Some (d, r).
Proof.
  intros d r [Hn Hd] Hr. unfold some_digits. rewrite span_digits_app by assumption. destruct d; [contradiction|reflexivity].
Qed.
Lemma some_digits_spec : forall s d r, some_digits s = Some (d, r) -> s = d ++ r /\ numerals d /\ no_digit r.
Proof.
  intros s d r H. unfold some_digits in H. destruct (span_digits s) as [d' r'] eqn:E. destruct d'; [discriminate H|].
  injection H as <- <-. apply span_digits_spec in E as (-> & Hd & Hr). repeat split; [discriminate|exact Hd|exact Hr].
Qed.

Lemma read_integer_app : forall i r, integer_text i -> no_digit r -> read_integer (i ++ r) = Some (i, r).
Proof.
  intros i r [-> |[[Hn Hd] Hz]] Hr.
  - cbn [app read_integer]. rewrite <- (app_nil_l r) at 1. rewrite span_digits_app by (try constructor; exact Hr). reflexivity.
  - assert (E : read_integer (i ++ r) = some_digits (i ++ r)).
    { destruct i as [|c i]; [contradiction|]. cbn [app read_integer]. specialize (Hz i).
      destruct c as [|p]; [reflexivity|]. do 6 (destruct p as [p|p|]; try reflexivity). contradiction. }
    rewrite E. apply some_digits_app; [split; assumption|exact Hr].
Qed.
Lemma read_integer_spec : forall s i r, read_integer s = Some (i, r) -> s = i ++ r /\ integer_text i /\ no_digit r.
Proof.
  intros s i r H. destruct s as [|c s]; [discriminate H|]. destruct (N.eq_dec c 48) as [->|Nc].
  - cbn [read_integer] in H. destruct (span_digits s) as [d r'] eqn:E. destruct d; [|discriminate H]. injection H as <- <-.
    apply span_digits_spec in E as (-> & _ & Hr). repeat split; [left; reflexivity|exact Hr].
  - assert (E : some_digits (c :: s) = Some (i, r)).
    { rewrite <- H. cbn [read_integer]. destruct c as [|p]; [reflexivity|]. do 6 (destruct p as [p|p|]; try reflexivity). contradiction. }
    apply some_digits_spec in E as (E & Hi & Hr). repeat split; [exact E| |exact Hr]. right. split; [exact Hi|].
    intros s' ->. injection E as E _. contradiction.
Qed.
Lemma read_fraction_app : forall f r, fraction_text f -> no_digit r -> (forall s, r <> 46%N :: s) ->
  read_fraction (f ++ r) = Some (f, r).
Proof.
  intros f r [-> |(d & Hd & ->)] Hr Hp.
  - cbn [app]. destruct r as [|c r]; [reflexivity|]. specialize (Hp r). cbn [read_fraction].
    destruct c as [|p]; [reflexivity|]. do 6 (destruct p as [p|p|]; try reflexivity). contradiction.
  - change (chars ".") with [46%N]. cbn [app read_fraction]. rewrite some_digits_app by assumption. reflexivity.
Qed.
Lemma read_fraction_spec : forall s f r, read_fraction s = Some (f, r) -> s = f ++ r /\ fraction_text f /\ (f <> [] -> no_digit r).
Proof.
  intros s f r H. destruct s as [|c s]; [injection H as <- <-; split; [reflexivity|split; [left; reflexivity|intros K; contradiction]]|].
  destruct (N.eq_dec c 46) as [->|Nc].
  - cbn [read_fraction] in H. apply obind_some in H as ([d r'] & E & H). injection H as <- <-.
    apply some_digits_spec in E as (-> & Hd & Hr). repeat split; [right; exists d; split; [exact Hd|reflexivity]|intros _; exact Hr].
  - assert (E : Some ([], c :: s) = Some (f, r)).
    { rewrite <- H. cbn [read_fraction]. destruct c as [|p]; [reflexivity|]. do 6 (destruct p as [p|p|]; try reflexivity). contradiction. }
    injection E as <- <-. split; [reflexivity|split; [left; reflexivity|intros K; contradiction]].
Qed.
Lemma read_exponent_app : forall e r, exponent_text e -> past_number r -> read_exponent (e ++ r) = Some (e, r).
Proof.
  intros e r [-> |(m & g & d & Hm & Hg & Hd & ->)] Hr.
  - cbn [app]. destruct r as [|c r]; [reflexivity|]. destruct Hr as (_ & _ & H1 & H2). cbn [read_exponent].
    destruct ((c =? 101) || (c =? 69))%N eqn:E; [lia|reflexivity].
  - assert (Hn : no_digit r) by (destruct r; [exact I|exact (proj1 Hr)]).
    assert (Hmm : exists c, m = [c] /\ ((c =? 101) || (c =? 69))%N = true) by (destruct Hm as [-> | ->]; eexists; split; reflexivity).
    destruct Hmm as (c & -> & Hc). cbn [app read_exponent]. rewrite Hc.
    assert (Hgg : g = [] \/ exists x, g = [x] /\ ((x =? 43) || (x =? 45))%N = true)
      by (destruct Hg as [-> |[-> | ->]]; [left; reflexivity| |]; right; eexists; split; reflexivity).
    destruct Hgg as [-> |(x & -> & Hx)].
    + cbn [app]. pose proof Hd as [Hd1 Hd2]. destruct d as [|y d]; [contradiction|]. cbn [app].
      inversion Hd2; subst. destruct ((y =? 43) || (y =? 45))%N eqn:E; [unfold digit in *; lia|].
      change (y :: d ++ r) with ((y :: d) ++ r). rewrite some_digits_app by assumption. reflexivity.
    + cbn [app]. rewrite Hx, some_digits_app by assumption. reflexivity.
Qed.
Lemma read_exponent_spec : forall s e r, read_exponent s = Some (e, r) -> s = e ++ r /\ exponent_text e.
Proof.
  intros s e r H. destruct s as [|c s]; cbn [read_exponent] in H; [injection H as <- <-; split; [reflexivity|left; reflexivity]|].
  destruct ((c =? 101) || (c =? 69))%N eqn:Ec.
  - destruct s as [|g s]; [discriminate H|].
    assert (Hc : [c] = chars "e" \/ [c] = chars "E").
    { apply orb_true_iff in Ec as [Ec|Ec]; apply N.eqb_eq in Ec; subst; [left|right]; reflexivity. }
    destruct ((g =? 43) || (g =? 45))%N eqn:Eg; apply obind_some in H as ([d r'] & E & H); injection H as <- <-;
      apply some_digits_spec in E as (E & Hd & Hr).
    + subst s. split; [reflexivity|]. right. exists [c], [g], d. repeat split; try assumption; try apply Hd.
      apply orb_true_iff in Eg as [Eg|Eg]; apply N.eqb_eq in Eg; subst; [right; left|right; right]; reflexivity.
    + rewrite E. split; [reflexivity|]. right. exists [c], [], d. repeat split; try assumption; try apply Hd. left; reflexivity.
  - injection H as <- <-. split; [reflexivity|left; reflexivity].
Qed.
Lemma past_no_digit : forall e r, exponent_text e -> past_number r -> no_digit (e ++ r) /\ forall s, e ++ r <> 46%N :: s.
Proof.
  intros e r [-> |(m & g & d & Hm & _ & _ & ->)] Hr.
  - destruct r as [|c r]; [split; [exact I|discriminate]|]. destruct Hr as (H1 & H2 & _). split; [exact H1|].
    intros s E. injection E as E _. contradiction.
  - destruct Hm as [-> | ->]; (split; [vm_compute; intros [_ K]; apply K; reflexivity|intros s E; discriminate E]).
Qed.
Lemma read_number_complete : forall t rest, json_number t -> past_number rest -> read_json_number (t ++ rest) = Some (t, rest).
Proof.
  intros t rest (g & i & f & e & Hg & Hi & Hf & He & ->) Hr.
  destruct (past_no_digit e rest He Hr) as [N1 N2].
  assert (N3 : no_digit (f ++ e ++ rest)).
  { destruct Hf as [-> |(d & _ & ->)]; [exact N1|]. vm_compute. intros [K _]. apply K. reflexivity. }
  assert (R : (let? (i', s1) := read_integer (i ++ f ++ e ++ rest) in let? (f', s2) := read_fraction s1 in
    let? (e', s3) := read_exponent s2 in Some (g ++ i' ++ f' ++ e', s3)) = Some (g ++ i ++ f ++ e, rest)).
  { rewrite read_integer_app by assumption. cbn [obind]. rewrite read_fraction_app by assumption. cbn [obind].
    rewrite read_exponent_app by assumption. reflexivity. }
  rewrite <- !app_assoc. unfold read_json_number.
  destruct Hg as [-> | ->].
  - cbn [app] in R |- *. rewrite <- R.
    assert (Hi' : forall s, i ++ f ++ e ++ rest <> 45%N :: s).
    { intros s E. assert (Hx : exists x i', i = x :: i' /\ digit x).
      { destruct Hi as [-> |[[Hn Hd] _]]; [exists 48%N, []; split; [reflexivity|vm_compute; split; discriminate]|].
        destruct i as [|x i]; [contradiction|]. inversion Hd; subst. exists x, i. split; [reflexivity|assumption]. }
      destruct Hx as (x & i' & -> & Hx). injection E as -> _. unfold digit in Hx. lia. }
    destruct (i ++ f ++ e ++ rest) as [|c x] eqn:Ex; [reflexivity|]. specialize (Hi' x).
    destruct c as [|p]; [reflexivity|]. do 6 (destruct p as [p|p|]; try reflexivity). contradiction.
  - change (chars "-") with [45%N]. cbn [app]. exact R.
Qed.
Lemma read_number_sound : forall s t rest, read_json_number s = Some (t, rest) -> s = t ++ rest /\ json_number t.
Proof.
  intros s t rest H. unfold read_json_number in H.
  assert (G : exists g s0, s = g ++ s0 /\ (g = [] \/ g = chars "-") /\
    (let? (i', s1) := read_integer s0 in let? (f', s2) := read_fraction s1 in
     let? (e', s3) := read_exponent s2 in Some (g ++ i' ++ f' ++ e', s3)) = Some (t, rest)).
  { destruct s as [|c s]; [discriminate H|]. destruct (N.eq_dec c 45) as [->|Nc].
    - exists [45%N], s. split; [reflexivity|]. split; [right; reflexivity|exact H].
    - exists [], (c :: s). split; [reflexivity|]. split; [left; reflexivity|]. rewrite <- H.
      destruct c as [|p]; [reflexivity|]. do 6 (destruct p as [p|p|]; try reflexivity). contradiction. }
  destruct G as (g & s0 & -> & Hg & G). apply obind_some in G as ([i s1] & G1 & G). apply obind_some in G as ([f s2] & G2 & G).
  apply obind_some in G as ([e s3] & G3 & G). injection G as <- <-.
  apply read_integer_spec in G1 as (-> & Hi & _). apply read_fraction_spec in G2 as (-> & Hf & _).
  apply read_exponent_spec in G3 as (-> & He). rewrite <- !app_assoc. split; [reflexivity|]. exists g, i, f, e. repeat split; assumption.
Qed.

(* ---- values ---- *)
Lemma strip_iff : forall t s r, strip t s = Some r <-> s = t ++ r.
Proof.
  induction t as [|a t IH]; intros s r; cbn [strip app].
  - split; [intros H; injection H as <-; reflexivity|intros ->; reflexivity].
  - destruct s as [|b s]; [split; discriminate|]. destruct (N.eqb_spec a b) as [->|Nab].
    + rewrite IH. split; [intros ->; reflexivity|intros H; injection H as ->; reflexivity].
    + split; [discriminate|intros H; injection H as -> _; contradiction].
Qed.
Lemma number_front : forall t, json_number t -> exists c t', t = c :: t' /\ (c = 45%N \/ digit c).
Proof.
  intros t (g & i & f & e & Hg & Hi & _ & _ & ->).
  assert (Hx : exists x i', i = x :: i' /\ digit x).
  { destruct Hi as [-> |[[Hn Hd] _]]; [exists 48%N, []; split; [reflexivity|vm_compute; split; discriminate]|].
    destruct i as [|x i]; [contradiction|]. inversion Hd; subst. exists x, i. split; [reflexivity|assumption]. }
  destruct Hx as (x & i' & -> & Hx). destruct Hg as [-> | ->]; eexists _, _; (split; [reflexivity|]); [right; exact Hx|left; reflexivity].
Qed.
Lemma text_front : forall v t, json_text v t -> exists c t', t = c :: t' /\ ~ blank c /\ c <> 93%N /\ c <> 125%N.
Proof.
  intros v t H. destruct H as [| | |t H|s t (u & _ & ->)|b H|l t H|b H|m t H];
    try (eexists _, _; split; [reflexivity|split; [vm_compute; intuition discriminate|split; vm_compute; discriminate]]).
  destruct (number_front t H) as (c & t' & -> & Hc). exists c, t'. split; [reflexivity|]. unfold blank, digit in *. cbn [In]. repeat split; lia.
Qed.
Lemma elements_front : forall l t, elements_text l t -> exists c t', skip_blanks t = c :: t' /\ c <> 93%N.
Proof.
  intros l t H. destruct H as [v b t b' Hb Ht Hb'|v b t b' l s Hb Ht Hb' Hl];
    rewrite skip_blanks_app by exact Hb; destruct (text_front _ _ Ht) as (c & t' & -> & Hc & H1 & H2); cbn [app];
    rewrite skip_blanks_id by exact Hc; eexists _, _; (split; [reflexivity|exact H1]).
Qed.
Lemma members_front : forall l t, members_text l t -> exists t', skip_blanks t = 34%N :: t'.
Proof.
  intros l t H. destruct H as [k v b1 kt b2 b3 t b4 H1 (u & _ & ->)|k v b1 kt b2 b3 t b4 l s H1 (u & _ & ->)];
    rewrite skip_blanks_app by exact H1; change (chars """") with [34%N]; cbn [app]; rewrite skip_blanks_id by (unfold blank; cbn [In]; lia);
    eexists; reflexivity.
Qed.
Lemma skip_blanks_more : forall s t, skip_blanks s <> [] -> skip_blanks (s ++ t) = skip_blanks s ++ t.
Proof.
  induction s as [|c s IH]; intros t H; [contradiction|]. cbn [app skip_blanks] in *. destruct (is_json_blank c); [apply IH; exact H|reflexivity].
Qed.

Scheme json_text_ind' := Induction for json_text Sort Prop
with elements_text_ind' := Induction for elements_text Sort Prop
with members_text_ind' := Induction for members_text Sort Prop.
Combined Scheme json_texts_ind from json_text_ind', elements_text_ind', members_text_ind'.

Definition depths (l : list json) : nat := fold_right (fun v n => Nat.max (json_depth v) n) 0 l.
Definition field_depths (l : list (str * json)) : nat := fold_right (fun f n => Nat.max (json_depth (snd f)) n) 0 l.
Lemma array_depth : forall l, json_depth (JArray l) = S (depths l). Proof. reflexivity. Qed.
Lemma object_depth : forall l, json_depth (JObject l) = S (field_depths l). Proof. reflexivity. Qed.

Lemma past_blank : forall b r, blanks b -> past_number r -> past_number (b ++ r).
Proof.
  intros [|c b] r H Hr; [exact Hr|]. inversion H; subst. unfold blank in *. cbn [In app] in *. unfold past_number, digit. lia.
Qed.
Lemma value_step : forall fuel d c r, ~ blank c -> read_value (S fuel) d (c :: r) =
      if (c =? 110)%N then let? r := strip (chars "ull") r in Some (JNull, r)
      else if (c =? 116)%N then let? r := strip (chars "rue") r in Some (JBool true, r)
      else if (c =? 102)%N then let? r := strip (chars "alse") r in Some (JBool false, r)
      else if (c =? 34)%N then let? (t, r) := read_string r in Some (JString t, r)
      else if (c =? 91)%N then
        match d with
        | S (S _ as depth) =>
          match skip_blanks r with
          | 93%N :: r => Some (JArray [], r)
          | _ => let? (l, r) := read_elements fuel depth r in Some (JArray l, r)
          end
        | _ => None
        end
      else if (c =? 123)%N then
        match d with
        | S (S _ as depth) =>
          match skip_blanks r with
          | 125%N :: r => Some (JObject [], r)
          | _ => let? (l, r) := read_members fuel depth r in Some (JObject l, r)
          end
        | _ => None
        end
      else let? (t, r) := read_json_number (c :: r) in Some (JNumber t, r).
Proof. intros fuel d c r H. cbn [read_value]. rewrite skip_blanks_id by exact H. reflexivity. Qed.
Lemma value_blanks : forall fuel d b s, blanks b -> read_value fuel d (b ++ s) = read_value fuel d s.
Proof. intros [|fuel] d b s H; [reflexivity|]. cbn [read_value]. rewrite skip_blanks_app by exact H. reflexivity. Qed.
Lemma reader_complete :
  (forall v t, json_text v t -> forall fuel d rest, 2 * length t <= fuel -> json_depth v < d -> past_number rest ->
     read_value fuel d (t ++ rest) = Some (v, rest)) /\
  (forall l t, elements_text l t -> forall fuel d rest, 2 * length t + 1 <= fuel -> depths l < d ->
     read_elements fuel d (t ++ chars "]" ++ rest) = Some (l, rest)) /\
  (forall l t, members_text l t -> forall fuel d rest, 2 * length t + 1 <= fuel -> field_depths l < d ->
     read_members fuel d (t ++ chars "}" ++ rest) = Some (l, rest)).
Proof.
  assert (NB : forall c, In c [110; 116; 102; 34; 91; 123; 44; 93; 125; 58]%N -> ~ blank c)
    by (intros c Hc; unfold blank; cbn [In] in *; lia).
  assert (NE : forall c, (c = 45%N \/ digit c) -> ~ blank c /\ (c =? 110)%N = false /\ (c =? 116)%N = false /\
    (c =? 102)%N = false /\ (c =? 34)%N = false /\ (c =? 91)%N = false /\ (c =? 123)%N = false)
    by (intros c Hc; unfold blank, digit in *; cbn [In]; lia).
  apply json_texts_ind.
  - intros fuel d rest Hf _ _. destruct fuel; [simpl in Hf; lia|]. reflexivity.
  - intros fuel d rest Hf _ _. destruct fuel; [simpl in Hf; lia|]. reflexivity.
  - intros fuel d rest Hf _ _. destruct fuel; [simpl in Hf; lia|]. reflexivity.
  - intros t Ht fuel d rest Hf _ Hr. destruct (number_front t Ht) as (c & t' & -> & Hc). destruct fuel; [simpl in Hf; lia|].
    destruct (NE c Hc) as (Nb & E1 & E2 & E3 & E4 & E5 & E6). pose proof (read_number_complete _ rest Ht Hr) as R.
    cbn [app] in *. rewrite value_step by exact Nb. rewrite E1, E2, E3, E4, E5, E6, R. reflexivity.
  - intros s t (u & Hu & ->) fuel d rest Hf _ _. destruct fuel; [simpl in Hf; lia|]. change (chars """") with [34%N]. cbn [app].
    rewrite value_step by (apply NB; cbn [In]; tauto). cbn [N.eqb Pos.eqb]. rewrite <- app_assoc. cbn [app].
    rewrite (read_string_complete _ _ _ Hu). reflexivity.
  - intros b Hb fuel d rest Hf Hd _. destruct fuel; [simpl in Hf; lia|]. change (chars "[") with [91%N]. change (chars "]") with [93%N].
    cbn [app]. rewrite value_step by (apply NB; cbn [In]; tauto). cbn [N.eqb Pos.eqb]. cbn in Hd. destruct d as [|[|d]]; try lia.
    rewrite <- app_assoc, skip_blanks_app by exact Hb. reflexivity.
  - intros l t Ht IH fuel d rest Hf Hd _. destruct fuel; [simpl in Hf; lia|]. change (chars "[") with [91%N] in *.
    rewrite array_depth in Hd. cbn [app] in *. rewrite value_step by (apply NB; cbn [In]; tauto). cbn [N.eqb Pos.eqb].
    destruct d as [|[|d]]; try lia. rewrite <- app_assoc.
    destruct (elements_front _ _ Ht) as (c & t' & E & Hc). rewrite skip_blanks_more by (rewrite E; discriminate). rewrite E. cbn [app].
    rewrite (IH fuel (S d) rest); [|cbn [length] in Hf; rewrite app_length in Hf; lia|lia].
    destruct c as [|p]; [reflexivity|]. do 7 (destruct p as [p|p|]; try reflexivity). contradiction.
  - intros b Hb fuel d rest Hf Hd _. destruct fuel; [simpl in Hf; lia|]. change (chars "{") with [123%N]. change (chars "}") with [125%N].
    cbn [app]. rewrite value_step by (apply NB; cbn [In]; tauto). cbn [N.eqb Pos.eqb]. cbn in Hd. destruct d as [|[|d]]; try lia.
    rewrite <- app_assoc, skip_blanks_app by exact Hb. reflexivity.
  - intros l t Ht IH fuel d rest Hf Hd _. destruct fuel; [simpl in Hf; lia|]. change (chars "{") with [123%N] in *.
    rewrite object_depth in Hd. cbn [app] in *. rewrite value_step by (apply NB; cbn [In]; tauto). cbn [N.eqb Pos.eqb].
    destruct d as [|[|d]]; try lia. rewrite <- app_assoc.
    destruct (members_front _ _ Ht) as (t' & E). rewrite skip_blanks_more by (rewrite E; discriminate). rewrite E. cbn [app].
    rewrite (IH fuel (S d) rest); [|cbn [length] in Hf; rewrite app_length in Hf; lia|lia]. reflexivity.
  - intros v b t b' Hb Ht IH Hb' fuel d rest Hf Hd. destruct fuel; [lia|]. cbn [read_elements].
    rewrite !app_length in Hf. cbn [depths fold_right] in Hd. rewrite <- !app_assoc, value_blanks by exact Hb.
    rewrite IH; [|lia|lia|].
    + cbn [obind]. rewrite skip_blanks_app by exact Hb'. reflexivity.
    + apply past_blank; [exact Hb'|]. change (chars "]") with [93%N]. cbn. unfold digit. lia.
  - intros v b t b' l s Hb Ht IH Hb' Hl IHl fuel d rest Hf Hd. destruct fuel; [lia|]. cbn [read_elements].
    rewrite !app_length in Hf. cbn [depths fold_right] in Hd. rewrite <- !app_assoc, value_blanks by exact Hb.
    rewrite IH; [|lia|lia|].
    + cbn [obind]. rewrite skip_blanks_app by exact Hb'. change (chars ",") with [44%N] in *. cbn [app]. rewrite skip_blanks_id by (apply NB; cbn [In]; tauto).
      rewrite IHl; [reflexivity|cbn in Hf; lia|unfold depths; lia].
    + apply past_blank; [exact Hb'|]. change (chars ",") with [44%N]. cbn. unfold digit. lia.
  - intros k v b1 kt b2 b3 t b4 H1 (u & Hu & ->) H2 H3 Ht IH H4 fuel d rest Hf Hd. destruct fuel; [lia|]. cbn [read_members].
    rewrite !app_length in Hf. cbn [field_depths fold_right snd] in Hd. rewrite <- !app_assoc, skip_blanks_app by exact H1.
    change (chars """") with [34%N] in *. cbn [app]. rewrite skip_blanks_id by (apply NB; cbn [In]; tauto).
    rewrite (read_string_complete _ _ _ Hu). cbn [obind]. rewrite skip_blanks_app by exact H2.
    change (chars ":") with [58%N] in *. cbn [app]. rewrite skip_blanks_id by (apply NB; cbn [In]; tauto). rewrite value_blanks by exact H3.
    cbn [length] in Hf. rewrite IH; [|lia|lia|].
    + cbn [obind]. rewrite skip_blanks_app by exact H4. reflexivity.
    + apply past_blank; [exact H4|]. change (chars "}") with [125%N]. cbn. unfold digit. lia.
  - intros k v b1 kt b2 b3 t b4 l s H1 (u & Hu & ->) H2 H3 Ht IH H4 Hl IHl fuel d rest Hf Hd. destruct fuel; [lia|]. cbn [read_members].
    rewrite !app_length in Hf. cbn [field_depths fold_right snd] in Hd. rewrite <- !app_assoc, skip_blanks_app by exact H1.
    change (chars """") with [34%N] in *. cbn [app]. rewrite skip_blanks_id by (apply NB; cbn [In]; tauto).
    rewrite (read_string_complete _ _ _ Hu). cbn [obind]. rewrite skip_blanks_app by exact H2.
    change (chars ":") with [58%N] in *. cbn [app]. rewrite skip_blanks_id by (apply NB; cbn [In]; tauto). rewrite value_blanks by exact H3.
    cbn [length] in Hf. rewrite IH; [|lia|lia|].
    + cbn [obind]. rewrite skip_blanks_app by exact H4. change (chars ",") with [44%N] in *. cbn [app].
      rewrite skip_blanks_id by (apply NB; cbn [In]; tauto). rewrite IHl; [reflexivity|cbn [length] in Hf; lia|unfold field_depths; lia].
    + apply past_blank; [exact H4|]. change (chars ",") with [44%N]. cbn. unfold digit. lia.
Qed.

Lemma reader_sound : forall fuel,
  (forall d s v r, read_value fuel d s = Some (v, r) -> 1 <= d ->
     exists b t, blanks b /\ json_text v t /\ s = b ++ t ++ r /\ json_depth v < d) /\
  (forall d s l r, read_elements fuel d s = Some (l, r) -> 1 <= d ->
     exists t, elements_text l t /\ s = t ++ chars "]" ++ r /\ depths l < d) /\
  (forall d s l r, read_members fuel d s = Some (l, r) -> 1 <= d ->
     exists t, members_text l t /\ s = t ++ chars "}" ++ r /\ field_depths l < d).
Proof.
  induction fuel as [|fuel (IHv & IHe & IHm)]; [repeat split; intros; discriminate|].
  repeat split.
  - intros d s v r H Hd. cbn [read_value] in H. destruct (skip_blanks_split s) as (b & Hb & Es).
    destruct (skip_blanks s) as [|c s1]; [discriminate H|].
    assert (D : forall t r', json_text v t -> c :: s1 = t ++ r' -> r' = r -> json_depth v < d ->
      exists b t, blanks b /\ json_text v t /\ s = b ++ t ++ r /\ json_depth v < d).
    { intros t r' Ht E -> Hv. exists b, t. rewrite <- E. repeat split; assumption. }
    destruct (N.eqb_spec c 110) as [->|N1].
    { apply obind_some in H as (r' & E & H). injection H as <- <-. apply strip_iff in E as ->.
      apply (D (chars "null") r'); [constructor|reflexivity|reflexivity|cbn; lia]. }
    destruct (N.eqb_spec c 116) as [->|N2].
    { apply obind_some in H as (r' & E & H). injection H as <- <-. apply strip_iff in E as ->.
      apply (D (chars "true") r'); [constructor|reflexivity|reflexivity|cbn; lia]. }
    destruct (N.eqb_spec c 102) as [->|N3].
    { apply obind_some in H as (r' & E & H). injection H as <- <-. apply strip_iff in E as ->.
      apply (D (chars "false") r'); [constructor|reflexivity|reflexivity|cbn; lia]. }
    destruct (N.eqb_spec c 34) as [->|N4].
    { apply obind_some in H as ([x r'] & E & H). injection H as <- <-. apply (read_string_sound (length s1)) in E as (u & Hu & ->); [|lia].
      apply (D (chars """" ++ u ++ chars """") r'); [constructor; exists u; split; [exact Hu|reflexivity]| |reflexivity|cbn; lia].
      change (chars """") with [34%N]. cbn [app]. rewrite <- app_assoc. reflexivity. }
    destruct (N.eqb_spec c 91) as [->|N5].
    { destruct d as [|[|d]]; try discriminate H. destruct (skip_blanks_split s1) as (b' & Hb' & Es').
      assert (G : (exists r', skip_blanks s1 = 93%N :: r' /\ Some (JArray [], r') = Some (v, r)) \/
        (let? (l, r) := read_elements fuel (S d) s1 in Some (JArray l, r)) = Some (v, r)).
      { destruct (skip_blanks s1) as [|x r']; [right; exact H|]. destruct (N.eq_dec x 93) as [->|Nx].
        - left. exists r'. split; [reflexivity|exact H].
        - right. rewrite <- H. clear -Nx. destruct x as [|p]; [reflexivity|]. do 7 (destruct p as [p|p|]; try reflexivity). contradiction. }
      destruct G as [(r' & E & G)|G].
      - injection G as <- <-. rewrite E in Es'.
        apply (D (chars "[" ++ b' ++ chars "]") r'); [constructor; exact Hb'| |reflexivity|cbn; lia].
        change (chars "[") with [91%N]. change (chars "]") with [93%N]. cbn [app]. rewrite Es' at 1. rewrite <- app_assoc. reflexivity.
      - apply obind_some in G as ([l r'] & E & G). injection G as <- <-. apply IHe in E as (t & Ht & -> & Hl); [|lia].
        apply (D (chars "[" ++ t ++ chars "]") r'); [constructor; exact Ht| |reflexivity|rewrite array_depth; lia].
        rewrite <- !app_assoc. reflexivity. }
    destruct (N.eqb_spec c 123) as [->|N6].
    { destruct d as [|[|d]]; try discriminate H. destruct (skip_blanks_split s1) as (b' & Hb' & Es').
      assert (G : (exists r', skip_blanks s1 = 125%N :: r' /\ Some (JObject [], r') = Some (v, r)) \/
        (let? (l, r) := read_members fuel (S d) s1 in Some (JObject l, r)) = Some (v, r)).
      { destruct (skip_blanks s1) as [|x r']; [right; exact H|]. destruct (N.eq_dec x 125) as [->|Nx].
        - left. exists r'. split; [reflexivity|exact H].
        - right. rewrite <- H. clear -Nx. destruct x as [|p]; [reflexivity|]. do 7 (destruct p as [p|p|]; try reflexivity). contradiction. }
      destruct G as [(r' & E & G)|G].
      - injection G as <- <-. rewrite E in Es'.
        apply (D (chars "{" ++ b' ++ chars "}") r'); [constructor; exact Hb'| |reflexivity|cbn; lia].
        change (chars "{") with [123%N]. change (chars "}") with [125%N]. cbn [app]. rewrite Es' at 1. rewrite <- app_assoc. reflexivity.
      - apply obind_some in G as ([l r'] & E & G). injection G as <- <-. apply IHm in E as (t & Ht & -> & Hl); [|lia].
        apply (D (chars "{" ++ t ++ chars "}") r'); [constructor; exact Ht| |reflexivity|rewrite object_depth; lia].
        rewrite <- !app_assoc. reflexivity. }
    apply obind_some in H as ([t r'] & E & H). injection H as <- <-. apply read_number_sound in E as (E & Ht).
    apply (D t r'); [constructor; exact Ht|exact E|reflexivity|cbn; lia].
  - intros d s l r H Hd. cbn [read_elements] in H. apply obind_some in H as ([v r1] & E & H).
    apply IHv in E as (b & t & Hb & Ht & -> & Hv); [|exact Hd]. destruct (skip_blanks_split r1) as (b' & Hb' & Er).
    destruct (skip_blanks r1) as [|x r2]; [discriminate H|]. destruct (N.eq_dec x 44) as [->|N1].
    + apply obind_some in H as ([l' r'] & E & H). injection H as <- <-. apply IHe in E as (t' & Ht' & -> & Hl); [|exact Hd].
      exists (b ++ t ++ b' ++ chars "," ++ t'). split; [constructor; assumption|]. split.
      * rewrite Er, <- !app_assoc. reflexivity.
      * cbn [depths fold_right]. unfold depths in Hl. lia.
    + destruct (N.eq_dec x 93) as [->|N2].
      * injection H as <- <-. exists (b ++ t ++ b'). split; [constructor; assumption|]. split.
        -- rewrite Er, <- !app_assoc. reflexivity.
        -- cbn [depths fold_right]. lia.
      * exfalso. clear -H N1 N2. destruct x as [|p]; [discriminate H|].
        repeat match goal with p : positive |- _ => destruct p as [p|p|]; try discriminate H end; contradiction.
  - intros d s l r H Hd. cbn [read_members] in H. destruct (skip_blanks_split s) as (b1 & H1 & Es).
    destruct (skip_blanks s) as [|x s1]; [discriminate H|].
    assert (x = 34%N) as ->.
    { destruct (N.eq_dec x 34) as [->|Nx]; [reflexivity|]. exfalso. clear -H Nx. destruct x as [|p]; [discriminate H|].
      repeat match goal with p : positive |- _ => destruct p as [p|p|]; try discriminate H end; contradiction. }
    apply obind_some in H as ([k s2] & E & H). apply (read_string_sound (length s1)) in E as (u & Hu & ->); [|lia].
    destruct (skip_blanks_split s2) as (b2 & H2 & Es2). destruct (skip_blanks s2) as [|x s3]; [discriminate H|].
    assert (x = 58%N) as ->.
    { destruct (N.eq_dec x 58) as [->|Nx]; [reflexivity|]. exfalso. clear -H Nx. destruct x as [|p]; [discriminate H|].
      repeat match goal with p : positive |- _ => destruct p as [p|p|]; try discriminate H end; contradiction. }
    apply obind_some in H as ([v r1] & E & H). apply IHv in E as (b3 & t & H3 & Ht & -> & Hv); [|exact Hd].
    destruct (skip_blanks_split r1) as (b4 & H4 & Er). destruct (skip_blanks r1) as [|x r2]; [discriminate H|].
    assert (Hk : string_text k (chars """" ++ u ++ chars """")) by (exists u; split; [exact Hu|reflexivity]).
    destruct (N.eq_dec x 44) as [->|N1].
    + apply obind_some in H as ([l' r'] & E & H). injection H as <- <-. apply IHm in E as (t' & Ht' & -> & Hl); [|exact Hd].
      exists (b1 ++ (chars """" ++ u ++ chars """") ++ b2 ++ chars ":" ++ b3 ++ t ++ b4 ++ chars "," ++ t').
      split; [constructor; assumption|]. split.
      * rewrite Es, Es2, Er, <- !app_assoc. reflexivity.
      * cbn [field_depths fold_right snd]. unfold field_depths in Hl. lia.
    + destruct (N.eq_dec x 125) as [->|N2].
      * injection H as <- <-. exists (b1 ++ (chars """" ++ u ++ chars """") ++ b2 ++ chars ":" ++ b3 ++ t ++ b4).
        split; [constructor; assumption|]. split.
        -- rewrite Es, Es2, Er, <- !app_assoc. reflexivity.
        -- cbn [field_depths fold_right snd]. lia.
      * exfalso. clear -H N1 N2. destruct x as [|p]; [discriminate H|].
        repeat match goal with p : positive |- _ => destruct p as [p|p|]; try discriminate H end; contradiction.
Qed.

Lemma json_reads : forall s v, json_from_str s = Some v <-> json_document v s /\ json_depth v < 128.
Proof.
  intros s v. unfold json_from_str, json_document. split.
  - intros H. apply obind_some in H as ([v' r] & E & H). destruct (skip_blanks r) eqn:Er; [|discriminate H]. injection H as ->.
    apply (proj1 (reader_sound _)) in E as (b & t & Hb & Ht & -> & Hd); [|lia]. apply skip_all_blanks in Er.
    split; [|exact Hd]. exists b, t, r. repeat split; assumption.
  - intros [(b & t & b' & Hb & Ht & Hb' & ->) Hd]. rewrite value_blanks by exact Hb.
    rewrite (proj1 reader_complete _ _ Ht); [|unfold json_fuel; rewrite !app_length; lia|exact Hd|].
    + cbn [obind]. apply skip_all_blanks in Hb'. rewrite Hb'. reflexivity.
    + rewrite <- (app_nil_r b'). apply past_blank; [exact Hb'|exact I].
Qed.
