(* How patterns are read, exactly (C80, C81): proofs of the statements of Thm/Reading.v *)
From Coq Require Import Lia ZifyN ZifyBool.
From Verif Require Export Proofs.PatternsClaims Proofs.Reading.

Lemma parse_reads : forall fuel s a, 51 <= fuel -> (parse_regex_pattern fuel s = Ret (Ok a) <-> pattern_read a s).
Proof.
  intros fuel s a Hf. unfold parse_regex_pattern, pattern_read. rewrite (expression_reads fuel 0 s a []) by lia. split.
  - intros E. destruct (expression fuel 0 s) as [b [|c r]| |e|]; try discriminate. injection E as ->.
    split; [reflexivity|left; reflexivity].
  - intros [-> _]. reflexivity.
Qed.

(* texts of brackets without backslashes and brackets *)
Definition plain_in_brackets (s : str) : Prop := forall c, In c s -> ~ In c (chars "\[]").
Lemma plain_not_class : forall i t x s r, ~ In x (chars "\[]") -> named_item i t -> x :: s <> t ++ r.
Proof.
  intros i t x s r Hx H E.
  assert (x = 92%N \/ x = 91%N) as [-> | ->].
  { destruct H as [p t H|u t H|k t H|k t H| | | |]; try (injection E as -> _; auto; fail).
    - destruct H; injection E as -> _; auto.
    - destruct u as [[] name], H as [_ ->]; injection E as -> _; auto. }
  - apply Hx. vm_compute. tauto.
  - apply Hx. vm_compute. tauto.
Qed.
Lemma plain_read : forall x s, ~ In x (chars "\[]") -> literal_read true x false (x :: s) s.
Proof.
  intros x s Hx. exists [x]. split; [|split; [reflexivity|]].
  - apply lt_plain. intros K. apply Hx. cbn in K |- *. tauto.
  - intros h E. discriminate E.
Qed.
Lemma plain_no_class : forall x s, ~ In x (chars "\[]") -> ~ class_ahead (x :: s).
Proof. intros x s Hx (i & t & r & Hi & E). exact (plain_not_class _ _ _ _ _ Hx Hi E). Qed.
Lemma digits_in_items : forall n s, length s <= n -> plain_in_brackets s -> (forall u, s <> u ++ chars "-") ->
  exists l, items_read l (s ++ chars "\d]") [] /\ In (BPerl PDigit) l.
Proof.
  induction n as [|n IH]; intros s Hn Hp Hd.
  - destruct s; [|simpl in Hn; lia]. exists ([BPerl PDigit] ++ []). split; [|left; reflexivity].
    apply (isr_item [BPerl PDigit] [] _ (chars "]")); [|apply (isr_end [])].
    apply (ir_class (BPerl PDigit) (chars "\d")). do 2 constructor.
  - destruct s as [|x s]; [apply (IH []); [simpl; lia|exact Hp|exact Hd]|].
    assert (Hx : ~ In x (chars "\[]")) by (apply Hp; left; reflexivity).
    assert (Hps : plain_in_brackets s) by (intros c Hc; apply Hp; right; exact Hc).
    assert (Hds : forall u, s <> u ++ chars "-").
    { intros u Eu. apply (Hd (x :: u)). cbn [app]. rewrite Eu. reflexivity. }
    assert (C : (exists s1, s = chars "-" ++ s1) \/ forall s1, s ++ chars "\d]" <> chars "-" ++ s1).
    { destruct s as [|y s]; [right; intros s1 E; discriminate E|]. destruct (N.eq_dec y 45) as [->|Hy].
      - left. exists s. reflexivity.
      - right. intros s1 E. injection E as E _. contradiction. }
    destruct C as [(s1 & ->)|C].
    + destruct s1 as [|z s1]; [exfalso; apply (Hds []); reflexivity|].
      assert (Hz : ~ In z (chars "\[]")) by (apply Hps; right; left; reflexivity).
      destruct (IH s1) as (l & Hl & Hin).
      * simpl in Hn. lia.
      * intros c Hc. apply Hps. right. right. exact Hc.
      * intros u Eu. apply (Hds (chars "-" ++ z :: u)). rewrite Eu. reflexivity.
      * exists ([BRange x z] ++ l). split; [|apply in_or_app; right; exact Hin].
        apply isr_item with (s' := s1 ++ chars "\d]"); [|exact Hl].
        eapply (ir_range x false z false _ (z :: s1 ++ chars "\d]")); [apply plain_no_class; exact Hx| |apply plain_read; exact Hz].
        apply (plain_read x (chars "-" ++ z :: s1 ++ chars "\d]")). exact Hx.
    + destruct (IH s) as (l & Hl & Hin); [simpl in Hn; lia|exact Hps|exact Hds|].
      exists ([BLiteral x] ++ l). split; [|apply in_or_app; right; exact Hin].
      apply isr_item with (s' := s ++ chars "\d]"); [|exact Hl].
      apply (ir_literal x false); [apply plain_no_class; exact Hx|apply plain_read; exact Hx|].
      intros s1 E. exfalso. exact (C s1 E).
Qed.
Lemma class_alone : forall c s, class_read c s [] -> pattern_read (AClass c) s.
Proof.
  intros c s H. apply (er_branches 0 [AClass c]); [lia|]. apply brr_last; [|left; reflexivity].
  apply (br_pieces 0 [AClass c]). apply psr_one; [|left; left; reflexivity]. apply pr_atom; [constructor; exact H|].
  intros q r (t & (u & Hu & ->) & E & _). destruct Hu; discriminate E.
Qed.

Lemma c80_read_lemma :
  forall fuel s a, 51 <= fuel -> (parse_regex_pattern fuel s = Ret (Ok a) <-> pattern_read a s).
Proof.
  exact parse_reads.
Qed.

Lemma c80_unique_lemma :
  forall s a, pattern_read a s -> expression_text a s /\ forall b, pattern_read b s -> b = a.
Proof.
  intros s a H. apply (parse_reads 51) in H; [|lia]. split; [exact (c54_grammar_lemma _ _ _ H)|].
  intros b Hb. apply (parse_reads 51) in Hb; [|lia]. congruence.
Qed.

Lemma c80_refused_lemma :
  forall fuel s, 51 <= fuel -> (forall a, ~ pattern_read a s) ->
  parse_regex_pattern fuel s = Ret (Err PInvalidSyntax) \/
  (parse_regex_pattern fuel s = Ret (Err PExceededDepthLimit) /\ 50 <= count_occ N.eq_dec s 40%N).
Proof.
  intros fuel s Hf H. unfold parse_regex_pattern. pose proof (quiet_expression fuel 0 ltac:(lia) ltac:(lia) s) as Q.
  pose proof (c54_depth_error_lemma fuel s Hf) as D. unfold parse_regex_pattern in D.
  destruct (expression fuel 0 s) as [a [|c r]| |e|] eqn:E; try (left; reflexivity).
  - exfalso. apply (H a). apply (parse_reads fuel); [exact Hf|]. unfold parse_regex_pattern. rewrite E. reflexivity.
  - destruct e; try (left; reflexivity); [right; split; [reflexivity|apply D; reflexivity]|]; exfalso; clear -Q; cbn in Q; intuition discriminate.
  - destruct Q.
Qed.

Lemma c81_refuted_lemma :
  ~ (forall s n items, (forall c, In c s -> ~ In c (chars "\[]")) ->
   parse_regex_pattern 51 (chars "[" ++ s ++ chars "\d]") = Ret (Ok (AClass (CBracket n items))) ->
   In (BPerl PDigit) items).
Proof.
  intros H. specialize (H (chars "+-") false [BRange 43 100]).
  assert (K : In (BPerl PDigit) [BRange 43 100]); [|destruct K as [K|[]]; discriminate K].
  apply H; [|vm_compute; reflexivity]. intros c Hc. vm_compute in Hc |- *. intuition (subst; discriminate).
Qed.

Lemma c81_class_lemma :
  forall s, (forall c, In c s -> ~ In c (chars "\[]")) -> (forall u, s <> u ++ chars "-") ->
  exists n items, parse_regex_pattern 51 (chars "[" ++ s ++ chars "\d]") = Ret (Ok (AClass (CBracket n items))) /\
  In (BPerl PDigit) items.
Proof.
  intros s Hp Hd.
  assert (B : forall r, plain_in_brackets r -> forall r', r ++ chars "\d]" <> chars "]" ++ r').
  { intros [|x r] Hr r' E; [discriminate E|]. injection E as -> _. apply (Hr 93%N); [left; reflexivity|vm_compute; tauto]. }
  assert (C : (exists r, s = chars "^" ++ r) \/ forall r, s ++ chars "\d]" <> chars "^" ++ r).
  { destruct s as [|x s]; [right; intros r E; discriminate E|]. destruct (N.eq_dec x 94) as [->|Hx].
    - left. exists s. reflexivity.
    - right. intros r E. injection E as E _. contradiction. }
  destruct C as [(r & ->)|C].
  - assert (Hr : plain_in_brackets r) by (intros c Hc; apply Hp; right; exact Hc).
    destruct (digits_in_items (length r) r) as (l & Hl & Hin); [lia|exact Hr| |].
    { intros u Eu. apply (Hd (chars "^" ++ u)). rewrite Eu. reflexivity. }
    exists true, l. split; [|exact Hin]. apply parse_reads; [lia|]. apply class_alone.
    apply (cr_bracket true l (r ++ chars "\d]")); [apply B; exact Hr|discriminate| |exact Hl].
    intros ->. destruct Hin.
  - destruct (digits_in_items (length s) s) as (l & Hl & Hin); [lia|exact Hp|exact Hd|].
    exists false, l. split; [|exact Hin]. apply parse_reads; [lia|]. apply class_alone.
    apply (cr_bracket false l (s ++ chars "\d]")); [apply B; exact Hp|intros _; exact C| |exact Hl].
    intros ->. destruct Hin.
Qed.

