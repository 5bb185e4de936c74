(* What the parsers below [expression] read, exactly: numbers, escapes, literals,
   quantifiers, flags, names and quoted texts *)
From Coq Require Import Lia ZifyN ZifyBool.
From Verif Require Import Proofs.Text.
From Verif Require Export Proofs.Grammar Spec.Reading.

(* ---- running ---- *)
Lemma tag_err : forall t s, (forall r, s <> t ++ r) -> tag t s = PErr.
Proof.
  intros t s H. pose proof (calm_tag t s) as K. destruct (tag t s) as [u r| |e|] eqn:E; simpl in K; auto.
  - apply tag_ok in E. subst. exfalso. eapply H. reflexivity.
  - exfalso. eapply tag_fail; eauto.
  - destruct K.
Qed.
Lemma tag_not : forall t s, tag t s = PErr -> forall r, s <> t ++ r.
Proof. intros t s H r ->. rewrite tag_app in H. discriminate. Qed.
(* a parser that never fails for good *)
Definition mild {A} (p : str -> presult A) : Prop := forall s, match p s with PFail _ | PStuck => False | _ => True end.
Lemma mild_tag : forall t, mild (tag t).
Proof. intros t s. destruct (tag t s) eqn:E; auto; [eapply tag_fail|eapply tag_stuck]; eauto. Qed.
Lemma mild_bind : forall A B (p : str -> presult A) (q : A -> str -> presult B), mild p -> (forall a, mild (q a)) ->
  mild (fun s => pbind (p s) q).
Proof. intros A B p q Hp Hq s. specialize (Hp s). destruct (p s); simpl; auto. apply Hq. Qed.
Lemma mild_ret : forall A (a : A), mild (fun s => POk a s).
Proof. intros A a s. exact I. Qed.
Lemma mild_pmap : forall A B (f : A -> B) p, mild p -> mild (pmap f p).
Proof. intros. apply mild_bind; auto. intros a. apply mild_ret. Qed.
Lemma mild_alt : forall A (ps : list (str -> presult A)), Forall mild ps -> mild (alt ps).
Proof.
  intros A ps H s. induction H as [|p ps Hp _ IH]; simpl; auto. specialize (Hp s). destruct (p s); auto; contradiction.
Qed.
Lemma mild_opt : forall A (p : str -> presult A), mild p -> mild (opt p).
Proof. intros A p H s. specialize (H s). unfold opt. destruct (p s); auto; contradiction. Qed.
Lemma mild_integer : mild integer.
Proof.
  intros s. unfold integer, digit1. destruct (digit0 s) as [[|c d] r]; simpl; auto. destruct (u32_from_str _); auto.
Qed.
Lemma mild_one_of : forall cs, mild (one_of cs).
Proof. intros cs [|c s]; simpl; auto. destruct (existsb _ cs); auto. Qed.
Lemma mild_none_of : forall cs, mild (none_of cs).
Proof. intros cs [|c s]; simpl; auto. destruct (existsb _ cs); auto. Qed.
Lemma mild_take_until : forall t, mild (take_until t).
Proof.
  intros t s. induction s as [|c s IH]; simpl.
  - pose proof (mild_tag t []). destruct (tag t []); auto.
  - pose proof (mild_tag t (c :: s)) as H. destruct (tag t (c :: s)); auto; destruct (take_until t s); simpl; auto.
Qed.
Lemma mild_many0 : forall A (p : str -> presult A), mild p -> shrinks p -> mild (many0 p).
Proof.
  intros A p Hp Hs s. unfold many0. assert (Hl : length s < S (length s)) by lia. revert Hl.
  generalize (S (length s)) as fuel. intros fuel. revert s. induction fuel as [|fuel IH]; intros s Hl; [lia|].
  simpl. pose proof (Hp s) as H. destruct (p s) as [a s1| |e|] eqn:E1; auto.
  destruct (Nat.eqb_spec (length s1) (length s)) as [|Hne]; [exact I|].
  destruct (Hs _ _ _ E1) as (t & ->). rewrite app_length in *. specialize (IH s1 ltac:(lia)).
  destruct (many0_loop fuel p s1); simpl; auto.
Qed.
Ltac mild := repeat first
  [ assumption | apply mild_ret | apply mild_tag | apply mild_one_of | apply mild_none_of
  | apply mild_take_until | apply mild_integer
  | apply mild_bind; [|intros ?] | apply mild_pmap | apply mild_alt; repeat apply Forall_cons; try apply Forall_nil
  | apply mild_opt ].

(* [many0] runs its parser as long as it can *)
Inductive run {A} (p : str -> presult A) : list A -> str -> str -> Prop :=
| run_end : forall s, p s = PErr -> run p [] s s
| run_step : forall a l s s1 rest, p s = POk a s1 -> length s1 < length s -> run p l s1 rest -> run p (a :: l) s rest.
Lemma run_many0_loop : forall A (p : str -> presult A) l s rest, run p l s rest ->
  forall fuel, length s < fuel -> many0_loop fuel p s = POk l rest.
Proof.
  induction 1 as [s H|a l s s1 rest H Hl _ IH]; intros [|fuel] Hf; try lia; simpl; rewrite H; auto.
  destruct (Nat.eqb_spec (length s1) (length s)); [lia|]. rewrite IH by lia. reflexivity.
Qed.
Lemma run_many0 : forall A (p : str -> presult A) l s rest, run p l s rest -> many0 p s = POk l rest.
Proof. intros. eapply run_many0_loop; eauto. Qed.
Lemma many0_run : forall A (p : str -> presult A) s l rest, shrinks p -> many0 p s = POk l rest -> run p l s rest.
Proof.
  intros A p s l rest Hs. unfold many0. generalize (S (length s)) as fuel. intros fuel. revert s l rest.
  induction fuel as [|fuel IH]; intros s l rest E; simpl in E; [discriminate|].
  destruct (p s) as [a s1| |e|] eqn:E1; try discriminate.
  - destruct (Nat.eqb_spec (length s1) (length s)) as [|Hne]; [discriminate|].
    apply pbind_ok in E as (l' & r & E2 & E). injection E as <- <-.
    destruct (Hs _ _ _ E1) as (t & ->). apply run_step with (s1 := s1); auto. rewrite app_length in *. lia.
  - injection E as <- <-. constructor. exact E1.
Qed.
(* a run over single characters *)
Lemma run_chars : forall A (p : str -> presult A) l t rest, length l = length t ->
  (forall i a c, nth_error l i = Some a -> nth_error t i = Some c -> forall r, p (c :: r) = POk a r) ->
  p rest = PErr -> run p l (t ++ rest) rest.
Proof.
  intros A p l t rest. revert t. induction l as [|a l IH]; intros [|c t] Hl H He; try discriminate; simpl.
  - constructor. exact He.
  - apply run_step with (s1 := t ++ rest).
    + apply (H 0 a c); reflexivity.
    + simpl. lia.
    + apply IH; auto. intros i b d H1 H2. apply (H (S i) b d); auto.
Qed.

Lemma one_of_in : forall cs c s, In c cs -> one_of cs (c :: s) = POk c s.
Proof.
  intros cs c s H. simpl. replace (existsb (N.eqb c) cs) with true; auto. symmetry. apply existsb_exists.
  exists c. split; auto. apply N.eqb_refl.
Qed.
Lemma one_of_out : forall cs s, (forall c r, s = c :: r -> ~ In c cs) -> one_of cs s = PErr.
Proof.
  intros cs [|c s] H; simpl; auto. destruct (existsb (N.eqb c) cs) eqn:E; auto.
  apply existsb_exists in E as (d & Hd & E). apply N.eqb_eq in E. subst d. exfalso. eapply H; eauto.
Qed.
Lemma none_of_out : forall cs c s, ~ In c cs -> none_of cs (c :: s) = POk c s.
Proof.
  intros cs c s H. simpl. destruct (existsb (N.eqb c) cs) eqn:E; auto.
  apply existsb_exists in E as (d & Hd & E). apply N.eqb_eq in E. subst d. contradiction.
Qed.
Lemma none_of_in : forall cs c s, In c cs -> none_of cs (c :: s) = PErr.
Proof.
  intros cs c s H. simpl. replace (existsb (N.eqb c) cs) with true; auto. symmetry. apply existsb_exists.
  exists c. split; auto. apply N.eqb_refl.
Qed.

(* ---- numbers ---- *)
Lemma digit0_all : forall d rest, (forall c, In c d -> is_digit c) -> (forall c r, rest = c :: r -> ~ is_digit c) ->
  digit0 (d ++ rest) = (d, rest).
Proof.
  induction d as [|c d IH]; intros rest Hd Hr; simpl.
  - destruct rest as [|c r]; auto. simpl. pose proof (Hr c r eq_refl) as H. unfold is_ascii_digit, in_range.
    unfold is_digit in H. destruct (_ && _) eqn:E; auto. apply andb_true_iff in E as [A B]. apply N.leb_le in A, B. tauto.
  - pose proof (Hd c (or_introl eq_refl)) as H. unfold is_digit in H. unfold is_ascii_digit, in_range.
    replace ((48 <=? c) && (c <=? 57))%N%bool with true
      by (symmetry; apply andb_true_iff; split; apply N.leb_le; lia).
    rewrite IH; auto. intros e He. apply Hd. right. exact He.
Qed.
Lemma integer_reads : forall d n rest, number_text d n -> (forall c r, rest = c :: r -> ~ is_digit c) ->
  integer (d ++ rest) = POk n rest.
Proof.
  intros d n rest (Hne & Hd & Hv & Hn) Hr. unfold integer, digit1. rewrite digit0_all by auto.
  destruct d as [|c d]; [congruence|]. cbn [pbind]. unfold u32_from_str.
  assert (E : fold_left (fun n c => (n * 10 + (c - 48))%N) (c :: d) 0%N = n) by (rewrite <- Hv; reflexivity).
  rewrite E. unfold u32_max, two32 in *. destruct (N.leb_spec n 4294967295); [reflexivity|lia].
Qed.
Lemma integer_sound : forall s n rest, integer s = POk n rest -> exists d, s = d ++ rest /\ number_text d n.
Proof. exact psound_integer. Qed.
Lemma number_digit : forall d n, number_text d n -> exists c r, d = c :: r /\ is_digit c.
Proof. intros [|c d] n (H & K & _); [congruence|]. exists c, d. split; auto. apply K. left. reflexivity. Qed.

(* ---- quantifiers ---- *)
Lemma not_digit : forall x (s : str), ~ is_digit x -> forall c r, x :: s = c :: r -> ~ is_digit c.
Proof. intros x s H c r E. injection E as <- _. exact H. Qed.
Lemma kind_reads : forall k t rest, kind_written k t ->
  alt [pmap (fun _ => ZeroOrMore) (tag (chars "*"));
              pmap (fun _ => OneOrMore) (tag (chars "+"));
              pmap (fun _ => ZeroOrOne) (tag (chars "?"));
              quantifier_range_exact; quantifier_range_min_max; quantifier_range_min] (t ++ rest) = POk k rest.
Proof.
  intros k t rest H. destruct H as [| | |d n H|d n H|d n e m H K]; try reflexivity.
  - rewrite <- !app_assoc. change (chars "{" ++ d ++ chars "}" ++ rest) with (123%N :: d ++ 125%N :: rest).
    cbv -[integer app].
    rewrite (integer_reads d n (125%N :: rest) H) by (apply not_digit; unfold is_digit; lia). reflexivity.
  - rewrite <- !app_assoc. change (chars "{" ++ d ++ chars ",}" ++ rest) with (123%N :: d ++ 44%N :: 125%N :: rest).
    cbv -[integer app].
    rewrite (integer_reads d n (44%N :: 125%N :: rest) H) by (apply not_digit; unfold is_digit; lia). reflexivity.
  - rewrite <- !app_assoc.
    change (chars "{" ++ d ++ chars "," ++ e ++ chars "}" ++ rest) with (123%N :: d ++ 44%N :: e ++ 125%N :: rest).
    cbv -[integer app].
    rewrite (integer_reads d n (44%N :: e ++ 125%N :: rest) H) by (apply not_digit; unfold is_digit; lia).
    rewrite (integer_reads e m (125%N :: rest) K) by (apply not_digit; unfold is_digit; lia). reflexivity.
Qed.
Lemma mild_quantifier : mild parse_quantifier.
Proof. unfold parse_quantifier, quantifier_range_exact, quantifier_range_min_max, quantifier_range_min. mild. Qed.
Lemma quantifier_reads : forall q s rest, quantifier_read q s rest <-> parse_quantifier s = POk q rest.
Proof.
  intros [lazy k] s rest. split.
  - intros (t & (u & Hu & ->) & -> & Hl). cbn [q_kind q_lazy] in *. rewrite <- app_assoc. unfold parse_quantifier.
    rewrite (kind_reads _ _ _ Hu). cbn [pbind]. destruct lazy.
    + reflexivity.
    + cbn [app]. unfold opt. rewrite tag_err by (apply Hl; reflexivity). reflexivity.
  - intros E. destruct (psound_quantifier _ _ _ E) as (t & -> & u & Hu & ->). cbn [q_kind q_lazy] in *.
    eexists. split; [exists u; split; [exact Hu|reflexivity]|]. cbn [q_lazy]. split; [reflexivity|].
    intros -> r ->. rewrite app_nil_r in E. unfold parse_quantifier in E. rewrite (kind_reads _ _ _ Hu) in E.
    discriminate E.
Qed.
Lemma quantifier_none : forall s, parse_quantifier s = PErr <-> forall q r, ~ quantifier_read q s r.
Proof.
  intros s. split.
  - intros E q r H. apply quantifier_reads in H. congruence.
  - intros H. pose proof (mild_quantifier s) as K. destruct (parse_quantifier s) as [q r| |e|] eqn:E; auto; try contradiction.
    exfalso. apply (H q r). apply quantifier_reads. exact E.
Qed.

(* a parser that only reads certain texts stops where none of them begins *)
Lemma err_of_sound : forall A (R : A -> str -> Prop) p s, psound R p -> mild p ->
  (forall a t r, R a t -> s <> t ++ r) -> p s = PErr.
Proof.
  intros A R p s Hp Hm H. specialize (Hm s). destruct (p s) as [a r| |e|] eqn:E; auto; try contradiction.
  destruct (Hp _ _ _ E) as (t & -> & Ht). exfalso. eapply H; eauto.
Qed.
Lemma small_cases : forall P : N -> bool, forallb P (map N.of_nat (seq 0 128)) = true ->
  forall c, (c < 128)%N -> P c = true.
Proof.
  intros P H c Hc. rewrite forallb_forall in H. apply H. rewrite <- (N2Nat.id c). apply in_map. apply in_seq. lia.
Qed.
Lemma in_of_existsb : forall (c : N) l, existsb (N.eqb c) l = true -> In c l.
Proof. intros c l H. apply existsb_exists in H as (d & Hd & E). apply N.eqb_eq in E. subst. exact Hd. Qed.

(* ---- flags ---- *)
Lemma flag_reads : forall f c r, flag_char f c -> parse_flag (c :: r) = POk f r.
Proof. intros f c r []; reflexivity. Qed.
Lemma mild_flag : mild parse_flag.
Proof. unfold parse_flag. mild. Qed.
Lemma flag_none : forall s, (forall f c r, flag_char f c -> s <> c :: r) -> parse_flag s = PErr.
Proof.
  intros s H. eapply err_of_sound; [exact psound_flag|exact mild_flag|]. intros f t r (c & -> & Hc). apply (H f c r Hc).
Qed.
Lemma flags_run : forall l t rest, Forall2 flag_char l t -> (forall f c r, flag_char f c -> rest <> c :: r) ->
  many0 parse_flag (t ++ rest) = POk l rest.
Proof.
  intros l t rest H Hr. apply run_many0. induction H as [|f c l t Hf _ IH]; simpl.
  - constructor. apply flag_none. exact Hr.
  - apply run_step with (s1 := t ++ rest); auto. apply flag_reads; auto.
Qed.
Definition ends_flags (s : str) : Prop := exists r, s = chars ")" ++ r \/ s = chars ":" ++ r.
Lemma flags_reads : forall f t rest, flags_text f t -> ends_flags rest -> parse_flags (t ++ rest) = POk f rest.
Proof.
  intros f t rest H He.
  assert (Hr : forall f c r, flag_char f c -> rest <> c :: r).
  { intros g c r Hc ->. destruct He as (r' & [E|E]); injection E as -> _; inversion Hc. }
  unfold parse_flags. destruct H as [a t H|a t b u H K].
  - rewrite (flags_run _ _ _ H Hr). cbn [pbind]. unfold opt.
    rewrite (tag_err (chars "-") rest); [reflexivity|].
    intros r ->. destruct He as (r' & [E|E]); discriminate E.
  - rewrite <- !app_assoc. rewrite (flags_run a t (chars "-" ++ u ++ rest) H).
    + cbn [pbind]. unfold opt. rewrite tag_app. cbn [pbind]. rewrite (flags_run _ _ _ K Hr). reflexivity.
    + intros g c r Hc E. injection E as E _. subst c. inversion Hc.
Qed.
Lemma mild_flags : mild parse_flags.
Proof.
  assert (shrinks parse_flag) by (eapply sound_shrinks, psound_flag).
  assert (mild (many0 parse_flag)) by (apply mild_many0; [exact mild_flag|assumption]).
  unfold parse_flags. mild.
Qed.
Lemma mild_flags_expression : mild flags_expression.
Proof. pose proof mild_flags. unfold flags_expression. mild. Qed.

(* ---- names of groups ---- *)
Lemma letters_in : forall c, letter_or_underscore c -> In c ascii_letters_with_underscore.
Proof.
  intros c H. apply in_of_existsb.
  assert (K : implb ((65 <=? c) && (c <=? 90) || (97 <=? c) && (c <=? 122) || (c =? 95))%N
    (existsb (N.eqb c) ascii_letters_with_underscore) = true).
  { apply (small_cases (fun c => implb ((65 <=? c) && (c <=? 90) || (97 <=? c) && (c <=? 122) || (c =? 95))%N
      (existsb (N.eqb c) ascii_letters_with_underscore))); [vm_compute; reflexivity|]. unfold letter_or_underscore in H. lia. }
  replace ((65 <=? c) && (c <=? 90) || (97 <=? c) && (c <=? 122) || (c =? 95))%N with true in K; [exact K|].
  symmetry. unfold letter_or_underscore in H. lia.
Qed.
Lemma alphanumerics_in : forall c, letter_or_underscore c \/ is_digit c -> In c ascii_alphanumeric_with_underscore.
Proof.
  intros c H. apply in_of_existsb. unfold letter_or_underscore, is_digit in H.
  assert (K : implb ((65 <=? c) && (c <=? 90) || (97 <=? c) && (c <=? 122) || (c =? 95) || (48 <=? c) && (c <=? 57))%N
    (existsb (N.eqb c) ascii_alphanumeric_with_underscore) = true).
  { apply (small_cases (fun c => implb ((65 <=? c) && (c <=? 90) || (97 <=? c) && (c <=? 122) || (c =? 95) || (48 <=? c) && (c <=? 57))%N
      (existsb (N.eqb c) ascii_alphanumeric_with_underscore))); [vm_compute; reflexivity|]. lia. }
  replace ((65 <=? c) && (c <=? 90) || (97 <=? c) && (c <=? 122) || (c =? 95) || (48 <=? c) && (c <=? 57))%N with true in K; [exact K|].
  symmetry. lia.
Qed.
Lemma chars_run : forall cs t rest, (forall c, In c t -> In c cs) -> (forall c r, rest = c :: r -> ~ In c cs) ->
  many0 (one_of cs) (t ++ rest) = POk t rest.
Proof.
  intros cs t rest Ht Hr. apply run_many0. induction t as [|c t IH]; simpl.
  - constructor. apply one_of_out. exact Hr.
  - apply run_step with (s1 := t ++ rest); auto; [|apply IH; intros; apply Ht; right; auto].
    apply one_of_in. apply Ht. left. reflexivity.
Qed.
Lemma name_reads : forall n x rest, name_text n -> (x = 62 \/ x = 39)%N ->
  capture_group_name (n ++ x :: rest) = POk n (x :: rest).
Proof.
  intros n x rest (c & l & -> & Hc & Hl) Hx. unfold capture_group_name. cbn [app].
  rewrite one_of_in by (apply letters_in; exact Hc). cbn [pbind]. rewrite (chars_run _ l (x :: rest)).
  - reflexivity.
  - intros d Hd. apply alphanumerics_in. auto.
  - intros d r E. injection E as <- _. intros Hin. apply alphanumerics_are in Hin.
    unfold letter_or_underscore, is_digit in Hin. lia.
Qed.

(* ---- quoted texts ---- *)
Lemma no_end_tail : forall c l, no_end (c :: l) -> no_end l.
Proof. intros c l H a b E. specialize (H (c :: a) b). simpl in H. rewrite E in H. specialize (H eq_refl). congruence. Qed.
Lemma until_end : forall l rest, no_end l -> take_until (chars "\E") (l ++ chars "\E" ++ rest) = POk l (chars "\E" ++ rest).
Proof.
  induction l as [|c l IH]; intros rest H.
  - reflexivity.
  - cbn [app take_until]. assert (E : tag (chars "\E") (c :: l ++ chars "\E" ++ rest) = PErr).
    { apply tag_err. intros r E. injection E as E1 E2. destruct l as [|d l]; [discriminate E2|].
      injection E2 as E2 _. subst c d. specialize (H [] (l ++ chars "\E")). discriminate H. reflexivity. }
    rewrite E. rewrite (IH rest (no_end_tail _ _ H)). reflexivity.
Qed.
Lemma quoted_reads : forall l rest, no_end l ->
  quoted_literals (chars "\Q" ++ l ++ chars "\E" ++ rest) = POk l rest.
Proof.
  intros l rest H. unfold quoted_literals. rewrite tag_app. cbn [pbind]. rewrite until_end by exact H. cbn [pbind].
  rewrite tag_app. reflexivity.
Qed.
Lemma mild_quoted : mild quoted_literals.
Proof. unfold quoted_literals. mild. Qed.

(* ---- classes ---- *)
Lemma perl_reads : forall p t rest, perl_text p t -> perl_character_class (t ++ rest) = POk p rest.
Proof. intros p t rest []; reflexivity. Qed.
Lemma mild_perl : mild perl_character_class.
Proof. unfold perl_character_class. mild. Qed.
Lemma assertion_reads : forall a t rest, assertion_text a t -> assertion (t ++ rest) = POk a rest.
Proof. intros a t rest []; reflexivity. Qed.
Lemma mild_assertion : mild assertion.
Proof. unfold assertion. mild. Qed.
Lemma property_letters : forall n, In n unicode_property_names -> forall c, In c n -> In c ascii_letters_with_underscore.
Proof.
  assert (H : forallb (forallb (fun c => existsb (N.eqb c) ascii_letters_with_underscore)) unicode_property_names = true)
    by (vm_compute; reflexivity).
  intros n Hn c Hc. rewrite forallb_forall in H. specialize (H n Hn). rewrite forallb_forall in H.
  apply in_of_existsb. apply H. exact Hc.
Qed.
Lemma property_name_reads : forall n rest, In n unicode_property_names ->
  unicode_property_name (n ++ chars "}" ++ rest) = POk n (chars "}" ++ rest).
Proof.
  intros n rest H. unfold unicode_property_name. rewrite (chars_run _ n).
  - cbn [pbind]. replace (existsb (fun m => str_eqb m n) unicode_property_names) with true; [reflexivity|].
    symmetry. apply existsb_exists. exists n. split; auto. apply str_eqb_eq. reflexivity.
  - apply property_letters. exact H.
  - intros c r E. injection E as <- _. intros K. apply letters_are in K. unfold letter_or_underscore in K. 
    change (N.of_nat (Pos.to_nat 125)) with 125%N in K. lia.
Qed.
Lemma property_reads : forall u t rest, unicode_text u t -> unicode_property_class (t ++ rest) = POk u rest.
Proof.
  intros [n name] t rest [Hn ->]. apply property_name_in in Hn. cbn [up_negate up_name] in *. rewrite <- !app_assoc. unfold unicode_property_class.
  destruct n; cbn [alt].
  - rewrite (tag_err (chars "\p{")) by (intros r E; discriminate E). cbn [pbind]. rewrite tag_app. cbn [pbind].
    rewrite (property_name_reads _ _ Hn). reflexivity.
  - rewrite tag_app. cbn [pbind]. rewrite (property_name_reads _ _ Hn). reflexivity.
Qed.
Lemma mild_property : mild unicode_property_class.
Proof.
  assert (mild unicode_property_name).
  { unfold unicode_property_name. apply mild_bind; [apply mild_many0; [apply mild_one_of|apply one_of_shrinks]|].
    intros a s. destruct (existsb _ _); exact I. }
  unfold unicode_property_class. mild.
Qed.
Lemma ascii_reads : forall k t rest, ascii_text k t ->
  ascii_class (chars "[:" ++ t ++ chars ":]" ++ rest) = POk (BAscii false k) rest /\
  ascii_class (chars "[:^" ++ t ++ chars ":]" ++ rest) = POk (BAscii true k) rest.
Proof. intros k t rest []; split; reflexivity. Qed.
Lemma mild_ascii : mild ascii_class.
Proof. unfold ascii_class. mild. Qed.
