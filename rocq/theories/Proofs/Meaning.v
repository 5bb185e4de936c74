(* The conversion keeps the meaning of faithful patterns. *)
From Verif Require Import Proofs.Pattern Proofs.RereadFlags Proofs.Reread Proofs.RereadBody.
From Verif Require Import Spec.RegexMeaning Model.RegexSyntax.
From Coq Require Import Lia ZifyN ZifyBool.

(* ---- equality of meanings ---- *)
Lemma same_refl : forall A, same_meaning A A.
Proof. intros A i t j. tauto. Qed.
Lemma same_sym : forall A B, same_meaning A B -> same_meaning B A.
Proof. intros A B H i t j. symmetry. apply H. Qed.
Lemma same_trans : forall A B C, same_meaning A B -> same_meaning B C -> same_meaning A C.
Proof. intros A B C H1 H2 i t j. rewrite (H1 i t j). apply H2. Qed.
Lemma one_ext : forall text (P Q : char -> Prop), (forall c, P c <-> Q c) -> same_meaning (one text P) (one text Q).
Proof.
  intros text P Q H i t j. unfold one. split; intros (H1 & H2 & c & H3 & H4); (split; [exact H1|split; [exact H2|]]);
    exists c; (split; [exact H3|apply H; exact H4]).
Qed.
Lemma here_ext : forall (P Q : nat -> Prop), (forall i, P i <-> Q i) -> same_meaning (here P) (here Q).
Proof. intros P Q H i t j. unfold here. rewrite (H i). tauto. Qed.
Lemma andthen_ext : forall A B C D, same_meaning A B -> same_meaning C D -> same_meaning (andthen A C) (andthen B D).
Proof.
  intros A B C D H1 H2 i t j. unfold andthen. split; intros (k & t1 & t2 & K1 & K2 & K3); exists k, t1, t2;
    (split; [apply H1; exact K1|split; [apply H2; exact K2|exact K3]]).
Qed.
Lemma andthen_nothing_l : forall A, same_meaning (andthen nothing A) A.
Proof.
  intros A i t j. unfold andthen, nothing, here. split.
  - intros (k & t1 & t2 & (-> & -> & _) & H & ->). exact H.
  - intros H. exists i, [], t. auto.
Qed.
Lemma andthen_nothing_r : forall A, same_meaning (andthen A nothing) A.
Proof.
  intros A i t j. unfold andthen, nothing, here. split.
  - intros (k & t1 & t2 & H & (-> & -> & _) & ->). rewrite app_nil_r. exact H.
  - intros H. exists j, t, []. rewrite app_nil_r. auto.
Qed.
Lemma andthen_assoc : forall A B C, same_meaning (andthen (andthen A B) C) (andthen A (andthen B C)).
Proof.
  intros A B C i t j. unfold andthen. split.
  - intros (k & t1 & t2 & (k' & u1 & u2 & H1 & H2 & ->) & H3 & ->). exists k', u1, (u2 ++ t2).
    split; [exact H1|]. split; [|rewrite app_assoc; reflexivity]. exists k, u2, t2. auto.
  - intros (k & t1 & t2 & H1 & (k' & u1 & u2 & H2 & H3 & ->) & ->). exists k', (t1 ++ u1), u2.
    split; [|split; [exact H3|rewrite app_assoc; reflexivity]]. exists k, t1, u1. auto.
Qed.
Lemma times_mono : forall (A B : meaning) g lo hi i t j, (forall i t j, A i t j -> B i t j) ->
  times A g lo hi i t j -> times B g lo hi i t j.
Proof. intros A B g lo hi i t j H T. induction T; econstructor; eauto. Qed.
Lemma times_ext : forall A B g lo hi, same_meaning A B -> same_meaning (times A g lo hi) (times B g lo hi).
Proof. intros A B g lo hi H i t j. split; apply times_mono; intros; apply H; auto. Qed.

(* ---- sets of characters ---- *)
Lemma any_case_ext : forall E i P Q c, (forall c, P c <-> Q c) -> any_case E i P c <-> any_case E i Q c.
Proof.
  intros E i P Q c H. unfold any_case. rewrite (H c). split; (intros [K|[K (d & K1 & K2)]]; [auto|right; split; auto]);
    exists d; (split; [apply H; exact K1|exact K2]).
Qed.
Lemma flip_ext : forall n (P Q : Prop), (P <-> Q) -> flip_if n P <-> flip_if n Q.
Proof. intros [] P Q H; simpl; tauto. Qed.
Definition closed_case (E : env) (i : bool) (P : char -> Prop) : Prop :=
  i = true -> forall c d, same_letter E c d -> P d -> P c.
Lemma any_case_closed : forall E i P c, closed_case E i P -> any_case E i P c <-> P c.
Proof.
  intros E i P c H. unfold any_case. split; [|auto]. intros [K|[-> (d & K1 & K2)]]; [exact K|]. eapply H; eauto.
Qed.
Lemma any_case_is_closed : forall E i P, plain_env E -> closed_case E i (any_case E i P).
Proof.
  intros E i P (_ & _ & HT & _) -> c d L [H|[_ (e & H1 & H2)]]; right; (split; [reflexivity|]).
  - exists d. auto.
  - exists e. split; [exact H1|]. eapply HT; eauto.
Qed.
Lemma closed_not : forall E i P, plain_env E -> closed_case E i P -> closed_case E i (fun c => ~ P c).
Proof. intros E i P (_ & HS & _) H Hi c d L K K'. apply K. eapply H; eauto. Qed.
Lemma closed_flip : forall E i n P, plain_env E -> closed_case E i P -> closed_case E i (fun c => flip_if n (P c)).
Proof. intros E i [] P HE H; simpl; [apply closed_not; auto|exact H]. Qed.
Lemma closed_low : forall E i (P : char -> Prop), plain_env E -> (forall c, P c -> (c <= 64)%N) -> closed_case E i P.
Proof.
  intros E i P (_ & HS & _ & HL) H Hi c d L K. assert (d = c) by (apply HL; [apply HS; exact L|apply H; exact K]). subst. exact K.
Qed.
Lemma closed_ext : forall E i P Q, (forall c, P c <-> Q c) -> closed_case E i P -> closed_case E i Q.
Proof. intros E i P Q H K Hi c d L HQ. apply H. apply (K Hi c d L). apply H. exact HQ. Qed.

Fixpoint some_item (E : env) (i : bool) (l : list class_item) (c : char) : Prop :=
  match l with [] => False | it :: l' => in_class_item E i it c \/ some_item E i l' c end.
Lemma bracketed_unfold : forall E i n l c,
  in_class_item E i (KBracketed n l) c <-> flip_if n (any_case E i (some_item E i l) c).
Proof.
  intros E i n l c. cbn [in_class_item]. apply flip_ext, any_case_ext. clear c.
  induction l as [|it l IH]; intros c; [reflexivity|]. cbn [some_item]. rewrite <- IH. reflexivity.
Qed.

(* the classes made of literals and ranges *)
Lemma low_bracket : forall E i n l (P : char -> Prop), plain_env E -> closed_case E i P ->
  (forall c, some_item E i l c <-> P c) -> forall c, in_class_item E i (KBracketed n l) c <-> flip_if n (P c).
Proof.
  intros E i n l P HE HP H c. rewrite bracketed_unfold. apply flip_ext.
  rewrite (any_case_ext E i _ P c H). apply any_case_closed. exact HP.
Qed.
Lemma case_low : forall E i (P : char -> Prop) c, plain_env E -> (forall c, P c -> (c <= 64)%N) -> any_case E i P c <-> P c.
Proof. intros. apply any_case_closed, closed_low; auto. Qed.

Definition digits (c : char) : Prop := (48 <= c <= 57)%N.
Definition spaces (c : char) : Prop := (c = 32 \/ 9 <= c <= 13)%N.
Lemma digit_items : forall E i c, plain_env E -> some_item E i perl_class_digit c <-> digits c.
Proof.
  intros E i c HE. unfold digits. cbn -[any_case]. rewrite case_low; [tauto|exact HE|]. intros. lia.
Qed.
Lemma eq_case : forall E i d c, plain_env E -> (d <= 64)%N -> any_case E i (eq d) c <-> d = c.
Proof. intros E i d c HE Hd. apply case_low; [exact HE|]. intros ? <-. exact Hd. Qed.
Lemma space_items : forall E i c, plain_env E -> some_item E i perl_class_space c <-> spaces c.
Proof. intros E i c HE. unfold spaces. cbn -[any_case]. rewrite !eq_case by (auto; lia). lia. Qed.
Lemma horizontal_items : forall E i c, plain_env E -> some_item E i horizontal_whitespace c <-> horizontal c.
Proof. intros E i c HE. unfold horizontal. cbn -[any_case]. rewrite !eq_case by (auto; lia). lia. Qed.
Lemma vertical_items : forall E i c, plain_env E -> some_item E i vertical_whitespace c <-> vertical c.
Proof. intros E i c HE. unfold vertical. cbn -[any_case]. rewrite !eq_case by (auto; lia). lia. Qed.
Lemma any_case_off : forall E P c, any_case E false P c <-> P c.
Proof. intros. unfold any_case. split; [intros [|[]]; [auto|discriminate]|auto]. Qed.
Lemma word_items : forall E c, some_item E false perl_class_word c <-> ascii_word c.
Proof.
  intros E c. unfold ascii_word. cbn -[any_case]. rewrite !any_case_off. split; intros H; [intuition lia|intuition lia].
Qed.

Lemma perl_items : forall E i p n l c, plain_env E -> (p = PWord \/ p = PNonWord -> i = false) ->
  convert_perl_class p = (n, l) -> in_class_item E i (KBracketed n l) c <-> in_perl_class p c.
Proof.
  intros E i p n l c HE Hw H.
  assert (D : forall n, in_class_item E i (KBracketed n perl_class_digit) c <-> flip_if n (digits c)).
  { intros. apply low_bracket; [exact HE|apply closed_low; [exact HE|unfold digits; lia]|intros; apply digit_items; exact HE]. }
  assert (S1 : forall n, in_class_item E i (KBracketed n perl_class_space) c <-> flip_if n (spaces c)).
  { intros. apply low_bracket; [exact HE|apply closed_low; [exact HE|unfold spaces; lia]|intros; apply space_items; exact HE]. }
  assert (W : i = false -> forall n, in_class_item E i (KBracketed n perl_class_word) c <-> flip_if n (ascii_word c)).
  { intros -> m. apply low_bracket; [exact HE|intros; discriminate|intros; apply word_items]. }
  destruct p; injection H as <- <-; [rewrite D|rewrite S1|rewrite W by auto|rewrite D|rewrite S1|rewrite W by auto]; reflexivity.
Qed.

Lemma item_meaning : forall E i it c, plain_env E -> item_faithful i it ->
  in_class_item E i (convert_bracket_item it) c <-> in_item E i it c.
Proof.
  intros E i it c HE H. destruct it as [d|a b|p|u|n k| | | |].
  - cbn. unfold any_case. tauto.
  - reflexivity.
  - unfold convert_bracket_item. destruct (convert_perl_class p) as [n l] eqn:P.
    apply perl_items; [exact HE| |exact P]. intros [-> | ->]; exact H.
  - reflexivity.
  - reflexivity.
  - cbn [convert_bracket_item in_item]. apply (low_bracket E i false _ horizontal); [exact HE|apply closed_low; [exact HE|unfold horizontal; lia]|intros; apply horizontal_items; exact HE].
  - cbn [convert_bracket_item in_item]. apply (low_bracket E i true _ horizontal); [exact HE|apply closed_low; [exact HE|unfold horizontal; lia]|intros; apply horizontal_items; exact HE].
  - cbn [convert_bracket_item in_item]. apply (low_bracket E i false _ vertical); [exact HE|apply closed_low; [exact HE|unfold vertical; lia]|intros; apply vertical_items; exact HE].
  - cbn [convert_bracket_item in_item]. apply (low_bracket E i true _ vertical); [exact HE|apply closed_low; [exact HE|unfold vertical; lia]|intros; apply vertical_items; exact HE].
Qed.
Lemma perl_closed : forall E i p, plain_env E -> (p = PWord \/ p = PNonWord -> i = false) -> closed_case E i (in_perl_class p).
Proof.
  intros E i p HE Hw. destruct p.
  - apply closed_low; [exact HE|simpl; lia].
  - apply closed_low; [exact HE|simpl; lia].
  - rewrite Hw by auto. intros K; discriminate.
  - apply (closed_not E i digits HE). apply closed_low; [exact HE|unfold digits; lia].
  - apply (closed_not E i spaces HE). apply closed_low; [exact HE|unfold spaces; lia].
  - rewrite Hw by auto. intros K; discriminate.
Qed.
Lemma item_closed : forall E i it, plain_env E -> item_faithful i it -> closed_case E i (in_item E i it).
Proof.
  intros E i it HE H. destruct it as [d|a b|p|u|n k| | | |]; cbn [in_item].
  - apply any_case_is_closed. exact HE.
  - apply any_case_is_closed. exact HE.
  - apply perl_closed; [exact HE|]. intros [-> | ->]; exact H.
  - apply closed_flip; [exact HE|]. apply any_case_is_closed. exact HE.
  - apply closed_flip; [exact HE|]. apply any_case_is_closed. exact HE.
  - apply closed_low; [exact HE|intros c; cbn [in_item]; unfold horizontal; lia].
  - apply (closed_not E i horizontal HE). apply closed_low; [exact HE|intros c; cbn [in_item]; unfold horizontal; lia].
  - apply closed_low; [exact HE|intros c; cbn [in_item]; unfold vertical; lia].
  - apply (closed_not E i vertical HE). apply closed_low; [exact HE|intros c; cbn [in_item]; unfold vertical; lia].
Qed.
Lemma bracket_meaning : forall E i n items c, plain_env E -> (forall it, In it items -> item_faithful i it) ->
  in_class_item E i (KBracketed n (map convert_bracket_item items)) c <->
  flip_if n (exists it, In it items /\ in_item E i it c).
Proof.
  intros E i n items c HE H. apply low_bracket with (P := fun c => exists it, In it items /\ in_item E i it c); [exact HE| |].
  - intros Hi x d L (it & H1 & H2). exists it. split; [exact H1|]. eapply item_closed; eauto.
  - clear c. intros c. induction items as [|it items IH]; cbn [map some_item].
    + split; [contradiction|]. intros (? & [] & _).
    + rewrite item_meaning by (auto; apply H; left; reflexivity). rewrite IH by (intros; apply H; right; auto). split.
      * intros [K|(x & K1 & K2)]; [exists it; split; [left|]; auto|exists x; split; [right|]; auto].
      * intros (x & [<-|K1] & K2); [auto|right; eauto].
Qed.

(* ---- literals of the conversion ---- *)
Lemma blank_listed : forall c, existsb (N.eqb c) ascii_whitespace_chars = blank c.
Proof.
  intros c. unfold ascii_whitespace_chars, blank. cbn [existsb].
  destruct (N.leb_spec 9 c), (N.leb_spec c 13), (N.eqb_spec c 32); cbn [andb orb];
    repeat match goal with |- context [(c =? ?n)%N] => destruct (N.eqb_spec c n) end; cbn [orb]; auto; lia.
Qed.
Lemma blank_space : forall c, blank c = true -> is_whitespace c = true.
Proof. intros c H. unfold blank in H. unfold is_whitespace, in_range. rewrite !orb_true_iff, andb_true_iff in *. tauto. Qed.
Lemma space_cases : forall c, is_whitespace c = true -> blank c = true \/ foreign_space c.
Proof.
  intros c H. assert (S1 : small_or_space c = true) by (unfold small_or_space; rewrite H, orb_true_r; reflexivity).
  apply small_listed in S1. unfold small_chars in S1. simpl In in S1.
  repeat (destruct S1 as [<-|S1]; [try discriminate H; try (left; reflexivity); right; unfold foreign_space; simpl; tauto|]).
  contradiction.
Qed.
Lemma class_literal_ok : forall l, clit_ok (convert_literal l LBracketed).
Proof.
  intros [c e]. unfold clit_ok, lit_ok, visible, convert_literal. cbn [lit_c lit_escaped rl_kind rl_c].
  destruct (is_meta_character c) eqn:M; [split; [auto|discriminate]|].
  destruct (is_whitespace c) eqn:W; [split; [unfold small_or_space; rewrite W, orb_true_r; reflexivity|discriminate]|].
  destruct (c <? 32)%N eqn:L; [split; [unfold small_or_space; rewrite L; reflexivity|discriminate]|]. split; auto.
Qed.
Lemma literal_ok : forall l, lit_ok (convert_literal l LNormal).
Proof.
  intros [c e]. unfold lit_ok, convert_literal. cbn [lit_c lit_escaped rl_kind rl_c].
  destruct (is_meta_character c) eqn:M; [auto|]. rewrite blank_listed. destruct (blank c) eqn:B.
  - destruct e; [unfold small_or_space; rewrite (blank_space c B), orb_true_r; reflexivity|auto].
  - destruct (c <? 32)%N eqn:L; [unfold small_or_space; rewrite L; reflexivity|auto].
Qed.
Lemma literal_visible : forall x l, (x = true -> ~ foreign_space (lit_c l)) ->
  ~ (x = true /\ lit_escaped l = false /\ blank (lit_c l) = true) -> visible x (convert_literal l LNormal).
Proof.
  intros x [c e] H1 H2 -> K. cbn [lit_c lit_escaped] in *. unfold convert_literal in *. cbn [lit_c lit_escaped rl_kind rl_c] in *.
  destruct (is_whitespace c) eqn:W; [|reflexivity]. exfalso. destruct (space_cases c W) as [B|F]; [|apply (H1 eq_refl F)].
  destruct (is_meta_character c) eqn:M; [discriminate|]. rewrite blank_listed, B in K. destruct e; [discriminate|]. apply H2. auto.
Qed.
Lemma literal_space : forall l, lit_escaped l = false -> blank (lit_c l) = true ->
  convert_literal l LNormal = {| rl_kind := RVerbatim; rl_c := lit_c l |}.
Proof.
  intros [c e] H1 H2. cbn in H1, H2. subst e. unfold convert_literal. cbn [lit_c lit_escaped]. rewrite blank_listed, H2.
  destruct (is_meta_character c) eqn:M; [|reflexivity]. exfalso. rewrite is_meta_in in M. simpl in M.
  repeat (destruct M as [<-|M]; [discriminate|]). contradiction.
Qed.

(* ---- classes of the conversion ---- *)
Ltac flats := repeat (apply Forall_cons; [first [apply fo_literal, class_literal_ok
  | apply fo_range; [apply class_literal_ok|apply class_literal_ok|cbn; lia]]|]); try apply Forall_nil.
Lemma nested_ok : forall n l, In l [perl_class_digit; perl_class_space; perl_class_word; horizontal_whitespace; vertical_whitespace] ->
  item_ok (KBracketed n l).
Proof.
  intros n l H. simpl In in H.
  repeat (destruct H as [<-|H]; [apply io_nested; [flats|intros; reflexivity]|]). contradiction.
Qed.
Lemma flat_list_ok : forall l, In l [perl_class_digit; perl_class_space; perl_class_word; horizontal_whitespace; vertical_whitespace] ->
  l <> [] /\ Forall item_ok l.
Proof.
  intros l H. simpl In in H.
  assert (F : forall l, Forall flat_ok l -> Forall item_ok l) by (intros; eapply Forall_impl; [|eauto]; intros; apply io_flat; auto).
  repeat (destruct H as [<-|H]; [split; [discriminate|apply F; flats]|]). contradiction.
Qed.
Lemma perl_listed : forall p n l, convert_perl_class p = (n, l) ->
  In l [perl_class_digit; perl_class_space; perl_class_word; horizontal_whitespace; vertical_whitespace].
Proof. intros [] n l H; injection H as <- <-; simpl; tauto. Qed.
Lemma converted_item_ok : forall i it, item_faithful i it ->
  (forall u, it = BUnicode u -> In (up_name u) unicode_property_names) -> item_ok (convert_bracket_item it).
Proof.
  intros i it H Hu. destruct it as [d|a b|p|u|n k| | | |].
  - apply io_flat, fo_literal, class_literal_ok.
  - apply io_flat, fo_range; [apply class_literal_ok|apply class_literal_ok|exact H].
  - unfold convert_bracket_item. destruct (convert_perl_class p) as [n l] eqn:P. apply nested_ok. eapply perl_listed; eauto.
  - apply io_unicode. apply Hu. reflexivity.
  - apply io_ascii.
  - apply nested_ok; simpl; tauto.
  - apply nested_ok; simpl; tauto.
  - apply nested_ok; simpl; tauto.
  - apply nested_ok; simpl; tauto.
Qed.
Definition class_names_ok (k : char_class) : Prop :=
  match k with
  | CBracket _ items => items <> [] /\ forall u, In (BUnicode u) items -> In (up_name u) unicode_property_names
  | CUnicode u => In (up_name u) unicode_property_names
  | _ => True
  end.
Lemma class_atom : forall x i k, class_faithful i k -> class_names_ok k -> atom x (convert_class k) (convert_class k).
Proof.
  intros x i k H Hn. destruct k as [n items|p| | | | | |u]; cbn [convert_class].
  - apply am_class.
    + destruct Hn as [Hn _]. destruct items; [congruence|discriminate].
    + apply Forall_forall. intros it Hit. apply in_map_iff in Hit as (b & <- & Hb). apply (converted_item_ok i).
      * apply H. exact Hb.
      * intros u ->. apply Hn. exact Hb.
  - destruct (convert_perl_class p) as [n l] eqn:P. destruct (flat_list_ok l) as [F1 F2]; [eapply perl_listed; eauto|].
    apply am_class; auto.
  - apply am_dot.
  - destruct (flat_list_ok horizontal_whitespace) as [F1 F2]; [simpl; tauto|]. apply am_class; auto.
  - destruct (flat_list_ok horizontal_whitespace) as [F1 F2]; [simpl; tauto|]. apply am_class; auto.
  - destruct (flat_list_ok vertical_whitespace) as [F1 F2]; [simpl; tauto|]. apply am_class; auto.
  - destruct (flat_list_ok vertical_whitespace) as [F1 F2]; [simpl; tauto|]. apply am_class; auto.
  - apply am_unicode. exact Hn.
Qed.
Lemma class_meaning : forall E text m k, plain_env E -> class_faithful (mi m) k ->
  same_meaning (rmeans E text (rmode_of m) (convert_class k)) (one text (in_class E m k)).
Proof.
  intros E text m k HE H. destruct k as [n items|p| | | | | |u]; cbn [convert_class].
  - cbn [rmeans]. apply one_ext. intros c. cbn [in_class]. apply bracket_meaning; [exact HE|exact H].
  - destruct (convert_perl_class p) as [n l] eqn:P. cbn [rmeans]. apply one_ext. intros c. cbn [in_class].
    apply perl_items; [exact HE| |exact P]. intros [-> | ->]; exact H.
  - apply same_refl.
  - cbn [rmeans]. apply one_ext. intros c. cbn [in_class]. apply (item_meaning E (mi m) BHorizontal c HE I).
  - cbn [rmeans]. apply one_ext. intros c. cbn [in_class]. apply (item_meaning E (mi m) BNotHorizontal c HE I).
  - cbn [rmeans]. apply one_ext. intros c. cbn [in_class]. apply (item_meaning E (mi m) BVertical c HE I).
  - cbn [rmeans]. apply one_ext. intros c. cbn [in_class]. apply (item_meaning E (mi m) BNotVertical c HE I).
  - cbn [rmeans]. apply one_ext. intros c. reflexivity.
Qed.

(* ---- quantifiers ---- *)
Lemma quantifier_meaning : forall q k, convert_quantifier q = Ok k -> ordered q ->
  kind_ok k /\ rleast k = least q /\ rmost k = most q.
Proof.
  intros q k H O. destruct q as [|n|n m|n| |]; cbn in H; try (injection H as <-; cbn; auto); unfold quantifier_limit in H.
  - destruct (N.ltb_spec 3000 n); [discriminate|]. injection H as <-. cbn. auto.
  - destruct (N.ltb_spec 3000 n), (N.ltb_spec 3000 m); cbn in H; try discriminate. injection H as <-. cbn in *. auto.
  - destruct (N.ltb_spec 3000 n); [discriminate|]. injection H as <-. cbn. auto.
Qed.

(* ---- lists of pieces ---- *)
Section Pieces.
Variable E : env.
Variable text : str.
Fixpoint rall (m : rmode) (l : list rast) : meaning :=
  match l with
  | [] => nothing
  | a :: l' => andthen (rmeans E text m a) (rall (rafter m a) l')
  end.
Fixpoint rany (m : rmode) (k : nat) (l : list rast) : meaning :=
  match l with
  | [] => fun _ _ _ => False
  | a :: l' => fun i t j => (exists u, t = k :: u /\ rmeans E text m a i u j) \/ rany (rafter m a) (S k) l' i t j
  end.
Lemma rmeans_concat : forall m l, rmeans E text m (RConcat l) = rall m l.
Proof. reflexivity. Qed.
Lemma rmeans_alternation : forall m l, rmeans E text m (RAlternation l) = rany m 0 l.
Proof. reflexivity. Qed.
Lemma rall_app : forall l m k, same_meaning (rall m (l ++ k)) (andthen (rall m l) (rall (fold_left rafter l m) k)).
Proof.
  induction l as [|a l IH]; intros m k; cbn [app rall fold_left].
  - apply same_sym, andthen_nothing_l.
  - eapply same_trans; [apply andthen_ext; [apply same_refl|apply IH]|]. apply same_sym, andthen_assoc.
Qed.
Lemma cat_meaning : forall m ps, same_meaning (rmeans E text m (cat ps)) (rall m ps).
Proof.
  intros m [|a [|b l]]; cbn [cat]; [apply same_refl| |apply same_refl]. cbn [rall]. apply same_sym, andthen_nothing_r.
Qed.
End Pieces.
Lemma cat_after : forall m ps, rafter m (cat ps) = fold_left rafter ps m.
Proof. intros m [|a [|b l]]; reflexivity. Qed.

Section SdsPieces.
Variable E : env.
Variable ends : bool -> meaning.
Variable text : str.
Fixpoint all_mean (m : mode) (l : list ast) : meaning :=
  match l with [] => nothing | a :: l' => andthen (means E ends text m a) (all_mean (after m a) l') end.
Fixpoint any_mean (m : mode) (k : nat) (l : list ast) : meaning :=
  match l with
  | [] => fun _ _ _ => False
  | a :: l' => fun i t j => (exists u, t = k :: u /\ means E ends text m a i u j) \/ any_mean (after m a) (S k) l' i t j
  end.
Lemma means_concat : forall m l, means E ends text m (AConcat l) = all_mean m l.
Proof. reflexivity. Qed.
Lemma means_alternation : forall m l, means E ends text m (AAlternation l) = any_mean m 0 l.
Proof. reflexivity. Qed.
Definition rounds (q : quantifier) (A : meaning) : meaning :=
  times A (negb (q_lazy q)) (least (q_kind q)) (most (q_kind q)).
Definition last_mean (q : quantifier) : mode -> list ast -> meaning :=
  fix last (m : mode) (l : list ast) : meaning :=
  match l with
  | [] => nothing
  | a :: l' =>
    match l' with
    | [] => rounds q (means E ends text m a)
    | _ => andthen (means E ends text m a) (last (after m a) l')
    end
  end.
Lemma last_mean_one : forall q m a, last_mean q m [a] = rounds q (means E ends text m a).
Proof. reflexivity. Qed.
Lemma last_mean_more : forall q m a b l, last_mean q m (a :: b :: l) = andthen (means E ends text m a) (last_mean q (after m a) (b :: l)).
Proof. reflexivity. Qed.
Lemma means_quoted : forall m q l, means E ends text m (ARepetition q (AConcat l)) = last_mean q m l.
Proof. reflexivity. Qed.
Lemma means_repetition : forall m q b, (forall l, b <> AConcat l) ->
  means E ends text m (ARepetition q b) = rounds q (means E ends text m b).
Proof. intros m q b H. destruct b; try reflexivity. destruct (H l eq_refl). Qed.
Lemma last_mean_app : forall q l m a, same_meaning (last_mean q m (l ++ [a])) (andthen (all_mean m l) (rounds q (means E ends text (fold_left after l m) a))).
Proof.
  intros q. induction l as [|b l IH]; intros m a.
  - cbn [app all_mean fold_left]. rewrite last_mean_one. apply same_sym, andthen_nothing_l.
  - cbn [app all_mean fold_left]. destruct (l ++ [a]) eqn:E'; [destruct l; discriminate|]. rewrite last_mean_more, <- E'.
    eapply same_trans; [apply andthen_ext; [apply same_refl|apply IH]|]. apply same_sym, andthen_assoc.
Qed.
End SdsPieces.
Lemma concat_dec : forall b, {l | b = AConcat l} + {forall l, b <> AConcat l}.
Proof. intros b. destruct b; try (right; discriminate). left. eauto. Qed.
Fixpoint faithful_all (m : mode) (l : list ast) : Prop :=
  match l with [] => True | a :: l' => faithful m a /\ faithful_all (after m a) l' end.
Lemma faithful_concat : forall m l, faithful m (AConcat l) = faithful_all m l.
Proof. reflexivity. Qed.
Lemma faithful_alternation : forall m l, faithful m (AAlternation l) = faithful_all m l.
Proof. reflexivity. Qed.

(* ---- what is kept ---- *)
(* a tree and the pieces that are read back *)
Definition kept (m : mode) (a : ast) (r : rast) : Prop :=
  exists ps, shown (mx m) r (mx (after m a)) ps /\
    fold_left rafter ps (rmode_of m) = rmode_of (after m a) /\
    forall E text, plain_env E -> same_meaning (rall E text (rmode_of m) ps) (means E (end_with text) text m a).
Definition kept_atom (m : mode) (a : ast) (r : rast) : Prop :=
  exists p, atom (mx m) r p /\ after m a = m /\ rafter (rmode_of m) p = rmode_of m /\
    forall E text, plain_env E -> same_meaning (rmeans E text (rmode_of m) p) (means E (end_with text) text m a).
Definition kept_all (m : mode) (l : list ast) (rs : list rast) : Prop :=
  exists ps, shown_all (mx m) rs (mx (fold_left after l m)) ps /\
    fold_left rafter ps (rmode_of m) = rmode_of (fold_left after l m) /\
    forall E text, plain_env E -> same_meaning (rall E text (rmode_of m) ps) (all_mean E (end_with text) text m l).
Definition kept_branches (m : mode) (l : list ast) (rs : list rast) : Prop :=
  exists bs, branches (mx m) rs bs /\ length bs = length l /\
    forall E text k, plain_env E -> same_meaning (rany E text (rmode_of m) k bs) (any_mean E (end_with text) text m k l).
Definition kept_body (m : mode) (a : ast) (r : rast) : Prop :=
  exists b, body (mx m) r b /\
    forall E text, plain_env E -> same_meaning (rmeans E text (rmode_of m) b) (means E (end_with text) text m a).

Lemma atom_kept : forall m a r, kept_atom m a r -> kept m a r.
Proof.
  intros m a r (p & H1 & H2 & H3 & H4). exists [p]. rewrite H2. split; [apply sh_atom; exact H1|].
  split; [exact H3|]. intros E text HE. cbn [rall]. eapply same_trans; [apply andthen_nothing_r|]. apply H4. exact HE.
Qed.
Lemma kept_is_body : forall m a r, kept m a r -> kept_body m a r.
Proof.
  intros m a r (ps & H1 & _ & H3). exists (cat ps). split; [eapply bo_one; exact H1|].
  intros E text HE. eapply same_trans; [apply cat_meaning|]. apply H3. exact HE.
Qed.
Lemma kept_nil : forall m, kept_all m [] [].
Proof. intros m. exists []. split; [apply sa_nil|]. split; [reflexivity|]. intros. apply same_refl. Qed.
Lemma kept_cons : forall m a r l rs, kept m a r -> kept_all (after m a) l rs -> kept_all m (a :: l) (r :: rs).
Proof.
  intros m a r l rs (ps & H1 & H2 & H3) (qs & K1 & K2 & K3). exists (ps ++ qs). cbn [fold_left].
  split; [eapply sa_cons; eauto|]. split; [rewrite fold_left_app, H2; exact K2|].
  intros E text HE. eapply same_trans; [apply rall_app|]. cbn [all_mean]. rewrite H2.
  apply andthen_ext; [apply H3|apply K3]; exact HE.
Qed.
Lemma kept_concat : forall m l rs, kept_all m l rs -> kept m (AConcat l) (RConcat rs).
Proof.
  intros m l rs (ps & H1 & H2 & H3). exists ps. cbn [after]. split; [apply sh_concat; exact H1|]. split; [exact H2|exact H3].
Qed.

(* ---- atoms ---- *)
Lemma literal_kept : forall m l, faithful m (ALiteral l) ->
  kept m (ALiteral l) (RLiteral (convert_literal l LNormal)) /\
  (repeats_one m (ALiteral l) -> kept_atom m (ALiteral l) (RLiteral (convert_literal l LNormal))).
Proof.
  intros m l H.
  assert (A : repeats_one m (ALiteral l) -> kept_atom m (ALiteral l) (RLiteral (convert_literal l LNormal))).
  { intros K. exists (RLiteral (convert_literal l LNormal)). split; [apply am_literal; [apply literal_ok|apply literal_visible; [exact H|exact K]]|].
    split; [reflexivity|]. split; [reflexivity|]. intros E text HE. cbn [means repeats_one] in *.
    destruct (mx m && negb (lit_escaped l) && blank (lit_c l)) eqn:B; [|apply same_refl].
    exfalso. apply K. rewrite !andb_true_iff, negb_true_iff in B. tauto. }
  split; [|exact A].
  destruct (mx m && negb (lit_escaped l) && blank (lit_c l)) eqn:B.
  - exists []. cbn [after]. rewrite !andb_true_iff, negb_true_iff in B. destruct B as [[B1 B2] B3].
    rewrite literal_space by auto. rewrite B1. split; [apply sh_space, blank_space; exact B3|]. split; [reflexivity|].
    intros E text HE. cbn [means rall]. rewrite B1, B2, B3. apply same_refl.
  - apply atom_kept, A. cbn [repeats_one]. intros (B1 & B2 & B3). rewrite B1, B2, B3 in B. discriminate.
Qed.
Lemma flags_kept : forall m f, faithful m (AFlags f) -> kept m (AFlags f) (RFlags (convert_flags f)).
Proof.
  intros m f H. exists [RFlags (convert_flags f)]. cbn [after fold_left rafter].
  split; [rewrite <- x_after_converted; apply sh_flags; [apply flags_ok_converted|apply converted_nonempty; exact H]|].
  split; [apply set_items_converted|]. intros E text HE. cbn [rall rmeans means]. apply andthen_nothing_r.
Qed.
Lemma assertion_atom : forall m t, t <> EndLine -> t <> EndTextOptionalNewline ->
  kept_atom m (AAssertion t) (convert_assertion t).
Proof.
  intros m t H1 H2.
  assert (G : forall a, atom (mx m) (RGroup [RNegation; RFlag RfUnicode] (RAssertion a)) (RGroup [RNegation; RFlag RfUnicode] (RAssertion a))).
  { intros a. apply am_group; [apply flags_ok_ascii|]. change (RAssertion a) with (cat [RAssertion a]) at 2.
    eapply bo_one, sh_atom, am_assertion. }
  destruct t; try congruence; cbn [convert_assertion].
  - eexists. split; [apply G|]. split; [reflexivity|]. split; [reflexivity|]. intros. apply same_refl.
  - eexists. split; [apply G|]. split; [reflexivity|]. split; [reflexivity|]. intros. apply same_refl.
  - eexists. split; [apply am_assertion|]. split; [reflexivity|]. split; [reflexivity|]. intros. apply same_refl.
  - eexists. split; [apply am_assertion|]. split; [reflexivity|]. split; [reflexivity|]. intros. apply same_refl.
  - eexists. split; [apply am_assertion|]. split; [reflexivity|]. split; [reflexivity|]. intros. apply same_refl.
Qed.
Lemma newline_visible : forall x, visible x {| rl_kind := RHexBrace; rl_c := 10 |}.
Proof. intros x _ H. discriminate. Qed.
Lemma ends_kept : forall m t a, convert_assertion t =
  RConcat [RRepetition RZeroOrOne true (RLiteral {| rl_kind := RHexBrace; rl_c := 10 |}); RAssertion a] ->
  (forall E text i, rasserted E text (rmode_of m) a i <-> line_end text (match t with EndLine => mm m | _ => false end) i) ->
  t = EndLine \/ t = EndTextOptionalNewline ->
  kept m (AAssertion t) (convert_assertion t).
Proof.
  intros m t a -> H Ht. exists [RRepetition RZeroOrOne true (RLiteral {| rl_kind := RHexBrace; rl_c := 10 |}); RAssertion a].
  cbn [after]. split.
  - apply sh_concat. change [RRepetition RZeroOrOne true (RLiteral {| rl_kind := RHexBrace; rl_c := 10 |}); RAssertion a]
      with ([RRepetition RZeroOrOne true (RLiteral {| rl_kind := RHexBrace; rl_c := 10 |})] ++ [RAssertion a] ++ []) at 2.
    eapply sa_cons; [apply sh_repetition; [apply am_literal; [reflexivity|apply newline_visible]|exact I]|].
    eapply sa_cons; [apply sh_atom, am_assertion|apply sa_nil].
  - split; [reflexivity|]. intros E text HE. cbn [rall rmeans means rafter].
    assert (Q : asserted (end_with text) text m t = end_with text (match t with EndLine => mm m | _ => false end))
      by (destruct Ht as [-> | ->]; reflexivity).
    rewrite Q. unfold end_with. apply andthen_ext.
    + apply times_ext, one_ext. intros c. cbn [rl_c rmode_of ri]. apply eq_case; [exact HE|lia].
    + eapply same_trans; [apply andthen_nothing_r|]. apply here_ext. intros i. apply H.
Qed.
Lemma assertion_kept : forall m t, kept m (AAssertion t) (convert_assertion t).
Proof.
  intros m t. destruct t; try (apply atom_kept, assertion_atom; discriminate).
  - eapply ends_kept; [reflexivity| |auto]. intros. reflexivity.
  - eapply ends_kept; [reflexivity| |auto]. intros E text i. cbn. unfold line_end. split; [auto|].
    intros [->|[K _]]; [reflexivity|discriminate].
Qed.
Lemma class_kept : forall m k, faithful m (AClass k) -> class_names_ok k -> kept_atom m (AClass k) (convert_class k).
Proof.
  intros m k H Hn. exists (convert_class k). split; [eapply class_atom; eauto|]. split; [reflexivity|].
  split; [destruct k as [n l|p| | | | | |u]; try reflexivity; cbn [convert_class]; destruct (convert_perl_class p); reflexivity|].
  intros E text HE. apply class_meaning; auto.
Qed.

(* ---- the syntax gives names of properties, and classes that are not empty ---- *)
Lemma item_text_names : forall l t, item_text l t -> forall u, In (BUnicode u) l -> In (up_name u) unicode_property_names.
Proof.
  intros l t H u. destruct H as [c e t _ _|a e1 t1 b e2 t2 _ _|p t _|v t Hv|k t _|k t _| | | | |q _]; cbn [In];
    try (intros [K|[]]; discriminate).
  - intros [K|[]]. injection K as ->. apply property_name_in, Hv.
  - intros K. apply in_map_iff in K as (c & K & _). discriminate.
Qed.
Lemma items_text_names : forall l t, items_text l t -> forall u, In (BUnicode u) l -> In (up_name u) unicode_property_names.
Proof.
  intros l t H u. induction H as [|i t l w Hi Hl IH]; [intros []|]. intros K. apply in_app_iff in K as [K|K]; [|auto].
  eapply item_text_names; eauto.
Qed.
Lemma class_text_names : forall k t, class_text k t -> class_names_ok k.
Proof.
  intros k t H. destruct H as [| | | | |p t _|u t Hu|n l t Hne H|n l t H]; cbn; auto.
  - apply property_name_in, Hu.
  - split; [exact Hne|]. eapply items_text_names; eauto.
  - split; [discriminate|]. intros u [K|K]; [discriminate|]. eapply items_text_names; eauto.
Qed.

Scheme atom_text_mind := Minimality for atom_text Sort Prop
  with piece_text_mind := Minimality for piece_text Sort Prop
  with pieces_text_mind := Minimality for pieces_text Sort Prop
  with branch_text_mind := Minimality for branch_text Sort Prop
  with branches_text_mind := Minimality for branches_text Sort Prop
  with expression_text_mind := Minimality for expression_text Sort Prop.
Combined Scheme text_induction from atom_text_mind, piece_text_mind, pieces_text_mind, branch_text_mind,
  branches_text_mind, expression_text_mind.

Lemma quoted_literals : forall l m rs,
  (forall c, In c l -> mx m = true -> ~ foreign_space c) ->
  convert_all (map (fun c => ALiteral {| lit_c := c; lit_escaped := true |}) l) = Ok rs ->
  kept_all m (map (fun c => ALiteral {| lit_c := c; lit_escaped := true |}) l) rs.
Proof.
  induction l as [|c l IH]; intros m rs H C.
  - injection C as <-. apply kept_nil.
  - cbn [map] in *. rewrite convert_all_cons in C. cbn [convert_ast] in C. apply rmap_ok in C as (rs' & C & ->).
    apply kept_cons; [apply literal_kept; cbn; apply H; left; reflexivity|]. cbn [after]. apply IH; [|exact C].
    intros. apply H; auto. right. exact H0.
Qed.
Lemma quoted_faithful : forall l m,
  faithful_all m (map (fun c => ALiteral {| lit_c := c; lit_escaped := true |}) l) ->
  forall c, In c l -> mx m = true -> ~ foreign_space c.
Proof.
  induction l as [|d l IH]; intros m H c Hc; [destruct Hc|]. cbn [map faithful_all after] in H. destruct H as [H1 H2].
  destruct Hc as [<-|Hc]; [exact H1|]. eapply IH; eauto.
Qed.

Definition escaped (c : char) : ast := ALiteral {| lit_c := c; lit_escaped := true |}.
Lemma escaped_after : forall l m, fold_left after (map escaped l) m = m.
Proof. induction l as [|c l IH]; intros m; [reflexivity|]. cbn. apply IH. Qed.
Lemma quoted_repeated : forall m q k a r, quoted_text a -> faithful m a -> convert_ast a = Ok r ->
  kind_ok k -> rleast k = least (q_kind q) -> rmost k = most (q_kind q) ->
  kept m (ARepetition q a) (RRepetition k (negb (q_lazy q)) r).
Proof.
  intros m q k a r (c & d & l & ->) F C K1 K2 K3. rewrite faithful_concat in F. pose proof (quoted_faithful _ _ F) as Q.
  rewrite convert_concat in C. apply rmap_ok in C as (rs & C & ->).
  destruct (@exists_last _ (c :: d :: l)) as (l' & e & El); [discriminate|]. rewrite El in *. clear El F c d l.
  rewrite map_app in C. cbn [map] in C.
  assert (exists rs1, convert_all (map escaped l') = Ok rs1 /\ rs = rs1 ++ [RLiteral (convert_literal {| lit_c := e; lit_escaped := true |} LNormal)]) as (rs1 & C1 & ->).
  { clear Q. revert rs C. induction l' as [|c l IH]; intros rs C.
    - injection C as <-. exists []. split; reflexivity.
    - cbn [map app] in C. rewrite convert_all_cons in C. cbn [convert_ast] in C. apply rmap_ok in C as (rs' & C & ->).
      destruct (IH rs' C) as (rs1 & E1 & ->). exists (RLiteral (convert_literal {| lit_c := c; lit_escaped := true |} LNormal) :: rs1).
      split; [|reflexivity]. cbn [map]. rewrite convert_all_cons. cbn [escaped convert_ast]. rewrite E1. reflexivity. }
  destruct (quoted_literals l' m rs1) as (ps & H1 & H2 & H3); [intros c Hc; apply Q; apply in_or_app; auto|exact C1|].
  destruct (literal_kept m {| lit_c := e; lit_escaped := true |}) as [_ A]; [cbn; apply Q; apply in_or_app; right; left; reflexivity|].
  destruct A as (p & A1 & A2 & A3 & A4); [cbn; intros (_ & X & _); discriminate|].
  fold escaped in H1, H2, H3. change (fun c => ALiteral {| lit_c := c; lit_escaped := true |}) with escaped in *.
  rewrite escaped_after in H1, H2.
  exists (ps ++ [RRepetition k (negb (q_lazy q)) p]). cbn [after]. rewrite escaped_after. split; [|split].
  - apply sh_last. revert H1. generalize (mx m) at 1 3 as x. intros x H1.
    assert (forall x l y ps, shown_all x l y ps -> y = mx m -> shown_all x (l ++ [RRepetition k (negb (q_lazy q)) (RLiteral (convert_literal {| lit_c := e; lit_escaped := true |} LNormal))]) (mx m) (ps ++ [RRepetition k (negb (q_lazy q)) p])) as S.
    { clear - A1 K1. intros x l y ps H. induction H as [x|x a y ps l z qs Ha Hl IH]; intros E.
      - subst x. cbn [app]. eapply (sa_cons _ _ _ [_] _ _ []); [apply sh_repetition; [exact A1|exact K1]|apply sa_nil].
      - cbn [app]. rewrite <- app_assoc. eapply sa_cons; [exact Ha|]. apply IH. exact E. }
    eapply S; [exact H1|reflexivity].
  - rewrite fold_left_app, H2. cbn [fold_left rafter]. exact A3.
  - intros E text HE. rewrite means_quoted, map_app. eapply same_trans; [apply rall_app|]. rewrite H2.
    eapply same_trans; [|apply same_sym; apply last_mean_app]. apply andthen_ext; [apply H3; exact HE|].
    cbn [rall rmeans]. eapply same_trans; [apply andthen_nothing_r|]. rewrite K2, K3, escaped_after. apply times_ext. apply A4. exact HE.
Qed.

Lemma kept_text :
  (forall a t, atom_text a t -> forall m r, faithful m a -> convert_ast a = Ok r ->
     kept m a r /\ (repeats_one m a -> kept_atom m a r)) /\
  (forall a t, piece_text a t -> forall m r, faithful m a -> convert_ast a = Ok r -> kept m a r) /\
  (forall l t, pieces_text l t -> forall m rs, faithful_all m l -> convert_all l = Ok rs -> kept_all m l rs) /\
  (forall a t, branch_text a t -> forall m r, faithful m a -> convert_ast a = Ok r -> kept m a r) /\
  (forall l t, branches_text l t -> forall m rs, faithful_all m l -> convert_all l = Ok rs ->
     kept_branches m l rs /\ forall a, l = [a] -> forall r, rs = [r] -> kept m a r) /\
  (forall a t, expression_text a t -> forall m r, faithful m a -> convert_ast a = Ok r -> kept_body m a r).
Proof.
  apply text_induction.
  - (* quoted *)
    intros l _ m r F C. destruct l as [|c [|d l]].
    + injection C as <-. split; [|intros []]. exists []. split; [apply sh_empty|]. split; [reflexivity|]. intros. apply same_refl.
    + injection C as <-. apply literal_kept. exact F.
    + cbn [quoted] in *. split; [|intros []]. rewrite convert_concat in C. apply rmap_ok in C as (rs & C & ->).
      rewrite faithful_concat in F. apply kept_concat, quoted_literals; [|exact C]. eapply quoted_faithful; exact F.
  - (* literal *)
    intros c e t _ _ _ m r F C. injection C as <-. apply literal_kept. exact F.
  - (* class *)
    intros k t Hk m r F C. injection C as <-. apply class_text_names in Hk.
    split; [apply atom_kept|intros _]; apply class_kept; auto.
  - (* assertion *)
    intros k t _ m r F C. injection C as <-. split; [apply assertion_kept|]. intros K.
    apply assertion_atom; intros ->; exact K.
  - (* flags *)
    intros f t _ m r F C. injection C as <-. split; [apply flags_kept; exact F|intros []].
  - (* capture *)
    intros a t _ IH m r F C. cbn [convert_ast] in C. apply rmap_ok in C as (r' & C & ->).
    destruct (IH m r' F C) as (b & H1 & H2).
    assert (K : kept_atom m (ACapturing a) (RCapture r')).
    { exists (RCapture b). split; [apply am_capture; exact H1|]. split; [reflexivity|]. split; [reflexivity|]. exact H2. }
    split; [apply atom_kept; exact K|auto].
  - (* group *)
    intros f u a t _ _ IH m r F C. cbn [convert_ast] in C. apply rmap_ok in C as (r' & C & ->).
    destruct (IH (set_flags f m) r' F C) as (b & H1 & H2).
    assert (K : kept_atom m (ANonCapturing f a) (RGroup (convert_flags f) r')).
    { exists (RGroup (convert_flags f) b). split; [apply am_group; [apply flags_ok_converted|rewrite x_after_converted; exact H1]|].
      split; [reflexivity|]. split; [reflexivity|]. intros E text HE. cbn [rmeans means]. rewrite set_items_converted.
      apply H2. exact HE. }
    split; [apply atom_kept; exact K|auto].
  - (* named, three times *)
    intros n a t Hn _ IH m r F C. cbn [convert_ast] in C. apply rmap_ok in C as (r' & C & ->).
    destruct (IH m r' F C) as (b & H1 & H2).
    assert (K : kept_atom m (ANamed n a) (RNamed n r')).
    { exists (RNamed n b). split; [apply am_named; [exact Hn|exact H1]|]. split; [reflexivity|]. split; [reflexivity|]. exact H2. }
    split; [apply atom_kept; exact K|auto].
  - intros n a t Hn _ IH m r F C. cbn [convert_ast] in C. apply rmap_ok in C as (r' & C & ->).
    destruct (IH m r' F C) as (b & H1 & H2).
    assert (K : kept_atom m (ANamed n a) (RNamed n r')).
    { exists (RNamed n b). split; [apply am_named; [exact Hn|exact H1]|]. split; [reflexivity|]. split; [reflexivity|]. exact H2. }
    split; [apply atom_kept; exact K|auto].
  - intros n a t Hn _ IH m r F C. cbn [convert_ast] in C. apply rmap_ok in C as (r' & C & ->).
    destruct (IH m r' F C) as (b & H1 & H2).
    assert (K : kept_atom m (ANamed n a) (RNamed n r')).
    { exists (RNamed n b). split; [apply am_named; [exact Hn|exact H1]|]. split; [reflexivity|]. split; [reflexivity|]. exact H2. }
    split; [apply atom_kept; exact K|auto].
  - (* piece: an atom *)
    intros a t _ IH m r F C. apply IH; auto.
  - (* piece: a repetition *)
    intros a t q u _ IH _ m r (F1 & F2 & F3) C. cbn [convert_ast] in C.
    destruct (convert_quantifier (q_kind q)) as [k|] eqn:Q; [|discriminate]. apply rmap_ok in C as (r' & C & ->).
    destruct (quantifier_meaning _ _ Q F2) as (Q1 & Q2 & Q3).
    destruct F1 as [F1|F1]; [|apply (quoted_repeated m q k a r'); assumption].
    destruct (IH m r' F3 C) as [_ K]. destruct (K F1) as (p & H1 & H2 & H3 & H4).
    exists [RRepetition k (negb (q_lazy q)) p]. cbn [after fold_left rafter]. rewrite H2.
    split; [apply sh_repetition; auto|]. split; [exact H3|]. intros E text HE. cbn [rall rmeans].
    rewrite means_repetition by (intros l ->; exact F1).
    eapply same_trans; [apply andthen_nothing_r|]. rewrite Q2, Q3. apply times_ext, H4. exact HE.
  - (* one piece *)
    intros a t _ IH m rs [F _] C. rewrite convert_all_cons in C. destruct (convert_ast a) as [r|] eqn:Ca; [|discriminate].
    injection C as <-. apply kept_cons; [apply IH; auto|apply kept_nil].
  - (* more pieces *)
    intros a t l u _ IHa _ IHl m rs [F1 F2] C. rewrite convert_all_cons in C. destruct (convert_ast a) as [r|] eqn:Ca; [|discriminate].
    apply rmap_ok in C as (rs' & C & ->). apply kept_cons; auto.
  - (* empty branch *)
    intros m r _ C. injection C as <-. exists []. split; [apply sh_empty|]. split; [reflexivity|]. intros. apply same_refl.
  - (* branch of one piece *)
    intros a t _ IH m r F C. destruct (IH m [r]) as (ps & H1 & H2 & H3).
    + cbn. auto.
    + rewrite convert_all_cons, C. reflexivity.
    + inversion H1 as [|x a' y ps' l z qs K1 K2]; subst. inversion K2; subst. rewrite app_nil_r in *.
      exists ps'. cbn [fold_left] in *. split; [exact K1|]. split; [exact H2|]. intros E text HE.
      eapply same_trans; [apply H3; exact HE|]. cbn [all_mean]. apply andthen_nothing_r.
  - (* branch of several pieces *)
    intros a b l t _ IH m r F C. rewrite convert_concat in C. apply rmap_ok in C as (rs & C & ->). rewrite faithful_concat in F.
    apply kept_concat, IH; auto.
  - (* one branch *)
    intros a t _ IH m rs [F _] C. rewrite convert_all_cons in C. destruct (convert_ast a) as [r|] eqn:Ca; [|discriminate].
    injection C as <-. pose proof (IH m r F eq_refl) as K. split.
    + destruct K as (ps & H1 & H2 & H3). exists [cat ps]. split; [eapply br_one; exact H1|]. split; [reflexivity|].
      intros E text k HE i tr j. cbn [rany any_mean].
      assert (Q : forall u, rmeans E text (rmode_of m) (cat ps) i u j <-> means E (end_with text) text m a i u j).
      { intros u. rewrite (cat_meaning E text (rmode_of m) ps i u j). apply H3. exact HE. }
      split; (intros [(u & -> & K)|[]]; left; exists u; split; [reflexivity|apply Q; exact K]).
    + intros a' E1 r' E2. injection E1 as <-. injection E2 as <-. exact K.
  - (* more branches *)
    intros a t l u _ IHa Hl IHl m rs [F1 F2] C. rewrite convert_all_cons in C. destruct (convert_ast a) as [r|] eqn:Ca; [|discriminate].
    apply rmap_ok in C as (rs' & C & ->). destruct (IHl (after m a) rs' F2 C) as [(bs & B1 & B2 & B3) _].
    destruct (IHa m r F1 eq_refl) as (ps & H1 & H2 & H3). split.
    + exists (cat ps :: bs). split; [eapply br_more; eauto|]. split; [cbn [length]; rewrite B2; reflexivity|].
      intros E text k HE i tr j. cbn [rany any_mean]. rewrite cat_after, H2.
      assert (Q : forall u, rmeans E text (rmode_of m) (cat ps) i u j <-> means E (end_with text) text m a i u j).
      { intros w. rewrite (cat_meaning E text (rmode_of m) ps i w j). apply H3. exact HE. }
      rewrite (B3 E text (S k) HE i tr j).
      split; (intros [(w & -> & K)|K]; [left; exists w; split; [reflexivity|apply Q; exact K]|right; exact K]).
    + intros a' E1. injection E1 as _ ->. inversion Hl.
  - (* expression of one branch *)
    intros a t _ IH m r F C. destruct (IH m [r]) as [_ K].
    + cbn. auto.
    + rewrite convert_all_cons, C. reflexivity.
    + apply kept_is_body, (K a eq_refl r eq_refl).
  - (* expression of several branches *)
    intros a b l t _ IH m r F C. rewrite convert_alternation in C. apply rmap_ok in C as (rs & C & ->). rewrite faithful_alternation in F.
    destruct (IH m rs F C) as [(bs & B1 & B2 & B3) _].
    destruct rs as [|r rs]; [inversion B1|]. destruct bs as [|x [|y bs]]; [discriminate|discriminate|].
    exists (RAlternation (x :: y :: bs)). split; [apply bo_alternation; exact B1|].
    intros E text HE. rewrite rmeans_alternation, means_alternation. apply B3. exact HE.
Qed.

Lemma converted_names : forall a r, convert_ast a = Ok r -> rnames r = group_names a.
Proof.
  intros a. induction a as [|l|l IH|a IH|f a IH|n a IH|c|l IH|q a IH|t|f] using ast_induction; intros r C.
  - injection C as <-. reflexivity.
  - injection C as <-. reflexivity.
  - rewrite convert_concat in C. apply rmap_ok in C as (rs & C & ->). cbn [rnames group_names]. revert rs C.
    induction IH as [|a l Ha _ IHl]; intros rs C; [injection C as <-; reflexivity|]. rewrite convert_all_cons in C.
    destruct (convert_ast a) as [r|]; [|discriminate]. apply rmap_ok in C as (rs' & C & ->). cbn [flat_map].
    rewrite (Ha r eq_refl), (IHl rs' C). reflexivity.
  - cbn [convert_ast] in C. apply rmap_ok in C as (r' & C & ->). cbn. auto.
  - cbn [convert_ast] in C. apply rmap_ok in C as (r' & C & ->). cbn. auto.
  - cbn [convert_ast] in C. apply rmap_ok in C as (r' & C & ->). cbn. f_equal. auto.
  - injection C as <-. destruct c as [n l|p| | | | | |u]; try reflexivity. cbn [convert_class]. destruct (convert_perl_class p); reflexivity.
  - rewrite convert_alternation in C. apply rmap_ok in C as (rs & C & ->). cbn [rnames group_names]. revert rs C.
    induction IH as [|a l Ha _ IHl]; intros rs C; [injection C as <-; reflexivity|]. rewrite convert_all_cons in C.
    destruct (convert_ast a) as [r|]; [|discriminate]. apply rmap_ok in C as (rs' & C & ->). cbn [flat_map].
    rewrite (Ha r eq_refl), (IHl rs' C). reflexivity.
  - cbn [convert_ast] in C. destruct (convert_quantifier (q_kind q)); [|discriminate]. apply rmap_ok in C as (r' & C & ->). cbn. auto.
  - injection C as <-. destruct t; reflexivity.
  - injection C as <-. reflexivity.
Qed.

Lemma faithful_reread : forall a s r, expression_text a s -> convert_ast a = Ok r -> faithful mode0 a -> NoDup (group_names a) ->
  exists b, reread (print_ast r) = Some b /\
    forall E text, plain_env E -> same_meaning (rmeans E text rmode0 b) (means E (end_with text) text mode0 a).
Proof.
  intros a s r Ht C F N.
  destruct (proj2 (proj2 (proj2 (proj2 (proj2 kept_text)))) a s Ht mode0 r F C) as (b & H1 & H2).
  exists b. split; [|exact H2]. apply reread_printed; [exact H1|]. rewrite (converted_names a r C). exact N.
Qed.
