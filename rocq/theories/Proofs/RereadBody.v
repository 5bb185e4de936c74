(* Reading back whole expressions: the trees whose text is read as one knows, and what is
   read. *)
From Verif Require Import Proofs.Pattern Proofs.Binary Proofs.Text Proofs.RereadFlags Proofs.Reread.
From Verif Require Import Spec.RegexMeaning Model.RegexSyntax.
From Coq Require Import Lia ZifyN ZifyBool.

Definition kind_ok (k : rep_kind) : Prop :=
  match k with
  | RZeroOrOne | RZeroOrMore | ROneOrMore => True
  | RExactly n | RAtLeast n => (n <= 3000)%N
  | RBounded n m => (n <= m /\ m <= 3000)%N
  end.
Definition name_ok (n : str) : Prop := exists c l, n = c :: l /\ letter_or_underscore c /\
  forall d, In d l -> letter_or_underscore d \/ is_digit d.

Inductive atom : bool -> rast -> rast -> Prop :=
| am_literal : forall x l, lit_ok l -> visible x l -> atom x (RLiteral l) (RLiteral l)
| am_dot : forall x, atom x RDot RDot
| am_assertion : forall x a, atom x (RAssertion a) (RAssertion a)
| am_unicode : forall x n name, In name unicode_property_names -> atom x (RClassUnicode n name) (RClassUnicode n name)
| am_class : forall x n items, items <> [] -> Forall item_ok items -> atom x (RClass n items) (RClass n items)
| am_capture : forall x a b, body x a b -> atom x (RCapture a) (RCapture b)
| am_named : forall x n a b, name_ok n -> body x a b -> atom x (RNamed n a) (RNamed n b)
| am_group : forall x f a b, flags_ok f -> body (x_after f x) a b -> atom x (RGroup f a) (RGroup f b)
with shown : bool -> rast -> bool -> list rast -> Prop :=
| sh_atom : forall x a p, atom x a p -> shown x a x [p]
| sh_empty : forall x, shown x REmpty x []
| sh_space : forall c, is_whitespace c = true -> shown true (RLiteral {| rl_kind := RVerbatim; rl_c := c |}) true []
| sh_flags : forall x f, flags_ok f -> f <> [] -> shown x (RFlags f) (x_after f x) [RFlags f]
| sh_repetition : forall x k g a p, atom x a p -> kind_ok k ->
    shown x (RRepetition k g a) x [RRepetition k g p]
| sh_concat : forall x l y ps, shown_all x l y ps -> shown x (RConcat l) y ps
| sh_last : forall x k g l a y ps, shown_all x (l ++ [RRepetition k g a]) y ps ->
    shown x (RRepetition k g (RConcat (l ++ [a]))) y ps
with shown_all : bool -> list rast -> bool -> list rast -> Prop :=
| sa_nil : forall x, shown_all x [] x []
| sa_cons : forall x a y ps l z qs, shown x a y ps -> shown_all y l z qs -> shown_all x (a :: l) z (ps ++ qs)
with body : bool -> rast -> rast -> Prop :=
| bo_one : forall x a y ps, shown x a y ps -> body x a (cat ps)
| bo_alternation : forall x a l b c bs, branches x (a :: l) (b :: c :: bs) ->
    body x (RAlternation (a :: l)) (RAlternation (b :: c :: bs))
with branches : bool -> list rast -> list rast -> Prop :=
| br_one : forall x a y ps, shown x a y ps -> branches x [a] [cat ps]
| br_more : forall x a y ps l bs, shown x a y ps -> branches y l bs -> branches x (a :: l) (cat ps :: bs).

Scheme atom_mind := Induction for atom Sort Prop
  with shown_mind := Induction for shown Sort Prop
  with shown_all_mind := Induction for shown_all Sort Prop
  with body_mind := Induction for body Sort Prop
  with branches_mind := Induction for branches Sort Prop.
Combined Scheme shown_induction from atom_mind, shown_mind, shown_all_mind, body_mind, branches_mind.

Fixpoint rnames (a : rast) : list str :=
  match a with
  | RNamed n b => n :: rnames b
  | RCapture b | RGroup _ b | RRepetition _ _ b => rnames b
  | RConcat l | RAlternation l => flat_map rnames l
  | _ => []
  end.

(* a text that does not make the repetition before it lazy *)
Definition calm (x : bool) (s : str) : Prop := forall t, skip x s <> 63%N :: t.

Lemma atom_begins : forall x a p, atom x a p -> begins x bad_chars (print_ast a).
Proof.
  intros x a p [y l H V|y|y k|y n name H|y n items H1 H2|y b c H|y n b c H1 H2|y f b c H1 H2].
  - apply literal_begins; [exact H|exact V|apply bad_meta|simpl; intuition discriminate].
  - apply begins_char; [reflexivity|reflexivity|discriminate].
  - destruct k; apply begins_char; try reflexivity; discriminate.
  - destruct n; apply begins_char; try reflexivity; discriminate.
  - destruct n; apply begins_char; try reflexivity; discriminate.
  - apply begins_char; [reflexivity|reflexivity|discriminate].
  - apply begins_char; [reflexivity|reflexivity|discriminate].
  - apply begins_char; [reflexivity|reflexivity|discriminate].
Qed.
Lemma begins_calm : forall x s rest, begins x bad_chars s -> calm x (s ++ rest).
Proof.
  intros x s rest H t E. rewrite (begins_skip _ _ _ rest H) in E. destruct H as (c & u & -> & Hc & _).
  cbn [app] in E. injection E as -> _. apply Hc. simpl. tauto.
Qed.
Lemma skip_space_head : forall c s, is_whitespace c = true -> skip true (c :: s) = skip true s.
Proof. intros c s H. unfold skip. cbn [skip_space]. rewrite H. reflexivity. Qed.

Lemma atom_repeatable : forall x a p, atom x a p -> repeatable p = true.
Proof. intros x a p []; reflexivity. Qed.

Lemma last_printed : forall k g l a,
  print_ast (RRepetition k g (RConcat (l ++ [a]))) = flat_map print_ast (l ++ [RRepetition k g a]).
Proof. intros. cbn [print_ast]. rewrite !flat_map_app. cbn [flat_map print_ast]. rewrite !app_nil_r, <- app_assoc. reflexivity. Qed.
Lemma last_names : forall k g l a, rnames (RRepetition k g (RConcat (l ++ [a]))) = flat_map rnames (l ++ [RRepetition k g a]).
Proof. intros. cbn [rnames]. rewrite !flat_map_app. reflexivity. Qed.

Lemma shown_calm :
  (forall x a p, atom x a p -> True) /\
  (forall x a y ps, shown x a y ps -> forall rest, calm y rest -> calm x (print_ast a ++ rest)) /\
  (forall x l y ps, shown_all x l y ps -> forall rest, calm y rest -> calm x (flat_map print_ast l ++ rest)) /\
  (forall x a b, body x a b -> forall rest, (forall y, calm y rest) -> calm x (print_ast a ++ rest)) /\
  (forall x l bs, branches x l bs -> forall rest, (forall y, calm y rest) -> calm x (print_ast (RAlternation l) ++ rest)).
Proof.
  apply shown_induction; intros; auto.
  - apply begins_calm. eapply atom_begins; eauto.
  - cbn [print_ast]. unfold print_literal. cbn [rl_kind rl_c app]. intros t. rewrite skip_space_head by auto. apply H.
  - apply begins_calm. apply begins_char; [reflexivity|reflexivity|discriminate].
  - cbn [print_ast]. rewrite <- app_assoc. apply begins_calm. eapply atom_begins; eauto.
  - rewrite last_printed. auto.
  - cbn [flat_map]. rewrite <- app_assoc. auto.
  - cbn [print_ast flat_map]. rewrite app_nil_r. auto.
  - cbn [print_ast]. rewrite <- app_assoc. apply H. destruct l as [|b0 l0]; [apply H1|].
    cbn [flat_map]. rewrite <- !app_assoc. intros t. change (chars "|" ++ ?s) with (124%N :: s).
    rewrite skip_plain by (reflexivity || discriminate). discriminate.
Qed.

Lemma digit0_digits : forall d rest, (forall c, In c d -> is_digit c) ->
  (forall c s, rest = c :: s -> is_ascii_digit c = false) -> digit0 (d ++ rest) = (d, rest).
Proof.
  induction d as [|c d IH]; intros rest H1 H2.
  - cbn [app]. destruct rest as [|c s]; [reflexivity|]. simpl. rewrite (H2 c s eq_refl). reflexivity.
  - cbn [app digit0]. assert (E : is_ascii_digit c = true).
    { specialize (H1 c (or_introl eq_refl)). unfold is_digit in H1. unfold is_ascii_digit, in_range. lia. }
    rewrite E, IH; auto. intros. apply H1. right. auto.
Qed.
Lemma decimal_read : forall n c rest, (n <= 3000)%N -> is_ascii_digit c = false ->
  read_decimal (n_decimal n ++ c :: rest) = Some (n, c :: rest).
Proof.
  intros n c rest Hn Hc. destruct (decimal_reads (N.to_nat n)) as (H1 & H2 & H3 & _). unfold n_decimal, read_decimal.
  rewrite digit0_digits; auto.
  - destruct (decimal (N.to_nat n)) as [|d ds] eqn:E; [congruence|]. rewrite <- E.
    unfold u32_from_str. change (fold_left (fun n c => n * 10 + (c - 48))%N (decimal (N.to_nat n)) 0%N) with (decimal_value (decimal (N.to_nat n))).
    rewrite <- E in H3. rewrite H3, N2Nat.id. destruct (N.leb_spec n u32_max) as [|L]; [reflexivity|].
    exfalso. unfold u32_max in L. lia.
  - intros d s E. injection E as <- _. exact Hc.
Qed.
Lemma count_read : forall k g rest, kind_ok k ->
  match k with RZeroOrOne | RZeroOrMore | ROneOrMore => True | _ =>
    exists s, print_rep k g ++ rest = 123%N :: s /\
      read_count s = Some (k, (if g : bool then [] else chars "?") ++ rest)
  end.
Proof.
  intros k g rest H. destruct k as [| | |n|n|n m]; cbn [kind_ok] in H; auto; unfold print_rep.
  - exists (n_decimal n ++ 125%N :: (if g then [] else chars "?") ++ rest). split.
    { rewrite <- !app_assoc. reflexivity. }
    unfold read_count. rewrite decimal_read by (auto || reflexivity).
    rewrite !strip_other by reflexivity. change (125%N :: ?s) with (chars "}" ++ s). rewrite strip_app. reflexivity.
  - exists (n_decimal n ++ 44%N :: 125%N :: (if g then [] else chars "?") ++ rest). split.
    { rewrite <- !app_assoc. reflexivity. }
    unfold read_count. rewrite decimal_read by (auto || reflexivity).
    change (44%N :: 125%N :: ?s) with (chars ",}" ++ s). rewrite strip_app. reflexivity.
  - exists (n_decimal n ++ 44%N :: n_decimal m ++ 125%N :: (if g then [] else chars "?") ++ rest). split.
    { rewrite <- !app_assoc. reflexivity. }
    unfold read_count. rewrite decimal_read by (lia || reflexivity).
    assert (D : exists d ds, n_decimal m = d :: ds /\ is_digit d).
    { destruct (decimal_reads (N.to_nat m)) as (H1 & H2 & _). unfold n_decimal. destruct (decimal (N.to_nat m)) as [|d ds]; [congruence|].
      exists d, ds. split; [reflexivity|]. apply H2. left. reflexivity. }
    assert (E : strip (chars ",}") (44%N :: n_decimal m ++ 125%N :: (if g then [] else chars "?") ++ rest) = None).
    { destruct D as (d & ds & -> & Hd). unfold strip. cbn [length chars app firstn].
      destruct (str_eqb _ _) eqn:Q; [|reflexivity]. apply str_eqb_eq in Q. injection Q as Q. unfold is_digit in Hd. lia. }
    rewrite E. change (44%N :: ?s) with (chars "," ++ s). rewrite strip_app, decimal_read by (lia || reflexivity).
    change (125%N :: ?s) with (chars "}" ++ s). rewrite strip_app. destruct (N.leb_spec n m); [reflexivity|lia].
Qed.
Lemma lazy_read : forall (g : bool) rest, calm false rest -> read_lazy ((if g then [] else chars "?") ++ rest) = (g, rest).
Proof.
  intros [] rest H; unfold read_lazy; [|rewrite strip_app; reflexivity]. cbn [app].
  destruct rest as [|c s]; [reflexivity|]. change (chars "?") with [63%N]. rewrite strip_head; [reflexivity|].
  intros <-. apply (H s). reflexivity.
Qed.

(* one repetition operator after an atom *)
Lemma skip_calm : forall x rest, calm x rest -> calm false (skip x rest).
Proof. intros x rest H t. apply H. Qed.
Lemma skip_space_idem : forall b s, skip_space false (skip_space b s) = skip_space b s.
Proof.
  intros b s. revert b. induction s as [|c s IH]; intros b; [reflexivity|]. cbn [skip_space].
  destruct b; [apply IH|]. destruct (is_whitespace c) eqn:E1; [apply IH|]. destruct (c =? 35)%N eqn:E2; [apply IH|].
  cbn [skip_space]. rewrite E1, E2. reflexivity.
Qed.
Lemma skip_idem : forall x s, skip x (skip x s) = skip x s.
Proof. intros [] s; [apply skip_space_idem|reflexivity]. Qed.
Lemma read_body_skip : forall fuel x names alts cur s,
  read_body fuel x names alts cur (skip x s) = read_body fuel x names alts cur s.
Proof. intros [|fuel] x names alts cur s; [reflexivity|]. cbn [read_body]. rewrite skip_idem. reflexivity. Qed.
Lemma skip_length : forall x s, length (skip x s) <= length s.
Proof.
  intros [] s; [|reflexivity]. unfold skip. generalize false. induction s as [|c s IH]; intros b; [reflexivity|].
  cbn [skip_space length]. destruct b; [specialize (IH (negb (c =? 10)%N)); lia|].
  destruct (is_whitespace c); [specialize (IH false); lia|]. destruct (c =? 35)%N; [specialize (IH true); lia|reflexivity].
Qed.
Lemma calm_raw : forall x rest, calm x rest -> calm false rest.
Proof.
  intros x rest H t E. cbn [skip] in E. subst rest. apply (H t). apply skip_plain; [reflexivity|discriminate].
Qed.
Lemma repetition_read : forall fuel x names alts cur p k g rest, repeatable p = true -> kind_ok k -> calm x rest ->
  read_body (S fuel) x names alts (cur ++ [p]) (print_rep k g ++ rest) =
  read_body fuel x names alts (cur ++ [RRepetition k g p]) rest.
Proof.
  intros fuel x names alts cur p k g rest Hp Hk Hc.
  assert (simple : forall c kind, (c, kind) = (63%N, RZeroOrOne) \/ (c, kind) = (42%N, RZeroOrMore) \/ (c, kind) = (43%N, ROneOrMore) ->
    read_body (S fuel) x names alts (cur ++ [p]) (c :: (if g then [] else chars "?") ++ rest) =
    read_body fuel x names alts (cur ++ [RRepetition kind g p]) rest).
  { intros c kind H.
    assert (P : c = 63%N /\ kind = RZeroOrOne \/ c = 42%N /\ kind = RZeroOrMore \/ c = 43%N /\ kind = ROneOrMore)
      by (destruct H as [H|[H|H]]; injection H as -> ->; auto).
    cbn [read_body]. 
    rewrite skip_plain by (destruct P as [[-> _]|[[-> _]|[-> _]]]; (reflexivity || discriminate)).
    rewrite pop_last_app, Hp, (lazy_read g rest) by (eapply calm_raw; eauto).
    destruct P as [[-> ->]|[[-> ->]|[-> ->]]]; reflexivity. }
  pose proof (count_read k g rest Hk) as C. destruct k as [| | |n|n|n m].
  - apply simple. auto.
  - apply simple. auto.
  - apply simple. auto.
  - destruct C as (s & E1 & E2). rewrite E1. cbn [read_body]. rewrite skip_plain by (reflexivity || discriminate).
    rewrite pop_last_app, Hp, E2. change (123 =? 124)%N with false. cbn match. cbn [N.eqb orb Pos.eqb].
    destruct g; cbn [app].
    + pose proof (lazy_read true (skip x rest) (skip_calm _ _ Hc)) as L. cbn [app] in L. rewrite L. apply read_body_skip.
    + change (chars "?" ++ rest) with (63%N :: rest). rewrite skip_plain by (reflexivity || discriminate).
      change (63%N :: rest) with ((if false then [] else chars "?") ++ rest). rewrite lazy_read by (eapply calm_raw; eauto). reflexivity.
  - destruct C as (s & E1 & E2). rewrite E1. cbn [read_body]. rewrite skip_plain by (reflexivity || discriminate).
    rewrite pop_last_app, Hp, E2. change (123 =? 124)%N with false. cbn match. cbn [N.eqb orb Pos.eqb].
    destruct g; cbn [app].
    + pose proof (lazy_read true (skip x rest) (skip_calm _ _ Hc)) as L. cbn [app] in L. rewrite L. apply read_body_skip.
    + change (chars "?" ++ rest) with (63%N :: rest). rewrite skip_plain by (reflexivity || discriminate).
      change (63%N :: rest) with ((if false then [] else chars "?") ++ rest). rewrite lazy_read by (eapply calm_raw; eauto). reflexivity.
  - destruct C as (s & E1 & E2). rewrite E1. cbn [read_body]. rewrite skip_plain by (reflexivity || discriminate).
    rewrite pop_last_app, Hp, E2. change (123 =? 124)%N with false. cbn match. cbn [N.eqb orb Pos.eqb].
    destruct g; cbn [app].
    + pose proof (lazy_read true (skip x rest) (skip_calm _ _ Hc)) as L. cbn [app] in L. rewrite L. apply read_body_skip.
    + change (chars "?" ++ rest) with (63%N :: rest). rewrite skip_plain by (reflexivity || discriminate).
      change (63%N :: rest) with ((if false then [] else chars "?") ++ rest). rewrite lazy_read by (eapply calm_raw; eauto). reflexivity.
Qed.

(* primitives *)
Lemma primitive_read : forall fuel x names alts cur s p rest,
  begins x (chars "|)([?*+{") s -> read_primitive x s = Some (p, rest) ->
  read_body (S fuel) x names alts cur s = read_body fuel x names alts (cur ++ [of_primitive p]) rest.
Proof.
  intros fuel x names alts cur s p rest (c & t & -> & H1 & H2) R. cbn [read_body]. rewrite H2.
  assert (K : forall b, In b (chars "|)([?*+{") -> (c =? b)%N = false).
  { intros b Hb. apply N.eqb_neq. intros ->. contradiction. }
  rewrite (K 124%N), (K 41%N), (K 40%N), (K 91%N), (K 63%N), (K 42%N), (K 43%N), (K 123%N) by (simpl; tauto).
  cbn [orb]. rewrite R. reflexivity.
Qed.
Lemma plain_meta : forall b, In b (chars "|)([?*+{") -> is_meta_character b = true.
Proof. intros b H. simpl in H. repeat (destruct H as [<-|H]; [reflexivity|]). contradiction. Qed.

(* groups *)
Lemma name_read : forall n rest acc,
  (forall d, In d n -> letter_or_underscore d \/ is_digit d) ->
  (acc = [] -> exists c l, n = c :: l /\ letter_or_underscore c) ->
  read_name acc (n ++ 62%N :: rest) = Some (acc ++ n, rest).
Proof.
  induction n as [|c n IH]; intros rest acc H1 H2.
  - cbn [app read_name]. change (62 =? 62)%N with true. cbn match. rewrite app_nil_r.
    destruct acc; [destruct (H2 eq_refl) as (? & ? & E & _); discriminate|reflexivity].
  - cbn [app read_name].
    assert (C : letter_or_underscore c \/ is_digit c) by (apply H1; left; reflexivity).
    assert (E : (c =? 62)%N = false) by (unfold letter_or_underscore, is_digit in C; lia). rewrite E.
    assert (K : capture_char match acc with [] => true | _ :: _ => false end c = true).
    { unfold capture_char, is_ascii_alpha, is_ascii_digit, is_ascii_lower, is_ascii_upper, in_range in *.
      destruct acc.
      - destruct (H2 eq_refl) as (c' & l & Q & L). injection Q as <- _. unfold letter_or_underscore in L. lia.
      - unfold letter_or_underscore, is_digit in C. lia. }
    rewrite K, IH.
    + rewrite <- app_assoc. reflexivity.
    + intros d Hd. apply H1. right. exact Hd.
    + intros Q. destruct acc; discriminate.
Qed.

Definition closed (rest : str) : Prop := rest = [] \/ exists s, rest = 41%N :: s.
Lemma closed_calm : forall rest, closed rest -> forall y, calm y rest.
Proof.
  intros rest [->|[s ->]] y t; [rewrite skip_nil; discriminate|].
  rewrite skip_plain by (reflexivity || discriminate). discriminate.
Qed.
Lemma close_read : forall fuel x names alts cur rest, closed rest ->
  read_body (S fuel) x names alts cur rest = Some (finish alts cur, names, rest).
Proof.
  intros fuel x names alts cur rest [->|[s ->]]; cbn [read_body].
  - rewrite skip_nil. reflexivity.
  - rewrite skip_plain by (reflexivity || discriminate). reflexivity.
Qed.

Lemma open_calm : forall x s, calm x s -> (forall p, In p [chars "?="; chars "?!"; chars "?<="; chars "?<!"; chars "?P<"; chars "?<"; chars "?"] ->
  strip p (skip x s) = None).
Proof.
  intros x s H p Hp. specialize (H (tl (skip x s))). destruct (skip x s) as [|c t].
  - simpl in Hp. repeat (destruct Hp as [<-|Hp]; [reflexivity|]). contradiction.
  - cbn [tl] in H. apply strip_other.
    assert (K : (63 =? c)%N = false) by (apply N.eqb_neq; congruence).
    simpl in Hp. repeat (destruct Hp as [<-|Hp]; [exact K|]). contradiction.
Qed.
Lemma capture_open : forall x s, calm x s -> read_open x s = Some (OCapture, skip x s).
Proof.
  intros x s H. pose proof (open_calm x s H) as K. unfold read_open. cbv zeta.
  rewrite !K by (simpl; tauto). reflexivity.
Qed.
Lemma named_open : forall x n s, name_ok n -> read_open x (chars "?<" ++ n ++ 62%N :: s) = Some (ONamed n, s).
Proof.
  intros x n s (c & l & E & Hc & Hl). unfold read_open. cbv zeta.
  change (chars "?<" ++ ?t) with (63%N :: 60%N :: t). rewrite skip_plain by (reflexivity || discriminate).
  assert (K1 : forall p, In p [chars "?="; chars "?!"; chars "?P<"] -> strip p (63%N :: 60%N :: n ++ 62%N :: s) = None).
  { intros p Hp. simpl in Hp. repeat (destruct Hp as [<-|Hp]; [unfold strip; cbn [chars length firstn];
      match goal with |- (if str_eqb ?a ?b then _ else _) = _ => destruct (str_eqb a b) eqn:Q; [apply str_eqb_eq in Q; discriminate|reflexivity] end|]).
    contradiction. }
  assert (K2 : forall p, In p [chars "?<="; chars "?<!"] -> strip p (63%N :: 60%N :: n ++ 62%N :: s) = None).
  { intros p Hp. rewrite E. cbn [app]. simpl in Hp. unfold letter_or_underscore in Hc.
    repeat (destruct Hp as [<-|Hp]; [unfold strip; cbn [chars length firstn];
      match goal with |- (if str_eqb ?a ?b then _ else _) = _ => destruct (str_eqb a b) eqn:Q; [apply str_eqb_eq in Q; injection Q as Q; lia|reflexivity] end|]).
    contradiction. }
  rewrite (K1 (chars "?=")), (K1 (chars "?!")), (K2 (chars "?<=")), (K2 (chars "?<!")), (K1 (chars "?P<")) by (simpl; tauto).
  change (63%N :: 60%N :: ?t) with (chars "?<" ++ t). rewrite strip_app.
  rewrite name_read; [reflexivity| |].
  - intros d Hd. rewrite E in Hd. destruct Hd as [<-|Hd]; [left; exact Hc|auto].
  - intros _. exists c, l. auto.
Qed.
Lemma flags_head : forall f c rest, (c = 58 \/ c = 41)%N -> flags_ok f ->
  exists d t, print_flags f ++ c :: rest = d :: t /\ ((d = 58 \/ d = 41 \/ d = 45)%N \/ read_flag d <> None).
Proof.
  intros [|[|g] f] c rest Hc H.
  - exists c, rest. split; [reflexivity|]. tauto.
  - exists 45%N. eexists. split; [reflexivity|]. tauto.
  - destruct g; (eexists; eexists; split; [reflexivity|right; discriminate]).
Qed.
Lemma flags_open : forall x f c rest, (c = 58 \/ c = 41)%N -> flags_ok f ->
  read_open x (chars "?" ++ print_flags f ++ c :: rest) =
  (if (c =? 41)%N then match f with [] => None | _ => Some (OSetFlags f, rest) end else Some (OGroup f, rest)).
Proof.
  intros x f c rest Hc Hf. unfold read_open. cbv zeta.
  change (chars "?" ++ ?t) with (63%N :: t). rewrite skip_plain by (reflexivity || discriminate).
  destruct (flags_head f c rest Hc Hf) as (d & t & E & Hd).
  assert (K : forall p, In p [chars "?="; chars "?!"; chars "?<="; chars "?<!"; chars "?P<"; chars "?<"] -> strip p (63%N :: d :: t) = None).
  { intros p Hp. assert (N1 : d <> 61%N /\ d <> 33%N /\ d <> 60%N /\ d <> 80%N).
    { repeat split; intros ->; (destruct Hd as [[?|[?|?]]|?]; [discriminate|discriminate|discriminate|apply H; reflexivity]). }
    destruct N1 as (N1 & N2 & N3 & N4). simpl in Hp.
    repeat (destruct Hp as [<-|Hp]; [unfold strip; cbn [chars length firstn];
      match goal with |- (if str_eqb ?a ?b then _ else _) = _ => destruct (str_eqb a b) eqn:Q; [apply str_eqb_eq in Q; injection Q; intros; congruence|reflexivity] end|]).
    contradiction. }
  rewrite E, !K by (simpl; tauto). rewrite <- E. change (63%N :: ?t) with (chars "?" ++ t). rewrite strip_app, Hf by exact Hc.
  reflexivity.
Qed.

Lemma named_once : forall names n l, NoDup (names ++ n :: l) -> existsb (str_eqb n) names = false.
Proof.
  intros names n l H. destruct (existsb (str_eqb n) names) eqn:E; [|reflexivity]. exfalso.
  apply existsb_exists in E as (m & Hm & E). apply str_eqb_eq in E. subst m.
  apply NoDup_remove_2 in H. apply H. apply in_app_iff. left. exact Hm.
Qed.
Lemma nodup_left : forall A (a b : list A), NoDup (a ++ b) -> NoDup a.
Proof. induction a as [|x a IH]; intros b H; [constructor|]. inversion H; subst. constructor; [|eapply IH; eauto]. intros K. apply H2. apply in_app_iff. auto. Qed.

Lemma group_read : forall fuel x o s names s1 a names' s2 alts cur,
  read_open x s = Some (o, s1) -> (match o with OSetFlags _ => False | _ => True end) ->
  (match o with ONamed n => existsb (str_eqb n) names = false | _ => True end) ->
  read_body fuel (match o with OGroup f => x_after f x | _ => x end)
    (match o with ONamed n => names ++ [n] | _ => names end) [] [] s1 = Some (a, names', 41%N :: s2) ->
  read_body (S fuel) x names alts cur (40%N :: s) = read_body fuel x names' alts (cur ++ [wrap o a]) s2.
Proof.
  intros fuel x o s names s1 a names' s2 alts cur H1 H2 H3 H4. cbn [read_body].
  rewrite skip_plain by (reflexivity || discriminate). cbn [N.eqb Pos.eqb]. rewrite H1.
  destruct o as [f| |n|f]; [contradiction| | |]; [rewrite H4|rewrite H3, H4|rewrite H4]; reflexivity.
Qed.

Lemma shown_read :
  (forall x a p, atom x a p -> forall fuel names alts cur rest, NoDup (names ++ rnames a) ->
     length (print_ast a ++ rest) < fuel -> exists fuel', length rest < fuel' /\
     read_body fuel x names alts cur (print_ast a ++ rest) = read_body fuel' x (names ++ rnames a) alts (cur ++ [p]) rest) /\
  (forall x a y ps, shown x a y ps -> forall fuel names alts cur rest, NoDup (names ++ rnames a) -> calm y rest ->
     length (print_ast a ++ rest) < fuel -> exists fuel', length rest < fuel' /\
     read_body fuel x names alts cur (print_ast a ++ rest) = read_body fuel' y (names ++ rnames a) alts (cur ++ ps) rest) /\
  (forall x l y ps, shown_all x l y ps -> forall fuel names alts cur rest, NoDup (names ++ flat_map rnames l) -> calm y rest ->
     length (flat_map print_ast l ++ rest) < fuel -> exists fuel', length rest < fuel' /\
     read_body fuel x names alts cur (flat_map print_ast l ++ rest) =
     read_body fuel' y (names ++ flat_map rnames l) alts (cur ++ ps) rest) /\
  (forall x a b, body x a b -> forall fuel names rest, NoDup (names ++ rnames a) -> closed rest ->
     length (print_ast a ++ rest) < fuel ->
     read_body fuel x names [] [] (print_ast a ++ rest) = Some (b, names ++ rnames a, rest)) /\
  (forall x l bs, branches x l bs -> forall fuel names alts rest, NoDup (names ++ flat_map rnames l) -> closed rest ->
     length (print_ast (RAlternation l) ++ rest) < fuel -> alts <> [] \/ 2 <= length bs ->
     read_body fuel x names alts [] (print_ast (RAlternation l) ++ rest) =
     Some (RAlternation (alts ++ bs), names ++ flat_map rnames l, rest)).
Proof.
  apply shown_induction.
  - (* literal *)
    intros x l H V fuel names alts cur rest _ L. destruct fuel as [|fuel]; [lia|]. exists fuel.
    cbn [print_ast rnames] in *. rewrite app_nil_r.
    assert (B : begins x (chars "|)([?*+{") (print_literal l)) by (apply literal_begins; [exact H|exact V|apply plain_meta|simpl; intuition discriminate]).
    split; [destruct B as (c & t & E & _); rewrite E in L; cbn [app length] in L; rewrite app_length in L; lia|].
    apply (primitive_read fuel x names alts cur _ (MLiteral l)); [apply begins_app; exact B|apply literal_read_primitive; exact H].
  - (* dot *)
    intros x fuel names alts cur rest _ L. destruct fuel as [|fuel]; [lia|]. exists fuel. cbn [rnames]. rewrite app_nil_r.
    split; [cbn in L; lia|]. apply (primitive_read fuel x names alts cur _ MDot); [|reflexivity].
    apply begins_char; [reflexivity|reflexivity|discriminate].
  - (* assertion *)
    intros x a fuel names alts cur rest _ L. destruct fuel as [|fuel]; [lia|]. exists fuel. cbn [rnames]. rewrite app_nil_r.
    split; [rewrite app_length in L; destruct a; cbn in L; lia|].
    apply (primitive_read fuel x names alts cur _ (MAssertion a)); [|destruct a; reflexivity].
    destruct a; (apply begins_char; [reflexivity|reflexivity|discriminate]).
  - (* unicode class *)
    intros x n name H fuel names alts cur rest _ L. destruct fuel as [|fuel]; [lia|]. exists fuel. cbn [rnames]. rewrite app_nil_r.
    split; [rewrite app_length in L; cbn [print_ast] in L; unfold print_unicode in L; rewrite !app_length in L; destruct n; cbn in L; lia|].
    apply (primitive_read fuel x names alts cur _ (MUnicode n name)).
    + destruct n; (apply begins_char; [reflexivity|reflexivity|discriminate]).
    + pose proof (property_read x n name rest H) as R. cbn [print_ast].
      assert (E : exists t, print_unicode n name ++ rest = 92%N :: t) by (destruct n; eexists; reflexivity).
      destruct E as [t E]. rewrite E in *. exact R.
  - (* class *)
    intros x n items Hne H fuel names alts cur rest _ L. destruct fuel as [|fuel]; [lia|]. exists fuel.
    cbn [rnames]. rewrite app_nil_r. cbn [print_ast print_class_item] in *.
    assert (E : ((if n then chars "[^" else chars "[") ++ flat_map print_class_item items ++ chars "]") ++ rest =
      91%N :: (if n then chars "^" else []) ++ flat_map print_class_item items ++ 93%N :: rest)
      by (destruct n; cbn [app chars]; rewrite <- ?app_assoc; reflexivity).
    assert (L2 : length (flat_map print_class_item items ++ 93%N :: rest) < fuel).
    { rewrite !app_length in L. change (length (chars "]")) with 1 in L. rewrite app_length. cbn [length].
      destruct n; [change (length (chars "[^")) with 2 in L|change (length (chars "[")) with 1 in L]; lia. }
    split; [rewrite app_length in L2; cbn [length] in L2; lia|].
    rewrite E. cbn [read_body]. rewrite skip_plain by (reflexivity || discriminate). cbn [N.eqb Pos.eqb].
    rewrite class_open_read.
    + rewrite items_read by auto. reflexivity.
    + destruct items as [|i items]; [congruence|]. cbn [flat_map]. rewrite <- app_assoc. apply begins_app.
      apply (begins_weaken x class_bad); [simpl; tauto|]. apply item_begins. inversion H; auto.
  - (* capture *)
    intros x a b Hb IH fuel names alts cur rest N L. destruct fuel as [|fuel]; [lia|]. exists fuel.
    cbn [print_ast rnames] in *.
    assert (E : (chars "(" ++ print_ast a ++ chars ")") ++ rest = 40%N :: print_ast a ++ 41%N :: rest)
      by (rewrite <- !app_assoc; reflexivity).
    rewrite E in *. cbn [length] in L. split; [rewrite app_length in L; cbn [length] in L; lia|].
    assert (C : calm x (print_ast a ++ 41%N :: rest)).
    { eapply (proj1 (proj2 (proj2 (proj2 shown_calm)))); [exact Hb|]. apply closed_calm. right. eauto. }
    eapply (group_read fuel x OCapture); [apply capture_open; exact C|exact I|exact I|].
    cbv beta iota. rewrite read_body_skip. apply IH; [exact N|right; eauto|lia].
  - (* named *)
    intros x n a b Hn Hb IH fuel names alts cur rest N L. destruct fuel as [|fuel]; [lia|]. exists fuel.
    cbn [print_ast rnames] in *.
    assert (E : (chars "(?<" ++ n ++ chars ">" ++ print_ast a ++ chars ")") ++ rest =
      40%N :: chars "?<" ++ n ++ 62%N :: print_ast a ++ 41%N :: rest)
      by (rewrite <- !app_assoc; reflexivity).
    rewrite E in *. cbn [length] in L. rewrite !app_length in L. change (length (chars "?<")) with 2 in L. cbn [length] in L.
    split; [rewrite !app_length in L; cbn [length] in L; lia|].
    replace (names ++ n :: rnames a) with ((names ++ [n]) ++ rnames a) by (rewrite <- app_assoc; reflexivity).
    eapply (group_read fuel x (ONamed n)); [apply named_open; exact Hn|exact I|eapply named_once; exact N|].
    cbv beta iota. apply IH; [rewrite <- app_assoc; exact N|right; eauto|lia].
  - (* group *)
    intros x f a b Hf Hb IH fuel names alts cur rest N L. destruct fuel as [|fuel]; [lia|]. exists fuel.
    cbn [print_ast rnames] in *.
    assert (E : (chars "(?" ++ print_flags f ++ chars ":" ++ print_ast a ++ chars ")") ++ rest =
      40%N :: chars "?" ++ print_flags f ++ 58%N :: print_ast a ++ 41%N :: rest)
      by (rewrite <- !app_assoc; reflexivity).
    rewrite E in *. cbn [length] in L. rewrite !app_length in L. change (length (chars "?")) with 1 in L. cbn [length] in L.
    split; [rewrite !app_length in L; cbn [length] in L; lia|].
    eapply (group_read fuel x (OGroup f)); [rewrite flags_open by auto; reflexivity|exact I|exact I|].
    cbv beta iota. apply IH; [exact N|right; eauto|lia].
  - (* an atom is shown *)
    intros x a p _ IH fuel names alts cur rest N _ L. apply IH; auto.
  - (* empty *)
    intros x fuel names alts cur rest _ _ L. exists fuel. cbn [print_ast rnames app] in *. rewrite !app_nil_r. auto.
  - (* white space *)
    intros c H fuel names alts cur rest _ _ L. cbn [print_ast] in *. unfold print_literal in *. cbn [rl_kind rl_c app rnames] in *.
    rewrite !app_nil_r. exists fuel. cbn [length] in L. split; [lia|].
    rewrite <- (read_body_skip fuel true names alts cur (c :: rest)), skip_space_head by exact H. apply read_body_skip.
  - (* flags *)
    intros x f Hf Hne fuel names alts cur rest _ _ L. destruct fuel as [|fuel]; [lia|]. exists fuel.
    cbn [print_ast rnames] in *. rewrite app_nil_r.
    assert (E : (chars "(?" ++ print_flags f ++ chars ")") ++ rest = 40%N :: chars "?" ++ print_flags f ++ 41%N :: rest)
      by (rewrite <- !app_assoc; reflexivity).
    rewrite E in *. cbn [length] in L. rewrite !app_length in L. cbn [length] in L. split; [lia|].
    cbn [read_body]. rewrite skip_plain by (reflexivity || discriminate). cbn [N.eqb Pos.eqb].
    rewrite flags_open by auto. cbn [N.eqb Pos.eqb]. destruct f as [|i f]; [congruence|]. reflexivity.
  - (* repetition *)
    intros x k g a p Ha IH Hk fuel names alts cur rest N C L. cbn [print_ast rnames] in *. rewrite <- app_assoc in *.
    destruct (IH fuel names alts cur (print_rep k g ++ rest) N L) as (fuel' & L' & E).
    destruct fuel' as [|fuel']; [lia|]. exists fuel'. split.
    + rewrite app_length in L'. assert (1 <= length (print_rep k g)); [|lia].
      clear. unfold print_rep. rewrite app_length. destruct k; rewrite ?app_length; cbn; lia.
    + rewrite E. apply repetition_read; [eapply atom_repeatable; eauto|exact Hk|exact C].
  - (* concatenation *)
    intros x l y ps _ IH fuel names alts cur rest N C L. cbn [print_ast rnames] in *. apply IH; auto.
  - (* repetition of the last one *)
    intros x k g l a y ps _ IH fuel names alts cur rest N C L. rewrite last_printed in *. rewrite last_names in *. apply IH; auto.
  - (* no more *)
    intros x fuel names alts cur rest _ _ L. exists fuel. cbn [flat_map app] in *. rewrite !app_nil_r. auto.
  - (* one more *)
    intros x a y ps l z qs Ha IHa Hl IHl fuel names alts cur rest N C L. cbn [flat_map] in *. rewrite <- app_assoc in L.
    rewrite app_assoc in N.
    destruct (IHa fuel names alts cur (flat_map print_ast l ++ rest)) as (fuel1 & L1 & E1).
    + eapply nodup_left; exact N.
    + eapply (proj1 (proj2 (proj2 shown_calm))); [exact Hl|exact C].
    + exact L.
    + destruct (IHl fuel1 (names ++ rnames a) alts (cur ++ ps) rest N C L1) as (fuel2 & L2 & E2).
      exists fuel2. split; [exact L2|]. rewrite <- !app_assoc in *. rewrite E1. exact E2.
  - (* body of one branch *)
    intros x a y ps _ IH fuel names rest N C L.
    destruct (IH fuel names [] [] rest N (closed_calm rest C y) L) as (fuel' & L' & E).
    rewrite E. destruct fuel' as [|fuel']; [lia|]. rewrite close_read by exact C. reflexivity.
  - (* body of several branches *)
    intros x a l b c bs _ IH fuel names rest N C L. apply (IH fuel names [] rest N C L). right. cbn [length]. lia.
  - (* last branch *)
    intros x a y ps _ IH fuel names alts rest N C L A. cbn [flat_map print_ast] in *. rewrite app_nil_r in *.
    destruct (IH fuel names alts [] rest N (closed_calm rest C y) L) as (fuel' & L' & E).
    rewrite E. destruct fuel' as [|fuel']; [lia|]. rewrite close_read by exact C. cbn [app].
    rewrite ?app_nil_r. destruct alts as [|b alts]; [destruct A as [A|A]; [congruence|cbn in A; lia]|]. reflexivity.
  - (* one more branch *)
    intros x a y ps l bs Ha IHa Hl IHl fuel names alts rest N C L _. cbn [flat_map] in *. rewrite app_assoc in N.
    assert (P : print_ast (RAlternation (a :: l)) = print_ast a ++ 124%N :: print_ast (RAlternation l)).
    { destruct l as [|b l]; [inversion Hl|]. cbn [print_ast flat_map]. rewrite <- !app_assoc. reflexivity. }
    rewrite P in *. rewrite <- app_assoc in L. rewrite <- app_assoc. cbn [app] in L.
    destruct (IHa fuel names alts [] (124%N :: print_ast (RAlternation l) ++ rest)) as (fuel1 & L1 & E1).
    + eapply nodup_left; exact N.
    + intros t. rewrite skip_plain by (reflexivity || discriminate). discriminate.
    + exact L.
    + cbn [app]. rewrite E1. destruct fuel1 as [|fuel1]; [lia|]. cbn [length] in L1. cbn [read_body].
      rewrite skip_plain by (reflexivity || discriminate). cbn [N.eqb Pos.eqb].
      rewrite IHl; [|exact N|exact C|lia|left; destruct alts; discriminate].
      rewrite <- !app_assoc. reflexivity.
Qed.

Lemma reread_printed : forall a b, body false a b -> NoDup (rnames a) -> reread (print_ast a) = Some b.
Proof.
  intros a b H N. unfold reread.
  pose proof (proj1 (proj2 (proj2 (proj2 shown_read))) false a b H (S (length (print_ast a))) [] [] N (or_introl eq_refl)) as R.
  rewrite app_nil_r in R. rewrite R by lia. reflexivity.
Qed.
