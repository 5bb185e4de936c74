(* The pattern parser only accepts texts of the grammar, at every depth *)
From Coq Require Import Lia ZifyN.
From Verif Require Import Proofs.Text.
From Verif Require Export Proofs.Parser.

(* take the next step of a sequence of parsers *)
Ltac step E := let T := fresh "T" in
  apply pbind_ok in E as (? & ? & T & E); try (apply tag_ok in T).

Ltac sound_tags := apply psound_alt;
  repeat (apply Forall_cons; [first [assumption | apply psound_map_tag; constructor]|]); apply Forall_nil.

(* ---- quoted text ---- *)
Lemma app_same_length : forall A (a c b d : list A), a ++ b = c ++ d -> length a = length c -> a = c.
Proof.
  induction a as [|x a IH]; intros [|y c] b d H Hl; simpl in *; try discriminate; auto.
  injection H as -> H. f_equal. eapply IH; eauto.
Qed.
Lemma psound_quoted : psound (fun l t => no_end l /\ t = chars "\Q" ++ l ++ chars "\E") quoted_literals.
Proof.
  intros s l rest E. step E. apply pbind_ok in E as (w & r & T2 & E). step E. injection E as <- <-.
  destruct (take_until_ok (chars "\E") ltac:(discriminate) _ _ _ T2) as (v & Hv & ->).
  destruct (take_until_first (chars "\E") ltac:(discriminate) _ _ _ T2) as [_ Hf].
  match goal with H : r = _ |- _ => subst r end. subst.
  exists (chars "\Q" ++ w ++ chars "\E"). split; [rewrite <- !app_assoc; reflexivity|]. split; [|reflexivity].
  intros a b Hab. symmetry. eapply app_same_length; [exact Hab|].
  assert (H1 : length w <= length a).
  { apply (Hf a (b ++ x2)). pose proof (f_equal (fun u => u ++ x2) Hab) as K. cbv beta in K.
    rewrite <- !app_assoc in K. exact K. }
  pose proof (f_equal (@length _) Hab) as K. rewrite !app_length in K. simpl in K. lia.
Qed.
Lemma calm_quoted : calm quoted_literals.
Proof. unfold quoted_literals. calm. Qed.

(* ---- named classes ---- *)
Lemma psound_perl : psound perl_text perl_character_class.
Proof. sound_tags. Qed.
Lemma calm_perl : calm perl_character_class.
Proof. unfold perl_character_class. calm. Qed.
Lemma psound_assertion : psound assertion_text assertion.
Proof. sound_tags. Qed.
Lemma calm_assertion : calm assertion.
Proof. unfold assertion. calm. Qed.
Lemma psound_flag : psound (fun f t => exists c, t = [c] /\ flag_char f c) parse_flag.
Proof.
  apply psound_alt. repeat (apply Forall_cons; [apply psound_map_tag; eexists; split; [reflexivity|constructor]|]).
  apply Forall_nil.
Qed.
Lemma calm_flag : calm parse_flag.
Proof. unfold parse_flag. calm. Qed.

Lemma concat_single : forall A (R : A -> char -> Prop) l ts,
  Forall2 (fun a t => exists c, t = [c] /\ R a c) l ts -> Forall2 R l (concat ts).
Proof.
  induction 1 as [|a t l ts (c & -> & H) _ IH]; simpl; constructor; auto.
Qed.

Lemma property_name_in : forall n, property_name n <-> In n unicode_property_names.
Proof.
  set (all := scripts ++ flat_map (fun x => fst x :: map (fun y => fst x ++ [y]) (snd x)) categories).
  assert (A : forall n, property_name n <-> In n all).
  { intros n. unfold property_name, all. rewrite in_app_iff, in_flat_map. split; intros [H|H]; auto; right.
    - destruct H as (c & sub & Hc & H). exists (c, sub). split; [exact Hc|]. cbn [fst snd]. destruct H as [-> |(x & Hx & ->)]; [left; reflexivity|].
      right. apply in_map_iff. exists x. auto.
    - destruct H as ([c sub] & Hc & H). exists c, sub. split; [exact Hc|]. cbn [fst snd] in H. destruct H as [<- |H]; [left; reflexivity|].
      right. apply in_map_iff in H as (x & <- & Hx). exists x. auto. }
  assert (I : forall l l' : list str, forallb (fun n => existsb (str_eqb n) l') l = true -> forall n, In n l -> In n l').
  { intros l l' H n Hn. rewrite forallb_forall in H. specialize (H n Hn). apply existsb_exists in H as (m & Hm & E). apply str_eqb_eq in E as ->. exact Hm. }
  intros n. rewrite A. split; apply I; vm_compute; reflexivity.
Qed.
Lemma psound_property_name : psound (fun n t => t = n /\ In n unicode_property_names) unicode_property_name.
Proof.
  intros s n rest E. apply pbind_ok in E as (name & r & T & E).
  destruct (psound_many0 _ _ _ (psound_one_of ascii_letters_with_underscore) _ _ _ T) as (t & -> & ts & Hts & ->).
  destruct (existsb _ unicode_property_names) eqn:Ex; [|discriminate]. injection E as <- <-.
  exists (concat ts). split; [reflexivity|].
  assert (Hn : concat ts = name).
  { clear T Ex. induction Hts as [|c u l us [-> _] _ IH]; simpl; congruence. }
  split; [exact Hn|]. apply existsb_exists in Ex as (n & Hn1 & Hn2). apply str_eqb_eq in Hn2. subst n. exact Hn1.
Qed.
Lemma calm_property_name : calm unicode_property_name.
Proof.
  unfold unicode_property_name. apply calm_bind.
  - apply calm_many0; [apply calm_one_of|apply one_of_shrinks].
  - intros n s. destruct (existsb _ _); exact I.
Qed.
Lemma psound_property : psound unicode_text unicode_property_class.
Proof.
  intros s u rest E. apply alt_in in E as (p & Hp & E).
  assert (forall b t, (fun s => pbind (tag t s) (fun _ s1 => pbind (unicode_property_name s1) (fun name s2 =>
                 pbind (tag (chars "}") s2) (fun _ s3 => POk {| up_negate := b; up_name := name |} s3)))) s = POk u rest ->
             t = (if b then chars "\P{" else chars "\p{") ->
             exists t', s = t' ++ rest /\ unicode_text u t') as K.
  { clear. intros b t E Ht. step E. apply pbind_ok in E as (n & r & T2 & E). step E. injection E as <- <-.
    destruct (psound_property_name _ _ _ T2) as (w & -> & -> & Hn). subst.
    eexists. split; [|split; [apply property_name_in; exact Hn|reflexivity]]. simpl up_negate. simpl up_name. rewrite <- !app_assoc. reflexivity. }
  destruct Hp as [<-|[<-|[]]]; [exact (K false _ E eq_refl)|exact (K true _ E eq_refl)].
Qed.
Lemma calm_property : calm unicode_property_class.
Proof. pose proof calm_property_name. unfold unicode_property_class. calm. Qed.

(* ---- brackets ---- *)
Lemma psound_ascii_class : psound (fun i t => item_text [i] t) ascii_class.
Proof.
  intros s i rest E. step E. apply pbind_ok in E as (o & r1 & T1 & E). apply pbind_ok in E as (k & r2 & T2 & E).
  step E. injection E as <- <-. apply opt_ok in T1.
  assert (K : psound ascii_text (alt [pmap (fun _ => Alnum) (tag (chars "alnum"));
              pmap (fun _ => Alpha) (tag (chars "alpha"));
              pmap (fun _ => AsciiAll) (tag (chars "ascii"));
              pmap (fun _ => Blank) (tag (chars "blank"));
              pmap (fun _ => Cntrl) (tag (chars "cntrl"));
              pmap (fun _ => Digit) (tag (chars "digit"));
              pmap (fun _ => Graph) (tag (chars "graph"));
              pmap (fun _ => Lower) (tag (chars "lower"));
              pmap (fun _ => Print) (tag (chars "print"));
              pmap (fun _ => Punct) (tag (chars "punct"));
              pmap (fun _ => Space) (tag (chars "space"));
              pmap (fun _ => Upper) (tag (chars "upper"));
              pmap (fun _ => Word) (tag (chars "word"));
              pmap (fun _ => Xdigit) (tag (chars "xdigit"))])) by sound_tags.
  destruct (K _ _ _ T2) as (t & -> & Ht). clear K. subst.
  destruct o as [[]|].
  - apply tag_ok in T1. subst. exists (chars "[:^" ++ t ++ chars ":]").
    split; [rewrite <- !app_assoc; reflexivity|]. constructor. exact Ht.
  - destruct T1 as [_ <-]. exists (chars "[:" ++ t ++ chars ":]").
    split; [rewrite <- !app_assoc; reflexivity|]. constructor. exact Ht.
Qed.
Lemma calm_ascii_class : calm ascii_class.
Proof. unfold ascii_class. calm. Qed.

Lemma psound_range : psound (fun i t => item_text [i] t) bracket_range.
Proof.
  intros s i rest E. apply pbind_ok in E as (a & r1 & T1 & E). step E. apply pbind_ok in E as (b & r2 & T2 & E).
  injection E as <- <-. destruct (psound_literal _ _ _ _ T1) as (t1 & -> & H1).
  destruct (psound_literal _ _ _ _ T2) as (t2 & -> & H2). subst.
  exists (t1 ++ chars "-" ++ t2). split; [rewrite <- !app_assoc; reflexivity|]. econstructor; eauto.
Qed.
Lemma calm_range : calm bracket_range.
Proof. pose proof (calm_literal LBracketed). unfold bracket_range. calm. Qed.

Lemma names_class_named : forall l rest, In l (chars "dswDSWhHvV") ->
  perl_character_class (92%N :: l :: rest) <> PErr \/ tag (chars "\h") (92%N :: l :: rest) <> PErr \/
  tag (chars "\H") (92%N :: l :: rest) <> PErr \/ tag (chars "\v") (92%N :: l :: rest) <> PErr \/
  tag (chars "\V") (92%N :: l :: rest) <> PErr.
Proof.
  intros l rest H. cbv [chars] in H. simpl in H.
  repeat (destruct H as [<-|H]; [first [left; discriminate | right; left; discriminate |
    right; right; left; discriminate | do 3 right; left; discriminate | do 4 right; discriminate]|]). destruct H.
Qed.

Lemma pmap_err : forall A B (f : A -> B) p s, pmap f p s = PErr -> p s = PErr.
Proof. intros A B f p s H. unfold pmap in H. destruct (p s); simpl in H; try discriminate. reflexivity. Qed.

(* run the first parser of an [alt] *)
Ltac first_alternative E E1 := match type of E with (match ?x with _ => _ end) = _ =>
  destruct x eqn:E1; try discriminate E end.

Lemma psound_item : psound item_text bracket_class_item.
Proof.
  intros s i rest E. unfold bracket_class_item in E. cbn [alt] in E.
  first_alternative E E1; [injection E as <- <-|].
  { apply pmap_ok in E1 as (c & E1 & ->). destruct (psound_perl _ _ _ E1) as (t & -> & Ht).
    exists t. split; [reflexivity|constructor; exact Ht]. }
  first_alternative E E2; [injection E as <- <-|].
  { apply pmap_ok in E2 as ([] & E2 & ->). apply tag_ok in E2. exists (chars "\h"). split; [exact E2|constructor]. }
  first_alternative E E3; [injection E as <- <-|].
  { apply pmap_ok in E3 as ([] & E3 & ->). apply tag_ok in E3. exists (chars "\H"). split; [exact E3|constructor]. }
  first_alternative E E4; [injection E as <- <-|].
  { apply pmap_ok in E4 as ([] & E4 & ->). apply tag_ok in E4. exists (chars "\v"). split; [exact E4|constructor]. }
  first_alternative E E5; [injection E as <- <-|].
  { apply pmap_ok in E5 as ([] & E5 & ->). apply tag_ok in E5. exists (chars "\V"). split; [exact E5|constructor]. }
  first_alternative E E6; [injection E as <- <-|].
  { apply pmap_ok in E6 as (l & E6 & ->). destruct (psound_quoted _ _ _ E6) as (t & -> & Hl & ->).
    eexists. split; [reflexivity|]. constructor. exact Hl. }
  first_alternative E E7; [injection E as <- <-|].
  { apply pmap_ok in E7 as (l & E7 & ->). exact (psound_ascii_class _ _ _ E7). }
  first_alternative E E8; [injection E as <- <-|].
  { apply pmap_ok in E8 as (l & E8 & ->). exact (psound_range _ _ _ E8). }
  first_alternative E E9. injection E as <- <-.
  apply pmap_err in E1, E2, E3, E4, E5.
  apply pmap_ok in E9 as (j & E9 & ->). apply alt_in in E9 as (q & [<-|[<-|[<-|[]]]] & E9).
  - apply pmap_ok in E9 as (l & E9 & ->). destruct (psound_literal _ _ _ _ E9) as (t & -> & Ht).
    exists t. split; [reflexivity|]. econstructor; [exact Ht|]. intros (x & Hx & ->).
    destruct (names_class_named x rest0 Hx) as [?|[?|[?|[?|?]]]]; contradiction.
  - apply pmap_ok in E9 as (l & E9 & ->). destruct (psound_perl _ _ _ E9) as (t & -> & Ht).
    exists t. split; [reflexivity|]. constructor. exact Ht.
  - apply pmap_ok in E9 as (l & E9 & ->). destruct (psound_property _ _ _ E9) as (t & -> & Ht).
    exists t. split; [reflexivity|]. constructor. exact Ht.
Qed.
Lemma calm_item : calm bracket_class_item.
Proof.
  pose proof calm_perl. pose proof calm_quoted. pose proof calm_ascii_class. pose proof calm_range.
  pose proof (calm_literal LBracketed). pose proof calm_property.
  assert (calm bracket_literal) by (unfold bracket_literal; calm). unfold bracket_class_item. calm.
Qed.

Lemma items_concat : forall l ts, Forall2 item_text l ts -> items_text (concat l) (concat ts).
Proof. induction 1; simpl; constructor; auto. Qed.

Lemma psound_bracket : psound class_text bracket_character_class.
Proof.
  intros s c rest E. step E. apply pbind_ok in E as (neg & r1 & T1 & E). apply pbind_ok in E as (cl & r2 & T2 & E).
  apply pbind_ok in E as (items & r3 & T3 & E). step E. apply opt_ok in T1, T2.
  destruct (psound_many0 _ _ _ psound_item _ _ _ T3) as (t & -> & ts & Hts & ->). apply items_concat in Hts.
  assert (H1 : x0 = (match neg with Some _ => chars "^" | None => [] end) ++ r1).
  { destruct neg as [[]|]; [apply tag_ok in T1; exact T1|]. destruct T1 as [_ ->]. reflexivity. }
  assert (H2 : r1 = (match cl with Some _ => chars "]" | None => [] end) ++ concat ts ++ r3).
  { destruct cl as [[]|]; [apply tag_ok in T2; exact T2|]. destruct T2 as [_ <-]. reflexivity. }
  clear T1 T2. subst. destruct cl as [[]|].
  - injection E as <- <-.
    exists ((if match neg with Some _ => true | None => false end then chars "[^]" else chars "[]") ++ concat ts ++ chars "]").
    split; [|constructor; exact Hts]. destruct neg as [[]|]; rewrite <- !app_assoc; reflexivity.
  - destruct (concat items) as [|i l] eqn:Ei; [discriminate|]. injection E as <- <-.
    exists ((if match neg with Some _ => true | None => false end then chars "[^" else chars "[") ++ concat ts ++ chars "]").
    split; [|constructor; [discriminate|exact Hts]]. destruct neg as [[]|]; rewrite <- !app_assoc; reflexivity.
Qed.
Lemma calm_bracket : calm bracket_character_class.
Proof.
  pose proof (calm_many0 _ _ calm_item (sound_shrinks _ _ _ psound_item)). unfold bracket_character_class. calm.
  intros s. match goal with |- calm_result (match ?x with _ => _ end) => destruct x end; exact I.
Qed.

Lemma psound_class : psound class_text character_class.
Proof.
  pose proof psound_bracket.
  assert (psound class_text (pmap CPerl perl_character_class)).
  { apply (psound_pmap _ _ _ perl_text); [exact psound_perl|]. intros. constructor. assumption. }
  assert (psound class_text (pmap CUnicode unicode_property_class)).
  { apply (psound_pmap _ _ _ unicode_text); [exact psound_property|]. intros. constructor. assumption. }
  sound_tags.
Qed.
Lemma calm_class : calm character_class.
Proof. pose proof calm_bracket. pose proof calm_perl. pose proof calm_property. unfold character_class. calm. Qed.

(* ---- flags, quantifiers, names ---- *)
Lemma psound_flags : psound flags_text parse_flags.
Proof.
  intros s f rest E. apply pbind_ok in E as (add & r1 & T1 & E). apply pbind_ok in E as (rm & r2 & T2 & E).
  injection E as <- <-. apply opt_ok in T2.
  destruct (psound_many0 _ _ _ psound_flag _ _ _ T1) as (t & -> & ts & Hts & ->). apply concat_single in Hts.
  destruct rm as [rm|].
  - step T2. destruct (psound_many0 _ _ _ psound_flag _ _ _ T2) as (u & -> & us & Hus & ->). apply concat_single in Hus.
    subst. exists (concat ts ++ chars "-" ++ concat us). split; [rewrite <- !app_assoc; reflexivity|]. constructor; auto.
  - destruct T2 as [_ ->]. exists (concat ts). split; [reflexivity|]. constructor; auto.
Qed.
Lemma calm_flags : calm parse_flags.
Proof.
  pose proof (calm_many0 _ _ calm_flag (sound_shrinks _ _ _ psound_flag)). unfold parse_flags. calm.
Qed.
Lemma psound_flags_expression :
  psound (fun f t => exists u, flags_text f u /\ t = chars "(?" ++ u ++ chars ")") flags_expression.
Proof.
  intros s f rest E. step E. apply pbind_ok in E as (g & r1 & T1 & E). step E. injection E as <- <-.
  destruct (psound_flags _ _ _ T1) as (t & -> & Ht). subst.
  exists (chars "(?" ++ t ++ chars ")"). split; [rewrite <- !app_assoc; reflexivity|]. eauto.
Qed.
Lemma calm_flags_expression : calm flags_expression.
Proof. pose proof calm_flags. unfold flags_expression. calm. Qed.

Lemma psound_kind : psound kind_written
  (alt [pmap (fun _ => ZeroOrMore) (tag (chars "*")); pmap (fun _ => OneOrMore) (tag (chars "+"));
        pmap (fun _ => ZeroOrOne) (tag (chars "?"));
        quantifier_range_exact; quantifier_range_min_max; quantifier_range_min]).
Proof.
  assert (psound kind_written quantifier_range_exact).
  { intros s k rest E. step E. apply pbind_ok in E as (n & r1 & T1 & E). step E. injection E as <- <-.
    destruct (psound_integer _ _ _ T1) as (d & -> & Hd). subst.
    exists (chars "{" ++ d ++ chars "}"). split; [rewrite <- !app_assoc; reflexivity|]. constructor; auto. }
  assert (psound kind_written quantifier_range_min_max).
  { intros s k rest E. step E. apply pbind_ok in E as (n & r1 & T1 & E). step E.
    apply pbind_ok in E as (m & r2 & T2 & E). step E. injection E as <- <-.
    destruct (psound_integer _ _ _ T1) as (d & -> & Hd). destruct (psound_integer _ _ _ T2) as (e & -> & He). subst.
    exists (chars "{" ++ d ++ chars "," ++ e ++ chars "}"). split; [rewrite <- !app_assoc; reflexivity|]. constructor; auto. }
  assert (psound kind_written quantifier_range_min).
  { intros s k rest E. step E. apply pbind_ok in E as (n & r1 & T1 & E). step E. step E. injection E as <- <-.
    destruct (psound_integer _ _ _ T1) as (d & -> & Hd). subst.
    exists (chars "{" ++ d ++ chars ",}"). split; [rewrite <- !app_assoc; reflexivity|]. constructor; auto. }
  sound_tags.
Qed.
Lemma psound_quantifier : psound quantifier_text parse_quantifier.
Proof.
  intros s q rest E. apply pbind_ok in E as (k & r1 & T1 & E). apply pbind_ok in E as (o & r2 & T2 & E).
  injection E as <- <-. destruct (psound_kind _ _ _ T1) as (t & -> & Ht). apply opt_ok in T2.
  destruct o as [[]|].
  - apply tag_ok in T2. subst. exists (t ++ chars "?"). split; [rewrite <- app_assoc; reflexivity|]. exists t. auto.
  - destruct T2 as [_ ->]. exists t. split; [reflexivity|]. exists t. split; [exact Ht|]. simpl. rewrite app_nil_r. reflexivity.
Qed.
Lemma calm_quantifier : calm parse_quantifier.
Proof.
  unfold parse_quantifier, quantifier_range_exact, quantifier_range_min_max, quantifier_range_min. calm.
Qed.

Lemma letters_are : forall c, In c ascii_letters_with_underscore -> letter_or_underscore c.
Proof.
  intros c H. cbv [ascii_letters_with_underscore chars] in H. simpl in H. unfold letter_or_underscore.
  repeat (destruct H as [<-|H]; [lia|]). destruct H.
Qed.
Lemma alphanumerics_are : forall c, In c ascii_alphanumeric_with_underscore -> letter_or_underscore c \/ is_digit c.
Proof.
  intros c H. cbv [ascii_alphanumeric_with_underscore chars] in H. simpl in H. unfold letter_or_underscore, is_digit.
  repeat (destruct H as [<-|H]; [lia|]). destruct H.
Qed.
Lemma psound_name : psound (fun n t => t = n /\ name_text n) capture_group_name.
Proof.
  intros s n rest E. apply pbind_ok in E as (c & r1 & T1 & E). apply pbind_ok in E as (l & r2 & T2 & E).
  injection E as <- <-. apply one_of_ok in T1 as [-> Hc].
  destruct (psound_many0 _ _ _ (psound_one_of ascii_alphanumeric_with_underscore) _ _ _ T2) as (t & -> & ts & Hts & ->).
  assert (K : concat ts = l /\ forall d, In d l -> letter_or_underscore d \/ is_digit d).
  { clear T2. induction Hts as [|d u l us [-> Hd] _ [IH1 IH2]]; [split; [reflexivity|intros ? []]|].
    split; [cbn [concat app]; congruence|]. intros x [<-|Hx]; auto. apply alphanumerics_are. exact Hd. }
  destruct K as [-> K]. exists (c :: l). split; [reflexivity|]. split; [reflexivity|].
  exists c, l. split; [reflexivity|]. split; [apply letters_are; exact Hc|exact K].
Qed.
Lemma calm_name : calm capture_group_name.
Proof.
  pose proof (calm_many0 _ _ (calm_one_of ascii_alphanumeric_with_underscore) (one_of_shrinks _)).
  unfold capture_group_name. calm.
Qed.

Lemma psound_quote_expression : psound atom_text quote_expression.
Proof.
  intros s a rest E. apply pbind_ok in E as (l & r & T & E). injection E as <- <-.
  destruct (psound_quoted _ _ _ T) as (t & -> & Hl & ->). eexists. split; [reflexivity|].
  assert (K : match map (fun c => ALiteral {| lit_c := c; lit_escaped := true |}) l with
              | [] => AEmpty | [a] => a
              | _ => AConcat (map (fun c => ALiteral {| lit_c := c; lit_escaped := true |}) l) end = quoted l).
  { destruct l as [|x [|y l]]; reflexivity. }
  rewrite K. constructor. exact Hl.
Qed.
Lemma calm_quote_expression : calm quote_expression.
Proof. pose proof calm_quoted. unfold quote_expression. calm. Qed.
