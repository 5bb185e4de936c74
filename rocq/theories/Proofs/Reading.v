(* What [expression] reads, exactly *)
From Coq Require Import Lia ZifyN ZifyBool.
From Verif Require Import Proofs.Text.
From Verif Require Export Proofs.ReadingClasses Proofs.Expression.

(* ---- soundness ---- *)
Section Sound.
Variable expr : nat -> str -> presult ast.
Hypothesis sound_text : forall d, psound expression_text (expr d).
Hypothesis sound_expr : forall d s a rest, expr d s = POk a rest -> closes rest -> expression_read d a s rest.

Lemma close_ok : forall (s : str) u rest, tag (chars ")") s = POk u rest -> closes s /\ s = chars ")" ++ rest.
Proof. intros s u rest E. apply tag_ok in E. subst. split; [right; eauto|reflexivity]. Qed.

Lemma group_sound : forall d s a rest, group expr d s = POk a rest -> atom_read d a s rest.
Proof.
  intros d s a rest E. unfold group in E. destruct (_ <? _); [discriminate|].
  replace (d + 1) with (S d) in E by lia.
  apply alt_in in E as (p & [<-|[<-|[<-|[]]]] & E).
  - apply pbind_ok in E as ([] & r0 & T0 & E). apply pbind_ok in E as (f & r1 & T1 & E).
    apply pbind_ok in E as ([] & r2 & T2 & E). apply pbind_ok in E as (b & r3 & T3 & E).
    apply pbind_ok in E as ([] & r4 & T4 & E). injection E as <- <-. apply tag_ok in T0, T2.
    apply close_ok in T4 as [C ->]. destruct (psound_flags _ _ _ T1) as (u & -> & Hu). subst.
    apply ar_group; auto.
  - apply pbind_ok in E as ([] & r0 & T0 & E). apply pbind_ok in E as (b & r3 & T3 & E).
    apply pbind_ok in E as ([] & r4 & T4 & E). injection E as <- <-. apply tag_ok in T0.
    apply close_ok in T4 as [C ->]. subst. apply ar_capture; auto.
  - apply alt_in in E as (p & [<-|[<-|[]]] & E).
    + apply pbind_ok in E as ([] & r0 & T0 & E). apply pbind_ok in E as (n & r1 & T1 & E).
      apply pbind_ok in E as ([] & r2 & T2 & E). apply pbind_ok in E as (b & r3 & T3 & E).
      apply pbind_ok in E as ([] & r4 & T4 & E). injection E as <- <-. apply tag_ok in T2.
      apply close_ok in T4 as [C ->]. destruct (psound_name _ _ _ T1) as (u & -> & -> & Hu). subst r1.
      apply alt_in in T0 as (p & [<-|[<-|[]]] & T0); apply tag_ok in T0; subst s;
        (eapply ar_named; [constructor|exact Hu|auto]).
    + apply pbind_ok in E as ([] & r0 & T0 & E). apply pbind_ok in E as (n & r1 & T1 & E).
      apply pbind_ok in E as ([] & r2 & T2 & E). apply pbind_ok in E as (b & r3 & T3 & E).
      apply pbind_ok in E as ([] & r4 & T4 & E). injection E as <- <-. apply tag_ok in T0, T2.
      apply close_ok in T4 as [C ->]. destruct (psound_name _ _ _ T1) as (u & -> & -> & Hu). subst r1 s.
      eapply ar_named; [constructor|exact Hu|auto].
Qed.

Lemma atomic_sound : forall d s a rest, atomic expr d s = POk a rest -> piece_read d a s rest.
Proof.
  intros d s a rest E. apply pbind_ok in E as (b & r1 & E & T2). apply pbind_ok in T2 as (o & r2 & T2 & E2).
  assert (K : atom_read d b s r1).
  { clear T2 E2. cbn [alt] in E.
    first_alternative E E1; [injection E as <- <-|].
    { apply pbind_ok in E1 as (l & r & E1 & E'). injection E' as <- <-.
      destruct (psound_quoted _ _ _ E1) as (t & -> & Hl & ->). rewrite <- !app_assoc.
      assert (Q : match map (fun c => ALiteral {| lit_c := c; lit_escaped := true |}) l with
                  | [] => AEmpty | [a] => a
                  | _ => AConcat (map (fun c => ALiteral {| lit_c := c; lit_escaped := true |}) l) end = quoted l).
      { destruct l as [|x [|y l]]; reflexivity. }
      rewrite Q. constructor. exact Hl. }
    first_alternative E E2; [injection E as <- <-|].
    { apply pmap_ok in E2 as (f & E2 & ->). destruct (psound_flags_expression _ _ _ E2) as (t & -> & u & Hu & ->).
      rewrite <- !app_assoc. constructor. exact Hu. }
    first_alternative E E3; [injection E as <- <-; exact (group_sound _ _ _ _ E3)|].
    first_alternative E E4; [injection E as <- <-|].
    { apply pmap_ok in E4 as (f & E4 & ->). destruct (psound_assertion _ _ _ E4) as (t & -> & Ht). constructor. exact Ht. }
    first_alternative E E5; [injection E as <- <-|].
    { apply pmap_ok in E5 as (f & E5 & ->). constructor. apply class_sound. exact E5. }
    first_alternative E E6. injection E as <- <-. apply pmap_err in E4, E5.
    apply pmap_ok in E6 as ([c e] & E6 & ->). apply literal_sound in E6 as (t & Ht & -> & Hx). cbn [lit_c lit_escaped bracketed] in Ht.
    apply ar_literal; [exact Ht|exact Hx| |].
    - intros (l & Hl & ->). exact (class_err_names _ _ Hl E5).
    - intros ->. discriminate E4. }
  apply opt_ok in T2. destruct o as [q|].
  - injection E2 as <- <-. eapply pr_repeat; [exact K|]. apply quantifier_reads. exact T2.
  - injection E2 as <- <-. destruct T2 as [T2 ->]. apply pr_atom; [exact K|]. apply quantifier_none. exact T2.
Qed.
Lemma atomic_shrinks : forall d, shrinks (atomic expr d).
Proof. intros d. eapply sound_shrinks, psound_atomic. exact sound_text. Qed.

Lemma pieces_of_run : forall d l s rest, run (atomic expr d) l s rest -> ends_branch rest ->
  forall a s0, atomic expr d s0 = POk a s -> pieces_read d (a :: l) s0 rest.
Proof.
  induction 1 as [s E|b l s s1 rest E _ _ IH]; intros He a s0 E0.
  - apply psr_one; [apply atomic_sound; exact E0|exact He].
  - eapply psr_more; [apply atomic_sound; exact E0|]. apply IH; auto.
Qed.
Lemma concat_sound : forall d s o rest, opt (concat_expression expr d) s = POk o rest -> ends_branch rest ->
  branch_read d (match o with Some a => a | None => AEmpty end) s rest.
Proof.
  intros d s o rest E He. apply opt_ok in E. destruct o as [a|].
  - apply pbind_ok in E as (l & r & E & E2). apply pbind_ok in E as (b & r1 & T1 & E).
    apply pbind_ok in E as (l' & r2 & T2 & E). injection E as <- <-.
    apply many0_run in T2; [|apply atomic_shrinks].
    assert (Er : r2 = rest /\ a = sequence (b :: l')) by (destruct l'; injection E2 as <- <-; auto).
    destruct Er as [-> ->]. apply br_pieces. eapply pieces_of_run; eauto.
  - destruct E as [_ ->]. apply br_empty. exact He.
Qed.
Definition or_empty (o : option ast) : ast := match o with Some a => a | None => AEmpty end.
Lemma separated_sound : forall d fuel o s0 s l rest, opt (concat_expression expr d) s0 = POk o s ->
  separated_loop fuel (tag (chars "|")) (opt (concat_expression expr d)) s = POk l rest -> closes rest ->
  branches_read d (map or_empty (o :: l)) s0 rest.
Proof.
  intros d. induction fuel as [|fuel IH]; intros o s0 s l rest E0 E Hc; cbn [separated_loop] in E; [discriminate|].
  destruct (tag (chars "|") s) as [u s1| |e|] eqn:T; try discriminate.
  - destruct (length s1 =? length s); [discriminate|].
    destruct (opt (concat_expression expr d) s1) as [a s2| |e|] eqn:E1; try discriminate.
    + apply pbind_ok in E as (l' & r & E2 & E). injection E as <- <-. apply tag_ok in T. subst s.
      cbn [map]. eapply brr_more.
      * apply concat_sound; [exact E0|right; eauto].
      * exact (IH _ _ _ _ _ E1 E2 Hc).
    + exfalso. unfold opt in E1. destruct (concat_expression expr d s1); discriminate.
  - injection E as <- <-. cbn [map]. apply brr_last; [|exact Hc]. apply concat_sound; [exact E0|left; exact Hc].
Qed.
Lemma alternate_sound : forall d s a rest, d < 50 -> alternate_expression expr d s = POk a rest -> closes rest ->
  expression_read d a s rest.
Proof.
  intros d s a rest Hd E Hc. apply pbind_ok in E as (l & r & E & E2).
  apply pbind_ok in E as (b & r1 & T1 & E). apply pbind_ok in E as (l' & r2 & T2 & E). injection E as <- <-.
  assert (Er : r2 = rest /\ a = alternatives (map or_empty (b :: l'))).
  { cbn [map]. unfold or_empty in *. destruct l'; cbn [map] in *; injection E2 as <- <-; auto. }
  destruct Er as [-> ->]. apply er_branches; [exact Hd|]. exact (separated_sound _ _ _ _ _ _ _ T1 T2 Hc).
Qed.
End Sound.
Lemma expression_sound : forall fuel d s a rest, expression fuel d s = POk a rest -> closes rest -> expression_read d a s rest.
Proof.
  induction fuel as [|fuel IH]; intros d s a rest E Hc; [discriminate|].
  pose proof (expression_low _ _ _ _ _ E) as Hd. cbn [expression] in E.
  eapply alternate_sound; [exact (psound_expression fuel)|exact IH|lia|exact E|exact Hc].
Qed.

(* ---- completeness ---- *)
Lemma group_absent : forall expr d s, d < 50 -> (forall r, s <> chars "(" ++ r) -> group expr d s = PErr.
Proof.
  intros expr d s Hd H. unfold group. destruct (Nat.ltb_spec recursion_limit (d + 1)); [unfold recursion_limit in *; lia|].
  cbn [alt]. unfold non_capturing_group, capture_group, named_capture_group. cbn [alt].
  rewrite (tag_err (chars "(?")) by (intros r E; apply (H (chars "?" ++ r)); exact E).
  rewrite (tag_err (chars "(")) by exact H.
  rewrite (tag_err (chars "(?<")) by (intros r E; apply (H (chars "?<" ++ r)); exact E).
  rewrite (tag_err (chars "(?P<")) by (intros r E; apply (H (chars "?P<" ++ r)); exact E).
  rewrite (tag_err (chars "(?'")) by (intros r E; apply (H (chars "?'" ++ r)); exact E). reflexivity.
Qed.
Lemma atomic_absent : forall expr d s, d < 50 -> (s = [] \/ exists c r, s = c :: r /\ In c (chars ")|?")) ->
  atomic expr d s = PErr.
Proof.
  intros expr d s Hd H. unfold atomic. cbn [alt].
  rewrite (group_absent expr d s Hd); [|intros r ->; destruct H as [H|(c & r' & E & H)]; [discriminate|];
    injection E as <- _; vm_compute in H; intuition discriminate].
  destruct H as [->|(c & r & -> & H)]; [reflexivity|].
  cbv [chars] in H. simpl in H. destruct H as [<-|[<-|[<-|[]]]]; reflexivity.
Qed.
Lemma ends_absent : forall expr d s, d < 50 -> ends_branch s -> atomic expr d s = PErr.
Proof.
  intros expr d s Hd [[->|(r & ->)]|(r & ->)]; apply atomic_absent; auto;
    right; eexists; eexists; split; try reflexivity; vm_compute; tauto.
Qed.
Lemma empty_expression : forall fuel d s, d < 50 -> expression (S fuel) d (63%N :: s) = POk AEmpty (63%N :: s).
Proof.
  intros fuel d s Hd. cbn [expression]. unfold alternate_expression, separated_list1, opt, concat_expression, many1.
  rewrite (atomic_absent (expression fuel) d (63%N :: s) Hd); [reflexivity|].
  right. exists 63%N, s. split; [reflexivity|vm_compute; tauto].
Qed.

(* the first character *)
Lemma literal_front : forall c e t, literal_text false c e t -> ~ names_class t -> t <> chars "\b" ->
  (exists x t', t = x :: t' /\ ~ In x (chars "|[().+?*^$\")) \/
  (exists y t', t = 92%N :: y :: t' /\ ~ In y (chars "dswDSWhHvVpPQbBAzZ")).
Proof.
  intros c e t H Hn Hb. destruct H as [c H|c H|l c H|l H|l H|h c Hl H|h c Hh H Hs|h c Hh H Hs].
  - left. exists c, []. auto.
  - right. exists c, []. split; [reflexivity|]. intros K.
    assert (In c (chars "dswDSWhHvV") \/ In c not_escapable) as [X|X].
    { cbv [chars] in K. simpl in K. repeat (destruct K as [<-|K]; [vm_compute; tauto|]). destruct K. }
    + apply Hn. exists c. auto.
    + contradiction.
  - right. exists l, []. split; [reflexivity|]. destruct H; first
      [ exfalso; apply Hb; reflexivity
      | exfalso; apply Hn; exists 118%N; split; [vm_compute; tauto|reflexivity]
      | vm_compute; intuition discriminate ].
  - right. exists 99%N, [l]. split; [reflexivity|vm_compute; intuition discriminate].
  - right. exists 99%N, [l]. split; [reflexivity|vm_compute; intuition discriminate].
  - right. exists 120%N, h. split; [reflexivity|vm_compute; intuition discriminate].
  - right. exists 120%N, (123%N :: h ++ chars "}"). split; [reflexivity|vm_compute; intuition discriminate].
  - right. exists 120%N, (123%N :: 43%N :: h ++ chars "}"). split; [reflexivity|vm_compute; intuition discriminate].
Qed.
Lemma assertion_absent : forall s, (forall r, s <> chars "^" ++ r) -> (forall r, s <> chars "$" ++ r) ->
  (forall l r, s = 92%N :: l :: r -> ~ In l (chars "bBAzZ")) -> assertion s = PErr.
Proof.
  intros s H1 H2 H3. eapply err_of_sound; [exact psound_assertion|exact mild_assertion|].
  intros a t r [] E; try (exact (H1 _ E)); try (exact (H2 _ E)); (apply (H3 _ _ E); vm_compute; tauto).
Qed.
Lemma mild_quote : mild quote_expression.
Proof. pose proof mild_quoted. unfold quote_expression. apply mild_bind; auto. intros l. apply mild_ret. Qed.
Lemma quote_err : forall s, (forall r, s <> chars "\Q" ++ r) -> quote_expression s = PErr.
Proof. intros s H. unfold quote_expression. rewrite quoted_err by exact H. reflexivity. Qed.
Lemma flags_err : forall s, (forall r, s <> chars "(?" ++ r) -> flags_expression s = PErr.
Proof. intros s H. unfold flags_expression. rewrite tag_err by exact H. reflexivity. Qed.

Lemma atom_not_question : forall d a s rest, atom_read d a s rest -> forall r, s <> 63%N :: r.
Proof.
  intros d a s rest H r E. destruct H as [d l rest H|d c e t rest H Hx Hn Hb|d c s rest H|d a t rest H|d f t rest H
    |d a s rest H|d f t a s rest Hf H|d o c n a s rest Ho Hn H]; try discriminate E.
  - destruct (literal_front _ _ _ H Hn Hb) as [(x & t' & -> & K)|(y & t' & -> & K)]; [|discriminate E].
    injection E as -> _. apply K. vm_compute. tauto.
  - destruct H as [c t rest H _|n items s rest _ _ _ _|n items s rest _]; try (destruct n; discriminate E).
    destruct H as [| | | | |p t H|u t H|n items t _ _|n items t _]; try discriminate E; try (destruct n; discriminate E).
    + destruct H; discriminate E.
    + destruct u as [[] name], H as [_ ->]; discriminate E.
  - destruct H; discriminate E.
  - destruct Ho; discriminate E.
Qed.
Lemma expression_not_question : forall d a s rest, expression_read d a s rest -> forall r, s <> 63%N :: r.
Proof.
  intros d a s rest H r E. destruct H as [d l s rest _ H].
  assert (K : exists b s', branch_read d b s s').
  { destruct H; eauto. }
  destruct K as (b & s' & K). clear H. destruct K as [d s [[K|(r' & K)]|(r' & K)]|d l' s rest' K]; try congruence.
  - rewrite E in K. discriminate K.
  - rewrite E in K. discriminate K.
  - assert (P : exists b s', piece_read d b s s') by (destruct K; eauto). destruct P as (b & s'' & P). clear K.
    destruct P as [d b s s1 P _|d b q s s1 s2 P _]; exact (atom_not_question _ _ _ _ P r E).
Qed.

Scheme atom_ind' := Minimality for atom_read Sort Prop
with piece_ind' := Minimality for piece_read Sort Prop
with pieces_ind' := Minimality for pieces_read Sort Prop
with branches_ind' := Minimality for branches_read Sort Prop
with branch_ind' := Minimality for branch_read Sort Prop
with expression_ind' := Minimality for expression_read Sort Prop.
Combined Scheme reading_ind from atom_ind', piece_ind', pieces_ind', branches_ind', branch_ind', expression_ind'.

Definition atom_parser (expr : nat -> str -> presult ast) (d : nat) : str -> presult ast :=
  alt [quote_expression; pmap AFlags flags_expression; group expr d; pmap AAssertion assertion;
       pmap AClass character_class; pmap ALiteral (parse_literal LNormal)].
Lemma atomic_shorter : forall fuel d s a rest, atomic (expression fuel) d s = POk a rest -> length rest <= length s.
Proof.
  intros fuel d s a rest E. destruct (psound_atomic _ (psound_expression fuel) d _ _ _ E) as (t & -> & _).
  rewrite app_length. lia.
Qed.
Lemma piece_text_nonempty : forall a t, piece_text a t -> t <> [].
Proof.
  assert (K : forall a t, atom_text a t -> t <> []).
  { intros a t H. destruct H; try discriminate.
    - apply literal_text_nonempty in H. exact H.
    - destruct H as [| | | | |p t H|u t H|n items t _ _|n items t _]; try discriminate; try (destruct n; discriminate).
      + destruct H; discriminate.
      + destruct u as [[] name], H as [_ ->]; discriminate.
    - destruct H; discriminate. }
  intros a t [b u H|b u q v H _]; [exact (K _ _ H)|]. pose proof (K _ _ H). destruct u; [congruence|discriminate].
Qed.
Lemma atomic_strict : forall fuel d s a rest, atomic (expression fuel) d s = POk a rest -> length rest < length s.
Proof.
  intros fuel d s a rest E. destruct (psound_atomic _ (psound_expression fuel) d _ _ _ E) as (t & -> & Ht).
  apply piece_text_nonempty in Ht. destruct t; [congruence|]. rewrite app_length. simpl. lia.
Qed.

Lemma group_open : forall expr d s, d < 50 ->
  group expr d s = alt [non_capturing_group expr (S d); capture_group expr (S d); named_capture_group expr (S d)] s.
Proof.
  intros expr d s Hd. unfold group. destruct (Nat.ltb_spec recursion_limit (d + 1)); [unfold recursion_limit in *; lia|].
  replace (d + 1) with (S d) by lia. reflexivity.
Qed.
Lemma not_absent_read : forall d l s rest, expression_read d l s rest -> d < 50.
Proof. intros d l s rest []. exact H. Qed.

Lemma reading_complete :
  (forall d a s rest, atom_read d a s rest -> forall fuel, d < 50 -> 51 <= S fuel + d ->
     atom_parser (expression fuel) d s = POk a rest) /\
  (forall d a s rest, piece_read d a s rest -> forall fuel, d < 50 -> 51 <= S fuel + d ->
     atomic (expression fuel) d s = POk a rest) /\
  (forall d l s rest, pieces_read d l s rest -> forall fuel, d < 50 -> 51 <= S fuel + d ->
     ends_branch rest /\ exists a l' s1, l = a :: l' /\ atomic (expression fuel) d s = POk a s1 /\
       run (atomic (expression fuel) d) l' s1 rest) /\
  (forall d l s rest, branches_read d l s rest -> forall fuel, d < 50 -> 51 <= S fuel + d ->
     exists o ol s1, l = map or_empty (o :: ol) /\ opt (concat_expression (expression fuel) d) s = POk o s1 /\
       forall k, length s1 < k ->
       separated_loop k (tag (chars "|")) (opt (concat_expression (expression fuel) d)) s1 = POk ol rest) /\
  (forall d a s rest, branch_read d a s rest -> forall fuel, d < 50 -> 51 <= S fuel + d ->
     exists o, opt (concat_expression (expression fuel) d) s = POk o rest /\ a = or_empty o) /\
  (forall d a s rest, expression_read d a s rest -> forall fuel, 51 <= S fuel + d ->
     closes rest /\ expression (S fuel) d s = POk a rest).
Proof.
  apply reading_ind.
  - (* quoted *)
    intros d l rest H fuel Hd Hf. unfold atom_parser. cbn [alt]. unfold quote_expression. rewrite quoted_reads by exact H.
    cbn [pbind]. destruct l as [|x [|y l]]; reflexivity.
  - (* literal *)
    intros d c e t rest H Hx Hn Hb fuel Hd Hf. unfold atom_parser. cbn [alt].
    assert (P := literal_reads_as LNormal c e t rest H Hx).
    assert (F : (exists x t', t = x :: t' /\ ~ In x (chars "|[().+?*^$\")) \/
      (exists y t', t = 92%N :: y :: t' /\ ~ In y (chars "dswDSWhHvVpPQbBAzZ"))) by (apply (literal_front c e); assumption).
    assert (A : forall x, In x (chars "|[().+?*^$") -> forall r, t ++ rest <> x :: r).
    { intros x K r E. destruct F as [(z & t' & -> & F)|(z & t' & -> & F)].
      - injection E as <- _. apply F. cbn [chars] in *. vm_compute in K |- *. tauto.
      - injection E as <- _. vm_compute in K. intuition discriminate. }
    assert (B : forall l r, t ++ rest = 92%N :: l :: r -> ~ In l (chars "dswDSWhHvVpPQbBAzZ")).
    { intros l r E. destruct F as [(z & t' & -> & F)|(z & t' & -> & F)].
      - injection E as -> _. exfalso. apply F. vm_compute. tauto.
      - injection E as <- _. exact F. }
    rewrite quote_err by (intros r E; apply (B _ _ E); vm_compute; tauto).
    unfold pmap. rewrite flags_err by (intros r; apply (A 40%N); vm_compute; tauto). cbn [pbind].
    rewrite group_absent by (auto; intros r; apply (A 40%N); vm_compute; tauto).
    rewrite assertion_absent; [| intros r; apply (A 94%N); vm_compute; tauto | intros r; apply (A 36%N); vm_compute; tauto |].
    2:{ intros l r E K. apply (B _ _ E). vm_compute in K |- *. tauto. }
    cbn [pbind].
    rewrite class_absent; [| intros r; apply (A 46%N); vm_compute; tauto | intros r; apply (A 91%N); vm_compute; tauto |].
    2:{ intros l r E K. apply (B _ _ E). vm_compute in K |- *. tauto. }
    cbn [pbind]. rewrite P. reflexivity.
  - (* class *)
    intros d c s rest H fuel Hd Hf. pose proof (class_reads_as _ _ _ H) as P. unfold atom_parser. cbn [alt]. unfold pmap.
    assert (K : quote_expression s = PErr /\ (forall r, s <> chars "(" ++ r) /\ assertion s = PErr).
    { clear P. destruct H as [c t rest H Hb|n items s rest _ _ _ _|n items s rest _];
        [|destruct n; repeat apply conj; try reflexivity; intros r E; discriminate E..].
      destruct H as [| | | | |p t H|u t H|n items t H1 H2|n items t H];
        try (repeat apply conj; try reflexivity; intros r E; discriminate E).
      - destruct H; repeat apply conj; try reflexivity; intros r E; discriminate E.
      - destruct u as [n name], H as [_ ->]. cbn [up_negate up_name]. rewrite <- !app_assoc.
        destruct n; repeat apply conj; try reflexivity; intros r E; discriminate E.
      - exfalso. eapply Hb. reflexivity.
      - exfalso. eapply Hb. reflexivity. }
    destruct K as (K1 & K2 & K3). rewrite K1, K3. rewrite flags_err by (intros r E; apply (K2 (chars "?" ++ r)); exact E).
    rewrite group_absent by auto. cbn [pbind]. rewrite P. reflexivity.
  - (* assertion *)
    intros d a t rest H fuel Hd Hf. unfold atom_parser. cbn [alt]. unfold pmap. rewrite (assertion_reads _ _ _ H).
    rewrite (group_absent (expression fuel) d (t ++ rest) Hd) by (intros r E; destruct H; discriminate E).
    destruct H; reflexivity.
  - (* flags *)
    intros d f t rest H fuel Hd Hf. unfold atom_parser. cbn [alt].
    rewrite quote_err by (intros r E; discriminate E). unfold pmap, flags_expression. rewrite tag_app. cbn [pbind].
    rewrite (flags_reads f t (chars ")" ++ rest) H) by (exists rest; left; reflexivity). cbn [pbind]. rewrite tag_app. reflexivity.
  - (* capture *)
    intros d a s rest H IH fuel Hd Hf. pose proof (not_absent_read _ _ _ _ H) as Hd1.
    destruct fuel as [|fuel]; [lia|]. destruct (IH fuel ltac:(lia)) as [_ E].
    unfold atom_parser. cbn [alt]. rewrite quote_err by (intros r K; discriminate K).
    assert (Q : forall r, chars "(" ++ s <> chars "(?" ++ r).
    { intros r K. injection K as K. exact (expression_not_question _ _ _ _ H _ K). }
    unfold pmap at 1. rewrite flags_err by exact Q. cbn [pbind]. rewrite group_open by exact Hd. cbn [alt].
    unfold non_capturing_group. rewrite (tag_err (chars "(?")) by exact Q. cbn [pbind].
    unfold capture_group. rewrite tag_app. cbn [pbind]. rewrite E. cbn [pbind]. rewrite tag_app. reflexivity.
  - (* group *)
    intros d f t a s rest Hfl H IH fuel Hd Hf. pose proof (not_absent_read _ _ _ _ H) as Hd1.
    destruct fuel as [|fuel]; [lia|]. destruct (IH fuel ltac:(lia)) as [_ E].
    unfold atom_parser. cbn [alt]. rewrite quote_err by (intros r K; discriminate K).
    unfold pmap at 1, flags_expression. rewrite tag_app. cbn [pbind].
    rewrite (flags_reads f t (chars ":" ++ s) Hfl) by (exists s; right; reflexivity). cbn [pbind].
    rewrite (tag_err (chars ")")) by (intros r K; discriminate K). cbn [pbind].
    rewrite group_open by exact Hd. cbn [alt]. unfold non_capturing_group. rewrite tag_app. cbn [pbind].
    rewrite (flags_reads f t (chars ":" ++ s) Hfl) by (exists s; right; reflexivity). cbn [pbind]. rewrite tag_app. cbn [pbind].
    rewrite E. cbn [pbind]. rewrite tag_app. reflexivity.
  - (* named *)
    intros d o c n a s rest Ho Hn H IH fuel Hd Hf. pose proof (not_absent_read _ _ _ _ H) as Hd1.
    destruct fuel as [|fuel]; [lia|]. destruct (IH fuel ltac:(lia)) as [_ E].
    unfold atom_parser. cbn [alt]. rewrite quote_err by (intros r K; destruct Ho; discriminate K).
    assert (F : flags_expression (o ++ n ++ c ++ s) = PErr) by (destruct Ho; reflexivity).
    unfold pmap at 1. rewrite F. cbn [pbind]. rewrite group_open by exact Hd. cbn [alt].
    assert (N1 : non_capturing_group (expression (S fuel)) (S d) (o ++ n ++ c ++ s) = PErr) by (destruct Ho; reflexivity).
    assert (N2 : capture_group (expression (S fuel)) (S d) (o ++ n ++ c ++ s) = PErr).
    { assert (K : exists r, o ++ n ++ c ++ s = chars "(" ++ 63%N :: r) by (destruct Ho; eexists; reflexivity).
      destruct K as (r & ->). unfold capture_group. rewrite tag_app. cbn [pbind]. rewrite empty_expression by exact Hd1. reflexivity. }
    rewrite N1, N2. unfold named_capture_group.
    assert (N3 : pbind (capture_group_name (n ++ c ++ s)) (fun name s2 =>
                 pbind (tag c s2) (fun _ s3 =>
                 pbind (expression (S fuel) (S d) s3) (fun a s4 =>
                 pbind (tag (chars ")") s4) (fun _ s5 => POk (ANamed name a) s5)))) = POk (ANamed n a) rest).
    { assert (K : exists x, c = [x] /\ (x = 62 \/ x = 39)%N) by (destruct Ho; eexists; split; try reflexivity; auto).
      destruct K as (x & -> & Hx). cbn [app]. rewrite (name_reads n x s Hn Hx). cbn [pbind].
      change (x :: s) with ([x] ++ s). rewrite tag_app. cbn [pbind]. rewrite E. cbn [pbind]. rewrite tag_app. reflexivity. }
    destruct Ho; cbn [alt].
    + rewrite tag_app. cbn [pbind]. rewrite N3. reflexivity.
    + rewrite (tag_err (chars "(?<")) by (intros r K; discriminate K). rewrite tag_app. cbn [pbind]. rewrite N3. reflexivity.
    + rewrite (tag_err (chars "(?<")) by (intros r K; discriminate K).
      rewrite (tag_err (chars "(?P<")) by (intros r K; discriminate K). cbn [pbind].
      rewrite tag_app. cbn [pbind]. rewrite N3. reflexivity.
  - (* piece *)
    intros d a s rest _ IH Hq fuel Hd Hf. unfold atomic. fold (atom_parser (expression fuel) d). rewrite (IH fuel Hd Hf). cbn [pbind].
    unfold opt. rewrite (proj2 (quantifier_none rest) Hq). reflexivity.
  - intros d a q s s' rest _ IH Hq fuel Hd Hf. unfold atomic. fold (atom_parser (expression fuel) d). rewrite (IH fuel Hd Hf). cbn [pbind].
    unfold opt. apply quantifier_reads in Hq. rewrite Hq. reflexivity.
  - (* pieces *)
    intros d a s rest _ IH He fuel Hd Hf. split; [exact He|]. exists a, [], rest. split; [reflexivity|].
    split; [apply IH; assumption|]. constructor. apply ends_absent; assumption.
  - intros d a l s s' rest _ IH1 _ IH2 fuel Hd Hf. destruct (IH2 fuel Hd Hf) as (He & b & l' & s1 & -> & E & R).
    split; [exact He|]. exists a, (b :: l'), s'. split; [reflexivity|]. split; [apply IH1; assumption|].
    apply run_step with (s1 := s1); auto. eapply atomic_strict; eauto.
  - (* branches *)
    intros d a s rest _ IH Hc fuel Hd Hf. destruct (IH fuel Hd Hf) as (o & E & ->). exists o, [], rest.
    split; [reflexivity|]. split; [exact E|]. intros [|k] Hk; [lia|]. cbn [separated_loop].
    rewrite tag_err; [reflexivity|]. intros r ->. destruct Hc as [K|(r' & K)]; discriminate K.
  - intros d a l s s' rest _ IH1 _ IH2 fuel Hd Hf. destruct (IH1 fuel Hd Hf) as (o & E & ->).
    destruct (IH2 fuel Hd Hf) as (o2 & ol & s1 & -> & E2 & L). exists o, (o2 :: ol), (chars "|" ++ s').
    split; [reflexivity|]. split; [exact E|]. intros [|k] Hk; [lia|]. cbn [separated_loop]. rewrite tag_app.
    destruct (Nat.eqb_spec (length s') (length (chars "|" ++ s'))) as [K|K]; [rewrite app_length in K; simpl in K; lia|].
    rewrite E2. rewrite L; [reflexivity|].
    destruct (psound_branch_option _ (psound_expression fuel) d _ _ _ E2) as (t & -> & _).
    rewrite !app_length in Hk. cbn [chars length] in Hk. simpl in Hk. lia.
  - (* branch *)
    intros d s He fuel Hd Hf. exists None. split; [|reflexivity]. unfold opt, concat_expression, many1.
    rewrite ends_absent by assumption. reflexivity.
  - intros d l s rest _ IH fuel Hd Hf. destruct (IH fuel Hd Hf) as (He & a & l' & s1 & -> & E & R).
    exists (Some (sequence (a :: l'))). split; [|reflexivity]. unfold opt, concat_expression, many1. rewrite E. cbn [pbind].
    rewrite (run_many0 _ _ _ _ _ R). cbn [pbind]. destruct l'; reflexivity.
  - (* expression *)
    intros d l s rest Hd H IH fuel Hf. destruct (IH fuel Hd Hf) as (o & ol & s1 & -> & E & L). split.
    + clear -H. induction H; assumption.
    + cbn [expression]. unfold alternate_expression, separated_list1. rewrite E. cbn [pbind].
      rewrite L by lia. cbn [pbind]. unfold or_empty, alternatives. destruct ol; reflexivity.
Qed.
Lemma expression_reads : forall fuel d s a rest, 51 <= fuel + d -> d < 50 ->
  expression_read d a s rest <-> expression fuel d s = POk a rest /\ closes rest.
Proof.
  intros fuel d s a rest Hf Hd. split.
  - intros H. destruct fuel as [|fuel]; [lia|].
    destruct (proj2 (proj2 (proj2 (proj2 (proj2 reading_complete)))) d a s rest H fuel Hf) as [C E]. auto.
  - intros [E C]. eapply expression_sound; eauto.
Qed.
