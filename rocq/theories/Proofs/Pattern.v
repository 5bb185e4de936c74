(* Facts about the conversion of patterns and the complexity estimate *)
From Coq Require Import Lia ZifyN.
From Verif Require Import Proofs.Events.
From Verif Require Export Proofs.Expression.

(* ---- induction over patterns ---- *)
Section AstInduction.
Variable P : ast -> Prop.
Hypothesis h_empty : P AEmpty.
Hypothesis h_literal : forall l, P (ALiteral l).
Hypothesis h_concat : forall l, Forall P l -> P (AConcat l).
Hypothesis h_capture : forall a, P a -> P (ACapturing a).
Hypothesis h_group : forall f a, P a -> P (ANonCapturing f a).
Hypothesis h_named : forall n a, P a -> P (ANamed n a).
Hypothesis h_class : forall c, P (AClass c).
Hypothesis h_alternation : forall l, Forall P l -> P (AAlternation l).
Hypothesis h_repetition : forall q a, P a -> P (ARepetition q a).
Hypothesis h_assertion : forall t, P (AAssertion t).
Hypothesis h_flags : forall f, P (AFlags f).

Fixpoint ast_induction (a : ast) : P a :=
  let all := fix all (l : list ast) : Forall P l :=
    match l with [] => Forall_nil P | b :: l' => Forall_cons b (ast_induction b) (all l') end in
  match a with
  | AEmpty => h_empty
  | ALiteral l => h_literal l
  | AConcat l => h_concat l (all l)
  | ACapturing b => h_capture b (ast_induction b)
  | ANonCapturing f b => h_group f b (ast_induction b)
  | ANamed n b => h_named n b (ast_induction b)
  | AClass c => h_class c
  | AAlternation l => h_alternation l (all l)
  | ARepetition q b => h_repetition q b (ast_induction b)
  | AAssertion t => h_assertion t
  | AFlags f => h_flags f
  end.
End AstInduction.

(* with the parts of quoted text under a quantifier *)
Lemma ast_induction_parts : forall P : ast -> Prop,
  P AEmpty -> (forall l, P (ALiteral l)) -> (forall l, Forall P l -> P (AConcat l)) -> (forall a, P a -> P (ACapturing a)) ->
  (forall f a, P a -> P (ANonCapturing f a)) -> (forall n a, P a -> P (ANamed n a)) -> (forall c, P (AClass c)) ->
  (forall l, Forall P l -> P (AAlternation l)) ->
  (forall q a, P a /\ (forall l, a = AConcat l -> Forall P l) -> P (ARepetition q a)) ->
  (forall t, P (AAssertion t)) -> (forall f, P (AFlags f)) -> forall a, P a.
Proof.
  intros P H1 H2 H3 H4 H5 H6 H7 H8 H9 H10 H11 a.
  enough (P a /\ forall l, a = AConcat l -> Forall P l) by tauto.
  induction a as [|l|l IH|a IH|f a IH|n a IH|c|l IH|q a IH|t|f] using ast_induction; split; try discriminate; auto.
  - apply H3. eapply Forall_impl; [|exact IH]. cbn. tauto.
  - intros k E. injection E as <-. eapply Forall_impl; [|exact IH]. cbn. tauto.
  - apply H4, IH.
  - apply H5, IH.
  - apply H6, IH.
  - apply H8. eapply Forall_impl; [|exact IH]. cbn. tauto.
Qed.

(* ---- quantifiers ---- *)
Lemma convert_quantifier_err : forall k e, convert_quantifier k = Err e <->
  e = PExceededQuantifierLimit /\ exists n, counts k n /\ (3000 < n)%N.
Proof.
  intros k e. split.
  - destruct k as [|n|n m|n| |]; simpl; try discriminate; unfold quantifier_limit.
    + destruct (N.ltb_spec 3000 n); [|discriminate]. intros E. injection E as <-. split; auto. exists n. split; [constructor|auto].
    + destruct (N.ltb_spec 3000 n); simpl.
      * intros E. injection E as <-. split; auto. exists n. split; [constructor|auto].
      * destruct (N.ltb_spec 3000 m); [|discriminate]. intros E. injection E as <-. split; auto. exists m. split; [constructor|auto].
    + destruct (N.ltb_spec 3000 n); [|discriminate]. intros E. injection E as <-. split; auto. exists n. split; [constructor|auto].
  - intros [-> (n & Hc & Hn)]. inversion Hc; subst; simpl; unfold quantifier_limit.
    + destruct (N.ltb_spec 3000 n); [reflexivity|lia].
    + destruct (N.ltb_spec 3000 n); [reflexivity|lia].
    + destruct (N.ltb_spec 3000 n); [reflexivity|lia].
    + destruct (N.ltb_spec 3000 n); destruct (N.ltb_spec 3000 n0); simpl; try reflexivity; lia.
Qed.

Definition too_large (a : ast) : Prop := exists q n, repeats q a /\ counts (q_kind q) n /\ (3000 < n)%N.

Definition convert_all (l : list ast) : result (list rast) parse_error :=
  (fix convert_all (l : list ast) : result (list rast) parse_error :=
    match l with
    | [] => Ok []
    | a :: l' => match convert_ast a with Err e => Err e | Ok r => rmap (cons r) (convert_all l') end
    end) l.
Lemma convert_all_cons : forall a l, convert_all (a :: l) =
  match convert_ast a with Err e => Err e | Ok r => rmap (cons r) (convert_all l) end.
Proof. reflexivity. Qed.
Lemma convert_concat : forall l, convert_ast (AConcat l) = rmap RConcat (convert_all l).
Proof. reflexivity. Qed.
Lemma convert_alternation : forall l, convert_ast (AAlternation l) = rmap RAlternation (convert_all l).
Proof. reflexivity. Qed.

Lemma rmap_err : forall A B E (f : A -> B) (r : result A E) e, rmap f r = Err e <-> r = Err e.
Proof. intros A B E f [a|x] e; simpl; split; congruence. Qed.
Lemma rmap_ok : forall A B E (f : A -> B) (r : result A E) b, rmap f r = Ok b -> exists a, r = Ok a /\ b = f a.
Proof. intros A B E f [a|x] b H; simpl in H; [injection H as <-; eauto|discriminate]. Qed.

Lemma convert_all_err : forall l e,
  Forall (fun a => forall e, convert_ast a = Err e <-> e = PExceededQuantifierLimit /\ too_large a) l ->
  convert_all l = Err e <-> e = PExceededQuantifierLimit /\ exists a, In a l /\ too_large a.
Proof.
  intros l e H. induction H as [|a l Ha _ IH].
  - split; [discriminate|]. intros [_ (a & [] & _)].
  - rewrite convert_all_cons. destruct (convert_ast a) as [r|x] eqn:E.
    + rewrite rmap_err, IH. split; intros [-> (b & Hb & Ht)]; (split; [reflexivity|]).
      * exists b. split; [right|]; auto.
      * destruct Hb as [<-|Hb]; [|eauto]. exfalso.
        assert (K : @Ok rast parse_error r = Err PExceededQuantifierLimit) by (apply Ha; auto). discriminate.
    + pose proof (proj1 (Ha x) eq_refl) as [-> Ht]. split.
      * intros Ex. injection Ex as <-. split; auto. exists a. split; [left|]; auto.
      * intros [-> _]. reflexivity.
Qed.

Lemma convert_ast_err : forall a e, convert_ast a = Err e <-> e = PExceededQuantifierLimit /\ too_large a.
Proof.
  intros a. induction a as [|l|l IH|a IH|f a IH|n a IH|c|l IH|q a IH|t|f] using ast_induction; intros e.
  1,2,7,10,11: split; [discriminate|intros [_ (q & n & H & _)]; inversion H].
  - rewrite convert_concat, rmap_err, convert_all_err by exact IH. unfold too_large. split; intros [-> H]; (split; [reflexivity|]).
    + destruct H as (a & Ha & q & n & H1 & H2). exists q, n. split; [eapply rp_concat; eauto|auto].
    + destruct H as (q & n & H1 & H2). inversion H1; subst. eauto 6.
  - simpl. rewrite rmap_err, IH. unfold too_large. split; intros [-> (q & n & H1 & H2)]; (split; [reflexivity|]); exists q, n.
    + split; [constructor|]; auto.
    + inversion H1; subst; auto.
  - simpl. rewrite rmap_err, IH. unfold too_large. split; intros [-> (q & n & H1 & H2)]; (split; [reflexivity|]); exists q, n.
    + split; [constructor|]; auto.
    + inversion H1; subst; auto.
  - simpl. rewrite rmap_err, IH. unfold too_large. split; intros [-> (q & m & H1 & H2)]; (split; [reflexivity|]); exists q, m.
    + split; [constructor|]; auto.
    + inversion H1; subst; auto.
  - rewrite convert_alternation, rmap_err, convert_all_err by exact IH. unfold too_large. split; intros [-> H]; (split; [reflexivity|]).
    + destruct H as (a & Ha & q & n & H1 & H2). exists q, n. split; [eapply rp_alternation; eauto|auto].
    + destruct H as (q & n & H1 & H2). inversion H1; subst. eauto 6.
  - simpl. destruct (convert_quantifier (q_kind q)) as [k|x] eqn:Eq.
    + rewrite rmap_err, IH. split; intros [-> (r & n & H1 & H2)]; (split; [reflexivity|]).
      * exists r, n. split; [apply rp_under|]; auto.
      * inversion H1; subst; [|exists r, n; auto]. exfalso.
        assert (K : convert_quantifier (q_kind q) = Err PExceededQuantifierLimit) by (apply convert_quantifier_err; eauto).
        congruence.
    + apply convert_quantifier_err in Eq as [-> (n & H1 & H2)]. split.
      * intros Ex. injection Ex as <-. split; auto. exists q, n. split; [constructor|auto].
      * intros [-> _]. reflexivity.
Qed.

(* ---- flags ---- *)
Lemma flag_eqb_eq : forall a b, flag_eqb a b = true <-> a = b.
Proof. intros [] []; split; intros H; try reflexivity; discriminate. Qed.
Lemma insert_flag_in : forall f l x, In x (insert_flag f l) <-> x = f \/ In x l.
Proof.
  intros f. induction l as [|g l IH]; intros x; simpl.
  - intuition congruence.
  - destruct (_ <=? _); simpl; [|rewrite IH]; intuition congruence.
Qed.
Lemma sort_flags_in : forall l x, In x (sort_flags l) <-> In x l.
Proof.
  induction l as [|f l IH]; intros x; simpl; [tauto|]. rewrite insert_flag_in, IH. intuition congruence.
Qed.
(* sorted by rank *)
Fixpoint ascending (l : list flag) : Prop :=
  match l with [] => True | f :: l' => (forall g, In g l' -> flag_rank f <= flag_rank g) /\ ascending l' end.
Lemma insert_flag_ascending : forall f l, ascending l -> ascending (insert_flag f l).
Proof.
  intros f. induction l as [|g l IH]; simpl.
  - intros _. split; [intros ? []|exact I].
  - intros [H1 H2]. destruct (Nat.leb_spec (flag_rank f) (flag_rank g)) as [Hl|Hl].
    + simpl. split; [|split; auto]. intros x [<-|Hx]; [exact Hl|]. specialize (H1 x Hx). lia.
    + simpl. split; [|auto]. intros x Hx. apply insert_flag_in in Hx as [->|Hx]; [lia|auto].
Qed.
Lemma sort_flags_ascending : forall l, ascending (sort_flags l).
Proof. induction l as [|f l IH]; simpl; auto. apply insert_flag_ascending. exact IH. Qed.
Lemma dedup_flags_in : forall l x, In x (dedup_flags l) <-> In x l.
Proof.
  induction l as [|f l IH]; intros x; [simpl; tauto|]. destruct l as [|g l]; [simpl; tauto|].
  change (dedup_flags (f :: g :: l)) with (if flag_eqb f g then dedup_flags (g :: l) else f :: dedup_flags (g :: l)).
  destruct (flag_eqb f g) eqn:E.
  - apply flag_eqb_eq in E. subst g. rewrite IH. simpl. tauto.
  - simpl. rewrite IH. simpl. tauto.
Qed.
Lemma dedup_flags_nodup : forall l, ascending l -> NoDup (dedup_flags l).
Proof.
  induction l as [|f l IH]; intros Hs; [constructor|]. destruct l as [|g l]; [constructor; [intros []|constructor]|].
  change (dedup_flags (f :: g :: l)) with (if flag_eqb f g then dedup_flags (g :: l) else f :: dedup_flags (g :: l)).
  destruct Hs as [H1 H2]. destruct (flag_eqb f g) eqn:E; [apply IH; exact H2|].
  constructor; [|apply IH; exact H2]. rewrite dedup_flags_in. intros Hin.
  assert (f <> g) by (intros ->; rewrite (proj2 (flag_eqb_eq g g) eq_refl) in E; discriminate).
  destruct Hin as [->|Hin]; [congruence|]. destruct H2 as [H2 _]. specialize (H2 f Hin).
  specialize (H1 g (or_introl eq_refl)). destruct f, g; simpl in *; try lia; congruence.
Qed.
Lemma remove_flags_in : forall both add x,
  In x (fold_left (fun l x => filter (fun y => negb (flag_eqb y x)) l) both add) <-> In x add /\ ~ In x both.
Proof.
  induction both as [|b both IH]; intros add x; simpl; [tauto|]. rewrite IH, filter_In, negb_true_iff.
  assert (K : flag_eqb x b = false <-> b <> x).
  { rewrite <- not_true_iff_false, flag_eqb_eq. intuition congruence. }
  rewrite K. tauto.
Qed.
Lemma remove_flags_nodup : forall both add, NoDup add ->
  NoDup (fold_left (fun l x => filter (fun y => negb (flag_eqb y x)) l) both add).
Proof. induction both as [|b both IH]; intros add H; simpl; auto. apply IH, NoDup_filter, H. Qed.

Definition flag_letter (f : flag) : char :=
  match f with CaseInsensitive => 105 | MultiLine => 109 | DotMatchesNewLine => 115 | IgnoreWhitespace => 120 end%N.
Lemma flag_letter_char : forall f c, flag_char f c <-> c = flag_letter f.
Proof. intros f c. split; [intros []; reflexivity|intros ->; destruct f; constructor]. Qed.
Lemma flag_letter_inj : forall f g, flag_letter f = flag_letter g -> f = g.
Proof. intros [] [] H; try reflexivity; discriminate. Qed.
Lemma print_flags_map : forall l, print_flags (map (fun x => RFlag (convert_flag x)) l) = map flag_letter l.
Proof.
  induction l as [|f l IH]; simpl; auto. fold (print_flags (map (fun x => RFlag (convert_flag x)) l)). rewrite IH.
  destruct f; reflexivity.
Qed.
Lemma print_flags_app : forall a b, print_flags (a ++ b) = print_flags a ++ print_flags b.
Proof. intros. apply flat_map_app. Qed.

Lemma convert_flags_parts : forall f, exists add remove,
  print_flags (convert_flags f) =
    map flag_letter add ++ match remove with [] => [] | _ => chars "-" ++ map flag_letter remove end /\
  NoDup (add ++ remove) /\
  (forall x, In x add <-> In x (fl_add f) /\ ~ In x (fl_remove f)) /\
  (forall x, In x remove <-> In x (fl_remove f)).
Proof.
  intros f.
  exists (fold_left (fun l x => filter (fun y => negb (flag_eqb y x)) l)
     (filter (fun x => existsb (flag_eqb x) (dedup_flags (sort_flags (fl_add f)))) (dedup_flags (sort_flags (fl_remove f))))
     (dedup_flags (sort_flags (fl_add f)))), (dedup_flags (sort_flags (fl_remove f))).
  assert (Ha : forall x, In x (fold_left (fun l x => filter (fun y => negb (flag_eqb y x)) l)
     (filter (fun x => existsb (flag_eqb x) (dedup_flags (sort_flags (fl_add f)))) (dedup_flags (sort_flags (fl_remove f))))
     (dedup_flags (sort_flags (fl_add f)))) <-> In x (fl_add f) /\ ~ In x (fl_remove f)).
  { intros x. rewrite remove_flags_in, filter_In, !dedup_flags_in, !sort_flags_in.
    assert (K : existsb (flag_eqb x) (dedup_flags (sort_flags (fl_add f))) = true <-> In x (fl_add f)).
    { rewrite existsb_exists. split.
      - intros (y & Hy & E). apply flag_eqb_eq in E. subst y. rewrite dedup_flags_in, sort_flags_in in Hy. exact Hy.
      - intros Hx. exists x. rewrite dedup_flags_in, sort_flags_in. split; auto. apply flag_eqb_eq. reflexivity. }
    rewrite K. tauto. }
  split; [|split; [|split; [exact Ha|]]].
  - unfold convert_flags. rewrite print_flags_app, print_flags_map. f_equal.
    destruct (dedup_flags (sort_flags (fl_remove f))) as [|r l]; [reflexivity|].
    change (RNegation :: map (fun x => RFlag (convert_flag x)) (r :: l))
      with ([RNegation] ++ map (fun x => RFlag (convert_flag x)) (r :: l)).
    rewrite print_flags_app, print_flags_map. reflexivity.
  - apply NoDup_app2.
    + apply remove_flags_nodup, dedup_flags_nodup, sort_flags_ascending.
    + apply dedup_flags_nodup, sort_flags_ascending.
    + intros x Hx Hr. apply Ha in Hx as [_ Hx]. rewrite dedup_flags_in, sort_flags_in in Hr. contradiction.
  - intros x. rewrite dedup_flags_in, sort_flags_in. tauto.
Qed.

Lemma flag_letters_in : forall l f, In (flag_letter f) (map flag_letter l) <-> In f l.
Proof.
  intros l f. rewrite in_map_iff. split.
  - intros (g & E & H). apply flag_letter_inj in E. subst g. exact H.
  - intros H. eauto.
Qed.

(* ---- deep nesting is refused ---- *)
Lemma deep_refused : forall k fuel depth rest, depth <= 50 -> 51 <= fuel + depth -> 50 <= k + depth ->
  expression fuel depth (repeat 40%N k ++ 97%N :: rest) = PFail PExceededDepthLimit.
Proof.
  induction k as [|k IH]; intros fuel depth rest Hd Hf Hk; (destruct fuel as [|fuel]; [lia|]); cbn [expression].
  - assert (depth = 50) by lia. subst depth. reflexivity.
  - destruct (Nat.eq_dec depth 50) as [->|Hne].
    { assert (K : forall e s, quote_expression s = PErr -> flags_expression s = PErr ->
        alternate_expression e 50 s = PFail PExceededDepthLimit).
      { intros e s H1 H2. unfold alternate_expression, separated_list1, opt, concat_expression, many1, atomic.
        cbn [alt]. rewrite H1. unfold pmap at 1. rewrite H2. reflexivity. }
      apply K; [reflexivity|]. destruct k; reflexivity. }
    assert (K : forall e s r, quote_expression s = PErr -> flags_expression s = PErr -> s = 40%N :: r ->
      (forall u, r <> 63%N :: u) -> e (depth + 1) r = PFail PExceededDepthLimit ->
      alternate_expression e depth s = PFail PExceededDepthLimit).
    { intros e s r H1 H2 -> Hr H3. unfold alternate_expression, separated_list1, opt, concat_expression, many1, atomic.
      cbn [alt]. rewrite H1. unfold pmap at 1. rewrite H2. unfold group.
      destruct (Nat.ltb_spec recursion_limit (depth + 1)) as [|_]; [unfold recursion_limit in *; lia|].
      cbn [alt pbind]. unfold non_capturing_group. cbn [alt pbind].
      assert (Ht : tag (chars "(?") (40%N :: r) = PErr).
      { simpl. destruct r as [|c r]; [reflexivity|]. destruct c as [|p]; [reflexivity|].
        destruct (Pos.eqb_spec 63 p) as [<-|]; [exfalso; eapply Hr; reflexivity|reflexivity]. }
      rewrite Ht. cbn [pbind]. unfold capture_group. simpl tag. cbn [pbind]. rewrite H3. reflexivity. }
    apply (K _ _ (repeat 40%N k ++ 97%N :: rest)).
    + reflexivity.
    + destruct k; reflexivity.
    + reflexivity.
    + intros u E. destruct k; discriminate.
    + apply IH; lia.
Qed.

(* ---- the complexity estimate ---- *)
Section Estimate.
Variable build : str -> N -> result compiled build_error.
Variable p : str.
Definition fits (l : N) : Prop := exists re, build p l = Ok re.
Hypothesis larger_fits : forall l l', fits l -> (l <= l')%N -> fits l'.

Lemma search_least : forall fuel low high, (low <= high)%N -> (high - low < 2 ^ N.of_nat fuel)%N ->
  (forall l, (1 <= l < low)%N -> ~ fits l) ->
  exists r, complexity_search build (S fuel) p low high = Ret r /\
    match r with
    | Ok n => (low <= n <= high)%N /\ (n < high -> fits n)%N /\ forall l, (1 <= l < n)%N -> ~ fits l
    | Err e => e = InvalidSyntax /\ exists l, (low <= l < high)%N /\ build p l = Err OtherBuildError
    end.
Proof.
  induction fuel as [|fuel IH]; intros low high Hle Hf Hlow.
  - simpl in Hf. assert (low = high) by lia. subst high. simpl. rewrite N.ltb_irrefl. eexists. split; [reflexivity|].
    simpl. split; [lia|]. split; [lia|auto].
  - remember (S fuel) as f. cbn [complexity_search]. destruct (N.ltb_spec low high) as [Hlt|Hge].
    2:{ eexists. split; [reflexivity|]. simpl. split; [lia|]. split; [lia|auto]. }
    set (mid := (low + (high - low) / 2)%N).
    assert (Hm : (2 * ((high - low) / 2) <= high - low < 2 * ((high - low) / 2) + 2)%N).
    { pose proof (N.div_mod (high - low) 2 ltac:(lia)). pose proof (N.mod_lt (high - low) 2 ltac:(lia)). lia. }
    assert (Hp : (2 ^ N.of_nat f = 2 * 2 ^ N.of_nat fuel)%N).
    { subst f. rewrite Nat2N.inj_succ, N.pow_succ_r'. reflexivity. }
    unfold is_regex_within_complexity_limit, build_regex. destruct (build p mid) as [re|[|]] eqn:Eb.
    + subst f. destruct (IH low mid) as (r & Hr & H); [lia|lia|exact Hlow|].
      exists r. split; [exact Hr|]. destruct r as [n|e].
      * destruct H as (H1 & H2 & H3). split; [lia|]. split; [|exact H3]. intros _.
        destruct (N.eq_dec n mid) as [->|]; [exists re; exact Eb|apply H2; lia].
      * destruct H as [-> (l & Hl & H)]. split; auto. exists l. split; [lia|exact H].
    + subst f. destruct (IH (mid + 1)%N high) as (r & Hr & H); [lia|lia| |].
      { intros l Hl Hfit. destruct (larger_fits l mid Hfit ltac:(lia)) as (re & E). congruence. }
      exists r. split; [exact Hr|]. destruct r as [n|e].
      * destruct H as (H1 & H2 & H3). split; [lia|]. split; [exact H2|exact H3].
      * destruct H as [-> (l & Hl & H)]. split; auto. exists l. split; [lia|exact H].
    + eexists. split; [reflexivity|]. simpl. split; auto. exists mid. split; [lia|exact Eb].
Qed.
Lemma search_fuel : forall f1 low high f2, f1 <= f2 -> complexity_search build f1 p low high <> Diverge ->
  complexity_search build f2 p low high = complexity_search build f1 p low high.
Proof.
  induction f1 as [|f1 IH]; intros low high f2 Hle H; [simpl in H; congruence|].
  destruct f2 as [|f2]; [lia|]. simpl in *. destruct (low <? high)%N; auto.
  destruct (is_regex_within_complexity_limit build p _) as [[|]|]; auto; apply IH; auto; lia.
Qed.
End Estimate.
