(* The recursive part of the pattern parser: it stops, accepts only texts of the grammar and
   bounds the nesting of groups *)
From Coq Require Import Lia ZifyN.
From Verif Require Export Proofs.Grammar.

(* ---- soundness ---- *)
Section Sound.
Variable expr : nat -> str -> presult ast.
Hypothesis sound_expr : forall d, psound expression_text (expr d).

Lemma psound_group : forall depth, psound atom_text (group expr depth).
Proof.
  intros depth s a rest E. unfold group in E. destruct (_ <? _); [discriminate|].
  apply alt_in in E as (p & [<-|[<-|[<-|[]]]] & E).
  - step E. apply pbind_ok in E as (f & r1 & T1 & E). step E. apply pbind_ok in E as (b & r2 & T2 & E). step E.
    injection E as <- <-. destruct (psound_flags _ _ _ T1) as (u & -> & Hu).
    destruct (sound_expr _ _ _ _ T2) as (t & -> & Ht). subst.
    exists (chars "(?" ++ u ++ chars ":" ++ t ++ chars ")"). split; [rewrite <- !app_assoc; reflexivity|].
    constructor; auto.
  - step E. apply pbind_ok in E as (b & r2 & T2 & E). step E. injection E as <- <-.
    destruct (sound_expr _ _ _ _ T2) as (t & -> & Ht). subst.
    exists (chars "(" ++ t ++ chars ")"). split; [rewrite <- !app_assoc; reflexivity|]. constructor; auto.
  - apply alt_in in E as (p & [<-|[<-|[]]] & E).
    + apply pbind_ok in E as ([] & r0 & T0 & E). apply pbind_ok in E as (n & r1 & T1 & E). step E.
      apply pbind_ok in E as (b & r2 & T2 & E). step E. injection E as <- <-.
      destruct (psound_name _ _ _ T1) as (u & -> & -> & Hu).
      destruct (sound_expr _ _ _ _ T2) as (t & -> & Ht). subst.
      apply alt_in in T0 as (p & [<-|[<-|[]]] & T0); apply tag_ok in T0; subst.
      * exists (chars "(?<" ++ n ++ chars ">" ++ t ++ chars ")"). split; [rewrite <- !app_assoc; reflexivity|].
        apply ax_named; auto.
      * exists (chars "(?P<" ++ n ++ chars ">" ++ t ++ chars ")"). split; [rewrite <- !app_assoc; reflexivity|].
        apply ax_named_p; auto.
    + step E. apply pbind_ok in E as (n & r1 & T1 & E). step E.
      apply pbind_ok in E as (b & r2 & T2 & E). step E. injection E as <- <-.
      destruct (psound_name _ _ _ T1) as (u & -> & -> & Hu).
      destruct (sound_expr _ _ _ _ T2) as (t & -> & Ht). subst.
      exists (chars "(?'" ++ n ++ chars "'" ++ t ++ chars ")"). split; [rewrite <- !app_assoc; reflexivity|].
      apply ax_named_q; auto.
Qed.

Lemma class_err_names : forall l rest, In l (chars "dswDSWhHvV") -> character_class (92%N :: l :: rest) <> PErr.
Proof.
  intros l rest H. cbv [chars] in H. simpl in H. repeat (destruct H as [<-|H]; [discriminate|]). destruct H.
Qed.

Lemma psound_atomic : forall depth, psound piece_text (atomic expr depth).
Proof.
  intros depth s a rest E. apply pbind_ok in E as (b & r1 & E & T2). apply pbind_ok in T2 as (o & r2 & T2 & E2).
  assert (K : exists t, s = t ++ r1 /\ atom_text b t).
  { clear T2 E2. cbn [alt] in E.
    first_alternative E E1; [injection E as <- <-; exact (psound_quote_expression _ _ _ E1)|].
    first_alternative E E2; [injection E as <- <-|].
    { apply pmap_ok in E2 as (f & E2 & ->). destruct (psound_flags_expression _ _ _ E2) as (t & -> & u & Hu & ->).
      eexists. split; [reflexivity|]. constructor. exact Hu. }
    first_alternative E E3; [injection E as <- <-; exact (psound_group _ _ _ _ E3)|].
    first_alternative E E4; [injection E as <- <-|].
    { apply pmap_ok in E4 as (f & E4 & ->). destruct (psound_assertion _ _ _ E4) as (t & -> & Ht).
      exists t. split; [reflexivity|]. constructor. exact Ht. }
    first_alternative E E5; [injection E as <- <-|].
    { apply pmap_ok in E5 as (f & E5 & ->). destruct (psound_class _ _ _ E5) as (t & -> & Ht).
      exists t. split; [reflexivity|]. constructor. exact Ht. }
    first_alternative E E6. injection E as <- <-. apply pmap_err in E4, E5.
    apply pmap_ok in E6 as ([c e] & E6 & ->). destruct (psound_literal _ _ _ _ E6) as (t & -> & Ht).
    exists t. split; [reflexivity|]. apply ax_literal; [exact Ht| |].
    - intros (l & Hl & ->). exact (class_err_names _ _ Hl E5).
    - intros ->. discriminate E4. }
  destruct K as (t & -> & Ht). apply opt_ok in T2. destruct o as [q|].
  - injection E2 as <- <-. destruct (psound_quantifier _ _ _ T2) as (u & -> & Hu).
    exists (t ++ u). split; [rewrite app_assoc; reflexivity|]. apply px_repeat; auto.
  - injection E2 as <- <-. destruct T2 as [_ ->]. exists t. split; [reflexivity|]. apply px_atom. exact Ht.
Qed.

Lemma pieces_concat : forall a l t ts, piece_text a t -> Forall2 piece_text l ts ->
  pieces_text (a :: l) (t ++ concat ts).
Proof.
  intros a l t ts Ha H. revert a t Ha. induction H as [|b u l ts Hb _ IH]; intros a t Ha; simpl.
  - rewrite app_nil_r. constructor. exact Ha.
  - constructor; auto.
Qed.

Lemma psound_concat : forall depth, psound branch_text (concat_expression expr depth).
Proof.
  intros depth s a rest E. apply pbind_ok in E as (l & r & E & E2).
  apply pbind_ok in E as (b & r1 & T1 & E). apply pbind_ok in E as (l' & r2 & T2 & E). injection E as <- <-.
  destruct (psound_atomic _ _ _ _ T1) as (t & -> & Ht).
  destruct (psound_many0 _ _ _ (psound_atomic depth) _ _ _ T2) as (u & -> & ts & Hts & ->).
  pose proof (pieces_concat _ _ _ _ Ht Hts) as K.
  exists (t ++ concat ts). destruct l' as [|c l']; injection E2 as <- <-;
    (split; [rewrite app_assoc; reflexivity|constructor; exact K]).
Qed.

Definition branch_option (o : option ast) (t : str) : Prop :=
  branch_text (match o with Some a => a | None => AEmpty end) t.
Lemma psound_branch_option : forall depth, psound branch_option (opt (concat_expression expr depth)).
Proof.
  intros depth. eapply psound_weaken; [apply psound_opt, psound_concat|].
  intros [a|] t H; [exact H|]. subst t. constructor.
Qed.

Lemma separated_loop_sound : forall A (R : A -> str -> Prop) sep p, psound (fun _ t => t = sep) (tag sep) -> psound R p ->
  forall fuel s l rest, separated_loop fuel (tag sep) p s = POk l rest ->
  exists ts, Forall2 R l ts /\ s = concat (map (fun t => sep ++ t) ts) ++ rest.
Proof.
  intros A R sep p Hsep Hp. induction fuel as [|fuel IH]; intros s l rest E; simpl in E; [discriminate|].
  destruct (tag sep s) as [u s1| |e|] eqn:E1; try discriminate.
  - destruct (length s1 =? length s); [discriminate|]. destruct (p s1) as [a s2| |e|] eqn:E2; try discriminate.
    + apply pbind_ok in E as (l' & r & E3 & E). injection E as <- <-.
      destruct (Hsep _ _ _ E1) as (t0 & -> & ->). destruct (Hp _ _ _ E2) as (t & -> & Ht).
      destruct (IH _ _ _ E3) as (ts & Hts & ->). exists (t :: ts). split; [constructor; auto|].
      simpl. rewrite <- !app_assoc. reflexivity.
    + injection E as <- <-. exists []. split; [constructor|reflexivity].
  - injection E as <- <-. exists []. split; [constructor|reflexivity].
Qed.

Lemma branches_concat : forall a l t ts, branch_option a t -> Forall2 branch_option l ts ->
  branches_text (map (fun o => match o with Some a => a | None => AEmpty end) (a :: l))
    (t ++ concat (map (fun t => chars "|" ++ t) ts)).
Proof.
  intros a l t ts Ha H. revert a t Ha. induction H as [|b u l ts Hb _ IH]; intros a t Ha.
  - cbn [map concat]. rewrite app_nil_r. constructor. exact Ha.
  - cbn [map concat]. rewrite <- app_assoc. apply (bs_more _ t _ (u ++ concat (map (fun t => chars "|" ++ t) ts))); [exact Ha|].
    apply IH. exact Hb.
Qed.

Lemma psound_alternate : forall depth, psound expression_text (alternate_expression expr depth).
Proof.
  intros depth s a rest E. apply pbind_ok in E as (l & r & E & E2).
  apply pbind_ok in E as (b & r1 & T1 & E). apply pbind_ok in E as (l' & r2 & T2 & E). injection E as <- <-.
  destruct (psound_branch_option _ _ _ _ T1) as (t & -> & Ht).
  destruct (separated_loop_sound _ _ _ _ (psound_tag _) (psound_branch_option depth) _ _ _ _ T2) as (ts & Hts & ->).
  pose proof (branches_concat _ _ _ _ Ht Hts) as K.
  exists (t ++ concat (map (fun t => chars "|" ++ t) ts)). split; [|].
  - destruct l' as [|c l']; injection E2 as _ <-; rewrite <- app_assoc; reflexivity.
  - destruct l' as [|c l']; injection E2 as <- <-; constructor; exact K.
Qed.
End Sound.

Lemma psound_expression : forall fuel depth, psound expression_text (expression fuel depth).
Proof.
  induction fuel as [|fuel IH]; intros depth; [intros s a rest E; discriminate|].
  simpl. apply psound_alternate. exact IH.
Qed.

(* ---- errors ---- *)
(* the number of opening parentheses in a text *)
Definition opens (s : str) : nat := count_occ N.eq_dec s 40%N.
Lemma opens_app : forall a b, opens (a ++ b) = opens a + opens b.
Proof. intros. apply count_occ_app. Qed.

(* fails with anything but a syntax error only if there are [k] opening parentheses *)
Definition quiet_result {A} (k : nat) (s : str) (r : presult A) : Prop :=
  match r with
  | PStuck => False
  | PFail e => e = PInvalidSyntax \/ (e = PExceededDepthLimit /\ k <= opens s)
  | _ => True
  end.
Definition quiet {A} (k : nat) (p : str -> presult A) : Prop := forall s, quiet_result k s (p s).

Lemma calm_quiet : forall A k (p : str -> presult A), calm p -> quiet k p.
Proof. intros A k p H s. specialize (H s). destruct (p s); simpl in *; auto. Qed.
Lemma quiet_suffix : forall A k t s (r : presult A), quiet_result k s r -> quiet_result k (t ++ s) r.
Proof. intros A k t s [|  |e|] H; simpl in *; auto. rewrite opens_app. intuition lia. Qed.

Lemma quiet_bind : forall A B k (p : str -> presult A) (q : A -> str -> presult B),
  quiet k p -> shrinks p -> (forall a, quiet k (q a)) -> quiet k (fun s => pbind (p s) q).
Proof.
  intros A B k p q Hp Hs Hq s. specialize (Hp s). destruct (p s) as [a s1| |e|] eqn:E; simpl in *; auto.
  destruct (Hs _ _ _ E) as (t & ->). apply quiet_suffix. apply Hq.
Qed.
Lemma quiet_tag_open : forall B k t (q : unit -> str -> presult B), opens t = 1 -> quiet k (q tt) ->
  quiet (S k) (fun s => pbind (tag t s) q).
Proof.
  intros B k t q Ht Hq s. pose proof (calm_tag t s) as Hc. destruct (tag t s) as [[] s1| |e|] eqn:E; simpl in *; auto.
  apply tag_ok in E. subst s. specialize (Hq s1). destruct (q tt s1); simpl in *; auto. rewrite opens_app. intuition lia.
Qed.
Lemma quiet_alt : forall A k (ps : list (str -> presult A)), Forall (quiet k) ps -> quiet k (alt ps).
Proof.
  intros A k ps H s. induction H as [|p ps Hp _ IH]; simpl; auto. specialize (Hp s). destruct (p s); simpl in *; auto.
Qed.
Lemma quiet_opt : forall A k (p : str -> presult A), quiet k p -> quiet k (opt p).
Proof. intros A k p H s. specialize (H s). unfold opt. destruct (p s); simpl in *; auto. Qed.
Lemma quiet_pmap : forall A B k (f : A -> B) p, quiet k p -> quiet k (pmap f p).
Proof. intros A B k f p H s. specialize (H s). unfold pmap. destruct (p s); simpl in *; auto. Qed.
Lemma quiet_many0 : forall A k (p : str -> presult A), quiet k p -> shrinks p -> quiet k (many0 p).
Proof.
  intros A k p Hc Hs s. unfold many0. assert (Hl : length s < S (length s)) by lia. revert Hl.
  generalize (S (length s)) as fuel. intros fuel. revert s.
  induction fuel as [|fuel IH]; intros s Hl; [lia|]. simpl.
  pose proof (Hc s) as H. destruct (p s) as [a s1| |e|] eqn:E1; simpl in *; auto.
  destruct (Nat.eqb_spec (length s1) (length s)) as [|Hne]; [exact I|].
  destruct (Hs _ _ _ E1) as (t & ->). rewrite app_length in *.
  specialize (IH s1 ltac:(lia)). destruct (many0_loop fuel p s1); simpl in *; auto.
  rewrite opens_app. intuition lia.
Qed.
Lemma quiet_separated : forall A k sep (p : str -> presult A), quiet k p -> shrinks p ->
  forall fuel s, length s < fuel -> quiet_result k s (separated_loop fuel (tag sep) p s).
Proof.
  intros A k sep p Hc Hs. induction fuel as [|fuel IH]; intros s Hl; [lia|]. simpl.
  pose proof (calm_tag sep s) as Ht. destruct (tag sep s) as [[] s1| |e|] eqn:E1; simpl in *; auto.
  destruct (Nat.eqb_spec (length s1) (length s)) as [|Hne]; [exact I|].
  apply tag_ok in E1. subst s. rewrite app_length in *. apply quiet_suffix.
  pose proof (Hc s1) as H. destruct (p s1) as [a s2| |e|] eqn:E2; simpl in *; auto.
  destruct (Hs _ _ _ E2) as (t & ->). rewrite app_length in *. apply quiet_suffix.
  specialize (IH s2 ltac:(lia)). destruct (separated_loop fuel (tag sep) p s2); simpl in *; auto.
Qed.

Lemma shrinks_tag : forall t, shrinks (tag t).
Proof. intros t. eapply sound_shrinks, psound_tag. Qed.

Section Quiet.
Variable expr : nat -> str -> presult ast.
Hypothesis sound_expr : forall d, psound expression_text (expr d).

Lemma quiet_close : forall k (f : ast -> ast) depth, quiet k (expr depth) ->
  quiet k (fun s => pbind (expr depth s) (fun a s2 => pbind (tag (chars ")") s2) (fun _ s3 => POk (f a) s3))).
Proof.
  intros k f depth H. apply quiet_bind; [exact H|eapply sound_shrinks, sound_expr|].
  intros a. apply calm_quiet. calm.
Qed.

Lemma quiet_group : forall depth, depth < 50 -> quiet (49 - depth) (expr (depth + 1)) ->
  quiet (50 - depth) (group expr depth).
Proof.
  intros depth Hd H s. unfold group. destruct (Nat.ltb_spec recursion_limit (depth + 1)) as [Hl|_];
    [unfold recursion_limit in Hl; lia|].
  revert s. replace (50 - depth) with (S (49 - depth)) by lia.
  change (quiet (S (49 - depth)) (alt [non_capturing_group expr (depth + 1); capture_group expr (depth + 1);
    named_capture_group expr (depth + 1)])).
  apply quiet_alt. repeat apply Forall_cons; try apply Forall_nil.
  - apply quiet_tag_open; [reflexivity|].
    apply quiet_bind; [apply calm_quiet, calm_flags|eapply sound_shrinks, psound_flags|]. intros f.
    apply quiet_bind; [apply calm_quiet, calm_tag|apply shrinks_tag|]. intros _. apply quiet_close. exact H.
  - apply quiet_tag_open; [reflexivity|]. apply quiet_close. exact H.
  - unfold named_capture_group. apply quiet_alt. repeat apply Forall_cons; try apply Forall_nil.
    + intros s.
      set (q := fun (_ : unit) (s1 : str) => _).
      assert (Hq : quiet (49 - depth) (q tt)).
      { unfold q. apply quiet_bind; [apply calm_quiet, calm_name|eapply sound_shrinks, psound_name|]. intros n.
        apply quiet_bind; [apply calm_quiet, calm_tag|apply shrinks_tag|]. intros _. apply quiet_close. exact H. }
      pose proof (quiet_tag_open _ _ (chars "(?<") q eq_refl Hq s) as H1.
      pose proof (quiet_tag_open _ _ (chars "(?P<") q eq_refl Hq s) as H2.
      clearbody q. cbv beta in H1, H2. cbn [alt]. destruct (tag (chars "(?<") s) as [[] r| |e|]; [exact H1| |exact H1|exact H1].
      destruct (tag (chars "(?P<") s) as [[] r| |e|]; exact H2.
    + apply quiet_tag_open; [reflexivity|].
      apply quiet_bind; [apply calm_quiet, calm_name|eapply sound_shrinks, psound_name|]. intros n.
      apply quiet_bind; [apply calm_quiet, calm_tag|apply shrinks_tag|]. intros _. apply quiet_close. exact H.
Qed.

Lemma quiet_group_deep : forall depth k, 50 <= depth -> k = 0 -> quiet k (group expr depth).
Proof.
  intros depth k Hd -> s. unfold group. destruct (Nat.ltb_spec recursion_limit (depth + 1)) as [_|Hl];
    [|unfold recursion_limit in Hl; lia]. simpl. right. split; [reflexivity|lia].
Qed.

Lemma quiet_atomic : forall k depth, quiet k (group expr depth) -> quiet k (atomic expr depth).
Proof.
  intros k depth H. unfold atomic. apply quiet_bind.
  - apply quiet_alt. repeat apply Forall_cons; try apply Forall_nil; [| |exact H| | |].
    + apply calm_quiet, calm_quote_expression.
    + apply quiet_pmap, calm_quiet, calm_flags_expression.
    + apply quiet_pmap, calm_quiet, calm_assertion.
    + apply quiet_pmap, calm_quiet, calm_class.
    + apply quiet_pmap, calm_quiet, calm_literal.
  - intros s a rest E. cbn [alt] in E.
    first_alternative E E1; [injection E as <- <-; destruct (psound_quote_expression _ _ _ E1) as (t & -> & _); eauto|].
    first_alternative E E2; [injection E as <- <-; apply pmap_ok in E2 as (f & E2 & _);
      destruct (psound_flags_expression _ _ _ E2) as (t & -> & _); eauto|].
    first_alternative E E3; [injection E as <- <-; destruct (psound_group _ sound_expr _ _ _ _ E3) as (t & -> & _); eauto|].
    first_alternative E E4; [injection E as <- <-; apply pmap_ok in E4 as (f & E4 & _);
      destruct (psound_assertion _ _ _ E4) as (t & -> & _); eauto|].
    first_alternative E E5; [injection E as <- <-; apply pmap_ok in E5 as (f & E5 & _);
      destruct (psound_class _ _ _ E5) as (t & -> & _); eauto|].
    first_alternative E E6. injection E as <- <-; apply pmap_ok in E6 as (f & E6 & _).
    destruct (psound_literal _ _ _ _ E6) as (t & -> & _). eauto.
  - intros a. apply quiet_bind; [apply calm_quiet, calm_opt, calm_quantifier| |].
    + eapply sound_shrinks, psound_opt, psound_quantifier.
    + intros [q|]; apply calm_quiet; calm.
Qed.

Lemma quiet_concat : forall k depth, quiet k (group expr depth) -> quiet k (concat_expression expr depth).
Proof.
  intros k depth H. pose proof (quiet_atomic k depth H) as Ha.
  pose proof (sound_shrinks _ _ _ (psound_atomic expr sound_expr depth)) as Hs.
  unfold concat_expression, many1. intros s.
  assert (K : quiet k (fun s => pbind (atomic expr depth s) (fun a rest => pbind (many0 (atomic expr depth) rest) (fun l r => POk (a :: l) r)))).
  { apply quiet_bind; auto. intros a. apply quiet_bind; [apply quiet_many0; auto| |intros l; apply calm_quiet; calm].
    eapply sound_shrinks, psound_many0, psound_atomic. exact sound_expr. }
  specialize (K s). cbv beta in K. destruct (pbind (atomic expr depth s) _) as [l r| |e|]; simpl in *; auto.
  destruct l as [|a [|b l]]; exact I.
Qed.

Lemma quiet_alternate : forall k depth, quiet k (group expr depth) -> quiet k (alternate_expression expr depth).
Proof.
  intros k depth H. pose proof (quiet_opt _ _ _ (quiet_concat k depth H)) as Ha.
  pose proof (sound_shrinks _ _ _ (psound_branch_option expr sound_expr depth)) as Hs.
  unfold alternate_expression, separated_list1. intros s.
  match goal with |- quiet_result k s (pbind ?x _) => assert (K : quiet_result k s x) end.
  { pose proof (Ha s) as Hs1.
    destruct (opt (concat_expression expr depth) s) as [a s1| |e|] eqn:E; [|exact Hs1|exact Hs1|exact Hs1].
    destruct (Hs _ _ _ E) as (t & ->). apply quiet_suffix.
    pose proof (quiet_separated _ k (chars "|") _ Ha Hs (S (length s1)) s1 ltac:(lia)) as K. cbn [pbind].
    destruct (separated_loop (S (length s1)) (tag (chars "|")) (opt (concat_expression expr depth)) s1);
      [exact I|exact I|exact K|exact K]. }
  match goal with |- quiet_result k s (pbind ?x _) => destruct x as [l r| |e|] end; simpl in *; auto.
  destruct l as [|a [|b l]]; exact I.
Qed.
End Quiet.

Lemma quiet_expression : forall fuel depth, depth <= 50 -> 51 <= fuel + depth ->
  quiet (50 - depth) (expression fuel depth).
Proof.
  induction fuel as [|fuel IH]; intros depth Hd Hf; [lia|]. cbn [expression].
  apply quiet_alternate; [intros d; apply psound_expression|].
  destruct (Nat.eq_dec depth 50) as [->|Hne].
  - apply quiet_group_deep; [intros d; apply psound_expression|lia|reflexivity].
  - apply quiet_group; [intros d; apply psound_expression|lia|].
    replace (49 - depth) with (50 - (depth + 1)) by lia. apply IH; lia.
Qed.

(* ---- more fuel changes nothing ---- *)
Lemma pbind_ext : forall A B (r1 r2 : presult A) (f g : A -> str -> presult B),
  r1 = r2 -> (forall a s, f a s = g a s) -> pbind r1 f = pbind r2 g.
Proof. intros A B r1 r2 f g -> H. destruct r2; simpl; auto. Qed.
Lemma alt_ext : forall A (ps qs : list (str -> presult A)) s, Forall2 (fun p q => p s = q s) ps qs -> alt ps s = alt qs s.
Proof. induction 1 as [|p q ps qs H _ IH]; simpl; auto. rewrite H, IH. reflexivity. Qed.
Lemma many0_loop_ext : forall A (p q : str -> presult A), (forall s, p s = q s) ->
  forall fuel s, many0_loop fuel p s = many0_loop fuel q s.
Proof.
  intros A p q H. induction fuel as [|fuel IH]; intros s; simpl; auto. rewrite H. destruct (q s); auto.
  rewrite IH. reflexivity.
Qed.
Lemma separated_loop_ext : forall A sep (p q : str -> presult A), (forall s, p s = q s) ->
  forall fuel s, separated_loop fuel sep p s = separated_loop fuel sep q s.
Proof.
  intros A sep p q H. induction fuel as [|fuel IH]; intros s; simpl; auto. destruct (sep s); auto.
  destruct (_ =? _); auto. rewrite H. destruct (q rest); auto. rewrite IH. reflexivity.
Qed.

Section Ext.
Variables e1 e2 : nat -> str -> presult ast.

Lemma group_ext : forall depth, (depth < 50 -> forall s, e1 (depth + 1) s = e2 (depth + 1) s) ->
  forall s, group e1 depth s = group e2 depth s.
Proof.
  intros depth H s. unfold group. destruct (Nat.ltb_spec recursion_limit (depth + 1)) as [|Hl]; auto.
  unfold recursion_limit in Hl. specialize (H ltac:(lia)).
  apply alt_ext. repeat apply Forall2_cons; try apply Forall2_nil.
  - repeat first [apply pbind_ext; [reflexivity|intros ? ?] | apply pbind_ext; [apply H|intros ? ?] | reflexivity].
  - repeat first [apply pbind_ext; [reflexivity|intros ? ?] | apply pbind_ext; [apply H|intros ? ?] | reflexivity].
  - apply alt_ext. repeat apply Forall2_cons; try apply Forall2_nil;
      repeat first [apply pbind_ext; [reflexivity|intros ? ?] | apply pbind_ext; [apply H|intros ? ?] | reflexivity].
Qed.

Lemma alternate_ext : forall depth, (depth < 50 -> forall s, e1 (depth + 1) s = e2 (depth + 1) s) ->
  forall s, alternate_expression e1 depth s = alternate_expression e2 depth s.
Proof.
  intros depth H s. pose proof (group_ext depth H) as Hg.
  assert (Ha : forall s, atomic e1 depth s = atomic e2 depth s).
  { intros r. unfold atomic. apply pbind_ext; [|reflexivity]. apply alt_ext.
    repeat first [apply Forall2_cons; [first [reflexivity|apply Hg]|] | apply Forall2_nil]. }
  assert (Hc : forall s, opt (concat_expression e1 depth) s = opt (concat_expression e2 depth) s).
  { intros r. unfold opt. replace (concat_expression e1 depth r) with (concat_expression e2 depth r); [reflexivity|].
    apply pbind_ext; [|reflexivity]. unfold many1. apply pbind_ext; [symmetry; apply Ha|]. intros a s'.
    apply pbind_ext; [|reflexivity]. apply many0_loop_ext. intros; symmetry; apply Ha. }
  unfold alternate_expression, separated_list1. apply pbind_ext; [|reflexivity]. apply pbind_ext; [apply Hc|].
  intros a s'. apply pbind_ext; [|reflexivity]. apply separated_loop_ext. exact Hc.
Qed.
End Ext.

Lemma expression_fuel : forall f1 f2 depth, depth <= 50 -> 51 <= f1 + depth -> 51 <= f2 + depth ->
  forall s, expression f1 depth s = expression f2 depth s.
Proof.
  induction f1 as [|f1 IH]; intros f2 depth Hd H1 H2 s; [lia|]. destruct f2 as [|f2]; [lia|]. simpl.
  apply alternate_ext. intros Hl r. apply IH; lia.
Qed.

(* ---- nesting ---- *)
Section Nesting.
Variable expr : nat -> str -> presult ast.
Hypothesis low_expr : forall d s a rest, expr d s = POk a rest -> nesting a + d < 50.

Lemma group_low : forall depth s a rest, group expr depth s = POk a rest -> nesting a + depth < 50.
Proof.
  intros depth s a rest E. unfold group in E. destruct (_ <? _); [discriminate|].
  apply alt_in in E as (p & [<-|[<-|[<-|[]]]] & E).
  - do 3 step E. apply pbind_ok in E as (b & r2 & T2 & E). step E. injection E as <- <-. apply low_expr in T2. simpl. lia.
  - step E. apply pbind_ok in E as (b & r2 & T2 & E). step E. injection E as <- <-. apply low_expr in T2. simpl. lia.
  - apply alt_in in E as (p & [<-|[<-|[]]] & E);
      do 3 step E; apply pbind_ok in E as (b & r2 & T2 & E); step E; injection E as <- <-; apply low_expr in T2; simpl; lia.
Qed.

Lemma nesting_quoted : forall l, nesting (quoted l) = 0.
Proof.
  intros [|a [|b l]]; simpl; auto. rewrite map_map. induction l as [|c l IH]; simpl in *; auto.
Qed.

Lemma atomic_low : forall depth s a rest, depth < 50 -> atomic expr depth s = POk a rest -> nesting a + depth < 50.
Proof.
  intros depth s a rest Hd E. apply pbind_ok in E as (b & r1 & E & T2). apply pbind_ok in T2 as (o & r2 & T2 & E2).
  assert (K : nesting b + depth < 50).
  { clear T2 E2. cbn [alt] in E.
    first_alternative E E1; [injection E as <- <-|].
    { apply pbind_ok in E1 as (l & r & _ & E1). injection E1 as <- _.
      replace (match map (fun c => ALiteral {| lit_c := c; lit_escaped := true |}) l with
              | [] => AEmpty | [a] => a
              | _ => AConcat (map (fun c => ALiteral {| lit_c := c; lit_escaped := true |}) l) end) with (quoted l)
        by (destruct l as [|x [|y l]]; reflexivity). rewrite nesting_quoted. exact Hd. }
    first_alternative E E2; [injection E as <- <-; apply pmap_ok in E2 as (f & _ & ->); exact Hd|].
    first_alternative E E3; [injection E as <- <-; exact (group_low _ _ _ _ E3)|].
    first_alternative E E4; [injection E as <- <-; apply pmap_ok in E4 as (f & _ & ->); exact Hd|].
    first_alternative E E5; [injection E as <- <-; apply pmap_ok in E5 as (f & _ & ->); exact Hd|].
    first_alternative E E6. injection E as <- <-; apply pmap_ok in E6 as (f & _ & ->); exact Hd. }
  destruct o; injection E2 as <- _; exact K.
Qed.

Lemma many0_loop_all : forall A (P : A -> Prop) (p : str -> presult A), (forall s a rest, p s = POk a rest -> P a) ->
  forall fuel s l rest, many0_loop fuel p s = POk l rest -> Forall P l.
Proof.
  intros A P p Hp. induction fuel as [|fuel IH]; intros s l rest E; simpl in E; [discriminate|].
  destruct (p s) as [a s1| |e|] eqn:E1; try discriminate.
  - destruct (length s1 =? length s); [discriminate|]. apply pbind_ok in E as (l' & s2 & E2 & E3). injection E3 as <- <-.
    constructor; eauto.
  - injection E as <- <-. constructor.
Qed.
Lemma separated_loop_all : forall A (P : A -> Prop) sep (p : str -> presult A), (forall s a rest, p s = POk a rest -> P a) ->
  forall fuel s l rest, separated_loop fuel sep p s = POk l rest -> Forall P l.
Proof.
  intros A P sep p Hp. induction fuel as [|fuel IH]; intros s l rest E; simpl in E; [discriminate|].
  destruct (sep s) as [u s1| |e|]; try discriminate.
  - destruct (length s1 =? length s); [discriminate|]. destruct (p s1) as [a s2| |e|] eqn:E2; try discriminate.
    + apply pbind_ok in E as (l' & r & E3 & E). injection E as <- <-. constructor; eauto.
    + injection E as <- <-. constructor.
  - injection E as <- <-. constructor.
Qed.
Lemma list_max_low : forall d l, d < 50 -> Forall (fun a => nesting a + d < 50) l -> list_max (map nesting l) + d < 50.
Proof. intros d l Hd H. induction H as [|a l Ha _ IH]; simpl; [exact Hd|]. lia. Qed.

(* at the limit no piece is absent *)
Lemma atomic_deep : forall depth s, 50 <= depth ->
  match atomic expr depth s with
  | POk _ rest => length rest < length s
  | PErr => False
  | _ => True
  end.
Proof.
  intros depth s Hd.
  assert (Hg : group expr depth s = PFail PExceededDepthLimit).
  { unfold group. destruct (Nat.ltb_spec recursion_limit (depth + 1)) as [_|Hl]; [reflexivity|].
    unfold recursion_limit in Hl. lia. }
  unfold atomic. cbn [alt]. rewrite Hg. clear Hg.
  assert (K : forall b r1, length r1 < length s ->
    match pbind (opt parse_quantifier r1) (fun q s2 => match q with Some q => POk (ARepetition q b) s2 | None => POk b s2 end) with
    | POk _ rest => length rest < length s | PErr => False | _ => True end).
  { intros b r1 Hl. unfold opt. destruct (parse_quantifier r1) as [q r2| |e|] eqn:E; simpl; auto.
    destruct (psound_quantifier _ _ _ E) as (t & -> & _). rewrite app_length in Hl. lia. }
  destruct (quote_expression s) as [b r| |e|] eqn:E1; try exact I.
  - simpl pbind at 1. apply K. apply pbind_ok in E1 as (l & r' & E1 & E1'). injection E1' as _ <-.
    destruct (psound_quoted _ _ _ E1) as (t & -> & _ & ->). rewrite !app_length. simpl. lia.
  - destruct (pmap AFlags flags_expression s) as [b r| |e|] eqn:E2; try exact I.
    simpl pbind at 1. apply K. apply pmap_ok in E2 as (f & E2 & _).
    destruct (psound_flags_expression _ _ _ E2) as (t & -> & u & _ & ->). rewrite !app_length. simpl. lia.
Qed.
Lemma concat_deep : forall depth s, 50 <= depth ->
  match concat_expression expr depth s with POk _ _ | PErr => False | _ => True end.
Proof.
  intros depth s Hd.
  assert (K : forall fuel s, match many0_loop fuel (atomic expr depth) s with POk _ _ | PErr => False | _ => True end).
  { induction fuel as [|fuel IH]; intros r; simpl; auto. pose proof (atomic_deep depth r Hd) as Ha.
    destruct (atomic expr depth r) as [a r1| |e|]; auto.
    destruct (Nat.eqb_spec (length r1) (length r)); [lia|]. specialize (IH r1).
    destruct (many0_loop fuel _ r1); simpl; auto. }
  unfold concat_expression, many1. pose proof (atomic_deep depth s Hd) as Ha.
  destruct (atomic expr depth s) as [a r1| |e|]; [|contradiction|exact I|exact I].
  specialize (K (S (length r1)) r1). unfold many0. cbn [pbind].
  destruct (many0_loop (S (length r1)) (atomic expr depth) r1); [contradiction|contradiction|exact I|exact I].
Qed.

Lemma alternate_low : forall depth s a rest, alternate_expression expr depth s = POk a rest -> nesting a + depth < 50.
Proof.
  intros depth s a rest E. apply pbind_ok in E as (l & r & E & E2).
  apply pbind_ok in E as (b & r1 & T1 & E). apply pbind_ok in E as (l' & r2 & T2 & E). injection E as <- <-.
  assert (Hd : depth < 50).
  { destruct (Nat.lt_ge_cases depth 50) as [|Hge]; auto. pose proof (concat_deep depth s Hge) as K.
    unfold opt in T1. destruct (concat_expression expr depth s); try discriminate; contradiction. }
  set (low := fun o : option ast => nesting (match o with Some a => a | None => AEmpty end) + depth < 50).
  assert (Hc : forall s o rest, opt (concat_expression expr depth) s = POk o rest -> low o).
  { intros s' o rest' Ho. apply opt_ok in Ho. destruct o as [c|]; [|exact Hd]. unfold low.
    apply pbind_ok in Ho as (ps & q & Ho & Ho2). apply pbind_ok in Ho as (p1 & q1 & U1 & Ho).
    apply pbind_ok in Ho as (ps' & q2 & U2 & Ho). injection Ho as <- <-.
    pose proof (atomic_low _ _ _ _ Hd U1) as L1.
    pose proof (many0_loop_all _ (fun a => nesting a + depth < 50) _ (fun s a rest => atomic_low depth s a rest Hd) _ _ _ _ U2) as L2.
    destruct ps' as [|p2 ps']; injection Ho2 as <- _; [exact L1|].
    apply (list_max_low depth (p1 :: p2 :: ps') Hd). constructor; auto. }
  pose proof (Hc _ _ _ T1) as L1.
  pose proof (separated_loop_all _ low _ _ Hc _ _ _ _ T2) as L2.
  destruct l' as [|c l']; injection E2 as <- _; [exact L1|].
  change (list_max (map nesting (map (fun o => match o with Some a => a | None => AEmpty end) (b :: c :: l'))) + depth < 50).
  apply list_max_low; auto. rewrite Forall_map. constructor; auto.
Qed.
End Nesting.

Lemma expression_low : forall fuel depth s a rest, expression fuel depth s = POk a rest -> nesting a + depth < 50.
Proof.
  induction fuel as [|fuel IH]; intros depth s a rest E; [discriminate|]. simpl in E.
  eapply alternate_low; [exact IH|exact E].
Qed.
