(* The meaning of converted patterns (C57): proofs of the statements of Thm/Conversion.v *)
From Coq Require Import Lia ZifyN.
From Verif Require Import Proofs.Pattern Proofs.PatternsClaims Proofs.RereadFlags Proofs.Reread Proofs.RereadBody Proofs.Meaning.
From Verif Require Export Spec.RegexMeaning Model.RegexSyntax.

Lemma faithful_meets : forall pattern a t,
  parse_regex_pattern 51 pattern = Ret (Ok a) -> convert_to_rust_regex 51 pattern = Ret (Ok t) ->
  faithful mode0 a -> NoDup (group_names a) ->
  exists b, reread t = Some b /\
    forall E text, plain_env E -> same_meaning (rmeans E text rmode0 b) (means E (end_with text) text mode0 a).
Proof.
  intros pattern a t P C F N. unfold convert_to_rust_regex in C. rewrite P in C. cbn [bind] in C. injection C as C.
  destruct (convert_ast a) as [r|e] eqn:R; [|discriminate]. injection C as <-.
  eapply faithful_reread; eauto. eapply c54_grammar_lemma; eauto.
Qed.

Lemma no_ends_concat : forall l, no_ends (AConcat l) <-> Forall no_ends l.
Proof.
  induction l as [|a l IH]; [cbn; split; auto|]. change (no_ends (AConcat (a :: l))) with (no_ends a /\ no_ends (AConcat l)).
  rewrite IH. split; [intros []; auto|intros H; inversion H; auto].
Qed.
Lemma no_ends_alternation : forall l, no_ends (AAlternation l) <-> Forall no_ends l.
Proof. apply no_ends_concat. Qed.
Lemma all_mean_ext : forall E e1 e2 text l, Forall (fun a => forall m, same_meaning (means E e1 text m a) (means E e2 text m a)) l ->
  forall m, same_meaning (all_mean E e1 text m l) (all_mean E e2 text m l).
Proof.
  intros E e1 e2 text l H. induction H as [|a l Ha _ IH]; intros m; [apply same_refl|]. cbn [all_mean]. apply andthen_ext; auto.
Qed.
Lemma any_mean_ext : forall E e1 e2 text l, Forall (fun a => forall m, same_meaning (means E e1 text m a) (means E e2 text m a)) l ->
  forall m k, same_meaning (any_mean E e1 text m k l) (any_mean E e2 text m k l).
Proof.
  intros E e1 e2 text l H. induction H as [|a l Ha _ IH]; intros m k i t j; [reflexivity|]. cbn [any_mean].
  rewrite (IH (after m a) (S k) i t j).
  split; (intros [(u & -> & K)|K]; [left; exists u; split; [reflexivity|apply Ha; exact K]|right; exact K]).
Qed.
Lemma no_ends_meaning : forall E e1 e2 text a, no_ends a -> forall m, same_meaning (means E e1 text m a) (means E e2 text m a).
Proof.
  intros E e1 e2 text a. induction a as [|l|l IH|a IH|f a IH|n a IH|c|l IH|q a [IH IHl]|t|f] using ast_induction_parts; intros H m;
    try solve [apply same_refl].
  - rewrite !means_concat. apply all_mean_ext. apply no_ends_concat in H. rewrite Forall_forall in *. intros; apply IH; auto.
  - apply (IH H).
  - apply (IH H).
  - apply (IH H).
  - rewrite !means_alternation. apply any_mean_ext. apply no_ends_alternation in H. rewrite Forall_forall in *. intros; apply IH; auto.
  - destruct (concat_dec a) as [[l ->]|Na]; [|rewrite !means_repetition by exact Na; apply times_ext, IH; exact H].
    rewrite !means_quoted. specialize (IHl l eq_refl). clear IH. change (no_ends (AConcat l)) in H. apply no_ends_concat in H.
    revert m. induction H as [|a l Ha Hl IH]; intros m; [apply same_refl|]. inversion IHl as [|? ? IH1 IH2]; subst.
    destruct l; [apply times_ext, IH1; exact Ha|]. rewrite !last_mean_more. apply andthen_ext; [apply IH1; exact Ha|]. apply IH; exact IH2.
  - destruct t; try solve [apply same_refl]; destruct H.
Qed.

Lemma same_prefers : forall A B i j, same_meaning A B -> prefers A i j <-> prefers B i j.
Proof.
  intros A B i j H. unfold prefers. split; intros (t & H1 & H2); exists t; (split; [apply H; exact H1|]);
    intros u k K; (eapply H2; apply H; exact K).
Qed.

(* the nesting of the tree *)
Lemma max_below : forall A (f : A -> nat) l n, Forall (fun a => f a <= n) l -> list_max (map f l) <= n.
Proof. intros A f l n H. apply list_max_le. rewrite Forall_map. exact H. Qed.
Lemma max_above : forall A (f : A -> nat) l a, In a l -> f a <= list_max (map f l).
Proof.
  intros A f l a H. assert (K : Forall (fun k => k <= list_max (map f l)) (map f l)) by (apply list_max_le; lia).
  rewrite Forall_forall in K. apply K. apply in_map. exact H.
Qed.
Lemma item_shallow : forall it, item_depth (convert_bracket_item it) <= 2.
Proof.
  intros it. destruct it as [d|a b|p|u|n k| | | |]; cbn; try lia. destruct p; cbn; lia.
Qed.
Lemma class_shallow : forall k, nest_depth (convert_class k) <= 4.
Proof.
  intros [n items|p| | | | | |u]; cbn [convert_class nest_depth]; try (cbn; lia).
  - assert (list_max (map item_depth (map convert_bracket_item items)) <= 2); [|lia]. apply max_below, Forall_map.
    apply Forall_forall. intros. apply item_shallow.
  - destruct p; cbn; lia.
Qed.
Lemma assertion_shallow : forall t, nest_depth (convert_assertion t) <= 2.
Proof. intros []; cbn; lia. Qed.
Lemma converted_all_max : forall l rs n, convert_all l = Ok rs ->
  Forall (fun a => forall r, convert_ast a = Ok r -> nest_depth r <= n) l -> Forall (fun r => nest_depth r <= n) rs.
Proof.
  induction l as [|a l IH]; intros rs n C H; [injection C as <-; constructor|]. rewrite convert_all_cons in C.
  destruct (convert_ast a) as [r|] eqn:E; [|discriminate]. apply rmap_ok in C as (rs' & C & ->). inversion H; subst. constructor; auto.
Qed.
Lemma converted_shallow :
  (forall a t, atom_text a t -> forall n, nesting a <= n -> forall r, convert_ast a = Ok r -> nest_depth r <= 4 * n + 4) /\
  (forall a t, piece_text a t -> forall n, nesting a <= n -> forall r, convert_ast a = Ok r -> nest_depth r <= 4 * n + 5) /\
  (forall l t, pieces_text l t -> forall n, Forall (fun a => nesting a <= n) l ->
     Forall (fun a => forall r, convert_ast a = Ok r -> nest_depth r <= 4 * n + 5) l) /\
  (forall a t, branch_text a t -> forall n, nesting a <= n -> forall r, convert_ast a = Ok r -> nest_depth r <= 4 * n + 6) /\
  (forall l t, branches_text l t -> forall n, Forall (fun a => nesting a <= n) l ->
     Forall (fun a => forall r, convert_ast a = Ok r -> nest_depth r <= 4 * n + 6) l) /\
  (forall a t, expression_text a t -> forall n, nesting a <= n -> forall r, convert_ast a = Ok r -> nest_depth r <= 4 * n + 7).
Proof.
  assert (G : forall l n, nesting (AConcat l) <= n -> Forall (fun a => nesting a <= n) l).
  { intros l n H. apply Forall_forall. intros a Ha. pose proof (max_above _ nesting l a Ha). cbn [nesting] in H. lia. }
  apply text_induction.
  - intros l _ n _ r C. destruct l as [|c [|d l]]; [injection C as <-; cbn; lia|injection C as <-; cbn; lia|].
    cbn [quoted] in C. rewrite convert_concat in C. apply rmap_ok in C as (rs & C & ->). cbn [nest_depth].
    assert (list_max (map nest_depth rs) <= 0); [|lia]. apply max_below.
    eapply converted_all_max; [exact C|]. apply Forall_forall. intros a Ha r E. apply in_map_iff in Ha as (x & <- & _).
    injection E as <-. cbn. lia.
  - intros c e t _ _ _ n _ r C. injection C as <-. cbn. lia.
  - intros k t _ n _ r C. injection C as <-. pose proof (class_shallow k). lia.
  - intros k t _ n _ r C. injection C as <-. pose proof (assertion_shallow k). lia.
  - intros f t _ n _ r C. injection C as <-. cbn. lia.
  - intros a t _ IH n Hn r C. cbn [convert_ast nesting] in *. apply rmap_ok in C as (r' & C & ->). cbn [nest_depth].
    destruct n as [|n]; [lia|]. specialize (IH n ltac:(lia) r' C). lia.
  - intros f u a t _ _ IH n Hn r C. cbn [convert_ast nesting] in *. apply rmap_ok in C as (r' & C & ->). cbn [nest_depth].
    destruct n as [|n]; [lia|]. specialize (IH n ltac:(lia) r' C). lia.
  - intros nm a t _ _ IH n Hn r C. cbn [convert_ast nesting] in *. apply rmap_ok in C as (r' & C & ->). cbn [nest_depth].
    destruct n as [|n]; [lia|]. specialize (IH n ltac:(lia) r' C). lia.
  - intros nm a t _ _ IH n Hn r C. cbn [convert_ast nesting] in *. apply rmap_ok in C as (r' & C & ->). cbn [nest_depth].
    destruct n as [|n]; [lia|]. specialize (IH n ltac:(lia) r' C). lia.
  - intros nm a t _ _ IH n Hn r C. cbn [convert_ast nesting] in *. apply rmap_ok in C as (r' & C & ->). cbn [nest_depth].
    destruct n as [|n]; [lia|]. specialize (IH n ltac:(lia) r' C). lia.
  - intros a t _ IH n Hn r C. specialize (IH n Hn r C). lia.
  - intros a t q u _ IH _ n Hn r C. cbn [convert_ast nesting] in *. destruct (convert_quantifier (q_kind q)); [|discriminate].
    apply rmap_ok in C as (r' & C & ->). cbn [nest_depth]. specialize (IH n Hn r' C). lia.
  - intros a t _ IH n H. inversion H; subst. constructor; [|constructor]. intros. eapply IH; eauto.
  - intros a t l u _ IHa _ IHl n H. inversion H; subst. constructor; [|auto]. intros. eapply IHa; eauto.
  - intros n _ r C. injection C as <-. cbn. lia.
  - intros a t _ IH n Hn r C. specialize (IH n). assert (K : Forall (fun a => nesting a <= n) [a]) by (constructor; [exact Hn|constructor]).
    specialize (IH K). inversion IH; subst. specialize (H1 r C). lia.
  - intros a b l t _ IH n Hn r C. rewrite convert_concat in C. apply rmap_ok in C as (rs & C & ->). cbn [nest_depth].
    assert (list_max (map nest_depth rs) <= 4 * n + 5); [|lia]. apply max_below. eapply converted_all_max; [exact C|].
    apply IH, G. exact Hn.
  - intros a t _ IH n H. inversion H; subst. constructor; [|constructor]. intros. eapply IH; eauto.
  - intros a t l u _ IHa _ IHl n H. inversion H; subst. constructor; [|auto]. intros. eapply IHa; eauto.
  - intros a t _ IH n Hn r C. specialize (IH n). assert (K : Forall (fun a => nesting a <= n) [a]) by (constructor; [exact Hn|constructor]).
    specialize (IH K). inversion IH; subst. specialize (H1 r C). lia.
  - intros a b l t _ IH n Hn r C. rewrite convert_alternation in C. apply rmap_ok in C as (rs & C & ->). cbn [nest_depth].
    assert (list_max (map nest_depth rs) <= 4 * n + 6); [|lia]. apply max_below. eapply converted_all_max; [exact C|].
    apply IH. apply (G (a :: b :: l)). exact Hn.
Qed.

(* what is read back is not nested deeper *)
Lemma cat_shallow : forall ps n, Forall (fun p => nest_depth p <= n) ps ->
  (1 < length ps -> Forall (fun p => S (nest_depth p) <= n) ps) -> nest_depth (cat ps) <= n.
Proof.
  intros [|a [|b l]] n H1 H2; cbn [cat].
  - cbn. lia.
  - inversion H1; auto.
  - assert (K : Forall (fun p => S (nest_depth p) <= n) (a :: b :: l)) by (apply H2; cbn; lia). cbn [nest_depth].
    destruct n as [|n]; [inversion K; lia|]. assert (list_max (map nest_depth (a :: b :: l)) <= n); [|lia].
    apply max_below. eapply Forall_impl; [|exact K]. cbn. intros. lia.
Qed.
Lemma reread_shallow :
  (forall x a p, atom x a p -> nest_depth p <= nest_depth a) /\
  (forall x a y ps, shown x a y ps -> Forall (fun p => nest_depth p <= nest_depth a) ps /\
     (1 < length ps -> Forall (fun p => S (nest_depth p) <= nest_depth a) ps)) /\
  (forall x l y ps, shown_all x l y ps -> Forall (fun p => nest_depth p <= list_max (map nest_depth l)) ps) /\
  (forall x a b, body x a b -> nest_depth b <= nest_depth a) /\
  (forall x l bs, branches x l bs -> Forall (fun b => nest_depth b <= list_max (map nest_depth l)) bs).
Proof.
  apply shown_induction.
  - intros. lia.
  - intros. lia.
  - intros. lia.
  - intros. lia.
  - intros. lia.
  - intros x a b _ IH. cbn [nest_depth]. lia.
  - intros x n a b _ _ IH. cbn [nest_depth]. lia.
  - intros x f a b _ _ IH. cbn [nest_depth]. lia.
  - intros x a p _ IH. split; [constructor; auto|cbn; lia].
  - intros x. split; [constructor|cbn; lia].
  - intros c _. split; [constructor|cbn; lia].
  - intros x f _ _. split; [constructor; auto|cbn; lia].
  - intros x k g a p _ IH _. split; [constructor; [cbn [nest_depth]; lia|constructor]|cbn; lia].
  - intros x l y ps _ IH. cbn [nest_depth]. split; [|intros _]; (eapply Forall_impl; [|exact IH]); cbn; intros; lia.
  - intros x k g l a y ps _ IH.
    assert (K : S (list_max (map nest_depth (l ++ [RRepetition k g a]))) <= nest_depth (RRepetition k g (RConcat (l ++ [a])))).
    { cbn [nest_depth]. rewrite !map_app, !list_max_app. cbn [map list_max fold_right nest_depth]. lia. }
    split; [|intros _]; (eapply Forall_impl; [|exact IH]); cbn beta; intros; lia.
  - intros. constructor.
  - intros x a y ps l z qs _ [IH1 _] _ IH2. cbn [map list_max fold_right]. apply Forall_app. split.
    + eapply Forall_impl; [|exact IH1]. cbn. intros. lia.
    + eapply Forall_impl; [|exact IH2]. cbn. intros. fold (list_max (map nest_depth l)). lia.
  - intros x a y ps _ [H1 H2]. apply cat_shallow; auto.
  - intros x a l b c bs _ IH. cbn [nest_depth]. apply le_n_S. apply max_below. exact IH.
  - intros x a y ps _ [H1 H2]. constructor; [|constructor]. cbn [map list_max fold_right].
    assert (nest_depth (cat ps) <= nest_depth a) by (apply cat_shallow; auto). lia.
  - intros x a y ps l bs _ [H1 H2] _ IH. cbn [map list_max fold_right]. fold (list_max (map nest_depth l)).
    assert (nest_depth (cat ps) <= nest_depth a) by (apply cat_shallow; auto). constructor; [lia|].
    eapply Forall_impl; [|exact IH]. cbn. intros. lia.
Qed.

(* s, S and the long s are one letter *)
Definition long_s (c : char) : Prop := (c = 115 \/ c = 83 \/ c = 383)%N.
Definition small_env : env :=
  {| same_letter := fun c d => c = d \/ long_s c /\ long_s d; has_property := fun _ _ => False; unicode_word := ascii_word |}.
Lemma small_env_plain : plain_env small_env.
Proof.
  unfold plain_env, small_env, long_s. cbn [same_letter]. split; [auto|]. split; [intros c d [->|[H1 H2]]; auto|].
  split; [intros c d e [->|[H1 H2]] [->|[H3 H4]]; auto|]. intros c d [->|[H1 H2]] H; [reflexivity|]. lia.
Qed.
Ltac meets := eexists; split; [vm_compute; reflexivity|split; [vm_compute; reflexivity|vm_compute; reflexivity]].
Ltac run := repeat match goal with
  | H : exists _, _ |- _ => destruct H
  | H : _ /\ _ |- _ => destruct H
  | H : andthen _ _ _ _ _ |- _ => destruct H as (? & ? & ? & ? & ? & ?)
  | H : one _ _ _ _ _ |- _ => destruct H as (? & ? & ? & ? & ?)
  | H : here _ _ _ _ |- _ => destruct H as (? & ? & ?)
  | H : nothing _ _ _ |- _ => destruct H as (? & ? & ?)
  | H : end_before _ _ _ _ _ |- _ => destruct H as (? & ? & ?)
  end; subst.

Lemma c57_faithful_lemma :
  forall pattern a t,
  parse_regex_pattern 51 pattern = Ret (Ok a) -> convert_to_rust_regex 51 pattern = Ret (Ok t) ->
  faithful mode0 a -> NoDup (group_names a) ->
  exists b, reread t = Some b /\
    forall E text, plain_env E -> same_meaning (rmeans E text rmode0 b) (means E (end_with text) text mode0 a).
Proof.
  exact faithful_meets.
Qed.

Lemma c57_pcre_lemma :
  forall pattern a t,
  parse_regex_pattern 51 pattern = Ret (Ok a) -> convert_to_rust_regex 51 pattern = Ret (Ok t) ->
  faithful mode0 a -> NoDup (group_names a) -> no_ends a ->
  exists b, reread t = Some b /\
    forall E text, plain_env E -> same_meaning (rmeans E text rmode0 b) (means E (end_before text) text mode0 a).
Proof.
  intros pattern a t P C F N H. destruct (faithful_meets pattern a t P C F N) as (b & H1 & H2). exists b. split; [exact H1|].
  intros E text HE. eapply same_trans; [apply H2; exact HE|]. apply no_ends_meaning. exact H.
Qed.

Lemma c57_preferred_lemma :
  forall pattern a t,
  parse_regex_pattern 51 pattern = Ret (Ok a) -> convert_to_rust_regex 51 pattern = Ret (Ok t) ->
  faithful mode0 a -> NoDup (group_names a) ->
  exists b, reread t = Some b /\ forall E text i j, plain_env E ->
    (prefers (rmeans E text rmode0 b) i j <-> prefers (means E (end_with text) text mode0 a) i j) /\
    (matched (rmeans E text rmode0 b) i j <-> matched (means E (end_with text) text mode0 a) i j).
Proof.
  intros pattern a t P C F N. destruct (faithful_meets pattern a t P C F N) as (b & H1 & H2). exists b. split; [exact H1|].
  intros E text i j HE. split; [apply same_prefers, H2, HE|]. unfold matched.
  split; intros (u & Hu); exists u; apply (H2 E text HE); exact Hu.
Qed.

Lemma c57_depth_lemma :
  forall pattern a, parse_regex_pattern 51 pattern = Ret (Ok a) ->
  forall r, convert_ast a = Ok r -> nest_depth r <= nest_limit /\
    (faithful mode0 a -> NoDup (group_names a) ->
       exists b, reread (print_ast r) = Some b /\ nest_depth b <= nest_limit).
Proof.
  intros pattern a P r C. pose proof (c54_nesting_lemma _ _ _ P) as Hn. pose proof (c54_grammar_lemma _ _ _ P) as Ht.
  assert (D : nest_depth r <= nest_limit).
  { pose proof (proj2 (proj2 (proj2 (proj2 (proj2 converted_shallow)))) a pattern Ht 49 ltac:(lia) r C). unfold nest_limit. lia. }
  split; [exact D|]. intros F N.
  destruct (proj2 (proj2 (proj2 (proj2 (proj2 kept_text)))) a pattern Ht mode0 r F C) as (b & H1 & _).
  exists b. split; [apply reread_printed; [exact H1|rewrite (converted_names a r C); exact N]|].
  pose proof (proj1 (proj2 (proj2 (proj2 reread_shallow))) _ _ _ H1). lia.
Qed.

Lemma c57_end_refuted_lemma :
  exists pattern a b text, patterns_meet pattern a b reread /\ forall E,
  matched (rmeans E text rmode0 b) 0 2 /\ ~ matched (means E (end_before text) text mode0 a) 0 2.
Proof.
  exists (chars "a$"). eexists. eexists. exists [97; 10]%N. split; [meets|]. intros E. split.
  - exists [0]. cbn [rmeans]. exists 1, [], [0]. split; [|split; [|reflexivity]].
    + split; [reflexivity|]. split; [reflexivity|]. exists 97%N. split; [reflexivity|left; reflexivity].
    + exists 2, [0], []. split; [|split; [|reflexivity]].
      * change [0] with (0 :: [] ++ []). apply (tm_again _ true (Some 1) 1 [] 2 [] 2); [discriminate| |apply tm_full].
        split; [reflexivity|]. split; [reflexivity|]. exists 10%N. split; [reflexivity|left; reflexivity].
      * exists 2, [], []. split; [|split; [|reflexivity]]; (split; [reflexivity|]); (split; [reflexivity|]); [left; reflexivity|exact I].
  - intros (t & H). cbn in H. run. discriminate.
Qed.

Lemma c57_repeated_end_refuted_lemma :
  exists pattern a b text, patterns_meet pattern a b reread /\ forall E,
  matched (rmeans E text rmode0 b) 0 3 /\ ~ matched (means E (end_before text) text mode0 a) 0 3 /\
  ~ matched (means E (end_with text) text mode0 a) 0 3.
Proof.
  exists (chars "a$?b"). eexists. eexists. exists [97; 10; 98]%N. split; [meets|]. intros E. split; [|split].
  - exists [0; 1]. cbn [rmeans]. exists 1, [], [0; 1]. split; [|split; [|reflexivity]].
    + split; [reflexivity|]. split; [reflexivity|]. exists 97%N. split; [reflexivity|left; reflexivity].
    + exists 2, [0], [1]. split; [|split; [|reflexivity]].
      * change [0] with (0 :: [] ++ []). apply (tm_again _ true (Some 1) 1 [] 2 [] 2); [discriminate| |apply tm_full].
        split; [reflexivity|]. split; [reflexivity|]. exists 10%N. split; [reflexivity|left; reflexivity].
      * exists 2, [1], []. split; [apply tm_stop; discriminate|]. split; [|reflexivity].
        exists 3, [], []. split; [|split; [|reflexivity]]; [|split; [reflexivity|]; split; [reflexivity|]; exact I].
        split; [reflexivity|]. split; [reflexivity|]. exists 98%N. split; [reflexivity|left; reflexivity].
  - intros (t & H). cbn in H. destruct H as (k1 & t1 & u1 & (-> & -> & _) & H & ->).
    destruct H as (k2 & t2 & u2 & T & H & ->). destruct H as (k3 & t3 & u3 & (-> & -> & c & N & C) & (_ & K & _) & ->). injection K as <-.
    inversion T; subst.
    match goal with A : end_before _ _ _ _ _ |- _ => destruct A as (_ & _ & [[A|[A _]]|[_ A]]); discriminate A end.
  - intros (t & H). cbn in H. destruct H as (k1 & t1 & u1 & (-> & -> & _) & H & ->).
    destruct H as (k2 & t2 & u2 & T & H & ->). destruct H as (k3 & t3 & u3 & (-> & -> & c & N & C) & (_ & K & _) & ->). injection K as <-.
    inversion T as [| | |? ? ? ? ? ? ? A T']; subst.
    cbn [option_map Nat.pred pred] in T'. inversion T'; subst; try congruence;
    destruct A as (k4 & t4 & u4 & _ & (_ & X & [A|[A _]]) & _); cbn in A; lia || discriminate A.
Qed.

Lemma c57_word_refuted_lemma :
  exists pattern a b E text, patterns_meet pattern a b reread /\ plain_env E /\
  matched (rmeans E text rmode0 b) 0 1 /\ ~ matched (means E (end_before text) text mode0 a) 0 1.
Proof.
  exists (chars "(?i)\w"). eexists. eexists. exists small_env, [383]%N. split; [meets|]. split; [exact small_env_plain|]. split.
  - exists []. cbn [rmeans]. exists 0, [], []. split; [|split; [|reflexivity]]; [split; [reflexivity|]; split; [reflexivity|]; exact I|].
    exists 1, [], []. split; [|split; [|reflexivity]]; [|split; [reflexivity|]; split; [reflexivity|]; exact I].
    split; [reflexivity|]. split; [reflexivity|]. exists 383%N. split; [reflexivity|]. cbn. left. left. right. split; [reflexivity|].
    exists 115%N. split; [lia|]. right. unfold long_s. tauto.
  - intros (t & H). cbn in H. run.
    match goal with H : nth_error _ _ = Some _ |- _ => injection H as <- end.
    match goal with H : in_class _ _ _ _ |- _ => change (ascii_word 383%N) in H; unfold ascii_word in H; clear - H end. lia.
Qed.

Lemma c57_space_refuted_lemma :
  exists pattern a b text, patterns_meet pattern a b reread /\ forall E,
  matched (rmeans E text rmode0 b) 0 2 /\ ~ matched (means E (end_before text) text mode0 a) 0 2.
Proof.
  exists (chars "(?x)a\x{A0}b"). eexists. eexists. exists [97; 98]%N. split; [meets|]. intros E. split.
  - exists []. cbn [rmeans]. exists 0, [], []. split; [|split; [|reflexivity]]; [split; [reflexivity|]; split; [reflexivity|]; exact I|].
    exists 1, [], []. split; [|split; [|reflexivity]].
    + split; [reflexivity|]. split; [reflexivity|]. exists 97%N. split; [reflexivity|left; reflexivity].
    + exists 2, [], []. split; [|split; [|reflexivity]].
      * split; [reflexivity|]. split; [reflexivity|]. exists 98%N. split; [reflexivity|left; reflexivity].
      * split; [reflexivity|]; split; [reflexivity|]; exact I.
  - intros (t & H). cbn in H. run. discriminate.
Qed.

Lemma c57_group_refuted_lemma :
  exists pattern a b text, patterns_meet pattern a b reread /\ forall E,
  matched (means E (end_before text) text mode0 a) 0 2 /\ ~ matched (rmeans E text rmode0 b) 0 2.
Proof.
  exists (chars "(?x)( ?:a)"). eexists. eexists. exists [58; 97]%N. split; [meets|]. intros E. split.
  - exists [1]. cbn. exists 0, [], [1]. split; [split; [reflexivity|]; split; [reflexivity|]; exact I|]. split; [|reflexivity].
    exists 2, [1], []. split; [|split; [|reflexivity]]; [|split; [reflexivity|]; split; [reflexivity|]; exact I].
    exists 0, [1], []. split; [apply tm_stop; discriminate|]. split; [|reflexivity].
    exists 1, [], []. split; [|split; [|reflexivity]].
    + split; [reflexivity|]. split; [reflexivity|]. exists 58%N. split; [reflexivity|left; reflexivity].
    + exists 2, [], []. split; [|split; [|reflexivity]].
      * split; [reflexivity|]. split; [reflexivity|]. exists 97%N. split; [reflexivity|left; reflexivity].
      * split; [reflexivity|]; split; [reflexivity|]; exact I.
  - intros (t & H). cbn in H. run. discriminate.
Qed.

Lemma c57_read_refuted_lemma :
  forall pattern, In pattern [chars "a(?)b"; chars "(?i)*"; chars "(?<n>a)(?<n>b)"; chars "[b-a]"; chars "a{3,2}"] ->
  exists a t, parse_regex_pattern 51 pattern = Ret (Ok a) /\ convert_to_rust_regex 51 pattern = Ret (Ok t) /\ reread t = None.
Proof.
  intros pattern H. cbn [In] in H.
  repeat (destruct H as [<-|H]; [eexists; eexists; split; [vm_compute; reflexivity|split; [vm_compute; reflexivity|vm_compute; reflexivity]]|]). contradiction.
Qed.

