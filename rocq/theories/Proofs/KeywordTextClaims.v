(* The regex texts of keywords and of rules (C77, C78): proofs of the statements of Thm/KeywordText.v *)
From Coq Require Import Lia.
From Verif Require Import Proofs.Text Proofs.RereadFlags Proofs.Reread Proofs.RereadBody Proofs.Meaning Proofs.ConversionClaims Proofs.RegexStoreClaims.
From Verif Require Export Spec.RegexMeaning Spec.KeywordPattern Model.RegexSyntax Model.RegexFactories Model.Validation Spec.AsWritten.

(* -- the text is read as it is meant -- *)
Definition item_lit (c : char) : rliteral := {| rl_kind := if is_meta_character c then RMeta else RVerbatim; rl_c := c |}.
Lemma item_atom : forall i, atom false (keyword_item_ast i) (keyword_item_ast i).
Proof.
  intros [|c]; cbn [keyword_item_ast].
  - apply am_group; [exact flags_ok_ascii|]. change (RAssertion RWordBoundary) with (cat [RAssertion RWordBoundary]) at 2.
    eapply bo_one. apply sh_atom. apply am_assertion.
  - apply am_literal; [unfold lit_ok; cbn [rl_kind rl_c]; destruct (is_meta_character c) eqn:M; first [reflexivity|exact M]|]. intros K. discriminate K.
Qed.
Lemma items_shown : forall p, shown_all false (map keyword_item_ast p) false (map keyword_item_ast p).
Proof.
  induction p as [|i p IH]; cbn [map]; [constructor|]. change (keyword_item_ast i :: map keyword_item_ast p) with ([keyword_item_ast i] ++ map keyword_item_ast p) at 2.
  apply sa_cons with (y := false); [|exact IH]. apply sh_atom. apply item_atom.
Qed.
Lemma pattern_shown : forall p, shown false (RConcat (map keyword_item_ast p)) false (map keyword_item_ast p).
Proof. intros p. apply sh_concat. apply items_shown. Qed.
Definition branch (p : kw_pattern) : rast := cat (map keyword_item_ast p).
Lemma patterns_branches : forall p l, branches false (map (fun k => RConcat (map keyword_item_ast k)) (p :: l)) (map branch (p :: l)).
Proof.
  intros p l. revert p. induction l as [|q l IH]; intros p.
  - cbn [map]. eapply br_one. apply pattern_shown.
  - cbn [map]. eapply br_more; [apply pattern_shown|]. exact (IH q).
Qed.
Lemma item_names : forall p, flat_map rnames (map keyword_item_ast p) = [].
Proof. induction p as [|[|c] p IH]; cbn; auto. Qed.
Definition read_as (l : list kw_pattern) : rast := match l with [p] => branch p | _ => RAlternation (map branch l) end.
Lemma keywords_read : forall l, l <> [] -> reread (keywords_text l) = Some (read_as l).
Proof.
  intros [|p [|q l]] N; [congruence| |].
  - unfold keywords_text. cbn [map print_ast flat_map read_as]. rewrite app_nil_r.
    apply (reread_printed (RConcat (map keyword_item_ast p))); [eapply bo_one; apply pattern_shown|]. cbn [rnames]. rewrite item_names. constructor.
  - unfold keywords_text. apply reread_printed.
    + cbn [read_as map]. apply bo_alternation. exact (patterns_branches p (q :: l)).
    + cbn [rnames]. assert (Z : flat_map rnames (map (fun k => RConcat (map keyword_item_ast k)) (p :: q :: l)) = []); [|rewrite Z; constructor].
      generalize (p :: q :: l). clear. induction l as [|p l IH]; cbn; [reflexivity|]. rewrite item_names. exact IH.
Qed.
(* -- what it matches -- *)
Lemma word_agrees : forall o, word_char o = true <-> exists c, o = Some c /\ ascii_word c.
Proof.
  intros [c|]; cbn [word_char].
  - unfold ascii_word, in_range. split.
    + intros H. exists c. split; [reflexivity|]. rewrite !orb_true_iff, !andb_true_iff, !N.leb_le, N.eqb_eq in H. lia.
    + intros (d & E & H). injection E as <-. rewrite !orb_true_iff, !andb_true_iff, !N.leb_le, N.eqb_eq. lia.
  - split; [discriminate|]. intros (c & E & _). discriminate E.
Qed.
Lemma boundary_agrees : forall before rest,
  RegexMeaning.boundary (before ++ rest) ascii_word (length before) <-> xorb (word_char (hd_error (rev before))) (word_char (hd_error rest)) = true.
Proof.
  intros before rest. unfold RegexMeaning.boundary.
  assert (A : (exists k, length before = S k /\ at_char (before ++ rest) k ascii_word) <-> word_char (hd_error (rev before)) = true).
  { rewrite word_agrees. destruct before as [|c before _] using rev_ind.
    - cbn. split; [intros (k & K & _); discriminate K|intros (c & K & _); discriminate K].
    - rewrite rev_app_distr, app_length. cbn [rev app hd_error length]. split.
      + intros (k & K & d & D & W). assert (k = length before) by lia. subst k. rewrite <- app_assoc, nth_error_app2, Nat.sub_diag in D by lia. cbn in D. injection D as <-. eauto.
      + intros (d & D & W). injection D as <-. exists (length before). split; [lia|]. exists c. split; [|exact W]. rewrite <- app_assoc, nth_error_app2, Nat.sub_diag by lia. reflexivity. }
  assert (B : at_char (before ++ rest) (length before) ascii_word <-> word_char (hd_error rest) = true).
  { rewrite word_agrees. unfold at_char. rewrite nth_error_app2, Nat.sub_diag by lia. destruct rest; reflexivity. }
  rewrite A, B. destruct (word_char (hd_error (rev before))), (word_char (hd_error rest)); cbn; intuition congruence.
Qed.
Section Matching.
Variable E : env.
Variable fold : char -> char.
Hypothesis Hcase : forall c d, same_letter E c d <-> fold c = fold d.
Lemma letter_agrees : forall c d, any_case E true (eq c) d <-> fold c = fold d.
Proof.
  intros c d. unfold any_case. split.
  - intros [->|(_ & e & <- & H)]; [reflexivity|]. symmetry. apply Hcase. exact H.
  - intros H. right. split; [reflexivity|]. exists c. split; [reflexivity|]. apply Hcase. symmetry. exact H.
Qed.
Lemma items_match : forall p before rest t j,
  rall E (before ++ rest) ignoring_case (map keyword_item_ast p) (length before) t j <->
  t = [] /\ exists u after, rest = u ++ after /\ j = length (before ++ u) /\ kw_reads fold p (hd_error (rev before)) u (hd_error after) = true.
Proof.
  induction p as [|[|c] p IH]; intros before rest t j; cbn [map rall].
  - cbn [kw_reads]. split.
    + intros (-> & -> & _). split; [reflexivity|]. exists [], rest. rewrite app_nil_r. auto.
    + intros (-> & u & after & -> & -> & H). destruct u; [|discriminate H]. rewrite app_nil_r. repeat split.
  - cbn [keyword_item_ast rafter kw_reads]. split.
    + intros (k & t1 & t2 & (-> & -> & B) & R & ->). cbn [rmeans set_items rasserted ru] in B. apply IH in R. destruct R as (-> & u & after & -> & -> & R).
      split; [reflexivity|]. exists u, after. split; [reflexivity|]. split; [reflexivity|]. rewrite R, andb_true_r.
      cbn in B. apply boundary_agrees in B. destruct u; exact B.
    + intros (-> & u & after & -> & -> & H). apply andb_true_iff in H. destruct H as [H R].
      exists (length before), [], []. split; [|split; [|reflexivity]].
      * cbn. split; [reflexivity|]. split; [reflexivity|]. apply boundary_agrees. destruct u; exact H.
      * apply IH. split; [reflexivity|]. exists u, after. auto.
  - cbn [keyword_item_ast rafter kw_reads]. split.
    + intros (k & t1 & t2 & (-> & -> & d & D & C) & R & ->). cbn [rl_c ri ignoring_case] in C. apply letter_agrees in C.
      rewrite nth_error_app2, Nat.sub_diag in D by lia. destruct rest as [|d' rest]; [discriminate D|]. injection D as ->.
      replace (before ++ d :: rest) with ((before ++ [d]) ++ rest) in R by (rewrite <- app_assoc; reflexivity).
      replace (S (length before)) with (length (before ++ [d])) in R by (rewrite app_length; cbn; lia).
      apply IH in R. destruct R as (-> & u & after & -> & -> & R). split; [reflexivity|]. exists (d :: u), after.
      split; [reflexivity|]. split; [rewrite <- app_assoc; reflexivity|]. rewrite rev_app_distr in R. cbn [rev app hd_error] in R. rewrite R, C, N.eqb_refl. reflexivity.
    + intros (-> & u & after & -> & -> & H). destruct u as [|d u]; [discriminate H|]. apply andb_true_iff in H. destruct H as [C R]. apply N.eqb_eq in C.
      exists (S (length before)), [], []. split; [|split; [|reflexivity]].
      * cbn. split; [reflexivity|]. split; [reflexivity|]. exists d. split; [rewrite nth_error_app2, Nat.sub_diag by lia; reflexivity|]. apply letter_agrees. exact C.
      * replace (before ++ (d :: u) ++ after) with ((before ++ [d]) ++ u ++ after) by (rewrite <- app_assoc; reflexivity).
        replace (S (length before)) with (length (before ++ [d])) by (rewrite app_length; cbn; lia).
        apply IH. split; [reflexivity|]. exists u, after. split; [reflexivity|]. split; [rewrite <- app_assoc; reflexivity|].
        rewrite rev_app_distr. exact R.
Qed.
Lemma branch_after : forall m p, rafter m (branch p) = m.
Proof.
  intros m p. unfold branch. rewrite cat_after. induction p as [|[|c] p IH]; cbn [map fold_left]; auto.
Qed.
Lemma branches_match : forall s i j l k, matched (rany E s ignoring_case k (map branch l)) i j <-> exists p, In p l /\ matched (rmeans E s ignoring_case (branch p)) i j.
Proof.
  intros s i j l. induction l as [|p l IH]; intros k; cbn [map rany].
  - split; [intros [t []]|intros (p & [] & _)].
  - rewrite branch_after. split.
    + intros [t [(u & -> & H)|H]]; [exists p; split; [left; reflexivity|exists u; exact H]|].
      destruct (proj1 (IH (S k)) (ex_intro _ t H)) as (q & Q & M). exists q. split; [right; exact Q|exact M].
    + intros (q & [<-|Q] & M).
      * destruct M as [u M]. exists (k :: u). left. exists u. auto.
      * destruct (proj2 (IH (S k)) (ex_intro _ q (conj Q M))) as [t T]. exists t. right. exact T.
Qed.
Lemma read_matches : forall l s i j, matched (rmeans E s ignoring_case (read_as l)) i j <-> exists p, In p l /\ matched (rmeans E s ignoring_case (branch p)) i j.
Proof.
  intros l s i j. assert (H := fun l => branches_match s i j l 0). destruct l as [|p [|q l]]; cbn [read_as].
  - apply (H []).
  - split; [intros M; exists p; split; [left; reflexivity|exact M]|intros (p' & [<-|[]] & M); exact M].
  - apply (H (p :: q :: l)).
Qed.
Lemma keywords_match : forall l s x y, kw_occurs fold l s x y <->
  exists i j, i <= j <= length s /\ nbytes (firstn i s) = x /\ nbytes (firstn j s) = y /\ matched (rmeans E s ignoring_case (read_as l)) i j.
Proof.
  intros l s x y. split.
  - intros (p & before & t & after & Hp & -> & <- & <- & R). exists (length before), (length (before ++ t)).
    split; [rewrite !app_length; lia|]. split; [rewrite firstn_app, Nat.sub_diag, firstn_all, firstn_O, app_nil_r; reflexivity|].
    split; [rewrite app_assoc, firstn_app, Nat.sub_diag, firstn_all, firstn_O, app_nil_r; reflexivity|].
    apply read_matches. exists p. split; [exact Hp|]. exists []. apply cat_meaning. apply items_match. split; [reflexivity|]. exists t, after. auto.
  - intros (i & j & L & <- & <- & M). apply read_matches in M. destruct M as (p & Hp & t & M). apply cat_meaning in M.
    assert (S : s = firstn i s ++ skipn i s) by (symmetry; apply firstn_skipn).
    assert (Li : length (firstn i s) = i) by (apply firstn_length_le; lia).
    assert (M' : rall E (firstn i s ++ skipn i s) ignoring_case (map keyword_item_ast p) (length (firstn i s)) t j) by (rewrite Li, <- S; exact M).
    apply items_match in M'. clear M. rename M' into M. destruct M as (_ & u & after & A & J & R).
    exists p, (firstn i s), u, after. split; [exact Hp|]. split; [rewrite <- A; exact S|]. split; [reflexivity|]. split; [|exact R].
    rewrite A, app_assoc in S. rewrite J. clear - S. remember (firstn i s ++ u) as v. clear Heqv. subst s.
    rewrite firstn_app, Nat.sub_diag, firstn_all, firstn_O, app_nil_r. reflexivity.
Qed.
End Matching.
Lemma items_depth : forall p, list_max (map nest_depth (map keyword_item_ast p)) <= 1.
Proof. induction p as [|[|c] p IH]; cbn [map list_max fold_right keyword_item_ast nest_depth]; [lia| |]; change (fold_right Nat.max 0) with list_max; lia. Qed.
Lemma branch_depth : forall p, nest_depth (branch p) <= 2.
Proof.
  intros p. pose proof (items_depth p) as D. unfold branch. destruct (map keyword_item_ast p) as [|a [|b l]]; cbn [cat nest_depth]; [lia| |]; cbn [map list_max fold_right] in *; lia.
Qed.
Lemma read_depth : forall l, nest_depth (read_as l) <= nest_limit.
Proof.
  intros l. assert (H : nest_depth (read_as l) <= 3); [|unfold nest_limit; lia].
  destruct l as [|p [|q l]]; cbn [read_as]; [cbn; lia|pose proof (branch_depth p); lia|]. cbn [nest_depth]. apply le_n_S. apply list_max_le.
  apply Forall_forall. intros d D. apply in_map_iff in D. destruct D as (b & <- & B). apply in_map_iff in B. destruct B as (r & <- & _). apply branch_depth.
Qed.
Lemma compiled_some : forall n rem kws c p, compile_keywords n rem kws = Ret (Ok (Some (c, p))) -> c <> [] /\ p <> [].
Proof.
  intros n rem kws c p H. unfold compile_keywords in H. destruct kws as [|k kws]; [discriminate H|]. cbn [compile_each] in H.
  destruct (compile_keyword n rem k) as [[x|e]| |]; cbn [bind] in H; try discriminate H.
  destruct (compile_each n rem kws) as [[xs|e]| |]; cbn [bind] in H; try discriminate H. injection H as <- <-. split; discriminate.
Qed.

Lemma c77_keyword_text_lemma :
  forall look_ahead removed kws content path_pats, compile_keywords look_ahead removed kws = Ret (Ok (Some (content, path_pats))) ->
  forall l, In l [content; path_pats] ->
  exists b, reread (keywords_text l) = Some b /\ nest_depth b <= nest_limit /\
    forall E fold s x y, (forall c d, same_letter E c d <-> fold c = fold d) ->
      kw_occurs fold l s x y <->
      exists i j, i <= j <= length s /\ nbytes (firstn i s) = x /\ nbytes (firstn j s) = y /\ matched (rmeans E s ignoring_case b) i j.
Proof.
  intros n rem kws content pp H l I. assert (N : l <> []).
  { destruct (compiled_some _ _ _ _ _ H) as [A B]. destruct I as [<-|[<-|[]]]; assumption. }
  exists (read_as l). split; [apply keywords_read; exact N|]. split; [apply read_depth|]. intros E fold s x y HE. apply keywords_match. exact HE.
Qed.

Lemma c77_distinct_lemma :
  forall l k, l <> [] -> k <> [] -> keywords_text l = keywords_text k ->
  forall fold s x y, kw_occurs fold l s x y <-> kw_occurs fold k s x y.
Proof.
  intros l k L K T fold s x y. pose proof (keywords_read l L) as RL. pose proof (keywords_read k K) as RK. rewrite T, RK in RL. injection RL as RL.
  set (E := {| same_letter := fun c d => fold c = fold d; has_property := fun _ _ => False; unicode_word := fun _ => False |}).
  rewrite (keywords_match E fold (fun c d => iff_refl _) l), (keywords_match E fold (fun c d => iff_refl _) k), RL. reflexivity.
Qed.

Lemma c78_rule_regex_lemma :
  forall accepts cache_size acts p h a, run cache_size acts process_new = Some (Ret p) -> agree (rule_factory accepts) acts ->
  In h (p_handles p) -> parse_regex_pattern 51 (h_pattern h) = Ret (Ok a) -> faithful mode0 a -> NoDup (group_names a) ->
  exists x b, gives p h x /\ accepts (cr_text x) = true /\ reread (cr_text x) = Some b /\
    forall E s, plain_env E ->
      same_meaning (rmeans E s {| ri := cr_case_insensitive x; rm := false; rs := false; ru := true |} b) (means E (end_with s) s mode0 a).
Proof.
  intros accepts cache_size acts p h a R A I P F N. destruct (c45_transparent_lemma compiled_regex cache_size (rule_factory accepts) acts p R A) as [H _].
  destruct (H h I) as (x & G & X). unfold rule_factory in X. destruct (convert_to_rust_regex 51 (h_pattern h)) as [[t|e]| |] eqn:C; try discriminate X.
  destruct (accepts t) eqn:AC; [|discriminate X]. injection X as <-. destruct (c57_faithful_lemma (h_pattern h) a t P C F N) as (b & B & M).
  exists {| cr_text := t; cr_case_insensitive := false |}, b. auto.
Qed.

