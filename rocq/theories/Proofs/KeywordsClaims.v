(* Keyword configurations and sanitized paths (C28-C31): proofs of the statements of Thm/Keywords.v *)
From Coq Require Import Lia.
From Verif Require Import Proofs.Text.
From Verif Require Export Spec.KeywordConfig Examples.Keywords.

(* ---- trimming ---- *)
Lemma is_whitespace_spec : forall c, is_whitespace c = true <-> In c white_space.
Proof.
  intros c. unfold is_whitespace, in_range, white_space. rewrite !orb_true_iff, !andb_true_iff, !N.eqb_eq, !N.leb_le. simpl.
  split; intros H.
  - assert (c = 9 \/ c = 10 \/ c = 11 \/ c = 12 \/ c = 13 \/ c = 32 \/ c = 133 \/ c = 160 \/ c = 5760 \/
            c = 8192 \/ c = 8193 \/ c = 8194 \/ c = 8195 \/ c = 8196 \/ c = 8197 \/ c = 8198 \/ c = 8199 \/
            c = 8200 \/ c = 8201 \/ c = 8202 \/ c = 8232 \/ c = 8233 \/ c = 8239 \/ c = 8287 \/ c = 12288)%N as K by lia.
    clear H. repeat (destruct K as [K|K]; [subst c; tauto|]). subst c. tauto.
  - lia.
Qed.

Lemma trim_start_app : forall pre s, (forall c, In c pre -> In c white_space) -> trim_start (pre ++ s) = trim_start s.
Proof.
  induction pre as [|c pre IH]; intros s H; [reflexivity|]. simpl.
  assert (is_whitespace c = true) as -> by (apply is_whitespace_spec, H; left; reflexivity).
  apply IH. intros d Hd. apply H. right. exact Hd.
Qed.
Lemma trim_start_keep : forall s, (forall c, hd_error s = Some c -> ~ In c white_space) -> trim_start s = s.
Proof.
  intros [|c s] H; [reflexivity|]. simpl. destruct (is_whitespace c) eqn:E; [|reflexivity].
  apply is_whitespace_spec in E. destruct (H c eq_refl E).
Qed.
Lemma trim_start_split : forall s, exists pre, s = pre ++ trim_start s /\ (forall c, In c pre -> In c white_space) /\
  (forall c, hd_error (trim_start s) = Some c -> ~ In c white_space).
Proof.
  induction s as [|c s (pre & E & H1 & H2)]; simpl.
  - exists []. split; [reflexivity|]. split; [intros c []|intros c Hc; discriminate Hc].
  - destruct (is_whitespace c) eqn:Ew.
    + exists (c :: pre). split; [simpl; congruence|]. split; [|exact H2].
      intros d [<-|Hd]; [exact (proj1 (is_whitespace_spec _) Ew)|exact (H1 _ Hd)].
    + exists []. split; [reflexivity|]. split; [intros d []|]. simpl. intros d Hd. injection Hd as <-.
      intros Hin. apply is_whitespace_spec in Hin. congruence.
Qed.

Lemma trims_to_trim : forall kw, trims_to kw (trim kw).
Proof.
  intros kw. unfold trim.
  destruct (trim_start_split kw) as (pre & E & H1 & H2).
  destruct (trim_start_split (rev (trim_start kw))) as (post & E' & H1' & H2').
  set (t := trim_start (rev (trim_start kw))) in *.
  assert (Ek : trim_start kw = rev t ++ rev post).
  { rewrite <- (rev_involutive (trim_start kw)), E', rev_app_distr. reflexivity. }
  exists pre, (rev post). split; [rewrite <- Ek; exact E|]. split; [exact H1|].
  split; [intros c Hc; apply in_rev in Hc; auto|]. split; [|rewrite rev_involutive; exact H2'].
  intros c Hc. apply H2. rewrite Ek. destruct (rev t) as [|x u]; [discriminate Hc|exact Hc].
Qed.

Lemma trims_to_unique : forall kw t, trims_to kw t -> t = trim kw.
Proof.
  intros kw t (pre & post & -> & H1 & H2 & H3 & H4). unfold trim. rewrite trim_start_app by exact H1.
  destruct t as [|c t].
  - simpl. pose proof (trim_start_app post [] H2) as E. rewrite app_nil_r in E. rewrite E. reflexivity.
  - rewrite (trim_start_keep ((c :: t) ++ post)).
    2:{ intros d Hd. apply H3. exact Hd. }
    rewrite rev_app_distr, trim_start_app; [|intros d Hd; apply in_rev in Hd; auto].
    rewrite trim_start_keep by exact H4. rewrite rev_involutive. reflexivity.
Qed.

Lemma effective_spec : forall (x : bool) kw t, effective x kw t <->
  t = remove_chars (if x then excluded_keywords_removed_chars else []) (trim kw).
Proof.
  intros x kw t.
  assert (E : remove_chars (if x then excluded_keywords_removed_chars else []) (trim kw) =
              if x then filter not_dash (trim kw) else trim kw).
  { destruct x; unfold remove_chars.
    - apply filter_ext. intros c. unfold not_dash, excluded_keywords_removed_chars. simpl. rewrite orb_false_r. reflexivity.
    - simpl. clear. induction (trim kw) as [|c l IH]; simpl; congruence. }
  rewrite E. split.
  - intros (u & Hu & ->). apply trims_to_unique in Hu. subst u. reflexivity.
  - intros ->. exists (trim kw). split; [apply trims_to_trim|reflexivity].
Qed.

Definition removed_of (x : bool) : list char := if x then excluded_keywords_removed_chars else [].

(* ---- one keyword ---- *)
Definition bnd (o : option char) : kw_pattern :=
  match o with Some c => if should_push_word_boundary c then [KwBoundary] else [] | None => [] end.
Definition content_pattern (t : str) : kw_pattern := bnd (hd_error t) ++ map KwLit t ++ bnd (hd_error (rev t)).
Definition path_pattern (t : str) : kw_pattern :=
  bnd (hd_error t) ++ map KwLit (map to_ascii_lower (standardize_path_chars t)) ++ bnd (hd_error (rev t)).

Lemma hd_rev_some : forall (c : char) t, exists d, hd_error (rev (c :: t)) = Some d.
Proof.
  intros c t. simpl. destruct (rev t) as [|d u]; simpl; eauto.
Qed.

Lemma boundary_if_some : forall t, t <> [] ->
  boundary_if (first_char t) = Ret (bnd (hd_error t)) /\ boundary_if (last_char t) = Ret (bnd (hd_error (rev t))).
Proof.
  intros [|c t] H; [congruence|]. unfold boundary_if, first_char, last_char.
  destruct (hd_rev_some c t) as (d & Ed). rewrite Ed. split; reflexivity.
Qed.

Lemma compile_keyword_spec : forall L x kw,
  let t := remove_chars (removed_of x) (trim kw) in
  (exists e, compile_keyword L (removed_of x) kw = Ret (Err e) /\ keyword_problem L x kw e) \/
  (compile_keyword L (removed_of x) kw = Ret (Ok (content_pattern t, path_pattern t)) /\ t <> [] /\
   forall e, ~ keyword_problem L x kw e).
Proof.
  intros L x kw t. unfold compile_keyword. destruct (L <? length kw) eqn:E.
  - apply Nat.ltb_lt in E. left. exists (KeywordTooLong L). split; [reflexivity|]. constructor. exact E.
  - apply Nat.ltb_ge in E. cbv zeta. fold t. destruct t as [|c t0] eqn:Et.
    + left. exists EmptyKeyword. split; [reflexivity|]. constructor; [exact E|]. apply effective_spec. symmetry. exact Et.
    + right. split; [|split; [discriminate|]].
      * unfold keyword_content_pattern, keyword_path_pattern.
        destruct (boundary_if_some (c :: t0)) as [-> ->]; [discriminate|]. cbn [bind].
        unfold content_pattern, path_pattern. rewrite map_map. reflexivity.
      * intros e [H|H1 H2]; [lia|]. apply effective_spec in H2. unfold t, removed_of in Et. congruence.
Qed.

Definition patterns_of (x : bool) (kws : list str) : list (kw_pattern * kw_pattern) :=
  map (fun kw => (content_pattern (remove_chars (removed_of x) (trim kw)),
                  path_pattern (remove_chars (removed_of x) (trim kw)))) kws.

Lemma compile_each_spec : forall L x kws,
  (exists e, compile_each L (removed_of x) kws = Ret (Err e) /\ first_problem L x kws e) \/
  (compile_each L (removed_of x) kws = Ret (Ok (patterns_of x kws)) /\ no_problem L x kws).
Proof.
  intros L x. induction kws as [|kw kws IH].
  - right. split; [reflexivity|]. intros k e [].
  - cbn [compile_each]. destruct (compile_keyword_spec L x kw) as [(e & -> & Hp)|(-> & Ht & Hno)]; cbn [bind].
    + left. exists e. split; [reflexivity|]. exists [], kw, kws. split; [reflexivity|]. split; [exact Hp|]. intros k e' [].
    + destruct IH as [(e & -> & (pre & k & post & -> & Hp & Hpre))|(-> & Hall)]; cbn [bind].
      * left. exists e. split; [reflexivity|]. exists (kw :: pre), k, post. split; [reflexivity|]. split; [exact Hp|].
        intros k' e' [<-|Hk]; [apply Hno|apply Hpre; exact Hk].
      * right. split; [reflexivity|]. intros k e [<-|Hk]; [apply Hno|apply Hall; exact Hk].
Qed.

Definition alternations (x : bool) (kws : list str) : option (list kw_pattern * list kw_pattern) :=
  match kws with [] => None | _ => Some (map fst (patterns_of x kws), map snd (patterns_of x kws)) end.

Lemma compile_keywords_spec : forall L x kws,
  (exists e, compile_keywords L (removed_of x) kws = Ret (Err e) /\ first_problem L x kws e) \/
  (compile_keywords L (removed_of x) kws = Ret (Ok (alternations x kws)) /\ no_problem L x kws).
Proof.
  intros L x kws. destruct kws as [|kw kws]; [right; split; [reflexivity|intros k e []]|].
  unfold compile_keywords, alternations. destruct (compile_each_spec L x (kw :: kws)) as [(e & -> & H)|(-> & H)]; cbn [bind]; eauto.
Qed.

Lemma compile_config_spec : forall c,
  (exists e, compile_keywords_proximity_config c = Ret (Err e) /\ config_error c e) \/
  (compile_keywords_proximity_config c = Ret (Ok (alternations false (kc_included c), alternations true (kc_excluded c))) /\
   config_accepted c).
Proof.
  intros c. unfold compile_keywords_proximity_config, max_look_ahead_character_count, max_keyword_count.
  destruct ((kc_look_ahead c =? 0) || (50 <? kc_look_ahead c)) eqn:E1.
  { left. eexists. split; [reflexivity|]. constructor. apply orb_true_iff in E1.
    rewrite Nat.eqb_eq, Nat.ltb_lt in E1. lia. }
  assert (H1 : 1 <= kc_look_ahead c <= 50).
  { apply orb_false_iff in E1. rewrite Nat.eqb_neq, Nat.ltb_ge in E1. lia. }
  destruct ((50 <? length (kc_included c)) || (50 <? length (kc_excluded c))) eqn:E2.
  { left. eexists. split; [reflexivity|]. constructor; [exact H1|]. apply orb_true_iff in E2.
    rewrite !Nat.ltb_lt in E2. lia. }
  assert (H2 : length (kc_included c) <= 50 /\ length (kc_excluded c) <= 50).
  { apply orb_false_iff in E2. rewrite !Nat.ltb_ge in E2. lia. }
  destruct H2 as [H2 H3].
  destruct (compile_keywords_spec (kc_look_ahead c) false (kc_included c)) as [(e & Ei & H)|(Ei & Hi)];
    unfold removed_of in Ei; rewrite Ei; cbn [bind].
  { left. eexists. split; [reflexivity|]. apply ce_included; auto. }
  destruct (compile_keywords_spec (kc_look_ahead c) true (kc_excluded c)) as [(e & Ex & H)|(Ex & Hx)];
    unfold removed_of in Ex; rewrite Ex; cbn [bind].
  { left. eexists. split; [reflexivity|]. apply ce_excluded; auto. }
  right. split; [reflexivity|]. repeat split; auto; lia.
Qed.

Lemma config_error_not_accepted : forall c e, config_error c e -> ~ config_accepted c.
Proof.
  intros c e He (H1 & H2 & H3 & H4 & H5). destruct He as [H|_ H|e _ _ _ (pre & kw & post & E & Hp & _)|e _ _ _ _ (pre & kw & post & E & Hp & _)].
  - lia.
  - lia.
  - apply (H4 kw e); [rewrite E; apply in_or_app; right; left; reflexivity|exact Hp].
  - apply (H5 kw e); [rewrite E; apply in_or_app; right; left; reflexivity|exact Hp].
Qed.

Lemma c28_accepted_configurations_lemma :
  forall c, exists res, compile_keywords_proximity_config c = Ret res /\
  ((exists x, res = Ok x) <-> config_accepted c) /\ forall e, res = Err e -> config_error c e.
Proof.
  intros c. destruct (compile_config_spec c) as [(e & E & H)|(E & H)]; rewrite E; eexists; (split; [reflexivity|]); split.
  - split; [intros (x & Hx); discriminate Hx|]. intros Ha. destruct (config_error_not_accepted _ _ H Ha).
  - intros e' E'. injection E' as <-. exact H.
  - split; [intros _; exact H|eauto].
  - intros e' E'. discriminate E'.
Qed.

(* ---- what the patterns match ---- *)
Section Meaning.
Variable fold : char -> char.

Lemma reads_lits : forall l tail prev t next,
  kw_reads fold (map KwLit l ++ tail) prev t next = true <->
  exists x y, t = x ++ y /\ map fold x = map fold l /\
    kw_reads fold tail (match hd_error (rev x) with Some c => Some c | None => prev end) y next = true.
Proof.
  induction l as [|c l IH]; intros tail prev t next; simpl.
  - split.
    + intros H. exists [], t. auto.
    + intros (x & y & -> & H & Hr). destruct x; [exact Hr|discriminate H].
  - destruct t as [|d t].
    + split; [intros H; discriminate H|]. intros (x & y & E & H & _). destruct x; [discriminate H|discriminate E].
    + rewrite andb_true_iff, N.eqb_eq, IH. split.
      * intros (Hf & x & y & -> & Hm & Hr). exists (d :: x), y. split; [reflexivity|]. split; [simpl; congruence|].
        simpl. destruct (rev x) as [|z u] eqn:E; simpl in *; exact Hr.
      * intros (x & y & E & Hm & Hr). destruct x as [|d' x]; [discriminate Hm|]. simpl in E, Hm.
        injection E as <- ->. injection Hm as Hf Hm. split; [symmetry; exact Hf|]. exists x, y. split; [reflexivity|].
        split; [exact Hm|]. simpl in Hr. destruct (rev x) as [|z u] eqn:E; simpl in *; exact Hr.
Qed.

Lemma should_push_spec : forall c, should_push_word_boundary c = true <-> alphanumeric c.
Proof.
  intros c. unfold should_push_word_boundary, is_ascii_alpha, is_ascii_upper, is_ascii_lower, is_ascii_digit, in_range, alphanumeric.
  rewrite !orb_true_iff, !andb_true_iff, !N.leb_le. tauto.
Qed.

Lemma reads_bnd : forall o tail prev t next,
  kw_reads fold (bnd o ++ tail) prev t next = true <->
  (forall c, o = Some c -> alphanumeric c -> word_char prev <> word_char (hd_error (t ++ match next with Some d => [d] | None => [] end))) /\
  kw_reads fold tail prev t next = true.
Proof.
  intros o tail prev t next. destruct o as [c|]; simpl.
  - destruct (should_push_word_boundary c) eqn:E.
    + simpl. rewrite andb_true_iff.
      assert (Eh : match t with [] => next | c0 :: _ => Some c0 end = hd_error (t ++ match next with Some d => [d] | None => [] end)).
      { destruct t; [destruct next; reflexivity|reflexivity]. }
      rewrite Eh. apply should_push_spec in E. split.
      * intros [H1 H2]. split; [|exact H2]. intros c' Hc _ Heq. rewrite Heq in H1. rewrite xorb_nilpotent in H1. discriminate.
      * intros [H1 H2]. split; [|exact H2]. specialize (H1 c eq_refl E).
        destruct (word_char prev), (word_char _); simpl; congruence.
    + simpl. split; [|tauto]. intros H. split; [|exact H]. intros c' Hc Ha. injection Hc as <-.
      apply should_push_spec in Ha. congruence.
  - split; [|tauto]. intros H. split; [intros c Hc; discriminate Hc|exact H].
Qed.

Lemma hd_after : forall t (after : str), hd_error (t ++ match hd_error after with Some d => [d] | None => [] end) = hd_error (t ++ after).
Proof. intros [|c t] [|d after]; reflexivity. Qed.

Lemma last_of : forall before x : str,
  match hd_error (rev x) with Some c => Some c | None => hd_error (rev before) end = hd_error (rev (before ++ x)).
Proof. intros before x. rewrite rev_app_distr. destruct (rev x); reflexivity. Qed.

(* a pattern with boundaries for [t] and the literals [u] *)
Lemma occurs_pattern : forall t u s a b,
  occurs_as_word fold t u s a b <->
  exists before x after, s = before ++ x ++ after /\ nbytes before = a /\ nbytes (before ++ x) = b /\
    kw_reads fold (bnd (hd_error t) ++ map KwLit u ++ bnd (hd_error (rev t))) (hd_error (rev before)) x (hd_error after) = true.
Proof.
  intros t u s a b. unfold occurs_as_word. split.
  - intros (before & x & after & -> & Ha & Hb & Hm & H1 & H2). exists before, x, after.
    split; [reflexivity|]. split; [exact Ha|]. split; [exact Hb|].
    apply reads_bnd. rewrite hd_after. split; [exact H1|]. apply reads_lits. exists x, []. rewrite app_nil_r.
    split; [reflexivity|]. split; [exact Hm|]. rewrite last_of.
    rewrite <- (app_nil_r (bnd (hd_error (rev t)))). apply reads_bnd.
    split; [|reflexivity]. intros c Hc Hal. specialize (H2 c Hc Hal). simpl. destruct after; exact H2.
  - intros (before & x & after & -> & Ha & Hb & Hr). exists before, x, after.
    split; [reflexivity|]. split; [exact Ha|]. split; [exact Hb|].
    apply reads_bnd in Hr as [H1 Hr]. rewrite hd_after in H1. apply reads_lits in Hr as (x1 & y & -> & Hm & Hr).
    rewrite last_of in Hr. rewrite <- (app_nil_r (bnd (hd_error (rev t)))) in Hr. apply reads_bnd in Hr as [H2 Hr].
    destruct y; [|discriminate Hr]. rewrite !app_nil_r in *. split; [exact Hm|]. split; [exact H1|].
    intros c Hc Hal. specialize (H2 c Hc Hal). simpl in H2. destruct after; exact H2.
Qed.

Lemma kw_occurs_map : forall A (f : A -> kw_pattern) l s a b, kw_occurs fold (map f l) s a b <->
  exists k, In k l /\ exists before x after, s = before ++ x ++ after /\ nbytes before = a /\ nbytes (before ++ x) = b /\
    kw_reads fold (f k) (hd_error (rev before)) x (hd_error after) = true.
Proof.
  intros A f l s a b. split.
  - intros (pat & before & x & after & Hin & H). apply in_map_iff in Hin as (k & <- & Hk). exists k. split; [exact Hk|]. eauto.
  - intros (k & Hk & before & x & after & H). exists (f k), before, x, after. split; [apply in_map; exact Hk|exact H].
Qed.
End Meaning.

Lemma c28_meaning_of_keywords_lemma :
  forall c inc exc, compile_keywords_proximity_config c = Ret (Ok (inc, exc)) ->
  forall fold (x : bool) content paths, (if x then exc else inc) = Some (content, paths) -> forall s a b,
    (kw_occurs fold content s a b <->
     exists kw t, In kw (if x then kc_excluded c else kc_included c) /\ effective x kw t /\ occurs_as_word fold t t s a b) /\
    (kw_occurs fold paths s a b <->
     exists kw t, In kw (if x then kc_excluded c else kc_included c) /\ effective x kw t /\
       occurs_as_word fold t (map to_ascii_lower (standardize_path_chars t)) s a b).
Proof.
  intros c inc exc H fold x content paths Hx s a b.
  destruct (compile_config_spec c) as [(e & E & _)|(E & _)]; rewrite H in E; [discriminate E|].
  injection E as -> ->.
  assert (Hx' : alternations x (if x then kc_excluded c else kc_included c) = Some (content, paths)) by (destruct x; exact Hx).
  clear Hx H. revert Hx'. generalize (if x then kc_excluded c else kc_included c) as kws. intros kws Hx.
  assert (content = map (fun kw => content_pattern (remove_chars (removed_of x) (trim kw))) kws /\
          paths = map (fun kw => path_pattern (remove_chars (removed_of x) (trim kw))) kws) as [-> ->].
  { destruct kws as [|kw kws]; [discriminate Hx|]. unfold alternations in Hx. injection Hx as <- <-.
    unfold patterns_of. split; simpl; f_equal; rewrite map_map; reflexivity. }
  rewrite !kw_occurs_map. split; split.
  - intros (kw & Hin & Hr). exists kw, (remove_chars (removed_of x) (trim kw)). split; [exact Hin|].
    split; [apply effective_spec; reflexivity|]. apply occurs_pattern. exact Hr.
  - intros (kw & t & Hin & Ht & Hr). apply effective_spec in Ht. subst t. exists kw. split; [exact Hin|].
    apply occurs_pattern in Hr. exact Hr.
  - intros (kw & Hin & Hr). exists kw, (remove_chars (removed_of x) (trim kw)). split; [exact Hin|].
    split; [apply effective_spec; reflexivity|]. apply occurs_pattern. exact Hr.
  - intros (kw & t & Hin & Ht & Hr). apply effective_spec in Ht. subst t. exists kw. split; [exact Hin|].
    apply occurs_pattern in Hr. exact Hr.
Qed.

(* ---- standardization ---- *)
Lemma link_spec : forall c, existsb (N.eqb c) link_chars = true <-> separator c.
Proof.
  intros c. rewrite existsb_exists. unfold separator, link_chars. split.
  - intros (x & Hin & E). apply N.eqb_eq in E. subst x. exact Hin.
  - intros H. exists c. split; [exact H|apply N.eqb_refl].
Qed.
Lemma upper_spec : forall c, is_ascii_upper c = true <-> capital c.
Proof. intros c. unfold is_ascii_upper, in_range, capital. rewrite andb_true_iff, !N.leb_le. tauto. Qed.
Lemma capital_not_separator : forall c, capital c -> ~ separator c.
Proof. intros c Hc H. unfold capital in Hc. unfold separator in H. simpl in H. intuition (subst; lia). Qed.

Lemma char_type_spec : forall c, match get_char_type c with
  | Separator => separator c
  | Uppercase => capital c /\ ~ separator c
  | Regular => ~ separator c /\ ~ capital c
  end.
Proof.
  intros c. unfold get_char_type. destruct (existsb (N.eqb c) link_chars) eqn:E1.
  - apply link_spec. exact E1.
  - assert (~ separator c) by (intros H; apply link_spec in H; congruence).
    destruct (is_ascii_upper c) eqn:E2; [apply upper_spec in E2; auto|].
    split; [assumption|]. intros Hc. apply upper_spec in Hc. congruence.
Qed.

Definition pushed (is_last : bool) (prev cur : char) : str :=
  match is_last, get_char_type prev, get_char_type cur with
  | true, _, _ => [cur]
  | _, _, Regular => [cur]
  | _, Separator, _ => [cur]
  | _, Uppercase, Uppercase => [cur]
  | _, Regular, Uppercase => [unified_link_char; cur]
  | _, _, Separator => [unified_link_char]
  end.
Lemma pushed_piece : forall l prev cur, piece l prev cur (pushed l prev cur).
Proof.
  intros l prev cur. unfold piece, pushed, unified_link_char. destruct l; [reflexivity|].
  pose proof (char_type_spec prev) as Hp. pose proof (char_type_spec cur) as Hc.
  pose proof (capital_not_separator cur) as Hx.
  destruct (get_char_type prev), (get_char_type cur); split; try split; intros; try reflexivity; exfalso; tauto.
Qed.

Lemma standardize_pieces : forall L rest i prev, exists pieces,
  standardize_loop L i prev rest = concat pieces /\ length pieces = length rest /\
  forall j p c x, nth_error (prev :: rest) j = Some p -> nth_error rest j = Some c -> nth_error pieces j = Some x ->
    x = pushed (i + j =? L - 2) p c.
Proof.
  intros L. induction rest as [|c rest IH]; intros i prev.
  - exists []. split; [reflexivity|]. split; [reflexivity|]. intros [|j] p c x _ H; discriminate H.
  - destruct (IH (S i) c) as (ps & E & Hl & Hn). exists (pushed (i =? L - 2) prev c :: ps). split; [|split].
    + cbn [standardize_loop concat]. rewrite E. reflexivity.
    + simpl. congruence.
    + intros [|j] p d x H1 H2 H3.
      * injection H1 as <-. injection H2 as <-. injection H3 as <-. rewrite Nat.add_0_r. reflexivity.
      * replace (i + S j) with (S i + j) by lia. eapply Hn; [exact H1|exact H2|exact H3].
Qed.

Lemma standardize_spec : forall s, standardized s (standardize_path_chars s).
Proof.
  intros [|c rest]; [reflexivity|]. unfold standardized, standardize_path_chars.
  destruct (standardize_pieces (blen (c :: rest)) rest 0 c) as (ps & E & Hl & Hn).
  exists ps. split; [rewrite E; reflexivity|]. split; [exact Hl|].
  intros j prev cur x H1 H2 H3.
  assert (Hx : x = pushed (0 + j =? blen (c :: rest) - 2) prev cur) by (eapply Hn; [exact H1|exact H2|exact H3]).
  replace (S j =? nbytes (c :: rest) - 1) with (0 + j =? blen (c :: rest) - 2); [subst x; apply pushed_piece|].
  rewrite nbytes_blen. destruct rest as [|c2 rest]; [destruct j; discriminate H2|].
  assert (2 <= blen (c :: c2 :: rest)) as Hb by (pose proof (clen_pos c); pose proof (clen_pos c2); simpl; lia).
  revert Hb. generalize (blen (c :: c2 :: rest)) as n. intros n Hb. apply eq_true_iff_eq. rewrite !Nat.eqb_eq. lia.
Qed.

Lemma c29_standardization_lemma :
  forall s, standardized s (standardize_path_chars s).
Proof.
  exact standardize_spec.
Qed.

Lemma standardize_id : forall L rest i prev,
  (forall c, In c (prev :: rest) -> get_char_type c = Regular) \/ (forall c, In c (prev :: rest) -> get_char_type c = Uppercase) ->
  standardize_loop L i prev rest = rest.
Proof.
  intros L. induction rest as [|c rest IH]; intros i prev H; [reflexivity|]. cbn [standardize_loop].
  assert (Hx : forall P : char -> Prop, (forall d, In d (prev :: c :: rest) -> P d) -> P prev /\ P c /\ forall d, In d (c :: rest) -> P d).
  { intros P HP. split; [apply HP; left; reflexivity|]. split; [apply HP; right; left; reflexivity|]. intros d Hd. apply HP. right. exact Hd. }
  rewrite IH; [|destruct H as [H|H]; apply Hx in H as (_ & _ & H); auto].
  destruct H as [H|H]; apply Hx in H as (-> & -> & _); destruct (i =? L - 2); reflexivity.
Qed.

Lemma bypass_false_lower : forall s au, bypass_loop s false au <> BypassLower.
Proof.
  induction s as [|c s IH]; intros au; cbn [bypass_loop]; [discriminate|].
  destruct (is_ascii_lower c), (is_ascii_upper c), au; cbn [negb andb]; solve [discriminate|apply IH].
Qed.
Lemma bypass_is_lower : forall s au, bypass_loop s true au = BypassLower -> forall c, In c s -> is_ascii_lower c = true.
Proof.
  induction s as [|c s IH]; intros au H d Hd; [destruct Hd|]. cbn [bypass_loop] in H.
  destruct (is_ascii_lower c) eqn:El.
  - destruct Hd as [<-|Hd]; [exact El|]. destruct (is_ascii_upper c), au; exact (IH _ H d Hd).
  - destruct (is_ascii_upper c), au; try discriminate H; destruct (bypass_false_lower _ _ H).
Qed.
Lemma bypass_true_false : forall s al, bypass_loop s al false <> BypassUpper \/ al = false.
Proof.
  induction s as [|c s IH]; intros al; cbn [bypass_loop]; destruct al; auto; left; [discriminate|].
  destruct (is_ascii_lower c), (is_ascii_upper c); cbn [negb andb]; try discriminate;
    destruct (IH true) as [H|H]; solve [exact H|discriminate H].
Qed.
Lemma bypass_is_upper : forall s al, bypass_loop s al true = BypassUpper -> forall c, In c s -> is_ascii_upper c = true.
Proof.
  induction s as [|c s IH]; intros al H d Hd; [destruct Hd|]. cbn [bypass_loop] in H.
  destruct (is_ascii_upper c) eqn:Eu.
  - destruct Hd as [<-|Hd]; [exact Eu|]. destruct (is_ascii_lower c), al; exact (IH _ H d Hd).
  - destruct (is_ascii_lower c), al; try discriminate H.
    destruct (bypass_true_false s true) as [K|K]; [destruct (K H)|discriminate K].
Qed.

Lemma lower_regular : forall c, is_ascii_lower c = true -> get_char_type c = Regular.
Proof.
  intros c H. unfold is_ascii_lower, in_range in H. apply andb_prop in H. rewrite !N.leb_le in H.
  pose proof (char_type_spec c) as Hc. unfold separator, capital in Hc. simpl in Hc.
  destruct (get_char_type c); [reflexivity|lia|]. intuition (subst; lia).
Qed.
Lemma upper_uppercase : forall c, is_ascii_upper c = true -> get_char_type c = Uppercase.
Proof.
  intros c H. apply upper_spec in H. pose proof (char_type_spec c) as Hc. pose proof (capital_not_separator c H).
  destruct (get_char_type c); tauto.
Qed.
Lemma lower_id : forall s, (forall c, In c s -> is_ascii_lower c = true) -> map to_ascii_lower s = s.
Proof.
  intros s H. rewrite <- (map_id s) at 2. apply map_ext_in. intros c Hc. specialize (H c Hc).
  unfold to_ascii_lower. destruct (is_ascii_upper c) eqn:E; [|reflexivity].
  unfold is_ascii_lower, is_ascii_upper, in_range in *. apply andb_prop in H, E. rewrite !N.leb_le in *. lia.
Qed.

Lemma standardize_same : forall s, (forall c, In c s -> get_char_type c = Regular) \/ (forall c, In c s -> get_char_type c = Uppercase) ->
  standardize_path_chars s = s.
Proof. intros [|c s] H; [reflexivity|]. simpl. f_equal. apply standardize_id. exact H. Qed.

Lemma sanitize_field_spec : forall f, sanitize_field f = map to_ascii_lower (standardize_path_chars f).
Proof.
  intros f. unfold sanitize_field, should_bypass_standardize_path. destruct (bypass_loop f true true) eqn:E; [| |reflexivity].
  - rewrite standardize_same; [reflexivity|]. left. intros c Hc. apply lower_regular. eapply bypass_is_lower; eauto.
  - rewrite standardize_same; [reflexivity|]. right. intros c Hc. apply upper_uppercase. eapply bypass_is_upper; eauto.
Qed.

Lemma c29_bypass_changes_nothing_lemma :
  forall f, sanitize_field f = map to_ascii_lower (standardize_path_chars f) /\
  sanitize_segment (Field f) = Some (map to_ascii_lower (standardize_path_chars f)).
Proof.
  intros f. split; [apply sanitize_field_spec|]. unfold sanitize_segment, should_bypass_standardize_path.
  destruct (bypass_loop f true true) eqn:E; f_equal.
  - rewrite standardize_same; [|left; intros c Hc; apply lower_regular; eapply bypass_is_lower; eauto].
    symmetry. apply lower_id. eapply bypass_is_lower; eauto.
  - rewrite standardize_same; [reflexivity|]. right. intros c Hc. apply upper_uppercase. eapply bypass_is_upper; eauto.
Qed.

Lemma sanitize_rest : forall p i, sanitize_at (S i) p = concat (map (fun f => 46%N :: map to_ascii_lower (standardize_path_chars f)) (fields p)).
Proof.
  induction p as [|s p IH]; intros i; [reflexivity|]. destruct s as [f|n]; cbn [sanitize_at].
  - rewrite IH. change (fields (Field f :: p)) with (f :: fields p). cbn [map concat]. rewrite sanitize_field_spec. reflexivity.
  - exact (IH (S i)).
Qed.
Lemma join_dots : forall l x, x ++ concat (map (fun f => 46%N :: f) l) = join [46%N] (x :: l).
Proof.
  induction l as [|y l IH]; intros x; [apply app_nil_r|]. cbn [map concat join]. f_equal.
  simpl. f_equal. exact (IH y).
Qed.

Lemma c31_sanitized_path_lemma :
  forall p, (forall i rest, p <> Index i :: rest) ->
  sanitize p = join [46%N] (map (fun f => map to_ascii_lower (standardize_path_chars f)) (fields p)).
Proof.
  intros [|[f|i] p] H; [reflexivity| |destruct (H i p eq_refl)].
  unfold sanitize. cbn [sanitize_at]. rewrite sanitize_rest, sanitize_field_spec.
  change (fields (Field f :: p)) with (f :: fields p). cbn [map]. rewrite <- join_dots, map_map. reflexivity.
Qed.

Lemma c31_leading_index_refuted_lemma :
  (forall i p, sanitize (Index i :: p) =
   concat (map (fun f => 46%N :: map to_ascii_lower (standardize_path_chars f)) (fields p))) /\
sanitize [Index 0; Field (text "foo")] = text ".foo".
Proof.
  split; [|reflexivity]. intros i p. unfold sanitize. cbn [sanitize_at]. apply sanitize_rest.
Qed.

(* the first and last characters of a standardized text *)
Lemma standardize_hd : forall c t, exists u, standardize_path_chars (c :: t) = c :: u.
Proof. intros. simpl. eauto. Qed.
Lemma pushed_last : forall l p c, alphanumeric c -> exists u, pushed l p c = u ++ [c].
Proof.
  intros l p c Hc. unfold pushed. pose proof (char_type_spec c) as Ht.
  assert (Hns : ~ separator c).
  { unfold alphanumeric in Hc. unfold separator. simpl. intuition (subst; lia). }
  destruct l, (get_char_type p), (get_char_type c); try tauto; try (exists []; reflexivity); exists [unified_link_char]; reflexivity.
Qed.
Lemma standardize_loop_last : forall L rest i prev c, alphanumeric c ->
  exists u, standardize_loop L i prev (rest ++ [c]) = u ++ [c].
Proof.
  intros L. induction rest as [|d rest IH]; intros i prev c Hc; cbn [app standardize_loop].
  - destruct (pushed_last (i =? L - 2) prev c Hc) as (u & Hu). exists u. rewrite app_nil_r. exact Hu.
  - destruct (IH (S i) d c Hc) as (u & ->). eexists. rewrite app_assoc. reflexivity.
Qed.
Lemma standardize_last : forall t c, hd_error (rev t) = Some c -> alphanumeric c ->
  exists u, standardize_path_chars t = u ++ [c].
Proof.
  intros t c H Hc. destruct (rev t) as [|x r] eqn:E; [discriminate H|]. injection H as ->.
  assert (t = rev r ++ [c]) as -> by (rewrite <- (rev_involutive t), E; reflexivity).
  destruct (rev r) as [|d u]; simpl.
  - exists []. reflexivity.
  - destruct (standardize_loop_last (clen d + blen (u ++ [c])) u 0 d c Hc) as (v & ->). exists (d :: v). reflexivity.
Qed.
Lemma lower_word : forall c, alphanumeric c -> word_char (Some (to_ascii_lower c)) = true.
Proof.
  intros c H. unfold alphanumeric in H. unfold word_char, to_ascii_lower, is_ascii_upper, in_range.
  destruct ((65 <=? c)%N && (c <=? 90)%N) eqn:E.
  - apply andb_prop in E. rewrite !N.leb_le in E. rewrite !orb_true_iff, !andb_true_iff, !N.leb_le, N.eqb_eq. lia.
  - rewrite !orb_true_iff, !andb_true_iff, !N.leb_le, N.eqb_eq. apply andb_false_iff in E. rewrite !N.leb_gt in E. lia.
Qed.

Lemma fields_app : forall p q, fields (p ++ q) = fields p ++ fields q.
Proof. intros. unfold fields. apply flat_map_app. Qed.

(* around a field of a sanitized path there is nothing or a dot *)
Lemma sanitize_around : forall pre f post, exists l r,
  sanitize (pre ++ Field f :: post) = l ++ map to_ascii_lower (standardize_path_chars f) ++ r /\
  word_char (hd_error (rev l)) = false /\ word_char (hd_error r) = false.
Proof.
  intros pre f post.
  assert (Hr : forall ps : list str, word_char (hd_error (concat (map (fun f => 46%N :: map to_ascii_lower (standardize_path_chars f)) ps))) = false).
  { intros [|x ps]; reflexivity. }
  unfold sanitize. destruct pre as [|s pre].
  - cbn [app sanitize_at]. rewrite sanitize_rest, sanitize_field_spec. exists [], (concat (map (fun f => 46%N :: map to_ascii_lower (standardize_path_chars f)) (fields post))).
    split; [reflexivity|]. split; [reflexivity|apply Hr].
  - assert (E : exists l0, sanitize_at 0 ((s :: pre) ++ Field f :: post) = l0 ++ sanitize_at 1 (pre ++ Field f :: post)).
    { cbn [app sanitize_at]. destruct s as [g|n]; [exists (sanitize_field g)|exists []]; reflexivity. }
    destruct E as (l0 & ->). rewrite sanitize_rest, fields_app, map_app, concat_app.
    change (fields (Field f :: post)) with (f :: fields post). cbn [map concat].
    exists (l0 ++ concat (map (fun f0 => 46%N :: map to_ascii_lower (standardize_path_chars f0)) (fields pre)) ++ [46%N]),
           (concat (map (fun f0 => 46%N :: map to_ascii_lower (standardize_path_chars f0)) (fields post))).
    split; [rewrite <- !app_assoc; reflexivity|]. split; [|apply Hr].
    rewrite app_assoc, rev_app_distr. reflexivity.
Qed.

Lemma c30_field_named_like_keyword_lemma :
  forall c content paths exc, compile_keywords_proximity_config c = Ret (Ok (Some (content, paths), exc)) ->
  forall kw name pre post fold, In kw (kc_included c) -> trims_to kw name ->
  exists a b, kw_occurs fold paths (sanitize (pre ++ Field name :: post)) a b.
Proof.
  intros c content paths exc H kw name pre post fold Hin Ht.
  destruct (c28_meaning_of_keywords_lemma c _ exc H fold false content paths eq_refl
              (sanitize (pre ++ Field name :: post)) 0 0) as [_ _].
  destruct (sanitize_around pre name post) as (l & r & E & Hl & Hr).
  set (u := map to_ascii_lower (standardize_path_chars name)) in *.
  exists (nbytes l), (nbytes (l ++ u)).
  apply (c28_meaning_of_keywords_lemma c _ exc H fold false content paths eq_refl).
  exists kw, name. split; [exact Hin|]. split; [exists name; split; [exact Ht|reflexivity]|].
  fold u. exists l, u, r. split; [exact E|]. split; [reflexivity|]. split; [reflexivity|]. split; [reflexivity|]. split.
  - intros c0 Hc Ha. rewrite Hl. destruct name as [|d t]; [discriminate Hc|]. injection Hc as ->.
    unfold u. destruct (standardize_hd c0 t) as (v & ->). simpl map. simpl app. cbn [hd_error]. rewrite lower_word by exact Ha. discriminate.
  - intros c0 Hc Ha. rewrite Hr. destruct (standardize_last _ _ Hc Ha) as (v & Ev).
    unfold u. rewrite Ev, map_app, rev_app_distr. cbn [map]. rewrite rev_app_distr. cbn [rev app hd_error].
    rewrite lower_word by exact Ha. discriminate.
Qed.

Lemma c30_untrimmed_name_refuted_lemma :
  let c := {| kc_look_ahead := 10; kc_included := [text "aB "]; kc_excluded := [] |} in
exists content paths, compile_keywords_proximity_config c = Ret (Ok (Some (content, paths), None)) /\
  sanitize [Field (text "aB ")] = text "a.b " /\
  forall a b, ~ kw_occurs (fun c => c) paths (sanitize [Field (text "aB ")]) a b.
Proof.
  eexists _, _. split; [vm_compute; reflexivity|]. split; [reflexivity|]. intros a b H.
  apply kw_occb_spec in H.
  assert (Hall : forall n m, kw_occb (fun c => c) [[KwBoundary; KwLit 97%N; KwLit 98%N; KwBoundary]] (text "a.b ") n m = true -> n <= 4 /\ m <= 4).
  { intros n m Hn. apply kw_occb_spec in Hn. destruct Hn as (pat & before & t & after & _ & E & <- & <- & _).
    assert (nbytes (text "a.b ") = nbytes before + nbytes t + nbytes after) as Hs by (rewrite E, !nbytes_app; lia).
    change (nbytes (text "a.b ")) with 4 in Hs. rewrite nbytes_app. lia. }
  change (sanitize [Field (text "aB ")]) with (text "a.b ") in H.
  destruct (Hall a b H) as [Ha Hb].
  do 5 (destruct a as [|a]; [do 5 (destruct b as [|b]; [vm_compute in H; discriminate H|]); lia|]). lia.
Qed.

