(* From the texts of patterns and keywords to the result (C79): proofs of the statements of Thm/AsWritten.v *)
From Coq Require Import Lia.
From Verif Require Import Proofs.Text Proofs.ConversionClaims Proofs.KeywordTextClaims Proofs.KeywordsClaims Proofs.Search Proofs.RedactionClaims.
From Verif Require Export Proofs.EndToEndClaims Spec.AsWritten.

(* -- offsets -- *)
Lemma off_app : forall u v, off (u ++ v) (length u) = nbytes u.
Proof. intros u v. unfold off. rewrite firstn_app, Nat.sub_diag, firstn_all, firstn_O, app_nil_r. reflexivity. Qed.
Lemma off_boundary : forall s i, Text.boundary s (off s i).
Proof. intros s i. exists (firstn i s), (skipn i s). split; [symmetry; apply firstn_skipn|reflexivity]. Qed.
Lemma boundary_off : forall s x, Text.boundary s x -> exists i, i <= length s /\ x = off s i.
Proof. intros s x (u & v & -> & <-). exists (length u). split; [rewrite app_length; lia|]. symmetry. apply off_app. Qed.
Lemma off_lt : forall s i j, i < j <= length s -> off s i < off s j.
Proof.
  intros s i j H. unfold off. rewrite !nbytes_blen. rewrite <- (firstn_skipn i (firstn j s)), blen_app, firstn_firstn. rewrite Nat.min_l by lia.
  destruct (skipn i (firstn j s)) as [|c l] eqn:E.
  - assert (L : length (skipn i (firstn j s)) = 0) by (rewrite E; reflexivity). rewrite skipn_length, firstn_length in L. lia.
  - cbn [blen]. pose proof (clen_pos c). lia.
Qed.
Lemma off_inj : forall s i j, i <= length s -> j <= length s -> off s i = off s j -> i = j.
Proof.
  intros s i j Hi Hj E. destruct (Nat.lt_trichotomy i j) as [L|[L|L]]; [|exact L|].
  - pose proof (off_lt s i j (conj L Hj)). lia.
  - pose proof (off_lt s j i (conj L Hi)). lia.
Qed.
Lemma off_le : forall s i j, i <= length s -> j <= length s -> off s i <= off s j -> i <= j.
Proof. intros s i j Hi Hj E. destruct (Nat.le_gt_cases i j) as [L|L]; [exact L|]. pose proof (off_lt s j i (conj L Hi)). lia. Qed.

(* -- the match that a search finds at an offset -- *)
Definition at_of (re : compiled) (s : str) (x : nat) : option nat :=
  if is_char_boundary s x then
    match re s x with Some (a, b) => if a =? x then Some b else None | None => None end
  else None.
Lemma at_some : forall M re s x y, searches M re -> at_of re s x = Some y ->
  exists i j, i <= j <= length s /\ x = off s i /\ y = off s j /\ matched (M s) i j /\ forall j', preferred (M s) i j' -> j' = j.
Proof.
  intros M re s x y S H. unfold at_of in H. destruct (is_char_boundary s x) eqn:B; [|discriminate H].
  apply is_char_boundary_spec, boundary_off in B as (k & K & ->). destruct (re s (off s k)) as [[a b]|] eqn:R; [|discriminate H].
  destruct (Nat.eqb_spec a (off s k)) as [->|]; [|discriminate H]. injection H as ->.
  destruct (sr_some _ _ S s k _ _ K R) as (i & j & H1 & H2 & H3 & H4 & H5 & H6 & _). exists i, j.
  split; [exact H2|]. split; [exact H3|]. split; [exact H4|]. auto.
Qed.
Lemma at_any : forall M re s i j, searches M re -> i <= length s -> matched (M s) i j -> exists y, at_of re s (off s i) = Some y.
Proof.
  intros M re s i j S L H. unfold at_of. rewrite (proj2 (is_char_boundary_spec s (off s i)) (off_boundary s i)).
  destruct (re s (off s i)) as [[a b]|] eqn:R.
  - destruct (sr_some _ _ S s i a b L R) as (i' & j' & H1 & H2 & -> & _ & _ & _ & H7 & _). destruct (Nat.eq_dec i i') as [<-|N].
    + rewrite Nat.eqb_refl. eauto.
    + exfalso. apply (H7 i j); [lia|exact H].
  - exfalso. apply (sr_none _ _ S s i L R i j); [lia|exact H].
Qed.
Lemma at_leftmost : forall M re, searches M re -> (forall s i, i <= length s -> ~ matched (M s) i i) -> leftmost re (at_of re).
Proof.
  intros M re S N. assert (P : forall s x, at_of re s x <> None -> exists i j, i <= length s /\ x = off s i /\ matched (M s) i j).
  { intros s x H. destruct (at_of re s x) as [y|] eqn:A; [|congruence].
    destruct (at_some M re s x y S A) as (i & j & H1 & H2 & _ & H4 & _). exists i, j. split; [lia|auto]. }
  constructor.
  - intros s a b H. destruct (at_some M re s a b S H) as (i & j & H1 & -> & -> & H4 & _). split; [|split; apply off_boundary].
    assert (i <> j) by (intros <-; apply (N s i); [lia|exact H4]). apply off_lt. lia.
  - intros s x a b B H. apply boundary_off in B as (k & K & ->). destruct (sr_some _ _ S s k a b K H) as (i & j & H1 & H2 & -> & -> & H5 & _ & H7 & H8).
    split; [|split].
    + destruct (Nat.eq_dec k i) as [->|]; [lia|]. assert (off s k < off s i) by (apply off_lt; lia). lia.
    + unfold at_of. rewrite (proj2 (is_char_boundary_spec s (off s i)) (off_boundary s i)), H8, Nat.eqb_refl. reflexivity.
    + intros z Hz. destruct (at_of re s z) eqn:A; [|reflexivity]. exfalso. destruct (P s z) as (i' & j' & L & -> & M'); [congruence|].
      apply (H7 i' j'); [|exact M']. assert (k <= i') by (apply (off_le s); lia). split; [assumption|].
      destruct (Nat.le_gt_cases i i') as [Q|Q]; [|exact Q]. exfalso. destruct (Nat.eq_dec i i') as [->|]; [lia|].
      assert (off s i < off s i') by (apply off_lt; lia). lia.
  - intros s x B H z Hz. apply boundary_off in B as (k & K & ->). destruct (at_of re s z) eqn:A; [|reflexivity]. exfalso.
    destruct (P s z) as (i' & j' & L & -> & M'); [congruence|]. apply (sr_none _ _ S s k K H i' j'); [|exact M']. split; [apply (off_le s); lia|exact L].
Qed.

(* -- the regex of a rule means the pattern -- *)
Lemma written_unique : forall E c s a, parse_regex_pattern 51 (cf_pattern c) = Ret (Ok a) -> same_meaning (means E (end_with s) s mode0 a) (as_written E c s).
Proof.
  intros E c s a P i t j. split; [intros H; exists a; auto|]. intros (a' & P' & H). rewrite P in P'. injection P' as <-. exact H.
Qed.
Lemma searches_same : forall M N re, (forall s, same_meaning (M s) (N s)) -> searches M re -> searches N re.
Proof.
  intros M N re H [A B].
  assert (Hm : forall s i j, matched (M s) i j <-> matched (N s) i j) by (intros s i j; split; intros [t T]; exists t; apply H; exact T).
  assert (Hp : forall s i j, preferred (N s) i j -> preferred (M s) i j).
  { intros s i j (t & T & U). exists t. split; [apply H; exact T|]. intros u k K. apply (U u k). apply H. exact K. }
  constructor.
  - intros s k x y L F. destruct (A s k x y L F) as (i & j & H1 & H2 & H3 & H4 & H5 & H6 & H7 & H8). exists i, j.
    split; [exact H1|]. split; [exact H2|]. split; [exact H3|]. split; [exact H4|]. split; [apply Hm; exact H5|].
    split; [intros j' P; apply H6, Hp, P|]. split; [|exact H8]. intros i' j' L' K. apply (H7 i' j' L'). apply Hm. exact K.
  - intros s k L F i j L' K. apply (B s k L F i j L'). apply Hm. exact K.
Qed.
Lemma rule_searches : forall E en c re, crate_ok E en -> plain_env E -> good_pattern E c -> pattern_regex en (cf_pattern c) re ->
  searches (as_written E c) re.
Proof.
  intros E en c re CK PE ((a & P & F & N) & _) (p & C & B). destruct (ck_rule _ _ CK _ _ _ _ C B) as (r & R & S).
  destruct (c57_faithful_lemma _ a p P C F N) as (r' & R' & M). rewrite R in R'. injection R' as <-.
  eapply searches_same; [|exact S]. intros s i t j. rewrite (M E s PE i t j). apply (written_unique E c s a P).
Qed.

(* -- keywords -- *)
Lemma text_found_occurs : forall E fold l s x y, (forall c d, same_letter E c d <-> fold c = fold d) -> l <> [] ->
  text_found E l s x y <-> kw_occurs fold l s x y.
Proof.
  intros E fold l s x y HE N. rewrite (keywords_match E fold HE l s x y). split.
  - intros (r & i & j & R & L & -> & -> & M). rewrite (keywords_read l N) in R. injection R as <-. exists i, j. auto.
  - intros (i & j & L & <- & <- & M). exists (read_as l), i, j. split; [apply keywords_read; exact N|]. auto.
Qed.
Lemma compiled_nonempty : forall k r, compile_keywords_proximity_config k = Ret (Ok r) ->
  (forall inc pinc, fst r = Some (inc, pinc) -> inc <> [] /\ pinc <> []) /\ (forall exc pexc, snd r = Some (exc, pexc) -> exc <> [] /\ pexc <> []).
Proof.
  intros k r H. destruct (compile_config_spec k) as [(e & E & _)|(E & _)]; rewrite H in E; [discriminate E|]. injection E as ->. cbn [fst snd].
  split; intros a b; unfold alternations; [destruct (kc_included k) as [|z l]|destruct (kc_excluded k) as [|z l]]; try discriminate;
    intros K; injection K as <- <-; split; discriminate.
Qed.
Lemma keyword_nonempty : forall k inc pinc exc fold s x y, compile_keywords_proximity_config k = Ret (Ok (Some (inc, pinc), exc)) ->
  kw_occurs fold inc s x y -> x < y.
Proof.
  intros k inc pinc exc fold s x y H O.
  apply (c28_meaning_of_keywords_lemma k (Some (inc, pinc)) exc H fold false inc pinc eq_refl) in O as (kw & t & I & Ef & before & u & after & -> & <- & <- & Q & _).
  assert (t <> []).
  { intros ->. destruct (compile_config_spec k) as [(e & E & _)|(E & A)]; rewrite H in E; [discriminate E|].
    destruct A as (_ & _ & _ & A & _). destruct (Nat.le_gt_cases (length kw) (kc_look_ahead k)) as [L|L].
    - refine (A kw _ I _). apply kp_empty; [exact L|exact Ef].
    - refine (A kw _ I _). apply kp_long. lia. }
  rewrite !nbytes_blen, blen_app. destruct u as [|c u]; [destruct t; [congruence|discriminate Q]|]. cbn [blen]. pose proof (clen_pos c). lia.
Qed.

(* -- the hypotheses of C69 -- *)
Definition regex_of (en : engines) (c : rule_config) : compiled :=
  match convert_to_rust_regex 51 (cf_pattern c) with
  | Ret (Ok p) => match en_build en p 1000000 with Ok re => re | Err _ => fun _ _ => None end
  | _ => fun _ _ => None
  end.
Definition rule_at (en : engines) (b : builder) (i : nat) : str -> nat -> option nat :=
  match nth_error (bu_rules b) i with Some c => at_of (regex_of en c) | None => fun _ _ => None end.
Lemma regex_of_spec : forall en c re, pattern_regex en (cf_pattern c) re -> regex_of en c = re.
Proof. intros en c re (p & P & B). unfold regex_of. rewrite P, B. reflexivity. Qed.
Lemma built_regex : forall en b t i c, build en b = Ret (Ok t) -> nth_error (bu_rules b) i = Some c -> pattern_regex en (cf_pattern c) (regex_of en c).
Proof.
  intros en b t i c H Hc. destruct (built_spec en b t H) as (_ & vs & xs & _ & L & X & _). destruct (X i c Hc) as (rr & _ & _ & CF).
  pose proof (cp_regex _ _ _ _ CF) as R. rewrite (regex_of_spec _ _ _ R). exact R.
Qed.
Lemma crate_behaves : forall E fold en b t, build en b = Ret (Ok t) -> crate_ok E en -> plain_env E ->
  (forall c d, same_letter E c d <-> fold c = fold d) -> (forall c, In c (bu_rules b) -> good_pattern E c) ->
  behaves en fold b (rule_at en b).
Proof.
  intros E fold en b t H CK PE HE HG. constructor.
  - intros i c Hc. exists (regex_of en c). pose proof (built_regex _ _ _ _ _ H Hc) as R. split; [exact R|]. unfold rule_at. rewrite Hc.
    pose proof (HG c (nth_error_In _ _ Hc)) as G. eapply at_leftmost; [eapply rule_searches; eauto|]. exact (proj2 G).
  - intros c k inc pinc exc _ K1 K2. destruct (compiled_nonempty k _ K2) as [N _]. destruct (N inc pinc eq_refl) as [N1 _].
    pose proof (fun s x y => text_found_occurs E fold inc s x y HE N1) as Q. pose proof (ck_content _ _ CK k inc pinc exc K2) as C. constructor.
    + intros s a z O. split; [eapply keyword_nonempty; eauto|]. destruct O as (pat & before & u & after & _ & -> & <- & <- & _).
      split; [exists before, (u ++ after); auto|exists (before ++ u), after; rewrite <- app_assoc; auto].
    + intros s i a z B F. specialize (C s i B). rewrite F in C. destruct C as (C1 & C2 & C3). split; [exact C1|]. split; [apply Q; exact C2|].
      intros a' z' O L. apply (C3 a' z'); [apply Q; exact O|exact L].
    + intros s i B F a z O. specialize (C s i B). rewrite F in C. apply (C a z). apply Q. exact O.
  - intros c k inc pinc exc _ K1 K2 s. destruct (compiled_nonempty k _ K2) as [N _]. destruct (N inc pinc eq_refl) as [_ N1].
    rewrite (ck_path _ _ CK k inc pinc exc K2 s). split; intros (x & y & O); exists x, y; apply (text_found_occurs E fold pinc s x y HE N1); exact O.
  - intros c k inc exc pexc _ K1 K2 s x y. destruct (compiled_nonempty k _ K2) as [_ N]. destruct (N exc pexc eq_refl) as [N1 _].
    rewrite (ck_span _ _ CK k inc exc pexc K2 s x y). split; intros (u & v & L1 & L2 & O); exists u, v; (split; [exact L1|]); (split; [exact L2|]);
      apply (text_found_occurs E fold exc s u v HE N1); exact O.
Qed.
Lemma written_windows : forall E en b t strs, build en b = Ret (Ok t) -> crate_ok E en -> plain_env E ->
  (forall c, In c (bu_rules b) -> good_pattern E c) -> windows_as_written E b strs -> windows_fine b (rule_at en b) strs.
Proof.
  intros E en b t strs H CK PE HG W i c k Hc K1 K2 K3 p s x y Hp A. unfold rule_at in A. rewrite Hc in A.
  pose proof (rule_searches E en c _ CK PE (HG c (nth_error_In _ _ Hc)) (built_regex _ _ _ _ _ H Hc)) as S.
  destruct (at_some _ _ _ _ _ S A) as (u & v & L & -> & _ & M & _). eapply (W c k); eauto using nth_error_In. lia.
Qed.
(* what C69 justifies is accounted for *)
Lemma justified_accounted : forall E en fold b t i c p s x y text, build en b = Ret (Ok t) -> crate_ok E en -> plain_env E ->
  good_pattern E c -> nth_error (bu_rules b) i = Some c -> justified en fold b c (rule_at en b i) p s x y text ->
  exists u v, u <= v <= length s /\ x = off s u /\ y = off s v /\ accounted E en fold b c p s u v text /\
    forall j, preferred (as_written E c s) u j -> j = v.
Proof.
  intros E en fold b t i c p s x y text H CK PE HG Hc J.
  pose proof (rule_searches E en c _ CK PE HG (built_regex _ _ _ _ _ H Hc)) as S.
  pose proof (jf_regex _ _ _ _ _ _ _ _ _ _ J) as A. unfold rule_at in A. rewrite Hc in A.
  destruct (at_some _ _ _ _ _ S A) as (u & v & L & -> & -> & M & Pr). exists u, v. split; [exact L|]. split; [reflexivity|]. split; [reflexivity|].
  split; [|exact Pr]. destruct J as [J1 J2 J3 J4 J5 J6]. constructor; auto. destruct J1 as (before & after & Es & E1 & E2). exists before, after. split; [exact Es|].
  assert (U : length before = u).
  { apply (off_inj s); [rewrite Es, app_length; lia|lia|]. rewrite Es at 1. rewrite off_app. exact E1. }
  split; [exact U|]. assert (V : length (before ++ text) = v); [|rewrite app_length in V; lia].
  apply (off_inj s); [rewrite Es, !app_length; lia|lia|]. rewrite Es at 1. rewrite app_assoc, off_app. exact E2.
Qed.
(* and a match that is accounted for is justified, if the rule finds just this one *)
Lemma accounted_justified : forall E en fold b t i c p s u v text, build en b = Ret (Ok t) -> crate_ok E en -> plain_env E ->
  good_pattern E c -> nth_error (bu_rules b) i = Some c -> accounted E en fold b c p s u v text ->
  cf_validator c = None \/ preferred (as_written E c s) u v ->
  exists y text', justified en fold b c (rule_at en b i) p s (off s u) y text'.
Proof.
  intros E en fold b t i c p s u v text H CK PE HG Hc [A1 A2 A3 A4 A5 A6] O.
  pose proof (rule_searches E en c _ CK PE HG (built_regex _ _ _ _ _ H Hc)) as S.
  destruct A1 as (before & after & Es & E1 & E2).
  assert (L : u <= length s) by (rewrite Es, app_length; lia).
  destruct (at_any _ _ s u v S L A2) as (y & A). exists y.
  destruct (at_some _ _ _ _ _ S A) as (u' & v' & L' & Eu & -> & M & Pr). apply (off_inj s) in Eu; [|lia|lia]. subst u'.
  assert (exists text', part_at s (off s u) (off s v') text') as (text' & P).
  { apply part_of_boundaries; [apply off_boundary|apply off_boundary|]. destruct (Nat.eq_dec u v') as [->|]; [lia|]. pose proof (off_lt s u v'). lia. }
  exists text'. constructor; auto.
  - unfold rule_at. rewrite Hc. exact A.
  - intros w W. destruct O as [O|O]; [congruence|]. apply Pr in O. subst v'. rewrite (part_at_unique s (off s u) (off s v) text' text); [apply A4; exact W|exact P|].
    exists before, after. split; [exact Es|]. rewrite Es. subst u v. split; [symmetry; apply off_app|].
    rewrite <- app_length, app_assoc. symmetry. apply off_app.
Qed.

Lemma off_lt_inv : forall s i j, i <= length s -> j <= length s -> off s i < off s j -> i < j.
Proof. intros s i j Hi Hj L. destruct (Nat.le_gt_cases j i) as [Q|Q]; [|exact Q]. destruct (Nat.eq_dec j i) as [->|]; [lia|]. pose proof (off_lt s j i). lia. Qed.
Lemma cut_offs : forall g0 cs k u s, nth_error cs k = Some u -> s = original g0 cs ->
  nbytes (original g0 (firstn k cs)) = off s (length (original g0 (firstn k cs))) /\
  nbytes (original g0 (firstn k cs) ++ cut_old u) = off s (length (original g0 (firstn k cs)) + length (cut_old u)) /\
  length (original g0 (firstn k cs)) + length (cut_old u) <= length s.
Proof.
  intros g0 cs k u s Hu ->. destruct (cut_split g0 cs k u Hu) as (after & _ & A & _). rewrite A. split; [symmetry; apply off_app|].
  split; [rewrite <- app_length, app_assoc; symmetry; apply off_app|rewrite !app_length; lia].
Qed.

(* the same for rules without their scope *)
Lemma justified_anywhere : forall E en fold b t i c p s x y text, build en b = Ret (Ok t) -> crate_ok E en -> plain_env E ->
  good_pattern E c -> nth_error (bu_rules b) i = Some c -> justified en fold b (anywhere s c) (rule_at en b i) p s x y text ->
  exists u v, x = off s u /\ y = off s v /\ accounted E en fold b (anywhere s c) p s u v text.
Proof.
  intros E en fold b t i c p s x y text H CK PE HG Hc J.
  pose proof (rule_searches E en c _ CK PE HG (built_regex _ _ _ _ _ H Hc)) as S.
  pose proof (jf_regex _ _ _ _ _ _ _ _ _ _ J) as A. unfold rule_at in A. rewrite Hc in A.
  destruct (at_some _ _ _ _ _ S A) as (u & v & L & -> & -> & M & Pr). exists u, v. split; [reflexivity|]. split; [reflexivity|].
  destruct J as [J1 J2 J3 J4 J5 J6]. constructor; auto. destruct J1 as (before & after & Es & E1 & E2). exists before, after. split; [exact Es|].
  assert (U : length before = u).
  { apply (off_inj s); [rewrite Es, app_length; lia|lia|]. rewrite Es at 1. rewrite off_app. exact E1. }
  split; [exact U|]. assert (V : length (before ++ text) = v); [|rewrite app_length in V; lia].
  apply (off_inj s); [rewrite Es, !app_length; lia|lia|]. rewrite Es at 1. rewrite app_assoc, off_app. exact E2.
Qed.
Lemma accounted_anywhere : forall E en fold b t i c p s u v text, build en b = Ret (Ok t) -> crate_ok E en -> plain_env E ->
  good_pattern E c -> nth_error (bu_rules b) i = Some c -> accounted E en fold b (anywhere s c) p s u v text ->
  cf_validator c = None \/ preferred (as_written E c s) u v ->
  exists y text', justified en fold b (anywhere s c) (rule_at en b i) p s (off s u) y text'.
Proof.
  intros E en fold b t i c p s u v text H CK PE HG Hc [A1 A2 A3 A4 A5 A6] O.
  pose proof (rule_searches E en c _ CK PE HG (built_regex _ _ _ _ _ H Hc)) as S.
  destruct A1 as (before & after & Es & E1 & E2).
  assert (L : u <= length s) by (rewrite Es, app_length; lia).
  destruct (at_any _ _ s u v S L A2) as (y & A). exists y.
  destruct (at_some _ _ _ _ _ S A) as (u' & v' & L' & Eu & -> & M & Pr). apply (off_inj s) in Eu; [|lia|lia]. subst u'.
  assert (exists text', part_at s (off s u) (off s v') text') as (text' & P).
  { apply part_of_boundaries; [apply off_boundary|apply off_boundary|]. destruct (Nat.eq_dec u v') as [->|]; [lia|]. pose proof (off_lt s u v'). lia. }
  exists text'. constructor; auto.
  - unfold rule_at. rewrite Hc. exact A.
  - intros w W. destruct O as [O|O]; [cbn in W; congruence|]. apply Pr in O. subst v'. rewrite (part_at_unique s (off s u) (off s v) text' text); [apply A4; exact W|exact P|].
    exists before, after. split; [exact Es|]. rewrite Es. subst u v. split; [symmetry; apply off_app|].
    rewrite <- app_length, app_assoc. symmetry. apply off_app.
Qed.
Lemma taken_written : forall E fold en b t blocked strs text, build en b = Ret (Ok t) -> crate_ok E en -> plain_env E ->
  (forall c, In c (bu_rules b) -> good_pattern E c) ->
  taken_back en fold b (rule_at en b) blocked strs text -> taken_as_written E en fold b blocked strs text.
Proof.
  intros E fold en b t blocked strs text H CK PE HG (M & i & p & s & x & y & Hps & c & Hc & Hb & I1 & I2 & J). split; [exact M|].
  destruct (justified_anywhere E en fold b t i c p s x y text H CK PE (HG c (nth_error_In _ _ Hc)) Hc J) as (u & v & _ & _ & A).
  exists i, p, s, u, v. split; [exact Hps|]. exists c. auto.
Qed.
Lemma touched_written : forall b os g0 cs s i j, s = original g0 cs -> i <= length s -> j <= length s ->
  touched b os g0 cs (off s i) (off s j) -> exists k o u c, nth_error os k = Some o /\ nth_error cs k = Some u /\
    nth_error (bu_rules b) (rm_rule o) = Some c /\ cf_action c <> ActNone /\
    i < length (original g0 (firstn k cs)) + length (cut_old u) /\ length (original g0 (firstn k cs)) < j.
Proof.
  intros b os g0 cs s i j Es Li Lj (k & o & u & c & Ho & Hu & Hc & Ha & n & N1 & N2).
  destruct (cut_offs g0 cs k u s Hu Es) as (A1 & A2 & A3). rewrite A1, A2 in N2.
  exists k, o, u, c. split; [exact Ho|]. split; [exact Hu|]. split; [exact Hc|]. split; [exact Ha|]. split; apply (off_lt_inv s); lia.
Qed.

(* all at once *)
Lemma c79_pieces :
  forall E fold en b t e srt fuel, build en b = Ret (Ok t) -> crate_ok E en -> plain_env E ->
  (forall c d, same_letter E c d <-> fold c = fold d) -> (forall c, In c (bu_rules b) -> good_pattern E c) ->
  sane_env (en_validators en) -> sorter_ok srt -> distinct_keys e -> enough_fuel fuel (simple_strings e) ->
  (forall p s, In (p, s) (simple_strings e) -> short s) ->
  forall h blocked e' outs, scan simple_event_impl fuel h srt (bt_scanner t) blocked e = Ret (e', outs) ->
  scan_result simple_event_impl (simple_strings e) (simple_holds e) e' outs (fun p s s' os => exists g0 cs,
    s = original g0 cs /\ s' = rewritten g0 cs /\ length cs = length os /\
    (forall k o u, nth_error os k = Some o -> nth_error cs k = Some u -> ~ In (rm_rule o) blocked /\
      exists c, nth_error (bu_rules b) (rm_rule o) = Some c /\ cut_new u = redacted h (cf_action c) (cut_old u) /\
        let i := length (original g0 (firstn k cs)) in let j := i + length (cut_old u) in
        accounted E en fold b c p s i j (cut_old u) /\ forall j', preferred (as_written E c s) i j' -> j' = j) /\
    (forall r c i j text, nth_error (bu_rules b) r = Some c -> ~ In r blocked ->
      cf_action c <> ActNone -> no_included c -> accounted E en fold b c p s i j text ->
      cf_validator c = None \/ preferred (as_written E c s) i j ->
      exists i' j' text', i' <= i < j' /\ accounted E en fold b c p s i' j' text' /\
        ((exists k o u c', nth_error os k = Some o /\ nth_error cs k = Some u /\
           nth_error (bu_rules b) (rm_rule o) = Some c' /\ cf_action c' <> ActNone /\
           i' < length (original g0 (firstn k cs)) + length (cut_old u) /\ length (original g0 (firstn k cs)) < j') \/
         taken_as_written E en fold b blocked (simple_strings e) text')) /\
    (forall r c k, nth_error (bu_rules b) r = Some c -> ~ In r blocked -> cf_action c <> ActNone ->
      cf_keywords c = Some k -> kc_included k <> [] -> forall i j text, accounted E en fold b c p s i j text ->
      cf_validator c = None \/ preferred (as_written E c s) i j ->
      (bu_kw_paths b = true -> keyword_in_path_of fold k p -> exists i' j' text',
        i' <= i < j' /\ accounted E en fold b c p s i' j' text' /\
        (touched b os g0 cs (off s i') (off s j') \/ taken_as_written E en fold b blocked (simple_strings e) text')) /\
      (forall kw w u v between, In kw (kc_included k) -> effective false kw w -> occurs_as_word fold w w s u v ->
        v <= off s i -> part_at s u (off s i) between -> length between <= kc_look_ahead k -> exists i' j' text',
        i' <= i /\ (i < j' \/ u < off s i') /\ accounted E en fold b c p s i' j' text' /\
        (touched b os g0 cs (off s i') (off s j') \/ taken_as_written E en fold b blocked (simple_strings e) text')))).
Proof.
  intros E fold en b t e srt fuel H CK PE HE HG HV Hs Hd Hf Hsh h blocked e' outs Hscan.
  pose proof (crate_behaves E fold en b t H CK PE HE HG) as HB.
  pose proof (c69_pieces en fold b (rule_at en b) t e srt fuel H HB HV Hs Hd Hf Hsh h blocked e' outs Hscan) as R.
  eapply result_weaken; [|exact R]. intros p s s' os Hps (g0 & cs & S1 & S2 & S3 & S4 & S5 & S6).
  exists g0, cs. split; [exact S1|]. split; [exact S2|]. split; [exact S3|]. split; [|split].
  - intros k o u Ho Hu. destruct (S4 k o u Ho Hu) as (Hb & c & Hc & Hn & J).
    split; [exact Hb|]. exists c. split; [exact Hc|]. split; [exact Hn|]. cbv zeta.
    destruct (justified_accounted E en fold b t _ c p s _ _ _ H CK PE (HG c (nth_error_In _ _ Hc)) Hc J) as (i & j & L & Ei & _ & A & Pr).
    destruct (ac_text _ _ _ _ _ _ _ _ _ _ A) as (before & after & Es & E1 & E2). subst j.
    destruct (cut_offs g0 cs k u s Hu S1) as (A1 & A2 & A3).
    assert (Z : length (original g0 (firstn k cs)) = i) by (apply (off_inj s); [lia|lia|congruence]).
    rewrite Z. auto.
  - intros r c i j text Hc Hb Ha Hk A O. pose proof (HG c (nth_error_In _ _ Hc)) as G.
    destruct (accounted_justified E en fold b t r c p s i j text H CK PE G Hc A O) as (y & text' & J).
    destruct (S5 r c _ _ _ Hc Hb Ha Hk J) as (x' & y' & text'' & L & J' & T).
    destruct (justified_accounted E en fold b t _ c p s _ _ _ H CK PE G Hc J') as (i' & j' & L' & -> & -> & A' & _).
    destruct (ac_text _ _ _ _ _ _ _ _ _ _ A) as (before & after & Es & E1 & E2).
    assert (Li : i <= length s) by (rewrite Es, app_length; lia).
    exists i', j', text''. split; [split; [apply (off_le s); lia|apply (off_lt_inv s); lia]|]. split; [exact A'|].
    destruct T as [T|T]; [left; apply (touched_written b os g0 cs s i' j' S1); [lia|lia|exact T]|right; eapply taken_written; eauto].
  - intros r c k Hc Hb Ha Hk Hi i j text A O.
    pose proof (HG c (nth_error_In _ _ Hc)) as G.
    destruct (accounted_justified E en fold b t r c p s i j text H CK PE G Hc A O) as (y & text' & J).
    destruct (ac_text _ _ _ _ _ _ _ _ _ _ A) as (before & after & Es & E1 & E2).
    assert (Li : i <= length s) by (rewrite Es, app_length; lia).
    destruct (S6 r c k Hc Hb Ha Hk Hi _ _ _ J) as [P1 P2]. split.
    + intros K1 K2. destruct (P1 K1 K2) as (x' & y' & text'' & L & J' & T).
      destruct (justified_accounted E en fold b t _ c p s _ _ _ H CK PE G Hc J') as (i' & j' & L' & -> & -> & A' & _).
      exists i', j', text''. split; [split; [apply (off_le s); lia|apply (off_lt_inv s); lia]|].
      split; [exact A'|]. destruct T as [T|T]; [left; exact T|right; eapply taken_written; eauto].
    + intros kw w u v btw Q1 Q2 Q3 Q4 Q5 Q6. destruct (P2 kw w u v btw Q1 Q2 Q3 Q4 Q5 Q6) as (x' & y' & text'' & L & D & J' & T).
      destruct (justified_accounted E en fold b t _ c p s _ _ _ H CK PE G Hc J') as (i' & j' & L' & -> & -> & A' & _).
      exists i', j', text''. split; [apply (off_le s); lia|]. split; [destruct D as [D|D]; [left; apply (off_lt_inv s); lia|right; exact D]|].
      split; [exact A'|]. destruct T as [T|T]; [left; exact T|right; eapply taken_written; eauto].
Qed.

Lemma c79_scan_lemma :
  forall E fold en b t e srt fuel, build en b = Ret (Ok t) -> crate_ok E en -> plain_env E ->
  (forall c d, same_letter E c d <-> fold c = fold d) -> (forall c, In c (bu_rules b) -> good_pattern E c) ->
  sane_env (en_validators en) -> sorter_ok srt -> distinct_keys e -> enough_fuel fuel (simple_strings e) ->
  (forall p s, In (p, s) (simple_strings e) -> short s) ->
  forall h blocked e' outs, scan simple_event_impl fuel h srt (bt_scanner t) blocked e = Ret (e', outs) ->
  scan_result simple_event_impl (simple_strings e) (simple_holds e) e' outs (fun p s s' os => exists g0 cs,
    s = original g0 cs /\ s' = rewritten g0 cs /\ length cs = length os /\
    (forall k o u, nth_error os k = Some o -> nth_error cs k = Some u -> ~ In (rm_rule o) blocked /\
      exists c, nth_error (bu_rules b) (rm_rule o) = Some c /\ cut_new u = redacted h (cf_action c) (cut_old u) /\
        let i := length (original g0 (firstn k cs)) in let j := i + length (cut_old u) in
        accounted E en fold b c p s i j (cut_old u) /\ forall j', preferred (as_written E c s) i j' -> j' = j) /\
    (forall r c i j text, nth_error (bu_rules b) r = Some c -> ~ In r blocked ->
      cf_action c <> ActNone -> no_included c -> accounted E en fold b c p s i j text ->
      cf_validator c = None \/ preferred (as_written E c s) i j ->
      exists i' j' text', i' <= i < j' /\ accounted E en fold b c p s i' j' text' /\
        ((exists k o u c', nth_error os k = Some o /\ nth_error cs k = Some u /\
           nth_error (bu_rules b) (rm_rule o) = Some c' /\ cf_action c' <> ActNone /\
           i' < length (original g0 (firstn k cs)) + length (cut_old u) /\ length (original g0 (firstn k cs)) < j') \/
         taken_as_written E en fold b blocked (simple_strings e) text'))).
Proof.
  intros E fold en b t e srt fuel H CK PE HE HG HV Hs Hd Hf Hsh h blocked e' outs Hscan.
  pose proof (c79_pieces E fold en b t e srt fuel H CK PE HE HG HV Hs Hd Hf Hsh h blocked e' outs Hscan) as R.
  eapply result_weaken; [|exact R]. intros p s s' os _ (g0 & cs & S1 & S2 & S3 & S4 & S5 & S6). exists g0, cs. auto 10.
Qed.

Lemma c79_returns_lemma :
  forall E (fold : char -> char) en b t e srt fuel, build en b = Ret (Ok t) -> crate_ok E en -> plain_env E ->
  (forall c d, same_letter E c d <-> fold c = fold d) -> (forall c, In c (bu_rules b) -> good_pattern E c) ->
  sorter_ok srt -> distinct_keys e -> enough_fuel fuel (simple_strings e) ->
  windows_as_written E b (simple_strings e) ->
  forall h blocked, exists e' outs, scan simple_event_impl fuel h srt (bt_scanner t) blocked e = Ret (e', outs).
Proof.
  intros E fold en b t e srt fuel H CK PE HE HG Hs Hd Hf HW h blocked.
  exact (c69_returns_lemma en fold b (rule_at en b) t e srt fuel H (crate_behaves E fold en b t H CK PE HE HG) Hs Hd Hf
    (written_windows E en b t _ H CK PE HG HW) h blocked).
Qed.

Lemma c79_included_lemma :
  forall E fold en b t e srt fuel, build en b = Ret (Ok t) -> crate_ok E en -> plain_env E ->
  (forall c d, same_letter E c d <-> fold c = fold d) -> (forall c, In c (bu_rules b) -> good_pattern E c) ->
  sane_env (en_validators en) -> sorter_ok srt -> distinct_keys e -> enough_fuel fuel (simple_strings e) ->
  (forall p s, In (p, s) (simple_strings e) -> short s) ->
  forall h blocked e' outs, scan simple_event_impl fuel h srt (bt_scanner t) blocked e = Ret (e', outs) ->
  scan_result simple_event_impl (simple_strings e) (simple_holds e) e' outs (fun p s s' os => exists g0 cs,
    s = original g0 cs /\ s' = rewritten g0 cs /\ length cs = length os /\
    (forall k o u, nth_error os k = Some o -> nth_error cs k = Some u -> ~ In (rm_rule o) blocked /\
      exists c, nth_error (bu_rules b) (rm_rule o) = Some c /\ cut_new u = redacted h (cf_action c) (cut_old u) /\
        let i := length (original g0 (firstn k cs)) in let j := i + length (cut_old u) in
        accounted E en fold b c p s i j (cut_old u) /\ forall j', preferred (as_written E c s) i j' -> j' = j) /\
    (forall r c k, nth_error (bu_rules b) r = Some c -> ~ In r blocked -> cf_action c <> ActNone ->
      cf_keywords c = Some k -> kc_included k <> [] -> forall i j text, accounted E en fold b c p s i j text ->
      cf_validator c = None \/ preferred (as_written E c s) i j ->
      (bu_kw_paths b = true -> keyword_in_path_of fold k p -> exists i' j' text',
        i' <= i < j' /\ accounted E en fold b c p s i' j' text' /\
        (touched b os g0 cs (off s i') (off s j') \/ taken_as_written E en fold b blocked (simple_strings e) text')) /\
      (forall kw w u v between, In kw (kc_included k) -> effective false kw w -> occurs_as_word fold w w s u v ->
        v <= off s i -> part_at s u (off s i) between -> length between <= kc_look_ahead k -> exists i' j' text',
        i' <= i /\ (i < j' \/ u < off s i') /\ accounted E en fold b c p s i' j' text' /\
        (touched b os g0 cs (off s i') (off s j') \/ taken_as_written E en fold b blocked (simple_strings e) text')))).
Proof.
  intros E fold en b t e srt fuel H CK PE HE HG HV Hs Hd Hf Hsh h blocked e' outs Hscan.
  pose proof (c79_pieces E fold en b t e srt fuel H CK PE HE HG HV Hs Hd Hf Hsh h blocked e' outs Hscan) as R.
  eapply result_weaken; [|exact R]. intros p s s' os _ (g0 & cs & S1 & S2 & S3 & S4 & S5 & S6). exists g0, cs. auto 10.
Qed.

Lemma c79_alone_lemma :
  forall E fold en b t e srt fuel, build en b = Ret (Ok t) -> crate_ok E en -> plain_env E ->
  (forall c d, same_letter E c d <-> fold c = fold d) -> (forall c, In c (bu_rules b) -> good_pattern E c) ->
  sane_env (en_validators en) -> sorter_ok srt -> distinct_keys e -> enough_fuel fuel (simple_strings e) ->
  (forall p s, In (p, s) (simple_strings e) -> short s) ->
  forall h blocked e' outs, scan simple_event_impl fuel h srt (bt_scanner t) blocked e = Ret (e', outs) ->
  scan_result simple_event_impl (simple_strings e) (simple_holds e) e' outs (fun p s s' os =>
    forall r c, nth_error (bu_rules b) r = Some c -> ~ In r blocked -> cf_action c <> ActNone -> no_included c ->
    (forall r' c', nth_error (bu_rules b) r' = Some c' -> cf_action c' <> ActNone -> r' = r) ->
    forall i j text, accounted E en fold b c p s i j text -> cf_validator c = None \/ preferred (as_written E c s) i j ->
    exists before old after, s = before ++ old ++ after /\ length before <= i < length before + length old /\
      ((exists before' after', s' = before' ++ redacted h (cf_action c) old ++ after') \/
       taken_as_written E en fold b blocked (simple_strings e) old)).
Proof.
  intros E fold en b t e srt fuel H CK PE HE HG HV Hs Hd Hf Hsh h blocked e' outs Hscan.
  pose proof (crate_behaves E fold en b t H CK PE HE HG) as HB.
  pose proof (c69_alone_lemma en fold b (rule_at en b) t e srt fuel H HB HV Hs Hd Hf Hsh h blocked e' outs Hscan) as R.
  eapply result_weaken; [|exact R]. intros p s s' os Hps S r c Hc Hb Ha Hk Hone i j text A O.
  pose proof (HG c (nth_error_In _ _ Hc)) as G.
  destruct (accounted_justified E en fold b t r c p s i j text H CK PE G Hc A O) as (y & text' & J).
  destruct (S r c Hc Hb Ha Hk Hone _ _ _ J) as (before & old & after & E1 & L & T).
  exists before, old, after. split; [exact E1|].
  split; [|destruct T as [T|T]; [left; exact T|right; eapply taken_written; eauto]].
  destruct (ac_text _ _ _ _ _ _ _ _ _ _ A) as (b0 & a0 & Es & L1 & L2).
  assert (Li : i <= length s) by (rewrite Es, app_length; lia).
  assert (Q1 : nbytes before = off s (length before)) by (rewrite E1; symmetry; apply off_app).
  assert (Q2 : nbytes before + nbytes old = off s (length before + length old)).
  { rewrite E1, <- app_length, app_assoc, off_app, !nbytes_blen, blen_app. reflexivity. }
  assert (Q3 : length before + length old <= length s) by (rewrite E1, !app_length; lia).
  rewrite Q2 in L. rewrite Q1 in L. split; [apply (off_le s); lia|apply (off_lt_inv s); lia].
Qed.

Lemma c79_multipass_lemma :
  forall E fold en b t e srt fuel, build en b = Ret (Ok t) -> crate_ok E en -> plain_env E ->
  (forall c d, same_letter E c d <-> fold c = fold d) -> (forall c, In c (bu_rules b) -> good_pattern E c) ->
  sane_env (en_validators en) -> sorter_ok srt -> distinct_keys e -> enough_fuel fuel (simple_strings e) ->
  (forall p s, In (p, s) (simple_strings e) -> short s) -> bu_multipass b = true ->
  forall blocked r c p s i j text, nth_error (bu_rules b) r = Some c -> In (p, s) (simple_strings e) ->
  passed_as_written E en fold b blocked r p s i j text -> cf_validator c = None \/ preferred (as_written E c s) i j ->
  (forall k, cf_keywords c = Some k -> kc_included k <> [] ->
     exists kw w u v, In kw (kc_included k) /\ effective false kw w /\ occurs_as_word fold w w s u v /\ v <= off s i) ->
  exists i' j' before text' after, i' <= i < j' /\ matched (as_written E c s) i' j' /\
    s = before ++ text' ++ after /\ length before = i' /\ length (before ++ text') = j' /\
  forall h e' outs, scan simple_event_impl fuel h srt (bt_scanner t) blocked e = Ret (e', outs) ->
  scan_result simple_event_impl (simple_strings e) (simple_holds e) e' outs (fun p s s' os => exists g0 cs,
    s = original g0 cs /\ s' = rewritten g0 cs /\ length cs = length os /\ forall u, In u cs -> cut_old u <> text').
Proof.
  intros E fold en b t e srt fuel H CK PE HE HG HV Hs Hd Hf Hsh HM blocked r c p s i j text Hc Hps PO O HK.
  pose proof (crate_behaves E fold en b t H CK PE HE HG) as HB.
  pose proof (HG c (nth_error_In _ _ Hc)) as G.
  pose proof (rule_searches E en c _ CK PE G (built_regex _ _ _ _ _ H Hc)) as S.
  destruct PO as (c' & Hc' & Hb & I1 & I2 & A). rewrite Hc in Hc'. injection Hc' as <-.
  destruct (accounted_anywhere E en fold b t r c p s i j text H CK PE G Hc A O) as (y & text0 & J).
  assert (Li : i <= length s).
  { destruct (ac_text _ _ _ _ _ _ _ _ _ _ A) as (b0 & a0 & Es & L1 & _). rewrite Es, app_length. lia. }
  destruct (c69_multipass_lemma en fold b (rule_at en b) t e srt fuel H HB HV Hs Hd Hf Hsh HM blocked r p s (off s i) y text0 Hps) as (x' & y' & text' & L & P & At & R).
  - exists c. auto.
  - intros c2 k Hc2. rewrite Hc in Hc2. injection Hc2 as <-. apply HK.
  - unfold rule_at in At. rewrite Hc in At. destruct (at_some _ _ _ _ _ S At) as (i' & j' & L' & -> & -> & M & _).
    destruct P as (before & after & Es & E1 & E2).
    exists i', j', before, text', after. split; [split; [apply (off_le s); lia|apply (off_lt_inv s); lia]|]. split; [exact M|]. split; [exact Es|].
    split; [|split; [|exact R]].
    + apply (off_inj s); [rewrite Es, app_length; lia|lia|]. rewrite Es at 1. rewrite off_app. exact E1.
    + apply (off_inj s); [rewrite Es, !app_length; lia|lia|]. rewrite Es at 1. rewrite app_assoc, off_app. exact E2.
Qed.

