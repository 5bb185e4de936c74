(* From configurations to reports, and prefixes of paths (C69, C70): proofs of the statements of Thm/EndToEnd.v *)
From Coq Require Import Lia.
From Verif Require Import Proofs.Text Proofs.Scopes Proofs.ChecksumsClaims Proofs.KeywordsClaims Proofs.Search Proofs.Claims Proofs.RedactionClaims Proofs.SearchClaims Proofs.Panics Proofs.Regex Proofs.Events Proofs.RegexScan.
From Verif Require Export Proofs.BuildClaims Spec.EndToEnd.

Lemma digits_exist : forall s, exists l, has_digits s l.
Proof. intros s. exists (digits_of s). apply has_digits_spec. reflexivity. Qed.
Lemma by_digits : forall (valid : str -> bool) (P : list N -> Prop) s, (forall l, has_digits s l -> (valid s = true <-> P l)) ->
  valid s = true <-> exists l, has_digits s l /\ P l.
Proof.
  intros valid P s H. destruct (digits_exist s) as (l & D). split.
  - intros K. exists l. split; [exact D|]. apply (H l D). exact K.
  - intros (l' & D' & K). apply (H l' D'). exact K.
Qed.

Lemma Forall2_len : forall A B (R : A -> B -> Prop) l k, Forall2 R l k -> length l = length k.
Proof. intros A B R l k H. induction H; cbn; congruence. Qed.

(* a rule of the built scanner *)
Lemma built_rule : forall en fold b at_ t, build en b = Ret (Ok t) -> behaves en fold b at_ ->
  forall i c, nth_error (bu_rules b) i = Some c -> exists rr occ,
    nth_error (sc_rules (bt_scanner t)) i = Some (regex_compiled (cf_action c) (cf_scope c) (cf_validation c) rr) /\
    compiled_from en c i rr /\ action_validate (cf_action c) = true /\ regex_ok rr (at_ i) occ /\
    (forall k inc pinc exc, cf_keywords c = Some k -> compile_keywords_proximity_config k = Ret (Ok (Some (inc, pinc), exc)) ->
       occ = kw_occurs fold inc).
Proof.
  intros en fold b at_ t H HB i c Hc.
  destruct (built_spec en b t H) as (_ & vs & xs & _ & L & X & ->). destruct (X i c Hc) as (rr & AV & Hx & HC).
  assert (Hr : nth_error (map fst xs) i = Some (regex_compiled (cf_action c) (cf_scope c) (cf_validation c) rr))
    by (rewrite nth_error_map, Hx; reflexivity).
  destruct (bh_regex _ _ _ _ HB i c Hc) as (re & (p & P1 & P2) & Hl).
  pose proof HC as HC'. destruct HC' as [F1 F2 F3 F4 F5]. destruct F2 as (p' & P1' & P2').
  rewrite P1 in P1'. injection P1' as <-. rewrite P2 in P2'. injection P2' as P2'. subst re.
  destruct (rr_included rr) as [ik|] eqn:RI.
  - destruct (proj1 (F4 ik) eq_refl) as (k & inc & pinc & exc & K1 & K2 & ->).
    exists rr, (kw_occurs fold inc). split; [exact Hr|]. split; [exact HC|]. split; [exact AV|]. split.
    + split; [exact Hl|]. intros ik E. rewrite RI in E. injection E as <-. cbn [ik_find ik_look_ahead]. split.
      * exact (bh_content _ _ _ _ HB c k inc pinc exc (nth_error_In _ _ Hc) K1 K2).
      * destruct (c28_accepted_configurations_lemma k) as (res & R & A & _). rewrite K2 in R. injection R as <-.
        exact (proj1 (proj1 (proj1 A (ex_intro _ _ eq_refl)))).
    + intros k' inc' pinc' exc' K1' K2'. rewrite K1 in K1'. injection K1' as <-. rewrite K2 in K2'. injection K2' as -> _ _. reflexivity.
  - exists rr, (fun _ _ _ => False). split; [exact Hr|]. split; [exact HC|]. split; [exact AV|]. split.
    + split; [exact Hl|]. intros ik E. rewrite RI in E. discriminate E.
    + intros k inc pinc exc K1 K2. exfalso. assert (E : None = Some {| ik_look_ahead := kc_look_ahead k; ik_find := en_earliest en inc; ik_path_match := en_path en pinc |}).
      { apply F4. exists k, inc, pinc, exc. auto. } discriminate E.
Qed.
Lemma built_length : forall en b t, build en b = Ret (Ok t) -> length (sc_rules (bt_scanner t)) = length (bu_rules b).
Proof. intros en b t H. destruct (built_spec en b t H) as (_ & vs & xs & _ & L & X & ->). cbn. rewrite map_length. exact L. Qed.
Lemma built_options : forall en b t, build en b = Ret (Ok t) ->
  sc_kw_paths (bt_scanner t) = bu_kw_paths b /\ sc_wild (bt_scanner t) = bu_wild b /\ sc_multipass (bt_scanner t) = bu_multipass b.
Proof. intros en b t H. destruct (built_spec en b t H) as (_ & vs & xs & _ & L & X & ->). auto. Qed.
(* keywords of accepted configurations *)
Lemma compiled_keywords : forall k r, compile_keywords_proximity_config k = Ret (Ok r) ->
  (fst r = None <-> kc_included k = []) /\ (snd r = None <-> kc_excluded k = []).
Proof.
  intros k r H. destruct (compile_config_spec k) as [(e & E & _)|[E _]]; rewrite H in E; [discriminate E|]. injection E as ->.
  cbn [fst snd]. unfold alternations. destruct (kc_included k), (kc_excluded k); split; split; congruence.
Qed.
(* the keywords of a rule that was built are accepted *)
Lemma built_keywords : forall en b t, build en b = Ret (Ok t) -> forall c k, In c (bu_rules b) -> cf_keywords c = Some k ->
  exists r, compile_keywords_proximity_config k = Ret (Ok r).
Proof.
  intros en b t H c k Hc K. destruct (built_spec en b t H) as (NE & vs & xs & _ & L & X & _).
  destruct (compile_config_spec k) as [(e & E & CE)|[E _]]; [|eauto]. exfalso.
  apply In_nth_error in Hc as (i & Hc). destruct (X i c Hc) as (rr & AV & _ & CF).
  refine (NE c (EInvalidKeywords e) (nth_error_In _ _ Hc) _). apply (re_keywords en c k e); auto.
  - intros e' P. destruct (cp_regex _ _ _ _ CF) as (p & P1 & P2).
    apply (NE c (EInvalidRegex e') (nth_error_In _ _ Hc)). constructor. exact P.
  - intros d A. rewrite A in AV. discriminate AV.
Qed.
Lemma built_regex_scanner : forall en fold b at_ t strs, build en b = Ret (Ok t) -> behaves en fold b at_ ->
  windows_fine b at_ strs -> regex_scanner (bt_scanner t) strs.
Proof.
  intros en fold b at_ t strs H HB HW i r Hr.
  assert (exists c, nth_error (bu_rules b) i = Some c) as (c & Hc).
  { destruct (nth_error (bu_rules b) i) eqn:E; [eauto|]. apply nth_error_None in E. rewrite <- (built_length _ _ _ H) in E.
    apply nth_error_None in E. congruence. }
  destruct (built_rule _ _ _ _ _ H HB i c Hc) as (rr & occ & R1 & CF & R3 & R4 & _). exists rr, (at_ i), occ. split.
  - exists (cf_action c), (cf_scope c), (cf_validation c). split; [exact R1|]. split; [exact (cp_index _ _ _ _ CF)|]. auto.
  - intros p s Hp Hn xk x y Hx Ha.
    apply (cp_excluded _ _ _ _ CF) in Hx as (k & inc & exc & pexc & K1 & K2 & ->). cbn [xk_look_ahead].
    destruct (compiled_keywords k _ K2) as [J1 J2]. cbn [fst snd] in *.
    eapply (HW i c k Hc K1); eauto.
    + apply J1. destruct inc as [[inc pinc]|]; [|reflexivity]. exfalso.
      assert (E : rr_included rr = Some {| ik_look_ahead := kc_look_ahead k; ik_find := en_earliest en inc; ik_path_match := en_path en pinc |}).
      { apply (cp_included _ _ _ _ CF). exists k, inc, pinc, (Some (exc, pexc)). auto. } congruence.
    + intros E. apply J2 in E. discriminate E.
Qed.

Lemma built_config : forall en b t, build en b = Ret (Ok t) -> forall i r, nth_error (sc_rules (bt_scanner t)) i = Some r ->
  exists c, nth_error (bu_rules b) i = Some c.
Proof.
  intros en b t H i r Hr. destruct (nth_error (bu_rules b) i) eqn:E; [eauto|]. apply nth_error_None in E.
  rewrite <- (built_length _ _ _ H) in E. apply nth_error_None in E. congruence.
Qed.
(* excluded keywords can be searched for in the strings *)
Lemma built_checkable : forall en b at_ strs i c rr p s, windows_fine b at_ strs -> In (p, s) strs ->
  nth_error (bu_rules b) i = Some c -> compiled_from en c i rr -> rr_included rr = None -> checkable rr (at_ i) s.
Proof.
  intros en b at_ strs i c rr p s HW Hps Hc CF E xk u v K1 K2.
  apply (cp_excluded _ _ _ _ CF) in K1 as (kc & inc & exc & pexc & K3 & K4 & ->). cbn [xk_look_ahead].
  destruct (compiled_keywords kc _ K4) as [J1 J2]. cbn [fst snd] in *. eapply (HW _ c kc Hc K3); eauto.
  - apply J1. destruct inc as [[inc pinc]|]; [|reflexivity]. exfalso.
    assert (E' : rr_included rr = Some {| ik_look_ahead := kc_look_ahead kc; ik_find := en_earliest en inc; ik_path_match := en_path en pinc |}).
    { apply (cp_included _ _ _ _ CF). exists kc, inc, pinc, (Some (exc, pexc)). auto. } congruence.
  - intros E'. apply J2 in E'. discriminate E'.
Qed.

(* what a rule without included keywords finds in a string *)
Definition plain_found (f : finder) (rr : regex_rule) (at_ : str -> nat -> option nat) (p : path) (s : str) (kw : bool) : Prop :=
  scan_chain rr at_ true s 0 (fst (f s p false kw)) /\
  exists ms, scan_chain rr at_ true s 0 ms /\ forall t, In t (snd (f s p true kw)) <-> exists a b, In (a, b) ms /\ part_at s a b t.
(* the rules without included keywords find what they should in the strings in their scope *)
Definition searchable (en : engines) (b : builder) (at_ : nat -> str -> nat -> option nat) (sc : scanner) (blocked : list nat)
    (strs : list (path * str)) : Prop :=
  forall i c rr occ p s, nth_error (bu_rules b) i = Some c -> ~ In i blocked -> In (p, s) strs -> included (bu_wild b) (cf_scope c) p ->
  compiled_from en c i rr -> regex_rule_at sc i rr (at_ i) occ -> rr_included rr = None ->
  plain_found (finders sc i) rr (at_ i) p s (bu_kw_paths b).
Lemma fine_searchable : forall en b at_ sc blocked strs, windows_fine b at_ strs -> searchable en b at_ sc blocked strs.
Proof.
  intros en b at_ sc blocked strs HW i c rr occ p s Hc _ Hps _ CF Hat E.
  assert (Hck : checkable rr (at_ i) s) by (eapply built_checkable; eauto).
  pose proof (regex_rule_finds _ _ _ _ _ Hat) as F. split; [apply (rf_plain _ _ _ _ F)|apply (rf_plain_excluded _ _ _ _ F)]; assumption.
Qed.
Lemma choose {A B} (d : B) : forall (l : list A) (P : nat -> A -> B -> Prop),
  (forall i c, nth_error l i = Some c -> exists y, P i c y) -> exists f, forall i c, nth_error l i = Some c -> P i c (f i).
Proof.
  induction l as [|a l IH]; intros P H.
  - exists (fun _ => d). intros [|i] c Hc; discriminate Hc.
  - destruct (IH (fun i => P (S i))) as (f & Hf); [intros i c Hc; exact (H (S i) c Hc)|].
    destruct (H 0 a eq_refl) as (y & Hy). exists (fun i => match i with 0 => y | S i => f i end).
    intros [|i] c Hc; [injection Hc as <-; exact Hy|]. exact (Hf i c Hc).
Qed.
Lemma built_made : forall en fold b at_ t, build en b = Ret (Ok t) -> behaves en fold b at_ ->
  exists rrs occs, made_of (bt_scanner t) rrs at_ occs /\
  forall i c, nth_error (bu_rules b) i = Some c -> compiled_from en c i (rrs i) /\
    nth_error (sc_rules (bt_scanner t)) i = Some (regex_compiled (cf_action c) (cf_scope c) (cf_validation c) (rrs i)).
Proof.
  intros en fold b at_ t Hb Hbe.
  destruct (choose ({| rr_index := 0; rr_find := fun _ _ => None; rr_included := None; rr_excluded := None; rr_validator := None |}, fun _ _ _ => False)
    (bu_rules b) (fun i c y =>
    nth_error (sc_rules (bt_scanner t)) i = Some (regex_compiled (cf_action c) (cf_scope c) (cf_validation c) (fst y)) /\
    compiled_from en c i (fst y) /\ action_validate (cf_action c) = true /\ regex_ok (fst y) (at_ i) (snd y))) as (f & Hf).
  { intros i c Hc. destruct (built_rule _ _ _ _ _ Hb Hbe i c Hc) as (rr & occ & R1 & R2 & R3 & R4 & _). exists (rr, occ). auto. }
  exists (fun i => fst (f i)), (fun i => snd (f i)). split.
  - intros i r Hr. destruct (built_config _ _ _ Hb i r Hr) as (c & Hc).
    destruct (Hf i c Hc) as (A & B & C & D). exists (cf_action c), (cf_scope c), (cf_validation c). split; [exact A|]. split; [|auto]. apply B.
  - intros i c Hc. destruct (Hf i c Hc) as (A & B & _). auto.
Qed.
(* two descriptions of the same rule trip over the same strings *)
Lemma trips_agree : forall sc i rr at_ occ rr' at_' occ' s, regex_rule_at sc i rr at_ occ -> regex_rule_at sc i rr' at_' occ' ->
  rule_trips rr at_ s -> rule_trips rr' at_' s.
Proof.
  intros sc i rr at_ occ rr' at_' occ' s (a & sp & v & H1 & H2 & _ & H3) (a' & sp' & v' & H1' & H2' & _ & H3') T.
  rewrite H1 in H1'. injection H1' as _ _ _ E.
  pose proof (f_equal (fun f => f (nbytes s + 2) s [] (fun _ => false) [] false []) E) as K. cbn beta in K.
  destruct (rule_or rr at_ occ H3 s [] false false) as [(_ & P)|(N & _)]; [|contradiction].
  destruct (rule_or rr' at_' occ' H3' s [] false false) as [(T' & _)|(_ & ms & new & R & _)]; [exact T'|].
  rewrite P in K by lia. rewrite R in K by lia. discriminate K.
Qed.
Lemma untripped_searchable : forall en fold b at_ t rrs occs blocked strs, build en b = Ret (Ok t) -> behaves en fold b at_ ->
  made_of (bt_scanner t) rrs at_ occs -> ~ scan_trips (bt_scanner t) rrs at_ blocked strs -> searchable en b at_ (bt_scanner t) blocked strs.
Proof.
  intros en fold b at_ t rrs occs blocked strs H HB HM HT i c rr occ p s Hc Hb Hps Hi CF Hat E.
  destruct (built_rule _ _ _ _ _ H HB i c Hc) as (rr0 & occ0 & R1 & _).
  destruct (built_spec _ _ _ H) as (_ & vs & xs & _ & _ & _ & Et).
  assert (W : sc_wild (bt_scanner t) = bu_wild b) by (rewrite Et; reflexivity).
  assert (N : ~ rule_trips rr (at_ i) s).
  { intros T. apply HT. eexists i, _, p, s. split; [exact R1|]. split; [exact Hb|]. split; [exact Hps|]. rewrite W. split; [exact Hi|].
    exact (trips_agree _ _ _ _ _ _ _ _ s Hat (HM i _ R1) T). }
  destruct Hat as (a & sp & v & Hr & _ & _ & Hok).
  assert (F : forall e, finders (bt_scanner t) i s p e (bu_kw_paths b) = regex_finder rr s p e (bu_kw_paths b)) by (intros e; unfold finders; rewrite Hr; reflexivity).
  unfold plain_found. rewrite !F. unfold regex_finder.
  destruct (rule_or rr (at_ i) occ Hok s p false (bu_kw_paths b)) as [(T & _)|(_ & ms & new & HR & _ & _ & _ & HC)]; [contradiction|].
  destruct (rule_or rr (at_ i) occ Hok s p true (bu_kw_paths b)) as [(T & _)|(_ & ms' & new' & HR' & _ & _ & _ & HC')]; [contradiction|].
  rewrite HR by lia. rewrite HR' by lia. destruct (HC E) as (found & C1 & C2 & _). destruct (HC' E) as (found' & C1' & _ & C3').
  split; [cbn [fst]; rewrite (C2 eq_refl); exact C1|]. exists found'. split; [exact C1'|]. intros u. cbn [snd]. rewrite app_nil_r. apply (C3' eq_refl).
Qed.
(* a scan that returns *)
Lemma returned : forall en fold b at_ t e srt fuel, build en b = Ret (Ok t) -> behaves en fold b at_ ->
  sorter_ok srt -> distinct_keys e -> enough_fuel fuel (simple_strings e) ->
  forall h blocked e' outs, scan simple_event_impl fuel h srt (bt_scanner t) blocked e = Ret (e', outs) ->
  searchable en b at_ (bt_scanner t) blocked (simple_strings e) /\
  scan_result simple_event_impl (simple_strings e) (simple_holds e) e' outs
    (string_scanned (bt_scanner t) (finders (bt_scanner t)) blocked utf8_encoding clen h (simple_strings e)).
Proof.
  intros en fold b at_ t e srt fuel H HB Hs Hd Hf h blocked e' outs Hscan.
  destruct (built_made _ _ _ _ _ H HB) as (rrs & occs & HM & _).
  destruct (scan_or _ _ _ _ HM blocked simple_event_impl clen srt e _ _ h fuel utf8_shifts utf8_indices Hs (simple_laws e Hd) Hf) as [(_ & P)|(T & e2 & res & E2 & A & B & C)].
  - rewrite P in Hscan. discriminate Hscan.
  - split; [exact (untripped_searchable _ _ _ _ _ _ _ _ _ H HB HM T)|]. rewrite E2 in Hscan. injection Hscan as <- <-. exists res. auto.
Qed.

(* the excluded keywords of a rule that was built *)
Lemma built_excluded : forall en fold b at_ c i rr k s x, behaves en fold b at_ -> In c (bu_rules b) -> compiled_from en c i rr ->
  (exists r, compile_keywords_proximity_config k = Ret (Ok r)) -> cf_keywords c = Some k ->
  (exists xk, rr_excluded rr = Some xk /\ excluded_keyword_before xk s x) <-> excluded_before fold k s x.
Proof.
  intros en fold b at_ c i rr k s x HB Hc CF ([inc [[exc pexc]|]] & K2) K1.
  - pose proof (bh_span _ _ _ _ HB c k inc exc pexc Hc K1 K2) as S.
    pose proof (c28_meaning_of_keywords_lemma k inc (Some (exc, pexc)) K2 fold true exc pexc eq_refl) as M.
    assert (E : rr_excluded rr = Some {| xk_look_ahead := kc_look_ahead k; xk_match_in := en_span en exc |}).
    { apply (cp_excluded _ _ _ _ CF). exists k, inc, exc, pexc. auto. }
    split.
    + intros (xk & E' & before & d & after & H1 & H2 & H3). rewrite E in E'. injection E' as <-. cbn [xk_look_ahead xk_match_in] in H3.
      apply S in H3 as (u & v & U1 & U2 & U3). apply M in U3 as (kw & t & W1 & W2 & W3). exists before, d, after, kw, t, u, v. auto 10.
    + intros (before & d & after & kw & t & u & v & H1 & H2 & W1 & W2 & W3 & U1 & U2). eexists. split; [exact E|].
      exists before, d, after. split; [exact H1|]. split; [exact H2|]. cbn [xk_look_ahead xk_match_in]. apply S. exists u, v. split; [exact U1|]. split; [exact U2|].
      apply M. exists kw, t. auto.
  - destruct (compiled_keywords k _ K2) as [_ [J _]]. cbn in J. specialize (J eq_refl). split.
    + intros (xk & E & _). apply (cp_excluded _ _ _ _ CF) in E as (k' & inc' & exc & pexc & K1' & K2' & _). congruence.
    + intros (before & d & after & kw & t & u & v & _ & _ & W & _). rewrite J in W. destruct W.
Qed.
Lemma no_included_rule : forall en b t i c rr, build en b = Ret (Ok t) -> nth_error (bu_rules b) i = Some c -> compiled_from en c i rr ->
  (rr_included rr = None <-> no_included c).
Proof.
  intros en b t i c rr H Hc CF. split.
  - intros E k K. destruct (built_keywords _ _ _ H c k (nth_error_In _ _ Hc) K) as ([[[inc pinc]|] exc] & K2).
    + exfalso. assert (E' : rr_included rr = Some {| ik_look_ahead := kc_look_ahead k; ik_find := en_earliest en inc; ik_path_match := en_path en pinc |}).
      { apply (cp_included _ _ _ _ CF). exists k, inc, pinc, exc. auto. } congruence.
    + apply (compiled_keywords k _ K2). reflexivity.
  - intros N. destruct (rr_included rr) eqn:E; [|reflexivity]. apply (cp_included _ _ _ _ CF) in E as (k & inc & pinc & exc & K & K2 & _).
    destruct (compiled_keywords k _ K2) as [[_ J] _]. specialize (J (N k K)). discriminate J.
Qed.

Lemma c69_checks_lemma :
  forall env v s, sane_env env -> (v = LuhnChecksum -> short s) -> (is_valid_match env v s = true <-> passes env v s).
Proof.
  intros env v s HE HS. destruct v; cbn [is_valid_match passes].
  - apply (by_digits luhn_is_valid luhn). intros l Hl. apply c32_luhn_formula_lemma; [apply HS; reflexivity|exact Hl].
  - apply c33_iso7064_lemma.
  - apply c36_six_digit_checksums_lemma. exact c36_crc32_is_32_bits_lemma.
  - apply (by_digits nhs_is_valid (fun l => length l <= 11 /\ nhs_number (nhs_digits l))). intros l Hl.
    exact (proj1 c34_other_lengths_refuted_lemma s l Hl).
  - unfold iban_is_valid. split; [eauto|]. intros (kept & K & ->). exact K.
  - apply (by_digits nir_is_valid nir_number). intros l Hl. apply c35_insee_key_lemma. exact Hl.
  - apply c37_accepted_tokens_lemma. exact HE.
Qed.

(* a match that the built scanner finds is justified by the configuration *)
Lemma candidate_justified : forall en fold b at_ t strs p s i x y blocked,
  build en b = Ret (Ok t) -> behaves en fold b at_ -> sane_env (en_validators en) -> searchable en b at_ (bt_scanner t) blocked strs -> In (p, s) strs -> short s ->
  candidate (bt_scanner t) (finders (bt_scanner t)) blocked p s (i, x, y) ->
  exists c text, nth_error (bu_rules b) i = Some c /\ ~ In i blocked /\ justified en fold b c (at_ i) p s x y text.
Proof.
  intros en fold b at_ t strs p s i x y blocked H HB HE HW Hps Hsh (r & Hr & Hb & Hi & Hx & Hin).
  destruct (built_config _ _ _ H i r Hr) as (c & Hc).
  destruct (built_rule _ _ _ _ _ H HB _ c Hc) as (rr & occ & R1 & CF & R3 & R4 & R5). rewrite R1 in Hr. injection Hr as <-.
  cbn [rule_scope regex_compiled] in Hi, Hx. destruct (built_options _ _ _ H) as (O1 & O2 & O3). rewrite O2 in Hi, Hx. rewrite O1 in Hin.
  assert (Hat : regex_rule_at (bt_scanner t) i rr (at_ i) occ).
  { exists (cf_action c), (cf_scope c), (cf_validation c). split; [exact R1|]. split; [exact (cp_index _ _ _ _ CF)|]. auto. }
  pose proof (regex_rule_finds _ _ _ _ _ Hat) as F.
  assert (TP : at_ i s x = Some y /\ (forall valid u, rr_validator rr = Some valid -> part_at s x y u -> valid u = true) /\
    (rr_included rr = None -> forall xk, rr_excluded rr = Some xk -> ~ excluded_keyword_before xk s x)).
  { destruct (rr_included rr) as [ik|] eqn:E.
    - destruct (rf_sound _ _ _ _ F ik s p _ x y E Hin) as ((H1 & H2 & _) & _). split; [exact H1|]. split; [exact H2|]. intros K. discriminate K.
    - destruct (HW i c rr occ p s Hc Hb Hps Hi CF Hat E) as (Hch & _).
      destruct (chain_sorted _ _ _ _ _ _ (ro_find _ _ _ R4) Hch) as (_ & _ & Htp & _).
      destruct (Htp _ _ Hin) as (H1 & H2 & H3). auto. }
  destruct TP as (T1 & T2 & T3).
  destruct (lm_range _ _ (ro_find _ _ _ R4) _ _ _ T1) as (Hlt & B1 & B2).
  assert (exists text, part_at s x y text) as (text & HT) by (apply part_of_boundaries; auto; lia).
  exists c, text. split; [exact Hc|]. split; [exact Hb|]. constructor; auto.
  - intros v Hv. apply c69_checks_lemma; [exact HE| |].
    + intros _. unfold short in *. destruct HT as (u & w & -> & _). rewrite !app_length in Hsh. lia.
    + apply T2; [|exact HT]. rewrite (cp_validator _ _ _ _ CF), Hv. reflexivity.
  - intros kc K1 K2. destruct (built_keywords _ _ _ H c kc (nth_error_In _ _ Hc) K1) as ([[[inc pinc]|] exc] & K3).
    2:{ destruct (compiled_keywords kc _ K3) as [[J _] _]. cbn in J. destruct K2. apply J. reflexivity. }
    pose proof (R5 kc inc pinc exc K1 K3). subst occ.
    assert (E : rr_included rr = Some {| ik_look_ahead := kc_look_ahead kc; ik_find := en_earliest en inc; ik_path_match := en_path en pinc |}).
    { apply (cp_included _ _ _ _ CF). exists kc, inc, pinc, exc. auto. }
    pose proof (c28_meaning_of_keywords_lemma kc (Some (inc, pinc)) exc K3 fold false inc pinc eq_refl) as M.
    destruct (rf_sound _ _ _ _ F _ s p _ x y E Hin) as (_ & [(u & v & U1 & n & (btw & U2 & U3) & U4)|[U1 U2]]).
    + left. apply M in U1 as (kw & w & W1 & W2 & W3). exists kw, w, u, v, btw. subst n. auto 10.
    + right. split; [exact U1|]. cbn [ik_path_match] in U2.
      apply (bh_path _ _ _ _ HB c kc inc pinc exc (nth_error_In _ _ Hc) K1 K3) in U2 as (u & v & U).
      apply M in U as (kw & w & W1 & W2 & W3). exists kw, w, u, v. auto.
  - intros kc K1 K2 K3. pose proof (built_keywords _ _ _ H c kc (nth_error_In _ _ Hc) K1) as K4.
    apply (built_excluded _ _ _ _ _ _ _ _ s x HB (nth_error_In _ _ Hc) CF K4 K1) in K3 as (xk & X1 & X2). refine (T3 _ xk X1 X2).
    apply (no_included_rule _ _ _ _ _ _ H Hc CF). intros k' K'. congruence.
Qed.
(* what the rule finds, if it has no included keywords *)
Lemma plain_matches : forall en fold b at_ t strs p s i c,
  build en b = Ret (Ok t) -> behaves en fold b at_ -> windows_fine b at_ strs -> In (p, s) strs ->
  nth_error (bu_rules b) i = Some c -> no_included c ->
  exists rr, compiled_from en c i rr /\ leftmost (rr_find rr) (at_ i) /\
    scan_chain rr (at_ i) true s 0 (fst (finders (bt_scanner t) i s p false (bu_kw_paths b))).
Proof.
  intros en fold b at_ t strs p s i c H HB HW Hps Hc Hk.
  destruct (built_rule _ _ _ _ _ H HB _ c Hc) as (rr & occ & R1 & CF & R3 & R4 & R5).
  assert (Hat : regex_rule_at (bt_scanner t) i rr (at_ i) occ).
  { exists (cf_action c), (cf_scope c), (cf_validation c). split; [exact R1|]. split; [exact (cp_index _ _ _ _ CF)|]. auto. }
  pose proof (proj2 (no_included_rule _ _ _ _ _ _ H Hc CF) Hk) as E1.
  exists rr. split; [exact CF|]. split; [exact (ro_find _ _ _ R4)|].
  apply (rf_plain _ _ _ _ (regex_rule_finds _ _ _ _ _ Hat)); [exact E1|eapply built_checkable; eauto].
Qed.
Lemma plain_matches_in : forall en fold b at_ t strs p s i c blocked,
  build en b = Ret (Ok t) -> behaves en fold b at_ -> searchable en b at_ (bt_scanner t) blocked strs -> In (p, s) strs ->
  nth_error (bu_rules b) i = Some c -> no_included c -> ~ In i blocked -> included (bu_wild b) (cf_scope c) p ->
  exists rr, compiled_from en c i rr /\ leftmost (rr_find rr) (at_ i) /\
    scan_chain rr (at_ i) true s 0 (fst (finders (bt_scanner t) i s p false (bu_kw_paths b))).
Proof.
  intros en fold b at_ t strs p s i c blocked H HB HW Hps Hc Hk Hb Hi.
  destruct (built_rule _ _ _ _ _ H HB _ c Hc) as (rr & occ & R1 & CF & R3 & R4 & R5).
  assert (Hat : regex_rule_at (bt_scanner t) i rr (at_ i) occ).
  { exists (cf_action c), (cf_scope c), (cf_validation c). split; [exact R1|]. split; [exact (cp_index _ _ _ _ CF)|]. auto. }
  pose proof (proj2 (no_included_rule _ _ _ _ _ _ H Hc CF) Hk) as E1.
  exists rr. split; [exact CF|]. split; [exact (ro_find _ _ _ R4)|].
  exact (proj1 (HW i c rr occ p s Hc Hb Hps Hi CF Hat E1)).
Qed.
Lemma not_included_found : forall en fold b at_ t strs p s i c blocked x y text,
  build en b = Ret (Ok t) -> behaves en fold b at_ -> sane_env (en_validators en) -> searchable en b at_ (bt_scanner t) blocked strs -> In (p, s) strs -> short s ->
  nth_error (bu_rules b) i = Some c -> no_included c -> ~ In i blocked -> justified en fold b c (at_ i) p s x y text ->
  exists x' y', x' <= x < y' /\ candidate (bt_scanner t) (finders (bt_scanner t)) blocked p s (i, x', y').
Proof.
  intros en fold b at_ t strs p s i c blocked x y text H HB HE HW Hps Hsh Hc Hk Hb J.
  destruct (plain_matches_in _ _ _ _ _ _ _ _ _ _ _ H HB HW Hps Hc Hk Hb (proj1 (jf_scope _ _ _ _ _ _ _ _ _ _ J))) as (rr & CF & L & Hch).
  destruct (chain_sorted _ _ _ _ _ _ L Hch) as (_ & _ & _ & Hall).
  destruct (Hall x y (Nat.le_0_l _)) as (x' & y' & Hin & Hx).
  - split; [exact (jf_regex _ _ _ _ _ _ _ _ _ _ J)|]. split.
    2:{ intros _ xk K1 K2. apply (cp_excluded _ _ _ _ CF) in K1 as K3. destruct K3 as (k & inc & exc & pexc & K3 & K4 & _).
        apply (jf_excluded _ _ _ _ _ _ _ _ _ _ J k K3 (Hk k K3)).
        apply (built_excluded _ _ _ _ _ _ _ _ s x HB (nth_error_In _ _ Hc) CF (ex_intro _ _ K4) K3). eauto. }
    intros valid u V U. rewrite (cp_validator _ _ _ _ CF) in V. destruct (cf_validator c) as [v|] eqn:Ev; [|discriminate V]. injection V as <-.
    rewrite (part_at_unique _ _ _ _ _ U (jf_text _ _ _ _ _ _ _ _ _ _ J)). apply c69_checks_lemma; [exact HE| |].
    + intros _. destruct (jf_text _ _ _ _ _ _ _ _ _ _ J) as (u' & w & -> & _). unfold short in *. rewrite !app_length in Hsh. lia.
    + apply (jf_check _ _ _ _ _ _ _ _ _ _ J). exact Ev.
  - exists x', y'. split; [exact Hx|]. destruct (built_rule _ _ _ _ _ H HB _ c Hc) as (rr' & occ & R1 & _).
    destruct (built_options _ _ _ H) as (O1 & O2 & _). destruct (jf_scope _ _ _ _ _ _ _ _ _ _ J) as [S1 S2].
    eexists. split; [exact R1|]. split; [exact Hb|]. cbn [rule_scope regex_compiled]. rewrite O1, O2. auto.
Qed.
(* matches of such a rule that share a byte are the same *)
Lemma sorted_same : forall (l : list (nat * nat)) a b c d n, StronglySorted (fun x y => snd x <= fst y) l -> In (a, b) l -> In (c, d) l ->
  a <= n < b -> c <= n < d -> a = c /\ b = d.
Proof.
  intros l a b c d n H. induction H as [|[u v] l Hs IH Hall]; intros H1 H2 N1 N2; [destruct H1|].
  rewrite Forall_forall in Hall. destruct H1 as [E1|H1], H2 as [E2|H2].
  - rewrite E1 in E2. injection E2 as -> ->. auto.
  - injection E1 as -> ->. specialize (Hall _ H2). cbn in Hall. lia.
  - injection E2 as -> ->. specialize (Hall _ H1). cbn in Hall. lia.
  - auto.
Qed.
Lemma same_match : forall en fold b at_ t strs p s i c blocked x y x' y' n,
  build en b = Ret (Ok t) -> behaves en fold b at_ -> searchable en b at_ (bt_scanner t) blocked strs -> In (p, s) strs ->
  nth_error (bu_rules b) i = Some c -> no_included c ->
  candidate (bt_scanner t) (finders (bt_scanner t)) blocked p s (i, x, y) ->
  candidate (bt_scanner t) (finders (bt_scanner t)) blocked p s (i, x', y') -> x <= n < y -> x' <= n < y' -> x = x' /\ y = y'.
Proof.
  intros en fold b at_ t strs p s i c blocked x y x' y' n H HB HW Hps Hc Hk (r & C3 & C4 & C5 & _ & C1) (r' & _ & _ & _ & _ & C2) N1 N2.
  assert (Hi : included (bu_wild b) (cf_scope c) p).
  { destruct (built_rule _ _ _ _ _ H HB _ c Hc) as (rr & occ & R1 & _). rewrite R1 in C3. injection C3 as <-.
    destruct (built_options _ _ _ H) as (_ & O2 & _). rewrite O2 in C5. exact C5. }
  destruct (plain_matches_in _ _ _ _ _ _ _ _ _ _ _ H HB HW Hps Hc Hk C4 Hi) as (rr & CF & L & Hch).
  destruct (chain_sorted _ _ _ _ _ _ L Hch) as (_ & Hs & _). destruct (built_options _ _ _ H) as (O1 & _). rewrite O1 in C1, C2.
  exact (sorted_same _ _ _ _ _ _ Hs C1 C2 N1 N2).
Qed.
Lemma cut_split : forall g0 cs k u, nth_error cs k = Some u -> exists after after',
  original g0 cs = original g0 (firstn k cs) ++ cut_old u ++ after /\ rewritten g0 cs = rewritten g0 (firstn k cs) ++ cut_new u ++ after'.
Proof.
  intros g0 cs k u Hu. destruct (original_nth g0 cs k u Hu) as (q & Hq). destruct (rewritten_nth g0 cs k u Hu) as (q' & Hq').
  exists q, q'. auto.
Qed.
Lemma cut_part : forall g0 cs k u, nth_error cs k = Some u ->
  part_at (original g0 cs) (nbytes (original g0 (firstn k cs))) (nbytes (original g0 (firstn k cs) ++ cut_old u)) (cut_old u).
Proof. intros g0 cs k u Hu. destruct (cut_split g0 cs k u Hu) as (q & _ & -> & _). exists (original g0 (firstn k cs)), q. auto. Qed.

(* -- multi-pass -- *)
Lemma in_some : forall A (P : A -> Prop) l, (forall x, In x l -> P x \/ ~ P x) -> (exists x, In x l /\ P x) \/ ~ exists x, In x l /\ P x.
Proof.
  intros A P l. induction l as [|a l IH]; intros D; [right; intros (x & [] & _)|].
  destruct (D a (or_introl eq_refl)) as [Y|N]; [left; exists a; split; [left; reflexivity|exact Y]|].
  destruct IH as [(x & Hx & Y)|N'].
  - intros x Hx. apply D. right. exact Hx.
  - left. exists x. split; [right; exact Hx|exact Y].
  - right. intros (x & [<-|Hx] & Y); [exact (N Y)|]. apply N'. eauto.
Qed.
Lemma skips_dec : forall p b sp, skips b p sp \/ ~ skips b p sp.
Proof.
  induction p as [|g p IH]; intros b sp.
  - destruct sp as [|g sp]; [left; constructor|right; intros H; inversion H].
  - destruct g as [f|i].
    + destruct sp as [|g sp]; [right; intros H; inversion H|].
      destruct (segment_eq_dec (Field f) g) as [<-|N]; [|right; intros H; inversion H; subst; apply N; reflexivity].
      destruct (IH false sp) as [Y|N]; [left; constructor; exact Y|right; intros H; inversion H; subst; auto].
    + destruct (IH true sp) as [Y|N]; [left; constructor; exact Y|].
      destruct b; [right; intros H; inversion H; subst; auto|].
      destruct sp as [|g sp]; [right; intros H; inversion H; subst; auto|].
      destruct (segment_eq_dec (Index i) g) as [<-|N']; [|right; intros H; inversion H; subst; auto].
      destruct (IH false sp) as [Y|N'']; [left; constructor; exact Y|right; intros H; inversion H; subst; auto].
Qed.
Lemma covers_dec : forall wild sp p, covers wild sp p \/ ~ covers wild sp p.
Proof.
  intros [] sp p; [|apply prefix_dec]. cbn [covers].
  destruct (in_some nat (fun n => skips false (firstn n p) sp) (List.seq 0 (S (length p)))) as [(n & _ & Y)|N].
  - intros n _. apply skips_dec.
  - left. exists (firstn n p), (skipn n p). split; [symmetry; apply firstn_skipn|exact Y].
  - right. intros (p1 & rest & -> & Y). apply N. exists (length p1). split; [apply in_seq; rewrite app_length; lia|].
    rewrite firstn_app, firstn_all, Nat.sub_diag, app_nil_r. exact Y.
Qed.
Lemma included_dec : forall wild s p, included wild s p \/ ~ included wild s p.
Proof. intros wild [inc exc|exc] p; [|left; exact I]. apply in_some. intros. apply covers_dec. Qed.
Lemma excluded_dec : forall wild s p, excluded wild s p \/ ~ excluded wild s p.
Proof. intros wild [inc exc|exc] p; apply in_some; intros; apply covers_dec. Qed.
Lemma found_excluded_dec : forall sc fs blocked strs t, found_excluded sc fs blocked strs t \/ ~ found_excluded sc fs blocked strs t.
Proof.
  intros sc fs blocked strs t.
  destruct (in_some (nat * (path * str)) (fun k => exists r, nth_error (sc_rules sc) (fst k) = Some r /\ ~ In (fst k) blocked /\
    included (sc_wild sc) (rule_scope r) (fst (snd k)) /\ excluded (sc_wild sc) (rule_scope r) (fst (snd k)) /\
    In t (snd (fs (fst k) (snd (snd k)) (fst (snd k)) true (sc_kw_paths sc)))) (list_prod (List.seq 0 (length (sc_rules sc))) strs)) as [Y|N].
  - intros (i & p & c) _. cbn [fst snd]. destruct (nth_error (sc_rules sc) i) as [r|] eqn:E; [|right; intros (r & Z & _); discriminate Z].
    destruct (in_dec Nat.eq_dec i blocked) as [B|B]; [right; intros (r' & _ & B' & _); exact (B' B)|].
    destruct (included_dec (sc_wild sc) (rule_scope r) p) as [I1|I1]; [|right; intros (r' & Z & _ & Q & _); injection Z as <-; exact (I1 Q)].
    destruct (excluded_dec (sc_wild sc) (rule_scope r) p) as [I2|I2]; [|right; intros (r' & Z & _ & _ & Q & _); injection Z as <-; exact (I2 Q)].
    destruct (in_dec (list_eq_dec N.eq_dec) t (snd (fs i c p true (sc_kw_paths sc)))) as [I3|I3]; [left; eauto 10|right; intros (r' & _ & _ & _ & _ & Q); exact (I3 Q)].
  - left. destruct Y as ((i & p & c) & K & r & Y). apply in_prod_iff in K as [_ K]. exists i, r, p, c. auto.
  - right. intros (i & r & p & c & K & E & Z). apply N. exists (i, (p, c)). split; [|exists r; auto].
    apply in_prod; [|exact K]. apply in_seq. split; [lia|]. apply nth_error_Some. congruence.
Qed.
Lemma suppressed_dec : forall sc fs blocked strs s i x y t, part_at s x y t ->
  suppressed sc fs blocked strs s (i, x, y) \/ ~ suppressed sc fs blocked strs s (i, x, y).
Proof.
  intros sc fs blocked strs s i x y t P. unfold suppressed.
  destruct (sc_multipass sc); [|right; intros [Z _]; discriminate Z].
  destruct (nth_error (sc_rules sc) i) as [r|]; [|right; intros (_ & (r & Z & _) & _); discriminate Z].
  destruct (rule_multipass r) eqn:M; [|right; intros (_ & (r' & Z & Z') & _); congruence].
  destruct (found_excluded_dec sc fs blocked strs t) as [Y|N]; [left; eauto 10|].
  right. intros (_ & _ & t' & P' & Y). rewrite (part_at_unique _ _ _ _ _ P' P) in Y. exact (N Y).
Qed.
Lemma everywhere_scope : forall wild p, included wild (ScopeExclude []) p /\ ~ excluded wild (ScopeExclude []) p.
Proof. intros wild p. split; [exact I|]. intros (sp & [] & _). Qed.
Lemma anywhere_none : forall s c, cf_keywords c = None -> cf_keywords (anywhere s c) = None.
Proof. intros s c K. cbn. rewrite K. reflexivity. Qed.
Lemma part_length : forall s x y t, part_at s x y t -> length t <= length s.
Proof. intros s x y t (u & v & -> & _). rewrite !app_length. lia. Qed.
(* a true positive of a rule that was built is justified without its scope *)
Lemma positive_anywhere : forall en fold b at_ t strs p s i c rr occ x y,
  build en b = Ret (Ok t) -> behaves en fold b at_ -> sane_env (en_validators en) -> In (p, s) strs -> short s ->
  nth_error (bu_rules b) i = Some c -> compiled_from en c i rr -> regex_ok rr (at_ i) occ ->
  (forall k inc pinc exc, cf_keywords c = Some k -> compile_keywords_proximity_config k = Ret (Ok (Some (inc, pinc), exc)) -> occ = kw_occurs fold inc) ->
  true_positive rr (at_ i) (match rr_included rr with None => true | Some _ => false end) s x y ->
  (forall ik, rr_included rr = Some ik -> (exists k ke, occ s k ke /\ k <= x) \/ keyword_in_path ik (bu_kw_paths b) p) ->
  exists text, justified en fold b (anywhere s c) (at_ i) p s x y text.
Proof.
  intros en fold b at_ t strs p s i c rr occ x y H HB HE Hps Hsh Hc CF RO R5 (T1 & T2 & T3) TK.
  destruct (lm_range _ _ (ro_find _ _ _ RO) _ _ _ T1) as (Hlt & B1 & B2).
  assert (exists text, part_at s x y text) as (text & HT) by (apply part_of_boundaries; auto; lia).
  exists text. constructor.
  - exact HT.
  - exact T1.
  - apply everywhere_scope.
  - intros v Hv. apply c69_checks_lemma; [exact HE| |].
    + intros _. pose proof (part_length _ _ _ _ HT). unfold short in *. lia.
    + apply T2; [|exact HT]. cbn in Hv. rewrite (cp_validator _ _ _ _ CF), Hv. reflexivity.
  - cbn [cf_keywords anywhere]. intros k' K1 K2. destruct (cf_keywords c) as [kc|] eqn:K; [|discriminate K1]. injection K1 as <-. cbn [kc_included] in K2.
    destruct (built_keywords _ _ _ H c kc (nth_error_In _ _ Hc) K) as ([[[inc pinc]|] exc] & K3).
    2:{ destruct (compiled_keywords kc _ K3) as [[J _] _]. cbn in J. destruct K2. apply J. reflexivity. }
    assert (E : rr_included rr = Some {| ik_look_ahead := kc_look_ahead kc; ik_find := en_earliest en inc; ik_path_match := en_path en pinc |}).
    { apply (cp_included _ _ _ _ CF). exists kc, inc, pinc, exc. auto. }
    rewrite (R5 kc inc pinc exc eq_refl K3) in *.
    pose proof (c28_meaning_of_keywords_lemma kc (Some (inc, pinc)) exc K3 fold false inc pinc eq_refl) as M.
    destruct (TK _ E) as [(u & v & U1 & U2)|[U1 U2]].
    + left. pose proof U1 as U1'. apply M in U1 as (kw & w & W1 & W2 & W3).
      assert (exists btw, part_at s u x btw) as (btw & W4).
      { apply part_of_boundaries; auto. destruct W3 as (q & z & r & -> & <- & _). exists q, (z ++ r). auto. }
      exists kw, w, u, v, btw. split; [exact W1|]. split; [exact W2|]. split; [exact W3|]. split; [exact W4|].
      cbn [kc_look_ahead]. destruct (kc_included kc); [destruct W1|]. exact (part_length _ _ _ _ W4).
    + right. split; [exact U1|]. cbn [ik_path_match] in U2.
      apply (bh_path _ _ _ _ HB c kc inc pinc exc (nth_error_In _ _ Hc) K K3) in U2 as (u & v & U).
      apply M in U as (kw & w & W1 & W2 & W3). exists kw, w, u, v. auto.
  - cbn [cf_keywords anywhere]. intros k' K1 K2. destruct (cf_keywords c) as [kc|] eqn:K; [|discriminate K1]. injection K1 as <-. cbn [kc_included] in K2.
    pose proof (built_keywords _ _ _ H c kc (nth_error_In _ _ Hc) K) as K4. intros K3.
    assert (K3' : excluded_before fold kc s x) by (unfold excluded_before in *; cbn [kc_look_ahead kc_excluded] in K3; rewrite K2 in K3; exact K3).
    apply (built_excluded _ _ _ _ _ _ _ _ s x HB (nth_error_In _ _ Hc) CF K4 K) in K3' as (xk & X1 & X2).
    assert (E : rr_included rr = None) by (apply (no_included_rule _ _ _ _ _ _ H Hc CF); intros k' K'; congruence).
    rewrite E in T3. exact (T3 eq_refl xk X1 X2).
Qed.
(* the texts that multi-pass records were passed over *)
Lemma excluded_passed_over : forall en fold b at_ t strs blocked text,
  build en b = Ret (Ok t) -> behaves en fold b at_ -> sane_env (en_validators en) -> searchable en b at_ (bt_scanner t) blocked strs ->
  (forall p s, In (p, s) strs -> short s) ->
  found_excluded (bt_scanner t) (finders (bt_scanner t)) blocked strs text ->
  exists i p s x y, In (p, s) strs /\ passed_over en fold b at_ blocked i p s x y text.
Proof.
  intros en fold b at_ t strs blocked text H HB HE HW Hsh (i & r & p & s & Hps & Hr & Hb & I1 & I2 & Hin).
  destruct (built_config _ _ _ H i r Hr) as (c & Hc).
  destruct (built_rule _ _ _ _ _ H HB _ c Hc) as (rr & occ & R1 & CF & R3 & R4 & R5). rewrite R1 in Hr. injection Hr as <-.
  cbn [rule_scope regex_compiled] in I1, I2. destruct (built_options _ _ _ H) as (O1 & O2 & O3). rewrite O2 in I1, I2. rewrite O1 in Hin.
  assert (Hat : regex_rule_at (bt_scanner t) i rr (at_ i) occ).
  { exists (cf_action c), (cf_scope c), (cf_validation c). split; [exact R1|]. split; [exact (cp_index _ _ _ _ CF)|]. auto. }
  pose proof (regex_rule_finds _ _ _ _ _ Hat) as F.
  assert (exists x y, part_at s x y text /\ true_positive rr (at_ i) (match rr_included rr with None => true | Some _ => false end) s x y /\
    forall ik, rr_included rr = Some ik -> (exists k ke, occ s k ke /\ k <= x) \/ keyword_in_path ik (bu_kw_paths b) p) as (x & y & P & TP & TK).
  { destruct (rr_included rr) as [ik|] eqn:E.
    - destruct (rf_excluded_sound _ _ _ _ F ik s p _ text E Hin) as (x & y & A & B & C). exists x, y. split; [exact B|]. split; [exact A|].
      intros ik' Z. injection Z as <-. exact C.
    - destruct (HW i c rr occ p s Hc Hb Hps I1 CF Hat E) as (_ & ms & Hch & Q). apply Q in Hin as (x & y & Hin & P).
      destruct (chain_sorted _ _ _ _ _ _ (ro_find _ _ _ R4) Hch) as (_ & _ & Htp & _). exists x, y. split; [exact P|]. split; [apply Htp; exact Hin|].
      intros ik Z. discriminate Z. }
  destruct (positive_anywhere en fold b at_ t strs p s i c rr occ x y) as (text' & J); eauto.
  rewrite (part_at_unique _ _ _ _ _ P (jf_text _ _ _ _ _ _ _ _ _ _ J)). exists i, p, s, x, y. split; [exact Hps|]. exists c. auto.
Qed.
Lemma suppressed_taken_back : forall en fold b at_ t strs blocked s i x y,
  build en b = Ret (Ok t) -> behaves en fold b at_ -> sane_env (en_validators en) -> searchable en b at_ (bt_scanner t) blocked strs ->
  (forall p s, In (p, s) strs -> short s) ->
  suppressed (bt_scanner t) (finders (bt_scanner t)) blocked strs s (i, x, y) ->
  exists text, part_at s x y text /\ taken_back en fold b at_ blocked strs text.
Proof.
  intros en fold b at_ t strs blocked s i x y H HB HE HW Hsh (M & _ & text & P & X). exists text. split; [exact P|].
  destruct (built_options _ _ _ H) as (_ & _ & O). split; [congruence|]. eapply excluded_passed_over; eauto.
Qed.
(* what a rule finds is taken back, or the scan keeps it *)
Lemma taken_or_not : forall en fold b at_ t strs blocked p s i c x y text,
  build en b = Ret (Ok t) -> behaves en fold b at_ -> sane_env (en_validators en) -> searchable en b at_ (bt_scanner t) blocked strs ->
  (forall p s, In (p, s) strs -> short s) -> justified en fold b c (at_ i) p s x y text ->
  taken_back en fold b at_ blocked strs text \/ ~ suppressed (bt_scanner t) (finders (bt_scanner t)) blocked strs s (i, x, y).
Proof.
  intros en fold b at_ t strs blocked p s i c x y text H HB HE HW Hsh J. pose proof (jf_text _ _ _ _ _ _ _ _ _ _ J) as P.
  destruct (suppressed_dec (bt_scanner t) (finders (bt_scanner t)) blocked strs s i x y text P) as [Y|N]; [left|right; exact N].
  destruct (suppressed_taken_back _ _ _ _ _ _ _ _ _ _ _ H HB HE HW Hsh Y) as (text' & P' & T).
  rewrite (part_at_unique _ _ _ _ _ P P'). exact T.
Qed.
(* nothing is taken back if no path is excluded for any rule *)
Lemma nothing_suppressed : forall en fold b at_ t fs blocked strs s i x y, build en b = Ret (Ok t) -> behaves en fold b at_ ->
  nothing_taken_back b -> ~ suppressed (bt_scanner t) fs blocked strs s (i, x, y).
Proof.
  intros en fold b at_ t fs blocked strs s i x y H HB Hm (K & _ & u & _ & i2 & r2 & p2 & c2 & _ & K2 & _ & _ & K5 & _).
  destruct (built_options _ _ _ H) as (O1 & O2 & O3). destruct Hm as [Hm|Hm]; [congruence|].
  destruct (built_config _ _ _ H i2 r2 K2) as (c3 & Hc3). destruct (built_rule _ _ _ _ _ H HB _ c3 Hc3) as (rr3 & occ3 & R3 & _).
  rewrite R3 in K2. injection K2 as <-. cbn [rule_scope regex_compiled] in K5. rewrite O2 in K5.
  exact (Hm c3 p2 (nth_error_In _ _ Hc3) K5).
Qed.
(* what is passed over is recorded, or something that covers its start *)
Lemma passed_over_found : forall en fold b at_ t strs blocked i p s x y text,
  build en b = Ret (Ok t) -> behaves en fold b at_ -> sane_env (en_validators en) -> searchable en b at_ (bt_scanner t) blocked strs ->
  (forall p s, In (p, s) strs -> short s) -> In (p, s) strs -> passed_over en fold b at_ blocked i p s x y text ->
  (forall c k, nth_error (bu_rules b) i = Some c -> cf_keywords c = Some k -> kc_included k <> [] ->
     exists kw w u v, In kw (kc_included k) /\ effective false kw w /\ occurs_as_word fold w w s u v /\ v <= x) ->
  exists x' y' text', x' <= x < y' /\ part_at s x' y' text' /\ at_ i s x' = Some y' /\
    found_excluded (bt_scanner t) (finders (bt_scanner t)) blocked strs text'.
Proof.
  intros en fold b at_ t strs blocked i p s x y text H HB HE HW Hsh Hps (c & Hc & Hb & I1 & I2 & J) HK.
  destruct (built_rule _ _ _ _ _ H HB _ c Hc) as (rr & occ & R1 & CF & R3 & R4 & R5).
  destruct (built_options _ _ _ H) as (O1 & O2 & O3).
  assert (Hat : regex_rule_at (bt_scanner t) i rr (at_ i) occ).
  { exists (cf_action c), (cf_scope c), (cf_validation c). split; [exact R1|]. split; [exact (cp_index _ _ _ _ CF)|]. auto. }
  pose proof (regex_rule_finds _ _ _ _ _ Hat) as F.
  assert (TP : true_positive rr (at_ i) (match rr_included rr with None => true | Some _ => false end) s x y).
  { split; [exact (jf_regex _ _ _ _ _ _ _ _ _ _ J)|]. split.
    - intros valid u V U. rewrite (cp_validator _ _ _ _ CF) in V. destruct (cf_validator c) as [v|] eqn:Ev; [|discriminate V]. injection V as <-.
      rewrite (part_at_unique _ _ _ _ _ U (jf_text _ _ _ _ _ _ _ _ _ _ J)). apply c69_checks_lemma; [exact HE| |].
      + intros _. pose proof (part_length _ _ _ _ (jf_text _ _ _ _ _ _ _ _ _ _ J)). pose proof (Hsh _ _ Hps). unfold short in *. lia.
      + apply (jf_check _ _ _ _ _ _ _ _ _ _ J). exact Ev.
    - intros Z xk K1 K2. destruct (rr_included rr) eqn:E; [discriminate Z|].
      pose proof (proj1 (no_included_rule _ _ _ _ _ _ H Hc CF) E) as NI.
      apply (cp_excluded _ _ _ _ CF) in K1 as K3. destruct K3 as (k & inc & exc & pexc & K3 & K4 & _).
      assert (X : excluded_before fold k s x).
      { apply (built_excluded _ _ _ _ _ _ _ _ s x HB (nth_error_In _ _ Hc) CF (ex_intro _ _ K4) K3). eauto. }
      refine (jf_excluded _ _ _ _ _ _ _ _ _ _ J _ _ _ _); [cbn; rewrite K3; reflexivity|exact (NI k K3)|].
      unfold excluded_before in *. cbn [kc_look_ahead kc_excluded]. rewrite (NI k K3). exact X. }
  assert (Q : exists x' y' text', x' <= x < y' /\ true_positive rr (at_ i) (match rr_included rr with None => true | Some _ => false end) s x' y' /\
    part_at s x' y' text' /\ In text' (snd (finders (bt_scanner t) i s p true (bu_kw_paths b)))).
  { destruct (rr_included rr) as [ik|] eqn:E.
    - pose proof E as E'. apply (cp_included _ _ _ _ CF) in E' as (k & inc & pinc & exc & K1 & K3 & ->).
      pose proof (R5 k inc pinc exc K1 K3). subst occ.
      pose proof (c28_meaning_of_keywords_lemma k (Some (inc, pinc)) exc K3 fold false inc pinc eq_refl) as M.
      destruct (HK c k Hc K1) as (kw & w & u & v & W1 & W2 & W3 & W4).
      { intros Z. destruct (compiled_keywords k _ K3) as [[_ J'] _]. specialize (J' Z). discriminate J'. }
      assert (O : kw_occurs fold inc s u v) by (apply M; exists kw, w; auto).
      destruct (rf_excluded_complete _ _ _ _ F _ s p (bu_kw_paths b) u v x y E O W4 TP) as (x' & y' & text' & Q1 & Q2 & Q3 & Q4).
      exists x', y', text'. auto.
    - destruct (HW i c rr occ p s Hc Hb Hps I1 CF Hat E) as (_ & ms & Hch & Q).
      destruct (chain_sorted _ _ _ _ _ _ (ro_find _ _ _ R4) Hch) as (_ & _ & Htp & Hall).
      destruct (Hall x y (Nat.le_0_l _) TP) as (x' & y' & Hin & L). pose proof (Htp _ _ Hin) as T.
      destruct T as (T1 & _). destruct (lm_range _ _ (ro_find _ _ _ R4) _ _ _ T1) as (Hlt & B1 & B2).
      assert (exists text', part_at s x' y' text') as (text' & HT) by (apply part_of_boundaries; auto; lia).
      exists x', y', text'. split; [exact L|]. split; [apply Htp; exact Hin|]. split; [exact HT|]. apply Q. eauto. }
  destruct Q as (x' & y' & text' & L & TP' & P & Hin).
  assert (X : found_excluded (bt_scanner t) (finders (bt_scanner t)) blocked strs text').
  { eexists i, _, p, s. split; [exact Hps|]. split; [exact R1|]. split; [exact Hb|]. cbn [rule_scope regex_compiled]. rewrite O1, O2. auto. }
  exists x', y', text'. split; [exact L|]. split; [exact P|]. split; [exact (proj1 TP')|exact X].
Qed.

(* what is found for a rule that redacts is touched by a piece *)
Lemma candidate_touched : forall en fold b at_ t strs p s blocked os g0 cs i c x y, build en b = Ret (Ok t) -> behaves en fold b at_ ->
  nth_error (bu_rules b) i = Some c -> cf_action c <> ActNone ->
  (forall i x y, candidate (bt_scanner t) (finders (bt_scanner t)) blocked p s (i, x, y) ->
     ~ suppressed (bt_scanner t) (finders (bt_scanner t)) blocked strs s (i, x, y) -> mutating_rule (bt_scanner t) i ->
     exists k o u r, nth_error os k = Some o /\ nth_error cs k = Some u /\ nth_error (sc_rules (bt_scanner t)) (rm_rule o) = Some r /\ rule_action r <> ActNone /\
       exists n, x <= n < y /\ nbytes (original g0 (firstn k cs)) <= n < nbytes (original g0 (firstn k cs) ++ cut_old u)) ->
  candidate (bt_scanner t) (finders (bt_scanner t)) blocked p s (i, x, y) ->
  ~ suppressed (bt_scanner t) (finders (bt_scanner t)) blocked strs s (i, x, y) -> touched b os g0 cs x y.
Proof.
  intros en fold b at_ t strs p s blocked os g0 cs i c x y H HB Hc Ha Hcomp Hcand Hns.
  destruct (built_rule _ _ _ _ _ H HB _ c Hc) as (rr & occ & R1 & _).
  assert (Hmut : mutating_rule (bt_scanner t) i) by (eexists; split; [exact R1|exact Ha]).
  destruct (Hcomp i x y Hcand Hns Hmut) as (k & o & u & r & Ho & Hu & Hr & Hra & n & N1 & N2).
  destruct (built_config _ _ _ H (rm_rule o) r Hr) as (c' & Hc').
  destruct (built_rule _ _ _ _ _ H HB _ c' Hc') as (rr' & occ' & R1' & _). rewrite R1' in Hr. injection Hr as <-.
  exists k, o, u, c'. split; [exact Ho|]. split; [exact Hu|]. split; [exact Hc'|]. split; [exact Hra|]. exists n. auto.
Qed.
(* all at once *)
Lemma c69_pieces :
  forall en fold b at_ t e srt fuel, build en b = Ret (Ok t) -> behaves en fold b at_ -> sane_env (en_validators en) ->
  sorter_ok srt -> distinct_keys e -> enough_fuel fuel (simple_strings e) ->
  (forall p s, In (p, s) (simple_strings e) -> short s) ->
  forall h blocked e' outs, scan simple_event_impl fuel h srt (bt_scanner t) blocked e = Ret (e', outs) ->
  scan_result simple_event_impl (simple_strings e) (simple_holds e) e' outs (fun p s s' os => exists g0 cs,
    s = original g0 cs /\ s' = rewritten g0 cs /\ length cs = length os /\
    (forall k o u, nth_error os k = Some o -> nth_error cs k = Some u -> ~ In (rm_rule o) blocked /\
      exists c, nth_error (bu_rules b) (rm_rule o) = Some c /\ cut_new u = redacted h (cf_action c) (cut_old u) /\
        justified en fold b c (at_ (rm_rule o)) p s (nbytes (original g0 (firstn k cs)))
          (nbytes (original g0 (firstn k cs) ++ cut_old u)) (cut_old u)) /\
    (forall i c x y text, nth_error (bu_rules b) i = Some c -> ~ In i blocked ->
      cf_action c <> ActNone -> no_included c -> justified en fold b c (at_ i) p s x y text ->
      exists x' y' text', x' <= x < y' /\ justified en fold b c (at_ i) p s x' y' text' /\
        (touched b os g0 cs x' y' \/ taken_back en fold b at_ blocked (simple_strings e) text')) /\
    (forall i c k, nth_error (bu_rules b) i = Some c -> ~ In i blocked -> cf_action c <> ActNone ->
      cf_keywords c = Some k -> kc_included k <> [] -> forall x y text, justified en fold b c (at_ i) p s x y text ->
      (bu_kw_paths b = true -> keyword_in_path_of fold k p -> exists x' y' text',
        x' <= x < y' /\ justified en fold b c (at_ i) p s x' y' text' /\
        (touched b os g0 cs x' y' \/ taken_back en fold b at_ blocked (simple_strings e) text')) /\
      (forall kw w u v between, In kw (kc_included k) -> effective false kw w -> occurs_as_word fold w w s u v ->
        v <= x -> part_at s u x between -> length between <= kc_look_ahead k -> exists x' y' text',
        x' <= x /\ (x < y' \/ u < x') /\ justified en fold b c (at_ i) p s x' y' text' /\
        (touched b os g0 cs x' y' \/ taken_back en fold b at_ blocked (simple_strings e) text')))).
Proof.
  intros en fold b at_ t e srt fuel H HB HE Hs Hd Hf Hsh h blocked e' outs Hscan.
  destruct (returned _ _ _ _ _ _ _ _ H HB Hs Hd Hf h blocked e' outs Hscan) as (HW & HR).
  eapply result_weaken; [|exact HR]. clear HR. intros p s s' os Hps HSC.
  assert (Hrange : forall i a b0, candidate (bt_scanner t) (finders (bt_scanner t)) blocked p s (i, a, b0) -> a < b0).
  { intros i x y K. destruct (candidate_justified _ _ _ _ _ _ _ _ _ _ _ _ H HB HE HW Hps (Hsh _ _ Hps) K) as (c & text & Hc & _ & J).
    destruct (built_rule _ _ _ _ _ H HB _ c Hc) as (rr & occ & _ & _ & _ & R4 & _).
    apply (lm_range _ _ (ro_find _ _ _ R4) _ _ _ (jf_regex _ _ _ _ _ _ _ _ _ _ J)). }
  destruct (scanned_mutating _ _ _ _ _ _ _ _ _ _ _ HSC Hrange) as (g0 & cs & (S1 & S2 & S3 & S4) & Hcomp).
  exists g0, cs.
  split; [exact S1|]. split; [exact S2|]. split; [exact S3|]. split; [|split].
  - intros k o u Ho Hu. destruct (S4 k o u Ho Hu) as (r & Hr & Hcand & Hn).
    destruct (candidate_justified _ _ _ _ _ _ _ _ _ _ _ _ H HB HE HW Hps (Hsh _ _ Hps) Hcand) as (c & text & Hc & Hb & J).
    split; [exact Hb|]. exists c. split; [exact Hc|].
    destruct (built_rule _ _ _ _ _ H HB _ c Hc) as (rr & occ & R1 & _). unfold rule_of in Hr. rewrite R1 in Hr. injection Hr as <-.
    split; [exact Hn|]. assert (E : text = cut_old u); [|rewrite E in J; exact J].
    eapply (part_at_unique s _ _ text (cut_old u)); [exact (jf_text _ _ _ _ _ _ _ _ _ _ J)|].
    rewrite S1. exact (cut_part g0 cs k u Hu).
  - intros i c x y text Hc Hb Ha Hk J.
    destruct (not_included_found _ _ _ _ _ _ _ _ _ _ _ _ _ _ H HB HE HW Hps (Hsh _ _ Hps) Hc Hk Hb J) as (x' & y' & Hx & Hcand).
    destruct (candidate_justified _ _ _ _ _ _ _ _ _ _ _ _ H HB HE HW Hps (Hsh _ _ Hps) Hcand) as (c0 & text' & Hc0 & _ & J').
    rewrite Hc in Hc0. injection Hc0 as <-. exists x', y', text'. split; [exact Hx|]. split; [exact J'|].
    destruct (taken_or_not en fold b at_ t (simple_strings e) blocked p s i c x' y' text' H HB HE HW Hsh J') as [Y|Hns]; [right; exact Y|left].
    destruct (built_rule _ _ _ _ _ H HB _ c Hc) as (rr & occ & R1 & _).
    assert (Hmut : mutating_rule (bt_scanner t) i) by (eexists; split; [exact R1|exact Ha]).
    destruct (Hcomp i x' y' Hcand Hns Hmut) as (k & o & u & r & Ho & Hu & Hr & Hra & _ & n & N1 & N2).
    destruct (built_config _ _ _ H (rm_rule o) r Hr) as (c' & Hc').
    destruct (built_rule _ _ _ _ _ H HB _ c' Hc') as (rr' & occ' & R1' & _). unfold rule_of in Hr. rewrite R1' in Hr. injection Hr as <-.
    exists k, o, u, c'. split; [exact Ho|]. split; [exact Hu|]. split; [exact Hc'|]. split; [exact Hra|]. exists n. auto.
  - intros i c k Hc Hb Ha K1 K2 x y text J.
    destruct (built_rule _ _ _ _ _ H HB _ c Hc) as (rr & occ & R1 & CF & R3 & R4 & R5).
    destruct (built_options _ _ _ H) as (O1 & O2 & O3).
    assert (Hat : regex_rule_at (bt_scanner t) i rr (at_ i) occ).
    { exists (cf_action c), (cf_scope c), (cf_validation c). split; [exact R1|]. split; [exact (cp_index _ _ _ _ CF)|]. auto. }
    pose proof (regex_rule_finds _ _ _ _ _ Hat) as F.
    destruct (built_keywords _ _ _ H c k (nth_error_In _ _ Hc) K1) as ([[[inc pinc]|] exc] & K3).
    2:{ destruct (compiled_keywords k _ K3) as [[Z _] _]. cbn in Z. destruct K2. apply Z. reflexivity. }
    pose proof (R5 k inc pinc exc K1 K3). subst occ.
    assert (E : rr_included rr = Some {| ik_look_ahead := kc_look_ahead k; ik_find := en_earliest en inc; ik_path_match := en_path en pinc |}).
    { apply (cp_included _ _ _ _ CF). exists k, inc, pinc, exc. auto. }
    pose proof (c28_meaning_of_keywords_lemma k (Some (inc, pinc)) exc K3 fold false inc pinc eq_refl) as M.
    assert (TP : true_positive rr (at_ i) false s x y).
    { split; [exact (jf_regex _ _ _ _ _ _ _ _ _ _ J)|]. split; [|intros Z; discriminate Z].
      intros valid u V U. rewrite (cp_validator _ _ _ _ CF) in V. destruct (cf_validator c) as [v|] eqn:Ev; [|discriminate V]. injection V as <-.
      rewrite (part_at_unique _ _ _ _ _ U (jf_text _ _ _ _ _ _ _ _ _ _ J)). apply c69_checks_lemma; [exact HE| |].
      - intros _. destruct (jf_text _ _ _ _ _ _ _ _ _ _ J) as (u' & w & -> & _). pose proof (Hsh _ _ Hps) as Z. unfold short in *. rewrite !app_length in Z. lia.
      - apply (jf_check _ _ _ _ _ _ _ _ _ _ J). exact Ev. }
    assert (Found : forall x' y', In (x', y') (fst (finders (bt_scanner t) i s p false (bu_kw_paths b))) ->
      exists text', justified en fold b c (at_ i) p s x' y' text' /\
        (touched b os g0 cs x' y' \/ taken_back en fold b at_ blocked (simple_strings e) text')).
    { intros x' y' Hin. assert (Hcand : candidate (bt_scanner t) (finders (bt_scanner t)) blocked p s (i, x', y')).
      { destruct (jf_scope _ _ _ _ _ _ _ _ _ _ J) as [Z1 Z2]. eexists. split; [exact R1|]. split; [exact Hb|].
        cbn [rule_scope regex_compiled]. rewrite O1, O2. auto. }
      destruct (candidate_justified _ _ _ _ _ _ _ _ _ _ _ _ H HB HE HW Hps (Hsh _ _ Hps) Hcand) as (c0 & text' & Hc0 & _ & J').
      rewrite Hc in Hc0. injection Hc0 as <-. exists text'. split; [exact J'|].
      destruct (taken_or_not en fold b at_ t (simple_strings e) blocked p s i c x' y' text' H HB HE HW Hsh J') as [Y|Hns]; [right; exact Y|left].
      eapply (candidate_touched en fold b at_ t (simple_strings e)); eauto.
      intros i0 x0 y0 C1 C2 C3. destruct (Hcomp i0 x0 y0 C1 C2 C3) as (k0 & o & u & r & Q1 & Q2 & Q3 & Q4 & _ & Q5). exists k0, o, u, r. auto 10. }
    split.
    + intros P1 (kw & w & u & v & W1 & W2 & W3). destruct (rf_path _ _ _ _ F _ s p (bu_kw_paths b) x y E) as (x' & y' & Hin & Hx).
      * split; [exact P1|]. cbn [ik_path_match]. apply (bh_path _ _ _ _ HB c k inc pinc exc (nth_error_In _ _ Hc) K1 K3). exists u, v. apply M. exists kw, w. auto.
      * exact TP.
      * destruct (Found x' y' Hin) as (text' & Q1 & Q2). exists x', y', text'. auto.
    + intros kw w u v btw W1 W2 W3 L1 L2 L3. destruct (rf_complete _ _ _ _ F _ s p (bu_kw_paths b) x y u v E TP) as (x' & y' & Hin & Hx & Hxy).
      * apply M. exists kw, w. auto.
      * exact L1.
      * exists (length btw). split; [exists btw; auto|exact L3].
      * destruct (Found x' y' Hin) as (text' & Q1 & Q2). exists x', y', text'. auto.
Qed.

Lemma c69_scan_lemma :
  forall en fold b at_ t e srt fuel, build en b = Ret (Ok t) -> behaves en fold b at_ -> sane_env (en_validators en) ->
  sorter_ok srt -> distinct_keys e -> enough_fuel fuel (simple_strings e) ->
  (forall p s, In (p, s) (simple_strings e) -> short s) ->
  forall h blocked e' outs, scan simple_event_impl fuel h srt (bt_scanner t) blocked e = Ret (e', outs) ->
  scan_result simple_event_impl (simple_strings e) (simple_holds e) e' outs (fun p s s' os => exists g0 cs,
    s = original g0 cs /\ s' = rewritten g0 cs /\ length cs = length os /\
    (forall k o u, nth_error os k = Some o -> nth_error cs k = Some u -> ~ In (rm_rule o) blocked /\
      exists c, nth_error (bu_rules b) (rm_rule o) = Some c /\ cut_new u = redacted h (cf_action c) (cut_old u) /\
        justified en fold b c (at_ (rm_rule o)) p s (nbytes (original g0 (firstn k cs)))
          (nbytes (original g0 (firstn k cs) ++ cut_old u)) (cut_old u)) /\
    (forall i c x y text, nth_error (bu_rules b) i = Some c -> ~ In i blocked ->
      cf_action c <> ActNone -> no_included c -> justified en fold b c (at_ i) p s x y text ->
      exists x' y' text', x' <= x < y' /\ justified en fold b c (at_ i) p s x' y' text' /\
        (touched b os g0 cs x' y' \/ taken_back en fold b at_ blocked (simple_strings e) text'))).
Proof.
  intros en fold b at_ t e srt fuel H HB HE Hs Hd Hf Hsh h blocked e' outs Hscan.
  pose proof (c69_pieces en fold b at_ t e srt fuel H HB HE Hs Hd Hf Hsh h blocked e' outs Hscan) as R.
  eapply result_weaken; [|exact R]. intros p s s' os _ (g0 & cs & S1 & S2 & S3 & S4 & S5 & S6). exists g0, cs. auto 10.
Qed.

Lemma c69_returns_lemma :
  forall en fold b at_ t e srt fuel, build en b = Ret (Ok t) -> behaves en fold b at_ ->
  sorter_ok srt -> distinct_keys e -> enough_fuel fuel (simple_strings e) -> windows_fine b at_ (simple_strings e) ->
  forall h blocked, exists e' outs, scan simple_event_impl fuel h srt (bt_scanner t) blocked e = Ret (e', outs).
Proof.
  intros en fold b at_ t e srt fuel H HB Hs Hd Hf HW h blocked.
  pose proof (built_regex_scanner _ _ _ _ _ _ H HB HW) as HR.
  exact (scan_returns _ _ _ _ _ _ _ _ _ (simple_setting srt (bt_scanner t) e fuel Hs Hd HR Hf) h blocked).
Qed.

Lemma c69_included_lemma :
  forall en fold b at_ t e srt fuel, build en b = Ret (Ok t) -> behaves en fold b at_ -> sane_env (en_validators en) ->
  sorter_ok srt -> distinct_keys e -> enough_fuel fuel (simple_strings e) ->
  (forall p s, In (p, s) (simple_strings e) -> short s) ->
  forall h blocked e' outs, scan simple_event_impl fuel h srt (bt_scanner t) blocked e = Ret (e', outs) ->
  scan_result simple_event_impl (simple_strings e) (simple_holds e) e' outs (fun p s s' os => exists g0 cs,
    s = original g0 cs /\ s' = rewritten g0 cs /\ length cs = length os /\
    (forall k o u, nth_error os k = Some o -> nth_error cs k = Some u -> ~ In (rm_rule o) blocked /\
      exists c, nth_error (bu_rules b) (rm_rule o) = Some c /\ cut_new u = redacted h (cf_action c) (cut_old u) /\
        justified en fold b c (at_ (rm_rule o)) p s (nbytes (original g0 (firstn k cs)))
          (nbytes (original g0 (firstn k cs) ++ cut_old u)) (cut_old u)) /\
    (forall i c k, nth_error (bu_rules b) i = Some c -> ~ In i blocked -> cf_action c <> ActNone ->
      cf_keywords c = Some k -> kc_included k <> [] -> forall x y text, justified en fold b c (at_ i) p s x y text ->
      (bu_kw_paths b = true -> keyword_in_path_of fold k p -> exists x' y' text',
        x' <= x < y' /\ justified en fold b c (at_ i) p s x' y' text' /\
        (touched b os g0 cs x' y' \/ taken_back en fold b at_ blocked (simple_strings e) text')) /\
      (forall kw w u v between, In kw (kc_included k) -> effective false kw w -> occurs_as_word fold w w s u v ->
        v <= x -> part_at s u x between -> length between <= kc_look_ahead k -> exists x' y' text',
        x' <= x /\ (x < y' \/ u < x') /\ justified en fold b c (at_ i) p s x' y' text' /\
        (touched b os g0 cs x' y' \/ taken_back en fold b at_ blocked (simple_strings e) text')))).
Proof.
  intros en fold b at_ t e srt fuel H HB HE Hs Hd Hf Hsh h blocked e' outs Hscan.
  pose proof (c69_pieces en fold b at_ t e srt fuel H HB HE Hs Hd Hf Hsh h blocked e' outs Hscan) as R.
  eapply result_weaken; [|exact R]. intros p s s' os _ (g0 & cs & S1 & S2 & S3 & S4 & S5 & S6). exists g0, cs. auto 10.
Qed.

Lemma c69_alone_lemma :
  forall en fold b at_ t e srt fuel, build en b = Ret (Ok t) -> behaves en fold b at_ -> sane_env (en_validators en) ->
  sorter_ok srt -> distinct_keys e -> enough_fuel fuel (simple_strings e) ->
  (forall p s, In (p, s) (simple_strings e) -> short s) ->
  forall h blocked e' outs, scan simple_event_impl fuel h srt (bt_scanner t) blocked e = Ret (e', outs) ->
  scan_result simple_event_impl (simple_strings e) (simple_holds e) e' outs (fun p s s' os =>
    forall i c, nth_error (bu_rules b) i = Some c -> ~ In i blocked -> cf_action c <> ActNone -> no_included c ->
    (forall j c', nth_error (bu_rules b) j = Some c' -> cf_action c' <> ActNone -> j = i) ->
    forall x y text, justified en fold b c (at_ i) p s x y text ->
    exists before old after, s = before ++ old ++ after /\ nbytes before <= x < nbytes before + nbytes old /\
      ((exists before' after', s' = before' ++ redacted h (cf_action c) old ++ after') \/
       taken_back en fold b at_ blocked (simple_strings e) old)).
Proof.
  intros en fold b at_ t e srt fuel H HB HE Hs Hd Hf Hsh h blocked e' outs Hscan.
  destruct (returned _ _ _ _ _ _ _ _ H HB Hs Hd Hf h blocked e' outs Hscan) as (HW & HR).
  eapply result_weaken; [|exact HR]. clear HR. intros p s s' os Hps HSC.
  assert (Hrange : forall i a b0, candidate (bt_scanner t) (finders (bt_scanner t)) blocked p s (i, a, b0) -> a < b0).
  { intros i x y K. destruct (candidate_justified _ _ _ _ _ _ _ _ _ _ _ _ H HB HE HW Hps (Hsh _ _ Hps) K) as (c & text & Hc & _ & J).
    destruct (built_rule _ _ _ _ _ H HB _ c Hc) as (rr & occ & _ & _ & _ & R4 & _).
    apply (lm_range _ _ (ro_find _ _ _ R4) _ _ _ (jf_regex _ _ _ _ _ _ _ _ _ _ J)). }
  destruct (scanned_mutating _ _ _ _ _ _ _ _ _ _ _ HSC Hrange) as (g0 & cs & (S1 & S2 & S3 & S4) & Hcomp).
  intros i c Hc Hb Ha Hk Hone x y text J.
  destruct (not_included_found _ _ _ _ _ _ _ _ _ _ _ _ _ _ H HB HE HW Hps (Hsh _ _ Hps) Hc Hk Hb J) as (x' & y' & Hx & Hcand).
  destruct (built_rule _ _ _ _ _ H HB _ c Hc) as (rr & occ & R1 & CF & _ & R4 & _).
  destruct (candidate_justified _ _ _ _ _ _ _ _ _ _ _ _ H HB HE HW Hps (Hsh _ _ Hps) Hcand) as (c0 & text' & Hc0 & _ & J').
  rewrite Hc in Hc0. injection Hc0 as <-.
  destruct (taken_or_not en fold b at_ t (simple_strings e) blocked p s i c x' y' text' H HB HE HW Hsh J') as [Y|Hns].
  { destruct (jf_text _ _ _ _ _ _ _ _ _ _ J') as (before & after & Es & E1 & E2). exists before, text', after.
    split; [exact Es|]. rewrite nbytes_app in E2. split; [lia|right; exact Y]. }
  assert (Hmut : mutating_rule (bt_scanner t) i) by (eexists; split; [exact R1|exact Ha]).
  destruct (Hcomp i x' y' Hcand Hns Hmut) as (k & o & u & r & Ho & Hu & Hr & Hra & _ & n & N1 & N2).
  destruct (built_config _ _ _ H (rm_rule o) r Hr) as (c' & Hc').
  destruct (built_rule _ _ _ _ _ H HB _ c' Hc') as (rr' & occ' & R1' & _). pose proof Hr as Hr'. unfold rule_of in Hr'. rewrite R1' in Hr'. injection Hr' as <-.
  pose proof (Hone _ _ Hc' Hra) as E. rewrite E in *. rewrite Hc in Hc'. injection Hc' as <-.
  destruct (S4 k o u Ho Hu) as (r & Hr2 & Hcand2 & Hn). rewrite E in *. unfold rule_of in Hr2. rewrite E, R1 in Hr2. injection Hr2 as <-.
  assert (Heq : nbytes (original g0 (firstn k cs)) = x' /\ nbytes (original g0 (firstn k cs) ++ cut_old u) = y').
  { eapply (same_match en fold b at_ t (simple_strings e) p s); eauto. }
  destruct Heq as [E1 E2]. rewrite nbytes_app in E2.
  destruct (cut_split g0 cs k u Hu) as (after & after' & A1 & A2).
  exists (original g0 (firstn k cs)), (cut_old u), after.
  split; [congruence|]. split; [lia|]. left. exists (rewritten g0 (firstn k cs)), after'. rewrite S2, A2, Hn. reflexivity.
Qed.

Lemma c69_multipass_lemma :
  forall en fold b at_ t e srt fuel, build en b = Ret (Ok t) -> behaves en fold b at_ -> sane_env (en_validators en) ->
  sorter_ok srt -> distinct_keys e -> enough_fuel fuel (simple_strings e) ->
  (forall p s, In (p, s) (simple_strings e) -> short s) -> bu_multipass b = true ->
  forall blocked i p s x y text, In (p, s) (simple_strings e) -> passed_over en fold b at_ blocked i p s x y text ->
  (forall c k, nth_error (bu_rules b) i = Some c -> cf_keywords c = Some k -> kc_included k <> [] ->
     exists kw w u v, In kw (kc_included k) /\ effective false kw w /\ occurs_as_word fold w w s u v /\ v <= x) ->
  exists x' y' text', x' <= x < y' /\ part_at s x' y' text' /\ at_ i s x' = Some y' /\
  forall h e' outs, scan simple_event_impl fuel h srt (bt_scanner t) blocked e = Ret (e', outs) ->
  scan_result simple_event_impl (simple_strings e) (simple_holds e) e' outs (fun p s s' os => exists g0 cs,
    s = original g0 cs /\ s' = rewritten g0 cs /\ length cs = length os /\ forall u, In u cs -> cut_old u <> text').
Proof.
  intros en fold b at_ t e srt fuel H HB HE Hs Hd Hf Hsh HM blocked i p s x y text Hps PO HK.
  assert (D : (forall h, scan simple_event_impl fuel h srt (bt_scanner t) blocked e = Panic) \/ searchable en b at_ (bt_scanner t) blocked (simple_strings e)).
  { destruct (built_made _ _ _ _ _ H HB) as (rrs & occs & HMd & _).
    destruct (scan_or _ _ _ _ HMd blocked simple_event_impl clen srt e _ _ {| hash_utf8 := fun u => u; hash_utf16 := fun u => u |} fuel utf8_shifts utf8_indices Hs (simple_laws e Hd) Hf) as [(T & _)|(T & _)].
    - left. intros h. destruct (scan_or _ _ _ _ HMd blocked simple_event_impl clen srt e _ _ h fuel utf8_shifts utf8_indices Hs (simple_laws e Hd) Hf) as [(_ & P)|(T' & _)]; [exact P|contradiction].
    - right. exact (untripped_searchable _ _ _ _ _ _ _ _ _ H HB HMd T). }
  destruct D as [D|HW].
  { destruct PO as (c & Hc & _ & _ & _ & J). exists x, y, text. pose proof (jf_regex _ _ _ _ _ _ _ _ _ _ J) as A.
    destruct (built_rule _ _ _ _ _ H HB _ c Hc) as (rr & occ & _ & _ & _ & R4 & _).
    destruct (lm_range _ _ (ro_find _ _ _ R4) _ _ _ A) as (L & _).
    split; [lia|]. split; [exact (jf_text _ _ _ _ _ _ _ _ _ _ J)|]. split; [exact A|]. intros h e' outs K. rewrite D in K. discriminate K. }
  destruct (passed_over_found _ _ _ _ _ _ _ _ _ _ _ _ _ H HB HE HW Hsh Hps PO HK) as (x' & y' & text' & L & P & A & X).
  exists x', y', text'. split; [exact L|]. split; [exact P|]. split; [exact A|]. intros h e' outs Hscan.
  destruct (returned _ _ _ _ _ _ _ _ H HB Hs Hd Hf h blocked e' outs Hscan) as (_ & HR).
  eapply result_weaken; [|exact HR]. intros p2 s2 s2' os Hps2 Hsc.
  destruct (scanned_cuts _ _ _ _ _ _ _ _ _ _ _ Hsc) as (cands & kept & g0 & cs & Hc & Hr & (S1 & S2 & S3 & S4) & Hl & Hk).
  exists g0, cs. split; [exact S1|]. split; [exact S2|]. split; [exact S3|]. intros u Hu Eu.
  apply In_nth_error in Hu as (k & Hu).
  destruct (nth_in_both _ _ cs os k u S3 Hu) as (o & Ho). destruct (nth_in_both _ _ os kept k o (eq_sym Hl) Ho) as (m & Hm).
  destruct (Hk k m o u Hm Ho Hu) as (E1 & _ & E2 & E3 & _).
  assert (Hin : In (key m) (map key cands)) by (apply in_map, (rs_genuine _ _ _ Hr); eapply nth_error_In; exact Hm).
  apply Hc in Hin as [(r & Hrr & _) Hns]. apply Hns. clear Hns.
  destruct (built_options _ _ _ H) as (O1 & O2 & O3). unfold key. split; [congruence|]. split.
  - destruct (built_config _ _ _ H _ _ Hrr) as (c & Hcc). destruct (built_rule _ _ _ _ _ H HB _ c Hcc) as (rr & occ & R1 & _).
    exists r. split; [exact Hrr|]. rewrite R1 in Hrr. injection Hrr as <-. reflexivity.
  - exists text'. split; [|exact X]. rewrite E2, E3, S1, <- Eu. exact (cut_part g0 cs k u Hu).
Qed.

Lemma c70_prefix_lemma :
  forall p prefix, starts_with p prefix = true <-> exists rest, p = prefix ++ rest.
Proof.
  intros p prefix. unfold starts_with. revert p. induction prefix as [|x prefix IH]; intros p.
  - cbn. split; [intros _; exists p; reflexivity|reflexivity].
  - destruct p as [|y p]; [cbn; split; [discriminate|intros (r & E); discriminate E]|].
    change (length (y :: p) <? length (x :: prefix)) with (length p <? length prefix). cbn [zip_all_eq]. specialize (IH p).
    destruct (length p <? length prefix).
    + split; [discriminate|]. intros (r & E). injection E as _ E. apply IH. eauto.
    + rewrite andb_true_iff, segment_eqb_eq. split.
      * intros [-> K]. apply IH in K as (r & ->). exists r. reflexivity.
      * intros (r & E). injection E as -> ->. split; [reflexivity|]. apply IH. eauto.
Qed.

