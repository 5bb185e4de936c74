(* From the rules of a Go program to its events (C96): proofs of the statements of Thm/GoToGo.v *)
From Coq Require Import Lia Permutation.
From Verif Require Import Proofs.Text Proofs.ConfigLemmas Proofs.Hash Proofs.RegexScan Proofs.GoScan Proofs.Panics.
From Verif Require Export Proofs.AsWrittenClaims Proofs.CodecClaims Proofs.PanicsClaims Proofs.JsonRulesClaims Proofs.NativeClaims Spec.GoToGo.

(* -- what a rule of Go is as a configuration -- *)
Definition go_builder (configs : list rule_config) : builder :=
  {| bu_rules := configs; bu_labels := []; bu_kw_paths := false; bu_wild := false; bu_multipass := true |}.
Lemma written_go : forall E g c s, go_rule_means g c -> as_written E c s = go_written E g s.
Proof. intros E g c s M. unfold as_written, go_written. rewrite (gr_means_pattern _ _ M). reflexivity. Qed.
Lemma good_go : forall E g c, go_rule_means g c -> go_good E g -> good_pattern E c.
Proof.
  intros E g c M (A & B). split; [rewrite (gr_means_pattern _ _ M); exact A|]. intros s i L. rewrite (written_go E g c s M). apply B, L.
Qed.
Lemma redacts_go : forall g c, go_rule_means g c -> (go_redacts g <-> cf_action c <> ActNone).
Proof.
  intros g c M. unfold go_redacts. destruct (gr_means_action _ _ M) as [K|K|K|K D|K D]; rewrite K; split; intros H; try congruence;
    try (destruct H; reflexivity); vm_compute; discriminate.
Qed.
Lemma validator_go : forall g c, go_rule_means g c -> forall v, go_validator_means (gr_validator g) (Some v) <-> cf_validator c = Some v.
Proof.
  intros g c M v. split; [|intros <-; exact (gr_means_validator _ _ M)].
  intros H. pose proof (gr_means_validator _ _ M) as K. destruct K; inversion H; reflexivity.
Qed.
Lemma unchecked_go : forall g c, go_rule_means g c -> (gr_validator g = [] <-> cf_validator c = None).
Proof.
  intros g c M. destruct (gr_means_validator _ _ M); split; intros H; try reflexivity; discriminate H.
Qed.
Lemma keywords_go : forall g c k, go_rule_means g c -> gr_keywords g = Some k -> cf_keywords c = Some (go_keywords_mean k).
Proof. intros g c k M K. rewrite (gr_means_keywords _ _ M), K. reflexivity. Qed.
Lemma keywords_go_inv : forall g c k, go_rule_means g c -> cf_keywords c = Some k -> exists k', gr_keywords g = Some k' /\ k = go_keywords_mean k'.
Proof.
  intros g c k M. rewrite (gr_means_keywords _ _ M). destruct (gr_keywords g) as [k'|]; [|discriminate]. intros H. injection H as <-. eauto.
Qed.
Lemma everywhere : forall wild p, included wild (ScopeExclude []) p /\ ~ excluded wild (ScopeExclude []) p.
Proof. intros wild p. split; [exact Logic.I|]. intros (sp & [] & _). Qed.
Lemma accounted_go : forall E en fold configs g c p s i j t, go_rule_means g c ->
  (accounted E en fold (go_builder configs) c p s i j t <-> go_accounted E en fold g s i j t).
Proof.
  intros E en fold configs g c p s i j t M. split.
  - intros [A B C D F G]. constructor.
    + exact A.
    + rewrite <- (written_go E g c s M). exact B.
    + intros v K. apply D. apply (validator_go g c M). exact K.
    + intros k K N. destruct (F _ (keywords_go g c k M K) N) as [X|[X _]]; [exact X|discriminate X].
    + intros k K N. apply (G _ (keywords_go g c k M K) N).
  - intros [A B D F G]. constructor.
    + exact A.
    + rewrite (written_go E g c s M). exact B.
    + rewrite (gr_means_scope _ _ M). apply everywhere.
    + intros v K. apply D. apply (validator_go g c M). exact K.
    + intros k K N. destruct (keywords_go_inv g c k M K) as (k' & K' & ->). left. apply (F k' K' N).
    + intros k K N. destruct (keywords_go_inv g c k M K) as (k' & K' & ->). apply (G k' K' N).
Qed.
Lemma untaken : forall E en fold gs configs blocked strs t, Forall2 go_rule_means gs configs ->
  ~ taken_as_written E en fold (go_builder configs) blocked strs t.
Proof.
  intros E en fold gs configs blocked strs t F (_ & r & p & s & i & j & _ & c & Hc & _ & _ & X & _).
  destruct (nth_error gs r) as [g|] eqn:Hg.
  - assert (M : go_rule_means g c). { clear X. revert r Hc Hg. induction F as [|g' c' gs configs M F IH]; intros [|r] Hc Hg; try discriminate; cbn in *; [congruence|eauto]. }
    rewrite (gr_means_scope _ _ M) in X. exact (proj2 (everywhere _ p) X).
  - clear X. revert r Hc Hg. cbn [bu_rules go_builder]. induction F as [|g' c' gs configs M F IH]; intros [|r] Hc Hg; try discriminate; cbn in *; eauto.
Qed.
Lemma means_nth : forall gs configs, Forall2 go_rule_means gs configs -> forall r,
  (forall c, nth_error configs r = Some c -> exists g, nth_error gs r = Some g /\ go_rule_means g c) /\
  (forall g, nth_error gs r = Some g -> exists c, nth_error configs r = Some c /\ go_rule_means g c).
Proof.
  intros gs configs F. induction F as [|g c gs configs M F IH]; intros [|r]; cbn [nth_error]; (split; [intros c' H|intros g' H]); try discriminate H.
  - injection H as <-. eauto.
  - injection H as <-. eauto.
  - apply (proj1 (IH r)), H.
  - apply (proj2 (IH r)), H.
Qed.

(* -- the scan of one event, in terms of the rules of Go -- *)
Lemma go_pieces : forall E fold en gs configs t e srt fuel, Forall2 go_rule_means gs configs -> build en (go_builder configs) = Ret (Ok t) ->
  crate_ok E en -> plain_env E -> (forall c d, same_letter E c d <-> fold c = fold d) -> (forall g, In g gs -> go_good E g) ->
  sane_env (en_validators en) -> sorter_ok srt -> distinct_keys e -> enough_fuel fuel (simple_strings e) ->
  (forall p s, In (p, s) (simple_strings e) -> short s) ->
  (exists rrs ats occs, made_of (bt_scanner t) rrs ats occs) /\
  (forall h, go_windows E gs (simple_strings e) -> scan simple_event_impl fuel h srt (bt_scanner t) [] e <> Panic) /\
  forall h e' outs, scan simple_event_impl fuel h srt (bt_scanner t) [] e = Ret (e', outs) ->
  scan_result simple_event_impl (simple_strings e) (simple_holds e) e' outs (fun p s s' os => go_cut E en fold h gs s s' os).
Proof.
  intros E fold en gs configs t e srt fuel F H CK PE HE HG HV Hs Hd Hf Hsh.
  assert (HG' : forall c, In c (bu_rules (go_builder configs)) -> good_pattern E c).
  { intros c Hc. destruct (In_nth_error _ _ Hc) as (r & Hr). destruct (proj1 (means_nth gs configs F r) c Hr) as (g & Hg & M).
    apply (good_go E g c M), HG. eapply nth_error_In; eauto. }
  assert (HW' : go_windows E gs (simple_strings e) -> windows_as_written E (go_builder configs) (simple_strings e)).
  { intros HW c k Hc K1 K2 K3 p s i j Hps L Mt. destruct (In_nth_error _ _ Hc) as (r & Hr). destruct (proj1 (means_nth gs configs F r) c Hr) as (g & Hg & M).
    destruct (keywords_go_inv g c k M K1) as (k' & K' & ->). rewrite (written_go E g c s M) in Mt.
    apply (HW g k' (nth_error_In _ _ Hg) K' K2 K3 p s i j Hps L Mt). }
  split.
  { pose proof (crate_behaves E fold en (go_builder configs) t H CK PE HE HG') as HB.
    destruct (built_made en fold (go_builder configs) (AsWrittenClaims.rule_at en (go_builder configs)) t H HB) as (rrs & occs & HM & _). eauto. }
  split.
  { intros h HW K. destruct (c79_returns_lemma E fold en (go_builder configs) t e srt fuel H CK PE HE HG' Hs Hd Hf (HW' HW) h []) as (e' & outs & Hscan).
    rewrite Hscan in K. discriminate K. }
  intros h e' outs Hscan.
  pose proof (c79_pieces E fold en (go_builder configs) t e srt fuel H CK PE HE HG' HV Hs Hd Hf Hsh h [] e' outs Hscan) as R.
  eapply result_weaken; [|exact R]. intros p s s' os Hps (g0 & cs & S1 & S2 & S3 & S4 & S5 & S6).
  assert (Cov : forall i j, (exists k o u c', nth_error os k = Some o /\ nth_error cs k = Some u /\
           nth_error configs (rm_rule o) = Some c' /\ cf_action c' <> ActNone /\
           i < length (original g0 (firstn k cs)) + length (cut_old u) /\ length (original g0 (firstn k cs)) < j) ->
           go_covered gs os g0 cs i j).
  { intros i j (k & o & u & c' & Q1 & Q2 & Q3 & Q4 & Q5). destruct (proj1 (means_nth gs configs F _) c' Q3) as (g & Hg & M).
    exists k, o, u, g. split; [exact Q1|]. split; [exact Q2|]. split; [exact Hg|]. split; [apply (redacts_go g c' M), Q4|exact Q5]. }
  exists g0, cs. split; [exact S1|]. split; [exact S2|]. split; [exact S3|]. split; [|split].
  - intros k o u Ho Hu. destruct (S4 k o u Ho Hu) as (_ & c & Hc & Hn & A & Pr). destruct (proj1 (means_nth gs configs F _) c Hc) as (g & Hg & M).
    exists g. split; [exact Hg|]. split; [exists (cf_action c); split; [exact (gr_means_action _ _ M)|exact Hn]|].
    split; [apply (accounted_go E en fold configs g c p); assumption|]. rewrite <- (written_go E g c s M). exact Pr.
  - intros g i j text Hg Ha Hk A O. destruct (In_nth_error _ _ Hg) as (r & Hr). destruct (proj2 (means_nth gs configs F r) g Hr) as (c & Hc & M).
    destruct (S5 r c i j text Hc) as (i' & j' & text' & L & A' & T).
    + intros [].
    + apply (redacts_go g c M), Ha.
    + intros k K. destruct (keywords_go_inv g c k M K) as (k' & K' & ->). exact (Hk k' K').
    + apply (accounted_go E en fold configs g c p); assumption.
    + rewrite (written_go E g c s M). destruct O as [O|O]; [left; apply (unchecked_go g c M), O|right; exact O].
    + exists i', j', text'. split; [exact L|]. split; [apply (accounted_go E en fold configs g c p) in A'; assumption|].
      destruct T as [T|T]; [apply Cov, T|destruct (untaken _ _ _ _ _ _ _ _ F T)].
  - intros g k i j text Hg Ha Hk Hi A O kw w u v btw Q1 Q2 Q3 Q4 Q5 Q6. destruct (In_nth_error _ _ Hg) as (r & Hr). destruct (proj2 (means_nth gs configs F r) g Hr) as (c & Hc & M).
    destruct (S6 r c (go_keywords_mean k) Hc (fun x => x) (proj1 (redacts_go g c M) Ha) (keywords_go g c k M Hk) Hi i j text) as (_ & P2).
    + apply (accounted_go E en fold configs g c p); assumption.
    + rewrite (written_go E g c s M). destruct O as [O|O]; [left; apply (unchecked_go g c M), O|right; exact O].
    + destruct (P2 kw w u v btw Q1 Q2 Q3 Q4 Q5 Q6) as (i' & j' & text' & L & D & A' & T).
      exists i', j', text'. split; [exact L|]. split; [exact D|]. split; [apply (accounted_go E en fold configs g c p) in A'; assumption|].
      destruct T as [T|T]; [|destruct (untaken _ _ _ _ _ _ _ _ F T)].
      destruct (ac_text _ _ _ _ _ _ _ _ _ _ A') as (bf & af & Es & E1 & E2).
      apply Cov. apply (touched_written (go_builder configs) os g0 cs s i' j' S1); [rewrite Es, !app_length; lia|rewrite Es, !app_length; lia|exact T].
Qed.

(* -- single strings -- *)
Lemma process_string_event : forall h srt sc x l s e' outs, process_all simple_event_impl h srt sc x (SString s) l = Ret (e', outs) ->
  exists s', e' = SString s' /\ process_all string_event h srt sc x s l = Ret (s', outs).
Proof.
  intros h srt sc x l. induction l as [|[p ms] l IH]; intros s e' outs H; cbn [process_all] in *.
  - injection H as <- <-. eauto.
  - destruct p as [|y p]; [|destruct y; discriminate H]. cbn [ev_enc ev_t ev_get simple_event_impl simple_get bind string_event ev_set simple_set] in *.
    destruct (process_string h srt sc x [] ms s) as [[[c' mu] out]| |] eqn:P; [|discriminate H|discriminate H]. cbn [bind] in *.
    match type of H with context [process_all _ _ _ _ _ ?ev _] => change ev with (SString c') in H end.
    destruct (process_all simple_event_impl h srt sc x (SString c') l) as [[e2 o2]| |] eqn:Q; try discriminate H.
    cbn [bind fst snd] in H. injection H as <- <-. destruct (IH _ _ _ Q) as (s' & -> & R). exists s'. split; [reflexivity|].
    rewrite R. reflexivity.
Qed.
Lemma string_simple : forall fuel h srt sc blocked s e' outs, scan simple_event_impl fuel h srt sc blocked (SString s) = Ret (e', outs) ->
  exists s', e' = SString s' /\ scan string_event fuel h srt sc blocked s = Ret (s', outs).
Proof.
  intros fuel h srt sc blocked s e' outs H. unfold scan in *. cbn [ev_ops simple_event_impl simple_ops string_event ev_enc ev_visited] in *.
  match type of H with bind ?a _ = _ => destruct a as [[[found x] log]| |] eqn:V; try discriminate H end.
  cbn [bind] in *. apply process_string_event. exact H.
Qed.

(* -- replacements -- *)
Lemma hex_from_text : forall f n acc, is_text acc -> is_text (hex_from f n acc).
Proof.
  induction f as [|f IH]; intros n acc H; cbn [hex_from]; [exact H|].
  assert (K : is_text (Model.Hash.hex_digit (n mod 16)%N :: acc)).
  { apply text_iff. constructor; [|apply text_iff; exact H]. unfold scalar, Model.Hash.hex_digit. pose proof (N.mod_upper_bound n 16 ltac:(lia)). destruct (N.ltb_spec (n mod 16)%N 10); lia. }
  destruct (n / 16 =? 0)%N; [exact K|]. apply IH, K.
Qed.
Lemma farm_text : forall s, is_text (hash_utf8 farm_hashers s) /\ is_text (hash_utf16 farm_hashers s).
Proof. intros s. split; apply hex_from_text; exists []; constructor. Qed.
Lemma go_text_stays : forall en rules gs configs t, Forall2 go_rule_utf8 rules gs -> Forall2 go_rule_means gs configs ->
  build en (go_builder configs) = Ret (Ok t) -> text_stays farm_hashers (bt_scanner t).
Proof.
  intros en rules gs configs t U F H r x Hr Hx. apply In_nth_error in Hr as (i & Hr).
  destruct (built_config en (go_builder configs) t H i r Hr) as (c & Hc).
  destruct (built_spec en _ t H) as (_ & vs & xs & _ & L & X & ->). destruct (X i c Hc) as (rr & _ & Hx' & CF).
  cbn [bt_scanner sc_rules] in Hr. destruct (proj1 (means_nth gs configs F i) c Hc) as (g & Hg & M).
  apply redacted_text; [intros s; apply farm_text|intros s; apply farm_text| |exact Hx].
  intros y E. assert (Ga : exists r0, go_rule_utf8 r0 g).
  { clear -U Hg. revert i Hg. induction U as [|a b l l' K U IH]; intros [|i] Hg; try discriminate; cbn in *; [injection Hg as <-; eauto|eauto]. }
  destruct Ga as (r0 & _ & _ & _ & Ga & _). exists (ga_redaction (gr_action r0)).
  assert (Ea : cf_action c = ActRedact y).
  { rewrite <- E. rewrite nth_error_map, Hx' in Hr. cbn in Hr. injection Hr as <-. reflexivity. }
  pose proof (gr_means_action _ _ M) as K. rewrite Ea in K. inversion K; subst. exact Ga.
Qed.

(* -- strings that are short as bytes -- *)
Lemma utf8_length : forall s b, utf8_of s b -> length s <= length b.
Proof.
  intros s b H. rewrite <- (weight_bytes s b H). clear b H. induction s as [|c s IH]; [cbn; lia|]. change (S (length s) <= clen c + weight clen s). pose proof (clen_pos c). lia.
Qed.
Lemma brief_short : forall e v, go_image e v -> distinct_keys e -> go_brief v -> forall p s, In (p, s) (simple_strings e) -> short s.
Proof.
  intros e v Hi Hd Hb p s Hps. destruct (image_holds p e v s Hi) as (q & b & Hq & U); [apply simple_get_in; auto|].
  pose proof (Hb q b Hq) as K. pose proof (utf8_length s b U). unfold short, two32 in *. lia.
Qed.
Lemma brief_go_short : forall v, go_brief v -> go_short v.
Proof. intros v H p b K. pose proof (H p b K). unfold two32 in *. lia. Qed.

(* -- creation -- *)
Lemma all_made : forall short rules gs, Forall2 go_rule_utf8 rules gs -> Forall go_rule_fits gs ->
  match all_some (map (go_create_rule_bytes short false) rules) with
  | Some configs => Forall2 go_rule_means gs configs
  | None => exists g, In g gs /\ forall c, ~ go_rule_means g c
  end.
Proof.
  intros short rules gs U. induction U as [|r g rules gs K U IH]; intros F; cbn [map all_some]; [constructor|].
  inversion F as [|? ? F1 F2]; subst. specialize (IH F2). pose proof (fun c => c82_valid_lemma short r g c K F1) as V.
  destruct (go_create_rule_bytes short false r) as [c|] eqn:Ec; cbn [obind].
  - destruct (all_some (map (go_create_rule_bytes short false) rules)) as [cs|]; cbn [obind].
    + constructor; [apply V; reflexivity|exact IH].
    + destruct IH as (g' & I & N). exists g'. split; [right; exact I|exact N].
  - exists g. split; [left; reflexivity|]. intros c M. apply V in M. discriminate M.
Qed.

Lemma c96_created_lemma :
  forall alloc capacity message en fuel srt short rules gs tr m cl r m',
  let w := library alloc capacity message en fuel farm_hashers srt in
  (forall hp a, alloc hp = Some a -> address a /\ load hp a = None) -> (forall b, (N.of_nat (length b) <= capacity b)%N) ->
  reaches w tr m cl -> Forall2 go_rule_utf8 rules gs -> Forall go_rule_fits gs ->
  go_create w (go_create_rule_bytes short false) m rules = Done r m' ->
  exists tr' cl', reaches w (tr' ++ tr) m' cl' /\
    ((exists configs, Forall2 go_rule_means gs configs /\
        match build en {| bu_rules := configs; bu_labels := []; bu_kw_paths := false; bu_wild := false; bu_multipass := true |} with
        | Ret (Ok t) => exists a, fresh cl a /\ r = GoScanner (as_int a) /\ equivalent cl' (hold cl a (Some (HScanner t)))
        | Ret (Err e) => r = go_created_of (error_code e) None /\ equivalent cl' cl
        | Panic => exists s, c_string message s /\ r = GoErrPanic (Some s) /\ equivalent cl' cl
        | Diverge => False
        end) \/
     ((exists g, In g gs /\ forall c, ~ go_rule_means g c) /\ r = GoErrRule /\ equivalent cl' cl)).
Proof.
  intros alloc capacity message en fuel srt short rules gs tr m cl r m' w Ha Hc R U F H.
  pose proof (c71_library_lemma alloc capacity message en fuel farm_hashers srt Ha Hc) as SW. fold w in SW.
  pose proof (all_made short rules gs U F) as A.
  destruct (c72_create_lemma w (go_create_rule_bytes short false) rules tr m cl SW R) as [(N & _)|(r1 & m1 & tr1 & cl1 & D & R1 & C)].
  - rewrite N in H. discriminate H.
  - rewrite D in H. injection H as <- <-. exists tr1, cl1. split; [exact R1|].
    destruct (all_some (map (go_create_rule_bytes short false) rules)) as [configs|].
    + left. exists configs. split; [exact A|]. exact C.
    + right. split; [exact A|exact C].
Qed.

(* the scanner that was created is still there *)
Lemma created_scanner : forall alloc capacity message en fuel srt short rules gs tr m cl z m',
  let w := library alloc capacity message en fuel farm_hashers srt in
  (forall hp a, alloc hp = Some a -> address a /\ load hp a = None) -> (forall b, (N.of_nat (length b) <= capacity b)%N) ->
  reaches w tr m cl -> Forall2 go_rule_utf8 rules gs -> Forall go_rule_fits gs ->
  go_create w (go_create_rule_bytes short false) m rules = Done (GoScanner z) m' ->
  exists configs t tr' cl' a, reaches w (tr' ++ tr) m' cl' /\ Forall2 go_rule_means gs configs /\
    build en (go_builder configs) = Ret (Ok t) /\ z = as_int a /\ address a /\ cl_handle cl' a = Some (HScanner t) /\
    forall later m2 cl2, reaches w (later ++ tr' ++ tr) m2 cl2 -> (forall r, ~ In (CDelete z, r) later) -> cl_handle cl2 a = Some (HScanner t).
Proof.
  intros alloc capacity message en fuel srt short rules gs tr m cl z m' w Ha Hc R U F H.
  destruct (c96_created_lemma alloc capacity message en fuel srt short rules gs tr m cl _ m' Ha Hc R U F H) as (tr1 & cl1 & R1 & [(configs & M & B)|(_ & B & _)]); [|discriminate B].
  change {| bu_rules := configs; bu_labels := []; bu_kw_paths := false; bu_wild := false; bu_multipass := true |} with (go_builder configs) in B.
  destruct (build en (go_builder configs)) as [[t|e]| |] eqn:Eb; [| | |destruct B].
  - destruct B as (a & Fr & E & Q). injection E as ->.
    assert (Ht : cl_handle cl1 a = Some (HScanner t)) by (rewrite (proj1 Q a); cbn [hold cl_handle]; rewrite N.eqb_refl; reflexivity).
    exists configs, t, tr1, cl1, a. split; [exact R1|]. split; [exact M|]. split; [exact Eb|]. split; [reflexivity|]. split; [exact (proj1 Fr)|].
    split; [exact Ht|]. intros later m2 cl2 R2 D. exact (c71_scanner_is_independent_lemma w (tr1 ++ tr) m' cl1 later m2 cl2 a t R1 Ht R2 D).
  - destruct B as (B & _). destruct e; discriminate B.
  - destruct B as (s & _ & B & _). discriminate B.
Qed.

Lemma c96_map_lemma :
  forall E (fold : char -> char) alloc capacity message en fuel srt short_ rules gs tr m cl z m1,
  let w := library alloc capacity message en fuel farm_hashers srt in
  (forall hp a, alloc hp = Some a -> address a /\ load hp a = None) -> (forall b, (N.of_nat (length b) <= capacity b)%N) ->
  crate_ok E en -> plain_env E -> (forall c d, same_letter E c d <-> fold c = fold d) ->
  sane_env (en_validators en) -> sorter_ok srt ->
  reaches w tr m cl -> Forall2 go_rule_utf8 rules gs -> Forall go_rule_fits gs -> (forall g, In g gs -> go_good E g) ->
  (N.of_nat (length gs) <= two32)%N ->
  go_create w (go_create_rule_bytes short_ false) m rules = Done (GoScanner z) m1 ->
  exists configs t tr1 cl1, Forall2 go_rule_means gs configs /\
  build en {| bu_rules := configs; bu_labels := []; bu_kw_paths := false; bu_wild := false; bu_multipass := true |} = Ret (Ok t) /\
  reaches w (tr1 ++ tr) m1 cl1 /\
  forall later m2 cl2 u, reaches w (later ++ tr1 ++ tr) m2 cl2 -> (forall r, ~ In (CDelete z, r) later) -> cl_scan cl2 u = None ->
  forall e gm, go_image (SMap e) (GMap gm) -> distinct_keys (SMap e) -> go_fits (GMap gm) -> go_brief (GMap gm) ->
  enough_fuel fuel (simple_strings (SMap e)) ->
  (forall data, go_encode (GMap gm) = Ok data -> response_fits (nw_scan w t) data) ->
  (go_scan_map w m2 u z gm = Never /\ out_of_memory w) \/
  (exists m3 tr3 cl3, go_scan_map w m2 u z gm = Done (Ret (Err tt, GMap gm)) m3 /\
    reaches w (tr3 ++ later ++ tr1 ++ tr) m3 cl3 /\ equivalent cl3 cl2 /\ ~ go_windows E gs (simple_strings (SMap e))) \/
  exists o v' m3 tr3 cl3 e' outs outs', go_scan_map w m2 u z gm = Done (Ret (Ok o, v')) m3 /\
    reaches w (tr3 ++ later ++ tr1 ++ tr) m3 cl3 /\ equivalent cl3 cl2 /\ go_image e' v' /\
    Permutation outs outs' /\ Forall2 match_image outs' (so_matches o) /\
    scan_result simple_event_impl (simple_strings (SMap e)) (simple_holds (SMap e)) e' outs
      (fun p s s' os => go_cut E en fold farm_hashers gs s s' os).
Proof.
  intros E fold alloc capacity message en fuel srt short_ rules gs tr m cl z m1 w Ha Hc CK PE HE HV Hs R U F HG HL H.
  destruct (created_scanner alloc capacity message en fuel srt short_ rules gs tr m cl z m1 Ha Hc R U F H) as
    (configs & t & tr1 & cl1 & a & R1 & M & B & -> & Aa & Ht & Later). fold w in R1, Later.
  pose proof (c71_library_lemma alloc capacity message en fuel farm_hashers srt Ha Hc) as SW. fold w in SW.
  exists configs, t, tr1, cl1. split; [exact M|]. split; [exact B|]. split; [exact R1|].
  intros later m2 cl2 u R2 D Hu e gm Hi Hd Hfit Hb Hf Hr.
  destruct (go_pieces E fold en gs configs t (SMap e) srt fuel M B CK PE HE HG HV Hs Hd Hf (brief_short _ _ Hi Hd Hb)) as ((rrs & ats & occs & HM) & NP & P).
  assert (Hlen : (N.of_nat (length (sc_rules (bt_scanner t))) <= two32)%N).
  { rewrite (built_length en _ t B). cbn [bu_rules go_builder]. replace (length configs) with (length gs); [exact HL|].
    clear -M. induction M; cbn; congruence. }
  pose proof (c40_equal_lemma srt (bt_scanner t) rrs ats occs e gm fuel farm_hashers Hs HM Hd Hf Hi Hfit (brief_go_short _ Hb)
    (go_text_stays en rules gs configs t U M B) Hlen Hr) as W.
  destruct (c40_error_lemma srt (bt_scanner t) rrs ats occs e gm fuel farm_hashers Hs HM Hd Hf Hi Hfit) as (data & Ed & _ & ND & _).
  destruct (proj1 (c72_scan_events_lemma w (later ++ tr1 ++ tr) m2 cl2 u a t SW R2 Aa (Later _ _ _ R2 D) Hu) gm) as
    [(N & enc & En & [O|O])|(m3 & tr3 & cl3 & G & R3 & Q)].
  - left. auto.
  - exfalso. rewrite Ed in En. injection En as <-. exact (ND O).
  - right. change (nw_scan w t) with (native_scan fuel farm_hashers srt (bt_scanner t)) in G.
    destruct (scan simple_event_impl fuel farm_hashers srt (bt_scanner t) [] (SMap e)) as [[e1 outs1]| |] eqn:Hscan; [right|left|destruct W].
    + destruct W as (v' & o & outs' & W2 & W4 & W5 & W6 & _). rewrite W4 in G.
      pose proof (P farm_hashers e1 outs1 Hscan) as SR. exists o, v', m3, tr3, cl3, e1, outs1, outs'. auto 10.
    + rewrite W in G. exists m3, tr3, cl3. split; [exact G|]. split; [exact R3|]. split; [exact Q|]. intros HW. exact (NP farm_hashers HW Hscan).
Qed.

Lemma c96_string_lemma :
  forall E (fold : char -> char) alloc capacity message en fuel srt short_ rules gs tr m cl z m1,
  let w := library alloc capacity message en fuel farm_hashers srt in
  (forall hp a, alloc hp = Some a -> address a /\ load hp a = None) -> (forall b, (N.of_nat (length b) <= capacity b)%N) ->
  crate_ok E en -> plain_env E -> (forall c d, same_letter E c d <-> fold c = fold d) ->
  sane_env (en_validators en) -> sorter_ok srt ->
  reaches w tr m cl -> Forall2 go_rule_utf8 rules gs -> Forall go_rule_fits gs -> (forall g, In g gs -> go_good E g) ->
  (N.of_nat (length gs) <= two32)%N ->
  go_create w (go_create_rule_bytes short_ false) m rules = Done (GoScanner z) m1 ->
  exists configs t tr1 cl1, Forall2 go_rule_means gs configs /\
  build en {| bu_rules := configs; bu_labels := []; bu_kw_paths := false; bu_wild := false; bu_multipass := true |} = Ret (Ok t) /\
  reaches w (tr1 ++ tr) m1 cl1 /\
  forall later m2 cl2 u, reaches w (later ++ tr1 ++ tr) m2 cl2 -> (forall r, ~ In (CDelete z, r) later) -> cl_scan cl2 u = None ->
  forall s b, utf8_of s b -> (9 * N.of_nat (length b) < two32)%N -> nbytes s + 2 <= fuel ->
  response_fits (nw_scan w t) (go_encode_string b) ->
  (go_scan_string w m2 u z b = Never /\ out_of_memory w) \/
  (exists m3 tr3 cl3, go_scan_string w m2 u z b = Done (Ret (Err tt)) m3 /\
    reaches w (tr3 ++ later ++ tr1 ++ tr) m3 cl3 /\ equivalent cl3 cl2 /\ ~ go_windows E gs [([], s)]) \/
  exists o s' m3 tr3 cl3 outs, go_scan_string w m2 u z b = Done (Ret (Ok o)) m3 /\
    reaches w (tr3 ++ later ++ tr1 ++ tr) m3 cl3 /\ equivalent cl3 cl2 /\ utf8_of s' (so_event o) /\
    Forall2 match_image outs (so_matches o) /\ go_cut E en fold farm_hashers gs s s' outs.
Proof.
  intros E fold alloc capacity message en fuel srt short_ rules gs tr m cl z m1 w Ha Hc CK PE HE HV Hs R U F HG HL H.
  destruct (created_scanner alloc capacity message en fuel srt short_ rules gs tr m cl z m1 Ha Hc R U F H) as
    (configs & t & tr1 & cl1 & a & R1 & M & B & -> & Aa & Ht & Later). fold w in R1, Later.
  pose proof (c71_library_lemma alloc capacity message en fuel farm_hashers srt Ha Hc) as SW. fold w in SW.
  exists configs, t, tr1, cl1. split; [exact M|]. split; [exact B|]. split; [exact R1|].
  intros later m2 cl2 u R2 D Hu s b Hb Hl Hf Hr.
  assert (Hsh : short s) by (pose proof (utf8_length s b Hb); unfold short, two32 in *; lia).
  assert (Hfu : enough_fuel fuel (simple_strings (SString s))) by (intros p c [K|[]]; injection K as _ <-; exact Hf).
  assert (Hd : distinct_keys (SString s)) by constructor.
  destruct (go_pieces E fold en gs configs t (SString s) srt fuel M B CK PE HE HG HV Hs Hd Hfu) as ((rrs & ats & occs & HM) & NP & P).
  { intros p c [K|[]]. injection K as _ <-. exact Hsh. }
  assert (Hlen : (N.of_nat (length (sc_rules (bt_scanner t))) <= two32)%N).
  { rewrite (built_length en _ t B). cbn [bu_rules go_builder]. replace (length configs) with (length gs); [exact HL|].
    clear -M. induction M; cbn; congruence. }
  pose proof (c40_string_equal_lemma srt (bt_scanner t) rrs ats occs s b fuel farm_hashers Hs HM Hf Hb ltac:(unfold two32 in *; lia)
    (go_text_stays en rules gs configs t U M B) Hlen Hr) as W.
  assert (El : from_utf8_lossy b = s) by (apply lossy_utf8; exact Hb).
  destruct (c40_string_error_lemma srt (bt_scanner t) rrs ats occs b fuel farm_hashers Hs HM) as (_ & ND & _).
  { unfold two32 in *. lia. }
  { rewrite El. exact Hf. }
  destruct (c10_exact_lemma srt (bt_scanner t) rrs ats occs (SString s) fuel farm_hashers [] Hs Hd HM Hfu) as (X & Y).
  destruct (scan_or (bt_scanner t) rrs ats occs HM [] string_event clen srt s _ _ farm_hashers fuel utf8_shifts utf8_indices Hs (string_laws s) Hfu) as [(T & Es)|(T & s0 & res0 & Es & _)].
  - rewrite Es in W. apply X in T.
    destruct (proj2 (c72_scan_events_lemma w (later ++ tr1 ++ tr) m2 cl2 u a t SW R2 Aa (Later _ _ _ R2 D) Hu) b) as
      [(N & [O|O])|(m3 & tr3 & cl3 & G & R3 & Q)]; [left; auto|destruct (ND O)|right; left].
    change (nw_scan w t) with (native_scan fuel farm_hashers srt (bt_scanner t)) in G. rewrite W in G.
    exists m3, tr3, cl3. split; [exact G|]. split; [exact R3|]. split; [exact Q|]. intros HW. exact (NP farm_hashers HW T).
  - destruct (Y T) as (e1 & outs1 & Hscan). pose proof (P farm_hashers e1 outs1 Hscan) as SR.
    destruct (string_simple _ _ _ _ _ _ _ _ Hscan) as (s' & -> & Hscan'). rewrite Hscan' in W.
    destruct W as (b' & o & W2 & W3 & W4 & W5 & _).
    destruct (proj2 (c72_scan_events_lemma w (later ++ tr1 ++ tr) m2 cl2 u a t SW R2 Aa (Later _ _ _ R2 D) Hu) b) as
      [(N & [O|O])|(m3 & tr3 & cl3 & G & R3 & Q)]; [left; auto|destruct (ND O)|right; right].
    change (nw_scan w t) with (native_scan fuel farm_hashers srt (bt_scanner t)) in G. rewrite W3 in G. rewrite <- W4 in W2.
    exists o, s', m3, tr3, cl3, outs1. split; [exact G|]. split; [exact R3|]. split; [exact Q|]. split; [exact W2|]. split; [exact W5|].
    destruct SR as (res & L1 & L2 & L3 & L4). destruct res as [|[c' os] [|? ?]]; try discriminate L1.
    cbn in L2. rewrite app_nil_r in L2. subst outs1.
    assert (c' = s').
    { destruct L3 as (f & E1 & E2). cbn in E1, E2. congruence. }
    subst c'. apply (L4 [] s s' os). left. reflexivity.
Qed.

