(* Exactly when a scan panics (C10, C40): proofs of the statements of Thm/Panics.v *)
From Coq Require Import Lia Permutation.
From Verif Require Import Proofs.Text Proofs.Search Proofs.Scan Proofs.EndToEndClaims Proofs.Panics Proofs.RegexScan Proofs.BuildClaims Proofs.Codec Proofs.Binary Proofs.CodecClaims.
From Verif Require Export Spec.Codec Model.GoBinding Spec.Panics Spec.Claims Spec.EndToEnd Examples.Engine Examples.Setting Examples.Keywords Examples.Build.

(* "x" and six more characters, or "é1"; excluded keyword "no" *)
Definition late : matcher := fun _ q =>
  match q with
  | 120%N :: _ => Some 7
  | 233%N :: 49%N :: _ => Some 2
  | _ => None
  end.
Definition late_rule : regex_rule := excluding_rule 0 late 3 [chars "no"].
Definition late_scanner (s : scope) : scanner := {|
  sc_rules := [regex_compiled (ActRedact (chars "*")) s None late_rule]; sc_kw_paths := false; sc_wild := false;
  sc_multipass := false; sc_return_matches := false |}.
Definition late_event (s : str) : simple_event := SMap [(chars "a", SString (chars "abc")); (chars "m", SString s)].
Definition dashed : str := chars "----" ++ [233%N; 49%N].
Lemma late_made : forall s, made_of (late_scanner s) (fun _ => late_rule) (fun _ => match_at late) (fun _ _ _ _ => False).
Proof.
  intros s i r H. destruct i as [|i]; [|destruct i; discriminate H].
  exists (ActRedact (chars "*")), s, None. split; [reflexivity|]. split; [reflexivity|]. split; [reflexivity|]. apply excluding_ok.
Qed.
Lemma late_reversed : forall p, span_reversed 3 (p ++ dashed) (nbytes p + 4).
Proof.
  intros p. exists (p ++ chars "----"), 233%N, [49%N], 233%N. split; [rewrite <- app_assoc; reflexivity|].
  split; [rewrite !nbytes_blen, blen_app; reflexivity|]. split; [rewrite app_length; cbn [length chars]; cbn; lia|].
  split; [|vm_compute; lia]. unfold excluded_text.
  assert (lastn (3 + 1) (p ++ chars "----") = chars "----") as ->.
  { unfold lastn. rewrite app_length, skipn_app. change (length (chars "----")) with 4. replace (length p + 4 - (3 + 1)) with (length p) by lia.
    rewrite skipn_all, Nat.sub_diag. reflexivity. }
  reflexivity.
Qed.

Lemma late_distinct : forall s, distinct_keys (late_event s).
Proof.
  intros s. constructor.
  - repeat (constructor; [simpl; intros H; repeat (destruct H as [H|H]; [discriminate H|]); exact H|]). constructor.
  - intros k c [E|[E|[]]]; injection E as _ <-; constructor.
Qed.

Lemma c10_exact_lemma :
  forall srt sc rrs ats occs e fuel h blocked,
  sorter_ok srt -> distinct_keys e -> made_of sc rrs ats occs -> enough_fuel fuel (simple_strings e) ->
  (scan simple_event_impl fuel h srt sc blocked e = Panic <-> scan_trips sc rrs ats blocked (simple_strings e)) /\
  (~ scan_trips sc rrs ats blocked (simple_strings e) ->
   exists e' outs, scan simple_event_impl fuel h srt sc blocked e = Ret (e', outs)).
Proof.
  intros srt sc rrs ats occs e fuel h blocked H1 H2 H3 H4.
  destruct (scan_or sc rrs ats occs H3 blocked simple_event_impl clen srt e _ _ h fuel utf8_shifts utf8_indices H1 (simple_laws e H2) H4)
    as [(T & E)|(T & e' & res & E & _)].
  - split; [split; auto|]. intros K. contradiction.
  - split; [split; [intros K; rewrite E in K; discriminate K|contradiction]|]. intros _. exists e', (flat_map snd res). exact E.
Qed.

Lemma c10_result_lemma :
  forall I w srt sc rrs ats occs e strs holds fuel h blocked,
  shifts_additive (ev_enc I) w -> indices_additive (ev_enc I) w -> sorter_ok srt -> event_laws I e strs holds ->
  enough_fuel fuel strs -> made_of sc rrs ats occs ->
  forall e' outs, scan I fuel h srt sc blocked e = Ret (e', outs) ->
  scan_result I strs holds e' outs (string_scanned sc (finders sc) blocked (ev_enc I) w h strs).
Proof.
  intros I w srt sc rrs ats occs e strs holds fuel h blocked H1 H2 H3 H4 H5 H6 e' outs E.
  destruct (scan_or sc rrs ats occs H6 blocked I w srt e _ _ h fuel H1 H2 H3 H4 H5) as [(_ & P)|(_ & e2 & res & E2 & A & B & C)].
  - rewrite P in E. discriminate E.
  - rewrite E2 in E. injection E as <- <-. exists res. auto.
Qed.

Lemma c10_ascii_lemma :
  forall srt sc rrs ats occs e fuel h blocked,
  sorter_ok srt -> distinct_keys e -> made_of sc rrs ats occs -> enough_fuel fuel (simple_strings e) ->
  (forall p c, In (p, c) (simple_strings e) -> Forall (fun ch => (ch < 128)%N) c) ->
  exists e' outs, scan simple_event_impl fuel h srt sc blocked e = Ret (e', outs).
Proof.
  intros srt sc rrs ats occs e fuel h blocked H1 H2 H3 H4 H5.
  apply (c10_exact_lemma srt sc rrs ats occs e fuel h blocked H1 H2 H3 H4).
  intros (i & r & p & c & _ & _ & Hin & _ & _ & T). specialize (H5 p c Hin).
  assert (X : forall i0, trips (rrs i) (ats i) c i0 -> exists a, window_reversed (rrs i) c a).
  { intros i0 T'. induction T'; eauto. }
  destruct (X 0 T) as (a & xk & _ & before & d & after & z & -> & _ & _ & Ez & Hz).
  assert (K : In z (before ++ d :: after)).
  { assert (K : In z (excluded_text (xk_look_ahead xk) before d)) by (rewrite Ez; left; reflexivity).
    unfold excluded_text in K. apply filter_In in K as (K & _). apply in_app_or in K as [K|[<-|[]]]; apply in_or_app.
    - left. unfold lastn in K. rewrite <- (firstn_skipn (length before - (xk_look_ahead xk + 1)) before). apply in_or_app. right. exact K.
    - right. left. reflexivity. }
  rewrite Forall_forall in H5. specialize (H5 z K). cbn beta in H5.
  rewrite nbytes_blen in Hz. cbn [blen] in Hz. unfold clen in Hz. destruct (z <? 128)%N eqn:Ec; [lia|]. apply N.ltb_ge in Ec. lia.
Qed.

Lemma c10_built_lemma :
  forall en fold b at_ t, build en b = Ret (Ok t) -> behaves en fold b at_ ->
  exists rrs, (forall i c, nth_error (bu_rules b) i = Some c -> compiled_from en c i (rrs i)) /\
  forall srt e fuel h blocked, sorter_ok srt -> distinct_keys e -> enough_fuel fuel (simple_strings e) ->
  let tripping := exists i c p s, nth_error (bu_rules b) i = Some c /\ ~ In i blocked /\ In (p, s) (simple_strings e) /\
    included (bu_wild b) (cf_scope c) p /\ rr_included (rrs i) = None /\ trips (rrs i) (at_ i) s 0 in
  (scan simple_event_impl fuel h srt (bt_scanner t) blocked e = Panic <-> tripping) /\
  (~ tripping -> exists e' outs, scan simple_event_impl fuel h srt (bt_scanner t) blocked e = Ret (e', outs)).
Proof.
  intros en fold b at_ t Hb Hbe. pose proof (built_length _ _ _ Hb) as Hlen.
  destruct (choose (late_rule, fun _ _ _ => False) (bu_rules b) (fun i c y =>
    nth_error (sc_rules (bt_scanner t)) i = Some (regex_compiled (cf_action c) (cf_scope c) (cf_validation c) (fst y)) /\
    compiled_from en c i (fst y) /\ action_validate (cf_action c) = true /\ regex_ok (fst y) (at_ i) (snd y))) as (f & Hf).
  { intros i c Hc. destruct (built_rule _ _ _ _ _ Hb Hbe i c Hc) as (rr & occ & R1 & R2 & R3 & R4 & _). exists (rr, occ). auto. }
  exists (fun i => fst (f i)). split; [intros i c Hc; apply (Hf i c Hc)|].
  assert (HM : made_of (bt_scanner t) (fun i => fst (f i)) at_ (fun i => snd (f i))).
  { intros i r Hr. destruct (nth_error (bu_rules b) i) as [c|] eqn:Hc.
    2:{ apply nth_error_None in Hc. assert (i < length (sc_rules (bt_scanner t))) by (apply nth_error_Some; congruence). lia. }
    destruct (Hf i c Hc) as (A & B & C & D). exists (cf_action c), (cf_scope c), (cf_validation c). split; [exact A|]. split; [|auto]. apply B. }
  intros srt e fuel h blocked H1 H2 H3 tripping.
  assert (W : sc_wild (bt_scanner t) = bu_wild b) by (destruct (built_spec _ _ _ Hb) as (_ & vs & xs & _ & _ & _ & ->); reflexivity).
  assert (HT : scan_trips (bt_scanner t) (fun i => fst (f i)) at_ blocked (simple_strings e) <-> tripping).
  { unfold tripping. split.
    - intros (i & r & p & s & A & B & C & D & E & F). destruct (nth_error (bu_rules b) i) as [c|] eqn:Hc.
      2:{ apply nth_error_None in Hc. assert (i < length (sc_rules (bt_scanner t))) by (apply nth_error_Some; congruence). lia. }
      destruct (Hf i c Hc) as (A' & _). rewrite A in A'. injection A' as ->. exists i, c, p, s. rewrite W in D. auto 8.
    - intros (i & c & p & s & A & B & C & D & E & F). destruct (Hf i c A) as (A' & _).
      eexists i, _, p, s. split; [exact A'|]. split; [exact B|]. split; [exact C|]. rewrite W. split; [exact D|]. split; [exact E|exact F]. }
  destruct (c10_exact_lemma srt _ _ _ _ e fuel h blocked H1 H2 HM H3) as (X & Y). rewrite HT in X. split; [exact X|].
  intros K. apply Y. rewrite HT. exact K.
Qed.

Lemma c40_error_lemma :
  forall srt sc rrs ats occs m gm fuel h,
  sorter_ok srt -> made_of sc rrs ats occs -> distinct_keys (SMap m) -> enough_fuel fuel (simple_strings (SMap m)) ->
  go_image (SMap m) (GMap gm) -> go_fits (GMap gm) ->
  exists data, go_encode (GMap gm) = Ok data /\
    (native_scan fuel h srt sc data = Panic <-> scan simple_event_impl fuel h srt sc [] (SMap m) = Panic) /\
    native_scan fuel h srt sc data <> Diverge /\
    (scan simple_event_impl fuel h srt sc [] (SMap m) = Panic ->
     go_scan_events_map (native_scan fuel h srt sc) gm = Ret (Err tt, GMap gm)).
Proof.
  intros srt sc rrs ats occs m gm fuel h H1 H2 H3 H4 Hi Hf.
  destruct (image_encodes _ _ Hi) as (data & Hd). pose proof (go_decode_all _ _ Hf Hd) as Hdec.
  set (e := SMap m) in *. set (strs := ordered_strings e).
  assert (Hstrs : strings_of (go_ops (GMap gm)) = Some strs).
  { unfold strs. rewrite <- (proj1 image_strings _ _ Hi). apply shows_strings, go_shows. }
  assert (Hin : forall p c, In (p, c) (simple_strings e) <-> In (p, c) strs) by (intros; symmetry; apply ordered_in).
  assert (H4' : enough_fuel fuel strs) by (intros p c Hp; apply (H4 p c), Hin, Hp).
  pose proof (binary_laws utf8_encoding (go_ops (GMap gm)) strs Hstrs (ordered_distinct e H3)) as Hlaws.
  assert (HT : scan_trips sc rrs ats [] strs <-> scan_trips sc rrs ats [] (simple_strings e)).
  { split; intros (i & r & p & c & A & B & C & D); exists i, r, p, c; (split; [exact A|split; [exact B|split; [apply Hin, C|exact D]]]). }
  destruct (c10_exact_lemma srt sc rrs ats occs e fuel h [] H1 H3 H2 H4) as (X & _). rewrite <- HT in X.
  assert (N : (scan_trips sc rrs ats [] strs /\ native_scan fuel h srt sc data = Panic) \/
              (~ scan_trips sc rrs ats [] strs /\ exists r, native_scan fuel h srt sc data = Ret r)).
  { unfold native_scan. rewrite Hdec. cbn [bind].
    destruct (scan_or sc rrs ats occs H2 [] (binary_event_impl utf8_encoding) clen srt {| be_ops := go_ops (GMap gm); be_storage := [] |} strs _ h fuel
      utf8_shifts utf8_indices H1 Hlaws H4') as [(T & E)|(T & e' & res & E & _)]; [left|right]; (split; [exact T|]); rewrite E; cbn [bind]; eauto. }
  exists data. split; [exact Hd|]. split; [|split].
  - rewrite X. destruct N as [(T & ->)|(T & r & ->)]; split; auto; [discriminate|contradiction].
  - destruct N as [(T & ->)|(T & r & ->)]; discriminate.
  - intros K. apply X in K. destruct N as [(T & E)|(T & r & E)]; [|contradiction].
    unfold go_scan_events_map. rewrite Hd. unfold low_level_scan. rewrite E. reflexivity.
Qed.

Lemma c40_string_error_lemma :
  forall srt sc rrs ats occs b fuel h,
  sorter_ok srt -> made_of sc rrs ats occs -> (N.of_nat (length b) < two32)%N ->
  let s := from_utf8_lossy b in
  nbytes s + 2 <= fuel ->
  (native_scan fuel h srt sc (go_encode_string b) = Panic <-> scan string_event fuel h srt sc [] s = Panic) /\
  native_scan fuel h srt sc (go_encode_string b) <> Diverge /\
  (scan string_event fuel h srt sc [] s = Panic -> go_scan (native_scan fuel h srt sc) b = Ret (Err tt)).
Proof.
  intros srt sc rrs ats occs b fuel h H1 H2 Hl s Hf.
  assert (Hdec : decode_event (go_encode_string b) = Ret [OpString s]).
  { pose proof (go_decode_all (GString b) _ (gf_string b Hl) eq_refl) as H. exact H. }
  assert (Hfu : enough_fuel fuel [([], s)]) by (intros p c [E|[]]; injection E as _ <-; exact Hf).
  pose proof (binary_laws utf8_encoding [OpString s] [([], s)] eq_refl (el_distinct _ _ _ _ (string_laws s))) as Hlaws.
  unfold go_scan, low_level_scan, native_scan. rewrite Hdec. cbn [bind].
  destruct (scan_or sc rrs ats occs H2 [] string_event clen srt s _ _ h fuel utf8_shifts utf8_indices H1 (string_laws s) Hfu) as [(T & E)|(T & e' & res & E & _)];
  destruct (scan_or sc rrs ats occs H2 [] (binary_event_impl utf8_encoding) clen srt {| be_ops := [OpString s]; be_storage := [] |} _ _ h fuel
      utf8_shifts utf8_indices H1 Hlaws Hfu) as [(T' & E')|(T' & e'' & res' & E' & _)]; try contradiction; rewrite E, E'; cbn [bind].
  - split; [split; auto|]. split; [discriminate|]. reflexivity.
  - split; [split; discriminate|]. split; discriminate.
Qed.

Lemma untripped_evenly : forall srt sc rrs ats occs fuel h strs, sorter_ok srt -> made_of sc rrs ats occs -> enough_fuel fuel strs ->
  ~ scan_trips sc rrs ats [] strs -> scans_evenly srt sc (finders sc) fuel h strs.
Proof.
  intros srt sc rrs ats occs fuel h strs Hs HM Hf HT. split.
  - intros p c i a b Hp Hc. apply (safe_candidate sc []) in Hc. exact (candidate_lt _ _ strs (safe_meets sc rrs ats occs HM strs) _ _ _ _ _ _ Hp Hc).
  - intros I e strs' holds Hin Hsh Hix Hl.
    assert (Hf' : enough_fuel fuel strs') by (intros p c Hp; apply (Hf p c), Hin, Hp).
    destruct (scan_or sc rrs ats occs HM [] I clen srt e strs' holds h fuel Hsh Hix Hs Hl Hf') as [((i & r & p & c & A & B & C & D) & _)|(_ & K)]; [|exact K].
    destruct HT. exists i, r, p, c. split; [exact A|]. split; [exact B|]. split; [apply Hin, C|exact D].
Qed.

Lemma c40_equal_lemma :
  forall srt sc rrs ats occs m gm fuel h,
  sorter_ok srt -> made_of sc rrs ats occs -> distinct_keys (SMap m) -> enough_fuel fuel (simple_strings (SMap m)) ->
  go_image (SMap m) (GMap gm) -> go_fits (GMap gm) -> go_short (GMap gm) ->
  text_stays h sc -> (N.of_nat (length (sc_rules sc)) <= two32)%N ->
  (forall data, go_encode (GMap gm) = Ok data -> response_fits (native_scan fuel h srt sc) data) ->
  match scan simple_event_impl fuel h srt sc [] (SMap m) with
  | Ret (e', outs) => exists v' o outs', go_image e' v' /\
      go_scan_events_map (native_scan fuel h srt sc) gm = Ret (Ok o, v') /\
      Permutation outs outs' /\ Forall2 match_image outs' (so_matches o) /\ (so_mutated o = false -> v' = GMap gm)
  | Panic => go_scan_events_map (native_scan fuel h srt sc) gm = Ret (Err tt, GMap gm)
  | Diverge => False
  end.
Proof.
  intros srt sc rrs ats occs m gm fuel h Hs HM Hd Hf Hi Hfit Hsh Ht Hr Hresp.
  destruct (c10_exact_lemma srt sc rrs ats occs (SMap m) fuel h [] Hs Hd HM Hf) as (X & Y).
  destruct (scan simple_event_impl fuel h srt sc [] (SMap m)) as [[e' outs]| |] eqn:Hscan.
  - assert (NT : ~ scan_trips sc rrs ats [] (simple_strings (SMap m))) by (intros T; apply X in T; discriminate T).
    destruct (whole_evenly srt sc _ m gm fuel h (untripped_evenly srt sc rrs ats occs fuel h _ Hs HM Hf NT) Hd Hi Hfit Hsh Ht Hr Hresp)
      as (e1 & outs1 & v' & o & outs' & W1 & W2 & _ & W4 & W5 & W6 & W7).
    rewrite Hscan in W1. injection W1 as <- <-. exists v', o, outs'. auto.
  - destruct (c40_error_lemma srt sc rrs ats occs m gm fuel h Hs HM Hd Hf Hi Hfit) as (data & _ & _ & _ & K). apply K, Hscan.
  - destruct Y as (e' & outs & K); [intros T; apply X in T; discriminate T|discriminate K].
Qed.

Lemma c40_string_equal_lemma :
  forall srt sc rrs ats occs s b fuel h,
  sorter_ok srt -> made_of sc rrs ats occs -> nbytes s + 2 <= fuel -> utf8_of s b -> (N.of_nat (length b) < 2147483648)%N ->
  text_stays h sc -> (N.of_nat (length (sc_rules sc)) <= two32)%N -> response_fits (native_scan fuel h srt sc) (go_encode_string b) ->
  match scan string_event fuel h srt sc [] s with
  | Ret (s', outs) => exists b' o, utf8_of s' b' /\ go_scan (native_scan fuel h srt sc) b = Ret (Ok o) /\ so_event o = b' /\
      Forall2 match_image outs (so_matches o) /\ (so_mutated o = false -> b' = b)
  | Panic => go_scan (native_scan fuel h srt sc) b = Ret (Err tt)
  | Diverge => False
  end.
Proof.
  intros srt sc rrs ats occs s b fuel h Hs HM Hf Hb Hl Ht Hr Hresp.
  assert (Hfu : enough_fuel fuel [([], s)]) by (intros p c [E|[]]; injection E as _ <-; exact Hf).
  assert (El : from_utf8_lossy b = s) by (apply lossy_utf8; exact Hb).
  destruct (scan_or sc rrs ats occs HM [] string_event clen srt s _ _ h fuel utf8_shifts utf8_indices Hs (string_laws s) Hfu) as [(T & E)|(T & s' & res & E & _)].
  - rewrite E. destruct (c40_string_error_lemma srt sc rrs ats occs b fuel h Hs HM) as (_ & _ & K).
    + unfold two32. lia.
    + rewrite El. exact Hf.
    + apply K. rewrite El. exact E.
  - destruct (whole_string_evenly srt sc _ s b fuel h (untripped_evenly srt sc rrs ats occs fuel h _ Hs HM Hfu T) Hb Hl Ht Hr Hresp) as (s1 & outs & b' & o & W1 & W).
    rewrite W1. exists b', o. exact W.
Qed.

