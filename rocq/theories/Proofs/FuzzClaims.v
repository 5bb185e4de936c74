(* The fuzz harness (C94, C95): proofs of the statements of Thm/Fuzz.v *)
From Coq Require Import Lia ZifyN ZifyBool.
From Verif Require Import Proofs.Text Proofs.BuildClaims Proofs.ConversionClaims Proofs.RescanClaims Proofs.Codec Examples.Setting Examples.Build Examples.RegexEngine.
From Verif Require Export Proofs.Fuzz.

(* -- a Hyperscan for two patterns -- *)
Definition dot_pattern : str := chars "a.b".
Definition end_pattern : str := chars "a$\n".
Definition at_is (s : str) (i : nat) (c : char) : bool := match nth_error s i with Some d => (c =? d)%N | None => false end.
Definition dot_find (s : str) : list (nat * nat) :=
  map (fun i => (i, i + 3)) (filter (fun i => at_is s i 97 && at_is s (i + 2) 98) (seq 0 (length s))).
Definition end_find (s : str) : list (nat * nat) :=
  map (fun i => (i, i + 2)) (filter (fun i => at_is s i 97 && at_is s (i + 1) 10 && (i + 2 =? length s)) (seq 0 (length s))).
Definition small_hyperscan (p : str) : option (str -> list (nat * nat)) :=
  if str_eqb p dot_pattern then Some dot_find else if str_eqb p end_pattern then Some end_find else None.
Lemma at_is_spec : forall s i c, at_is s i c = true <-> nth_error s i = Some c.
Proof. intros s i c. unfold at_is. destruct (nth_error s i) as [d|]; [|split; discriminate]. rewrite N.eqb_eq. split; congruence. Qed.
Lemma found_some : forall (f : nat -> bool) (g : nat -> nat * nat) (s : str), map g (filter f (seq 0 (length s))) <> [] <-> exists i, i < length s /\ f i = true.
Proof.
  intros f g s. split.
  - intros H. destruct (filter f (seq 0 (length s))) as [|i l] eqn:E; [destruct (H eq_refl)|]. exists i.
    assert (K : In i (filter f (seq 0 (length s)))) by (rewrite E; left; reflexivity). apply filter_In in K as [K1 K2]. apply in_seq in K1. split; [lia|exact K2].
  - intros (i & L & F) E. assert (K : In i (filter f (seq 0 (length s)))) by (apply filter_In; split; [apply in_seq; lia|exact F]).
    destruct (filter f (seq 0 (length s))); [destruct K|discriminate E].
Qed.
Lemma letter_is : forall c i x, (c < 65)%N \/ i = false -> any_case ascii_env i (eq c) x <-> x = c.
Proof.
  intros c i x H. unfold any_case. split.
  - intros [K|(-> & d & <- & S)]; [auto|]. destruct H as [H|H]; [|discriminate H]. cbn in S.
    pose proof (lower_spec c). pose proof (lower_spec x). lia.
  - intros ->. left. reflexivity.
Qed.
Lemma small_hyperscan_ok : hyperscan_ok ascii_env small_hyperscan.
Proof.
  intros p find H s. unfold small_hyperscan in H. destruct (str_eqb p dot_pattern) eqn:E1; [|destruct (str_eqb p end_pattern) eqn:E2; [|discriminate H]].
  - injection H as <-. apply str_eqb_eq in E1 as ->. unfold dot_find. rewrite found_some. split.
    + intros (i & L & F). apply andb_prop in F as [F1 F2]. apply at_is_spec in F1, F2.
      assert (M : exists x, nth_error s (S i) = Some x).
      { destruct (nth_error s (S i)) eqn:N; [eauto|]. apply nth_error_None in N. assert (i + 2 < length s) by (apply nth_error_Some; congruence). lia. }
      destruct M as (x & M). exists i, (S (S (S i))). split; [lia|]. eexists. eexists. split; [vm_compute; reflexivity|].
      exists (S i), [], []. split; [split; [reflexivity|split; [reflexivity|]]; exists 97%N; split; [exact F1|left; reflexivity]|]. split; [|reflexivity].
      exists (S (S i)), [], []. split; [split; [reflexivity|split; [reflexivity|]]; exists x; split; [exact M|left; reflexivity]|]. split; [|reflexivity].
      exists (S (S (S i))), [], []. split; [split; [reflexivity|split; [reflexivity|]]; exists 98%N; split; [replace (S (S i)) with (i + 2) by lia; exact F2|left; reflexivity]|].
      split; [split; [reflexivity|split; [reflexivity|exact Logic.I]]|reflexivity].
    + intros (i & j & L & t & a & P & M). vm_compute in P. injection P as <-.
      destruct M as (k1 & t1 & u1 & (_ & -> & x1 & N1 & K1) & (k2 & t2 & u2 & (_ & -> & x2 & N2 & K2) & (k3 & t3 & u3 & (_ & -> & x3 & N3 & K3) & _ & _) & _) & _).
      apply letter_is in K1; [|right; reflexivity]. apply letter_is in K3; [|right; reflexivity]. cbn in K1, K3. subst x1 x3.
      exists i. split; [apply nth_error_Some; congruence|]. apply andb_true_intro. split; apply at_is_spec; [exact N1|].
      replace (i + 2) with (S (S i)) by lia. exact N3.
  - injection H as <-. apply str_eqb_eq in E2 as ->. unfold end_find. rewrite found_some. split.
    + intros (i & L & F). apply andb_prop in F as [F F3]. apply andb_prop in F as [F1 F2]. apply at_is_spec in F1, F2. apply Nat.eqb_eq in F3.
      replace (i + 1) with (S i) in F2 by lia. exists i, (S (S i)). split; [lia|]. eexists. eexists. split; [vm_compute; reflexivity|].
      exists (S i), [], []. split; [split; [reflexivity|split; [reflexivity|]]; exists 97%N; split; [exact F1|left; reflexivity]|]. split; [|reflexivity].
      exists (S i), [], []. split; [split; [reflexivity|split; [reflexivity|]]; right; split; [exists 10%N; split; [exact F2|reflexivity]|lia]|]. split; [|reflexivity].
      exists (S (S i)), [], []. split; [split; [reflexivity|split; [reflexivity|]]; exists 10%N; split; [exact F2|left; reflexivity]|].
      split; [split; [reflexivity|split; [reflexivity|exact Logic.I]]|reflexivity].
    + intros (i & j & L & t & a & P & M). vm_compute in P. injection P as <-.
      destruct M as (k1 & t1 & u1 & (_ & -> & x1 & N1 & K1) & (k2 & t2 & u2 & (_ & -> & A) & (k3 & t3 & u3 & (_ & -> & x3 & N3 & K3) & _ & _) & _) & _).
      apply letter_is in K1; [|right; reflexivity]. apply letter_is in K3; [|right; reflexivity]. cbn in K1, K3. subst x1 x3.
      exists i. split; [apply nth_error_Some; congruence|]. apply andb_true_intro. split; [apply andb_true_intro; split; apply at_is_spec; [exact N1|]|].
      * replace (i + 1) with (S i) by lia. exact N3.
      * apply Nat.eqb_eq. assert (S i < length s) by (apply nth_error_Some; congruence).
        destruct A as [A|[_ A]]; [|lia]. cbn in A. destruct A as [A|[A _]]; [lia|discriminate A].
Qed.
Definition fz_draws : draws := {| dr_kind := 2; dr_first := true; dr_count := 1 |}.

Lemma c94_reported_lemma :
  forall E (fold : char -> char) en b t e srt fuel, build en b = Ret (Ok t) -> crate_ok E en -> plain_env E ->
  (forall x y, same_letter E x y <-> fold x = fold y) ->
  (forall c, In c (bu_rules b) -> good_pattern E c /\ pattern_rule c) -> nothing_taken_back b ->
  sorter_ok srt -> distinct_keys e -> enough_fuel fuel (simple_strings e) ->
  forall h, exists e' outs, scan simple_event_impl fuel h srt (bt_scanner t) [] e = Ret (e', outs) /\
  scan_result simple_event_impl (simple_strings e) (simple_holds e) e' outs (fun p s s' os =>
    os <> [] <-> exists c, In c (bu_rules b) /\ in_scope b c p /\ somewhere (as_written E c s) s).
Proof.
exact reported_simple.
Qed.

Lemma c94_scanner_lemma :
  forall pattern a, exists c, bu_rules (fuzz_builder pattern a) = [c] /\ cf_pattern c = pattern /\ cf_action c = a /\
  (forall p, in_scope (fuzz_builder pattern a) c p) /\ pattern_rule c /\ cf_labels c = [] /\ cf_validation c = None /\
  bu_labels (fuzz_builder pattern a) = [] /\ bu_kw_paths (fuzz_builder pattern a) = true /\ bu_wild (fuzz_builder pattern a) = false /\
  bu_multipass (fuzz_builder pattern a) = true.
Proof.
intros pattern a. eexists. split; [reflexivity|]. split; [reflexivity|]. split; [reflexivity|].
  split; [intros p; split; [exact Logic.I|intros (sp & [] & _)]|]. split; [split; reflexivity|]. repeat split.
Qed.

Lemma c94_oracle_lemma :
  forall E (fold : char -> char) en fuel h srt hyperscan pattern input d,
  crate_ok E en -> plain_env E -> (forall x y, same_letter E x y <-> fold x = fold y) -> sorter_ok srt ->
  hyperscan_ok E hyperscan -> good_pattern E (regex_rule_config_new pattern) -> nbytes input + 2 <= fuel ->
  (run_fuzz en fuel h srt hyperscan pattern input d = Ret tt \/ run_fuzz en fuel h srt hyperscan pattern input d = Panic) /\
  (run_fuzz en fuel h srt hyperscan pattern input d = Panic <->
   (exists t, build en (fuzz_builder pattern (gen_match_action d)) = Ret (Ok t)) /\ hyperscan pattern <> None /\
   ~ (somewhere (as_written E (regex_rule_config_new pattern) input) input <-> somewhere (pcre_dot_all E pattern input) input)).
Proof.
intros E fold en fuel h srt hyperscan pattern input d CK PE HE Hs HH HG Hf.
  destruct (c60_result_lemma en (fuzz_builder pattern (gen_match_action d))) as ([t|e] & B & _).
  - destruct (run_fuzz_spec E fold en fuel h srt hyperscan pattern input d CK PE HE Hs Hf HG t B) as (s' & outs & _ & Hiff & ->).
    destruct (hyperscan pattern) as [find|] eqn:EH.
    + pose proof (HH pattern find EH input) as HF. rewrite <- Hiff, <- HF.
      destruct outs as [|o outs], (find input) as [|f fs]; (split; [auto|]); (split; [intros K; try discriminate K|intros (_ & _ & K)]).
      * destruct K. tauto.
      * split; [eauto|]. split; [discriminate|]. intros [_ Q]. apply Q; [discriminate|reflexivity].
      * reflexivity.
      * split; [eauto|]. split; [discriminate|]. intros [Q _]. apply Q; [discriminate|reflexivity].
      * reflexivity.
      * destruct K. split; discriminate.
    + split; [auto|]. split; [discriminate|]. intros (_ & K & _). congruence.
  - assert (R : run_fuzz en fuel h srt hyperscan pattern input d = Ret tt) by (unfold run_fuzz; rewrite B; reflexivity).
    rewrite R. split; [auto|]. split; [discriminate|]. intros ((t & K) & _). congruence.
Qed.

Lemma c94_agree_lemma :
  forall E (fold : char -> char) en fuel h srt hyperscan pattern a input d,
  crate_ok E en -> plain_env E -> (forall x y, same_letter E x y <-> fold x = fold y) -> sorter_ok srt ->
  hyperscan_ok E hyperscan -> good_pattern E (regex_rule_config_new pattern) -> nbytes input + 2 <= fuel ->
  parse_regex_pattern 51 pattern = Ret (Ok a) -> no_dots a -> no_ends a ->
  run_fuzz en fuel h srt hyperscan pattern input d = Ret tt.
Proof.
intros E fold en fuel h srt hyperscan pattern a input d CK PE HE Hs HH HG Hf P D N.
  destruct (c94_oracle_lemma E fold en fuel h srt hyperscan pattern input d CK PE HE Hs HH HG Hf) as [[R|R] K]; [exact R|].
  exfalso. apply K in R as (_ & _ & R). apply R. symmetry. apply (plain_means_same E (regex_rule_config_new pattern) a input P D N).
Qed.

Lemma c94_dot_refuted_lemma :
  exists E (fold : char -> char) en h hyperscan d, crate_ok E en /\ plain_env E /\ (forall x y, same_letter E x y <-> fold x = fold y) /\
  hyperscan_ok E hyperscan /\ drawable d /\ good_pattern E (regex_rule_config_new (chars "a.b")) /\
  run_fuzz en 100 h isort hyperscan (chars "a.b") (chars "a" ++ [10%N] ++ chars "b") d = Panic.
Proof.
exists ascii_env, lower, rs_engines, ex_hash, small_hyperscan, fz_draws.
  split; [apply regex_engines_ok|]. split; [exact ascii_env_plain|]. split; [reflexivity|]. split; [exact small_hyperscan_ok|].
  split; [split; cbn; lia|]. split; [good|]. vm_compute. reflexivity.
Qed.

Lemma c94_end_refuted_lemma :
  exists E (fold : char -> char) en h hyperscan d, crate_ok E en /\ plain_env E /\ (forall x y, same_letter E x y <-> fold x = fold y) /\
  hyperscan_ok E hyperscan /\ drawable d /\ good_pattern E (regex_rule_config_new (chars "a$\n")) /\
  run_fuzz en 100 h isort hyperscan (chars "a$\n") (chars "a" ++ [10%N]) d = Panic.
Proof.
exists ascii_env, lower, rs_engines, ex_hash, small_hyperscan, fz_draws.
  split; [apply regex_engines_ok|]. split; [exact ascii_env_plain|]. split; [reflexivity|]. split; [exact small_hyperscan_ok|].
  split; [split; cbn; lia|]. split; [good|]. vm_compute. reflexivity.
Qed.

Lemma c95_parts_lemma :
  (forall b pattern input seed, all_bytes b ->
    raw_parts b = Some (pattern, input, seed) <->
    exists x y rest, b = x ++ 44%N :: y ++ 44%N :: rest /\ utf8_of pattern x /\ utf8_of input y /\ no_comma x /\ no_comma y /\
      seed = big_endian (firstn 8 rest)) /\
  forall run b r, run_raw_fuzz run b = Ret r ->
    (r = None <-> raw_parts b = None) /\
    forall pattern input seed, raw_parts b = Some (pattern, input, seed) -> run pattern input seed = Ret tt.
Proof.
split.
  - intros b pattern input seed A. rewrite raw_spec. split; intros (x & y & rest & -> & U1 & U2 & N1 & N2 & K); exists x, y, rest;
      repeat (split; [assumption || reflexivity|]); apply all_bytes_app in A as [_ A]; inversion A as [|? ? _ A']; subst;
      apply all_bytes_app in A' as [_ A']; inversion A' as [|? ? _ A2]; subst; rewrite (seed_spec _ A2); reflexivity.
  - intros run b r H. unfold run_raw_fuzz in H. destruct (raw_parts b) as [[[pattern input] seed]|].
    + destruct (run pattern input seed) as [[]| |] eqn:R; try discriminate H. cbn [bind] in H. injection H as <-.
      split; [split; discriminate|]. intros p i s K. injection K as <- <- <-. exact R.
    + injection H as <-. split; [tauto|]. discriminate.
Qed.

Lemma c95_reached_lemma :
  forall pattern input seed, (exists b, all_bytes b /\ raw_parts b = Some (pattern, input, seed)) <->
  is_text pattern /\ is_text input /\ no_comma pattern /\ no_comma input /\ (seed < 2 ^ 64)%N.
Proof.
exact reach_spec.
Qed.

Lemma c95_actions_lemma :
  (forall a, (exists d, drawable d /\ gen_match_action d = a) <->
    a = ActNone \/ a = ActHash \/ a = ActRedact (chars "[REDACT]") \/ exists dir n, a = ActPartialRedact dir n /\ 1 <= n < 20) /\
  forall d, drawable d -> action_validate (gen_match_action d) = true.
Proof.
split; [exact action_spec|]. intros d D. destruct (proj1 (action_spec (gen_match_action d))) as [->|[->|[->|(dir & n & -> & C)]]];
    [eauto|reflexivity|reflexivity|reflexivity|]. destruct n; [lia|reflexivity].
Qed.

Lemma c95_refuted_lemma :
  exists en t, build en (fuzz_builder (chars "a{2,3}") ActHash) = Ret (Ok t) /\
  forall b input seed, raw_parts b <> Some (chars "a{2,3}", input, seed).
Proof.
destruct (on_built_spec _ (fun t => tt) (build rs_engines (fuzz_builder (chars "a{2,3}") ActHash)) tt) as (t & B & _); [vm_compute; reflexivity|].
  exists rs_engines, t. split; [exact B|]. intros b input seed H. apply raw_spec in H as (x & y & rest & -> & U1 & _ & N1 & _).
  apply (utf8_comma _ _ U1) in N1. apply N1. vm_compute. tauto.
Qed.

