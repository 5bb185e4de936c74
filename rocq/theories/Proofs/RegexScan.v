(* Scanners made of regex rules meet the hypotheses of the scan theorems *)
From Coq Require Import Lia.
From Verif Require Import Proofs.Text Proofs.Regex.
From Verif Require Export Spec.RegexScan Proofs.Claims.

Lemma finder_of_regex : forall a s v rr, finder_of (regex_compiled a s v rr) = regex_finder rr.
Proof. reflexivity. Qed.

Lemma regex_scanner_meets : forall sc strs, regex_scanner sc strs -> scanner_meets sc (finders sc) strs.
Proof.
  intros sc strs H i r Hr. destruct (H i r Hr) as (rr & at_ & occ & (a & s & v & Hr' & Hi & Ha & Hok) & Hsc).
  unfold finders. rewrite Hr. rewrite Hr in Hr'. injection Hr' as ->.
  change (finder_of (regex_compiled a s v rr)) with (regex_finder rr).
  pose proof (regex_meets rr at_ occ Hok a s v Ha) as [M1 M2 M3 M4 M5]. rewrite Hi in M2.
  split.
  - exact M1.
  - intros fuel c p excl kw x (q & Hin). apply M2. exact (Hsc q c Hin).
  - intros c p e kw x y (q & Hin). apply M3. exact (Hsc q c Hin).
  - intros c p kw (q & Hin). apply M4. exact (Hsc q c Hin).
  - intros c p kw (q & Hin). apply M5. exact (Hsc q c Hin).
Qed.

Lemma regex_rule_finds : forall sc i rr at_ occ, regex_rule_at sc i rr at_ occ ->
  regex_finds rr at_ occ (finders sc i).
Proof.
  intros sc i rr at_ occ (a & s & v & Hr & Hi & Ha & Hok). unfold finders. rewrite Hr.
  change (finder_of (regex_compiled a s v rr)) with (regex_finder rr).
  apply regex_finder_finds. exact Hok.
Qed.

Lemma simple_setting : forall srt sc e fuel,
  sorter_ok srt -> distinct_keys e -> regex_scanner sc (simple_strings e) ->
  enough_fuel fuel (simple_strings e) ->
  scan_setting simple_event_impl clen srt sc (finders sc) e (simple_strings e) (simple_holds e) fuel.
Proof.
  intros srt sc e fuel H1 H2 H3 H4. split.
  - exact utf8_shifts.
  - exact utf8_indices.
  - exact H1.
  - exact (regex_scanner_meets sc _ H3).
  - exact (simple_laws e H2).
  - exact H4.
Qed.

Lemma string_setting : forall srt sc s fuel,
  sorter_ok srt -> regex_scanner sc [([], s)] -> nbytes s + 2 <= fuel ->
  scan_setting string_event clen srt sc (finders sc) s [([], s)]
    (fun e l => exists b, l = [([], e, b)]) fuel.
Proof.
  intros srt sc s fuel H1 H3 H4. split.
  - exact utf8_shifts.
  - exact utf8_indices.
  - exact H1.
  - exact (regex_scanner_meets sc _ H3).
  - exact (string_laws s).
  - intros p c [E|[]]. inversion E; subst. exact H4.
Qed.
