(* Data shared by rules: group data, group configs and caches of a scan (C91): proofs of the statements of Thm/GroupData.v *)
From Verif Require Import Proofs.Text Proofs.GroupData.
From Verif Require Export Spec.GroupData.



Lemma c91_shared_lemma :
  forall V I fuel h srt (rules : list (data_rule V)) kw wild mp ret blocked e,
  (let* s := build_data_scanner rules kw wild mp ret in data_scan I fuel h srt s blocked e) =
  told_scan I fuel h srt rules kw wild mp ret blocked e.
Proof.
  exact scan_told.
Qed.

Lemma c91_ignored_lemma :
  forall V I fuel h srt (ds : list (data_rule V)) rules kw wild mp ret blocked e,
  extensional_sort srt -> Forall2 ignores_data ds rules ->
  (let* s := build_data_scanner ds kw wild mp ret in data_scan I fuel h srt s blocked e) =
  scan I fuel h srt {| sc_rules := rules; sc_kw_paths := kw; sc_wild := wild; sc_multipass := mp; sc_return_matches := ret |} blocked e.
Proof.
  intros V I fuel h srt ds rules kw wild mp ret blocked e X F. rewrite scan_told. exact (told_ignoring V I fuel h srt ds rules kw wild mp ret blocked e X F).
Qed.

Lemma c91_regex_lemma :
  forall V (u : V) a s v r, ignores_data (regex_data_rule u a s v r) (regex_compiled a s v r).
Proof.
  exact regex_ignores.
Qed.

