(* Data shared by rules: group data, group configs and caches of a scan (C91) *)
From Verif Require Import Proofs.Text Proofs.GroupDataClaims Examples.Setting Examples.GroupData.

(* Building a scanner of rules of any kinds and scanning with it is the scan in which each rule
   is given the group data that the last rule with the same type left in this string, the config
   made by all rules with the same type, and the cache that the last rule with the same type
   left in this event.  In particular the look-ups and downcasts never panic. *)
Theorem C91_shared :
  forall V I fuel h srt (rules : list (data_rule V)) kw wild mp ret blocked e,
  (let* s := build_data_scanner rules kw wild mp ret in data_scan I fuel h srt s blocked e) =
  told_scan I fuel h srt rules kw wild mp ret blocked e.
Proof. exact c91_shared_lemma. Qed.
Print Assumptions C91_shared.

(* two rules of type 1 and one of type 2 in two strings: 0 and 100 plus the cache, then 500 *)
Example C91_shared_applies : exists ms,
  (let* s := build_data_scanner counting_rules false false false false in
   data_scan simple_event_impl 9 ex_hash isort s [] two_strings) = Ret (two_strings, ms) /\
  map (fun m => (rm_rule m, rm_start m, rm_end m - rm_start m)) ms =
    [(0, 0, 13); (1, 101, 13); (2, 500, 4); (0, 2, 13); (1, 103, 13); (2, 501, 4)].
Proof. eexists. split; [vm_compute; reflexivity|]. reflexivity. Qed.

(* Rules that find the same whatever data they are given: the scan is the one the other
   theorems are about. *)
Theorem C91_ignored :
  forall V I fuel h srt (ds : list (data_rule V)) rules kw wild mp ret blocked e,
  extensional_sort srt -> Forall2 ignores_data ds rules ->
  (let* s := build_data_scanner ds kw wild mp ret in data_scan I fuel h srt s blocked e) =
  scan I fuel h srt {| sc_rules := rules; sc_kw_paths := kw; sc_wild := wild; sc_multipass := mp; sc_return_matches := ret |} blocked e.
Proof. exact c91_ignored_lemma. Qed.
Print Assumptions C91_ignored.

Definition blind (n : nat) : data_rule nat := {|
  dr_action := ActRedact (text "*"); dr_scope := everywhere; dr_validation := None; dr_multipass := false;
  dr_data := 1; dr_config := 2; dr_cache := 3; dr_new_data := n; dr_new_config := n; dr_new_cache := n; dr_process := S;
  dr_string_matches := fun _ _ _ _ _ _ x d g c => Ret ([(0, 1)], x, d + g, c + n) |}.
Example C91_ignored_applies : extensional_sort isort /\
  Forall2 ignores_data [blind 3; blind 4] [{| rule_action := ActRedact (text "*"); rule_scope := everywhere; rule_validation := None; rule_multipass := false;
    rule_string_matches := fun _ _ _ _ _ _ x => Ret ([(0, 1)], x) |};
    {| rule_action := ActRedact (text "*"); rule_scope := everywhere; rule_validation := None; rule_multipass := false;
    rule_string_matches := fun _ _ _ _ _ _ x => Ret ([(0, 1)], x) |}].
Proof.
  split; [exact isort_extensional|].
  repeat (constructor; [repeat (split; [reflexivity|]); intros; do 2 eexists; reflexivity|]). constructor.
Qed.

(* The regex rules are such rules, also beside rules of other kinds. *)
Theorem C91_regex :
  forall V (u : V) a s v r, ignores_data (regex_data_rule u a s v r) (regex_compiled a s v r).
Proof. exact c91_regex_lemma. Qed.
Print Assumptions C91_regex.

Example C91_regex_applies : exists e ms,
  (let* s := build_data_scanner [counting 0 0 1 1; regex_data_rule 0 (ActRedact (text "[R]")) everywhere None (plain_rule 1 (digits 2))] false false false false in
   data_scan simple_event_impl 9 ex_hash isort s [] (SList [SString (text "abc 12")])) = Ret (e, ms) /\
  e = SList [SString (text "abc [R]")] /\ map rm_rule ms = [0; 1].
Proof. do 2 eexists. split; [vm_compute; reflexivity|]. split; reflexivity. Qed.

