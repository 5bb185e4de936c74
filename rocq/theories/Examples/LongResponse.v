(* A scanner whose responses are as long as one likes: its only rule replaces "12" by [p].
   Nothing here models code of /repo. *)
From Coq Require Import Lia ZifyN.
From Verif Require Import Proofs.Text Proofs.Codec.
From Verif Require Export Examples.Setting Examples.Codec.

Definition long_scanner (p : str) : scanner := {|
  sc_rules := [regex_compiled (ActRedact p) everywhere None (plain_rule 0 (literal (text "12")))];
  sc_kw_paths := false; sc_wild := false; sc_multipass := false; sc_return_matches := false |}.

Lemma long_visit : forall p,
  visit_string_rule_combinations (sc_tree (long_scanner p)) 1 false [OpString (text "12")]
    (@visit_content utf8_encoding 100 isort (long_scanner p) []) ([], [])
  = Ret (([([], [@Build_internal_match utf8_encoding 0 0 2 tt tt])], []), [([], text "12", true)]).
Proof. intros p. vm_compute. reflexivity. Qed.

Lemma long_action : forall p, exists d m,
  @apply_match_actions_for_string utf8_encoding ex_hash (long_scanner p) [] (text "12") 0 tt (@Build_internal_match utf8_encoding 0 0 2 tt tt)
    = Ret (p, d, tt, m) /\ rm_path m = [] /\ rm_kind m = RKPlaceholder.
Proof.
  intros p.
unfold apply_match_actions_for_string. cbn -[as_usize slice replace_range text blen Z.add Z.sub].
  change (as_usize (0 + 0)) with (Ret 0). change (as_usize (2 + 0)) with (Ret 2). cbn [bind].
  change (slice (text "12") 0 2) with (Ret (text "12")). cbn [bind]. 
  change (slice (text "12") 0 (blen (text "12"))) with (Ret (text "12")). cbn [bind].
  change (replace_range (text "12") (0 + 0) (0 + blen (text "12")) p) with (Ret (p ++ [])). cbn [bind].
  rewrite app_nil_r. change (Z.of_nat (blen (text "12"))) with 2%Z.
  unfold as_usize. destruct (Z.ltb_spec (2 + (0 + (Z.of_nat (blen p) - 2))) 0); [lia|]. cbn [bind].
  do 2 eexists. split; [reflexivity|]. split; reflexivity.
Qed.

Lemma long_response : forall p, exists m,
  native_scan 100 ex_hash isort (long_scanner p) (go_encode_string (text "12"))
  = Ret (Some (encode_mutation [] p ++ encode_match m)) /\
  rm_path m = [] /\ rm_kind m = RKPlaceholder.
Proof.
  intros p. unfold native_scan, scan.
  change (decode_event (go_encode_string (text "12"))) with (Ret [OpString (text "12")]). cbn [bind].
  change (ev_ops (binary_event_impl utf8_encoding) {| be_ops := [OpString (text "12")]; be_storage := [] |}) with [OpString (text "12")].
  change (length (sc_rules (long_scanner p))) with 1. change (sc_wild (long_scanner p)) with false.
  change (ev_enc (binary_event_impl utf8_encoding)) with utf8_encoding.
  rewrite (long_visit p). cbn [bind process_all].
  change (ev_get _ _ _) with (Ret (text "12")) at 1. cbn [bind].
  unfold process_string. change (sc_multipass (long_scanner p)) with false. cbv iota. cbn [bind].
  change (sort_and_remove_overlapping_rules isort (sc_rules (long_scanner p)) [@Build_internal_match utf8_encoding 0 0 2 tt tt])
    with (Ret [@Build_internal_match utf8_encoding 0 0 2 tt tt]). cbn [bind].
  unfold apply_match_actions. cbn [apply_match_actions_loop].
  destruct (long_action p) as (d & m & A & B & C). exists m. split; [|split; assumption].
  change (@apply_match_actions_for_string _ ex_hash (long_scanner p) [] (text "12") 0 _ _) with
    (@apply_match_actions_for_string utf8_encoding ex_hash (long_scanner p) [] (text "12") 0 tt (@Build_internal_match utf8_encoding 0 0 2 tt tt)).
  rewrite A. cbn [bind apply_match_actions_loop fst snd app].
  cbn -[encode_mutation encode_match]. rewrite !app_nil_r. reflexivity.
Qed.

Lemma long_length : forall k, exists p data,
  native_scan 100 ex_hash isort (long_scanner p) (go_encode_string (text "12")) = Ret (Some data) /\
  length data = 42 + k /\ p = repeat 97%N k.
Proof.
  intros k. exists (repeat 97%N k). destruct (long_response (repeat 97%N k)) as (m & H & P & K).
  eexists. split; [exact H|]. split; [|reflexivity].
  rewrite app_length. unfold encode_mutation, encode_match, encode_bytes. rewrite P, K.
  assert (L : length (as_bytes (repeat 97%N k)) = k).
  { clear. induction k as [|k IH]; [reflexivity|]. cbn [repeat]. 
    change (as_bytes (97%N :: repeat 97%N k)) with (97%N :: as_bytes (repeat 97%N k)). cbn [length]. rewrite IH. reflexivity. }
  cbn [encode_path app length]. repeat (rewrite ?app_length; cbn [length]). rewrite L.
  assert (B : forall n, length (be32 n) = 4) by reflexivity. rewrite !B.
  change (length (as_bytes (display []))) with 0. change (length (kind_text RKPlaceholder)) with 11. lia.
Qed.

Lemma long_direct : forall p, exists o, scan string_event 100 ex_hash isort (long_scanner p) [] (text "12") = Ret (p, [o]).
Proof.
  intros p. unfold scan.
  change (ev_ops string_event (text "12")) with [OpString (text "12")].
  change (length (sc_rules (long_scanner p))) with 1. change (sc_wild (long_scanner p)) with false.
  change (ev_enc string_event) with utf8_encoding.
  rewrite (long_visit p). cbn [bind process_all].
  change (ev_get _ _ _) with (Ret (text "12")) at 1. cbn [bind].
  unfold process_string. change (sc_multipass (long_scanner p)) with false. cbv iota. cbn [bind].
  change (sort_and_remove_overlapping_rules isort (sc_rules (long_scanner p)) [@Build_internal_match utf8_encoding 0 0 2 tt tt])
    with (Ret [@Build_internal_match utf8_encoding 0 0 2 tt tt]). cbn [bind].
  unfold apply_match_actions. cbn [apply_match_actions_loop].
  destruct (long_action p) as (d & m & A & _ & _). exists m.
  change (@apply_match_actions_for_string _ ex_hash (long_scanner p) [] (text "12") 0 _ _) with
    (@apply_match_actions_for_string utf8_encoding ex_hash (long_scanner p) [] (text "12") 0 tt (@Build_internal_match utf8_encoding 0 0 2 tt tt)).
  rewrite A. reflexivity.
Qed.
