(* A scanner whose metrics are counted.  Nothing here models code of /repo. *)
From Coq Require Import Lia.
From Verif Require Import Proofs.Text Proofs.Metrics.
From Verif Require Export Spec.Metrics Examples.Setting Examples.Keywords Examples.Build.

(* rule 0: \d\d, redacted, unless the word "no" is among the five characters before it;
   rule 1: "key", hashed, not under the field "skip" *)
Definition counted_rules (i : nat) : regex_rule :=
  match i with
  | 0 => excluding_rule 0 (digits 2) 5 [text "no"]
  | _ => plain_rule 1 (Engine.literal (text "key"))
  end.
Definition counted_searches : list counted_search := [regex_counted (counted_rules 0); regex_counted (counted_rules 1)].
Definition counted_example : scanner := {|
  sc_rules := [regex_compiled (ActRedact (text "[R]")) everywhere None (counted_rules 0);
               regex_compiled ActHash (ScopeExclude [[Field (text "skip")]]) None (counted_rules 1)];
  sc_kw_paths := false; sc_wild := false; sc_multipass := true; sc_return_matches := false
|}.
Definition counted_event : simple_event := SMap [
  (text "a", SString (text "12 no 345 67")); (text "b", SString (text "key")); (text "skip", SString (text "a key"))
].

(* text of one-byte characters can always be checked for excluded keywords *)
Lemma ascii_scannable : forall r at_ s, forallb (fun c => clen c =? 1) s = true -> scannable r at_ s.
Proof.
  intros r at_ s H _ xk a b _ E (before & c & after & x & -> & _ & _ & F & W).
  rewrite forallb_forall in H. assert (I : In x (before ++ c :: after)).
  { assert (I : In x (excluded_text (xk_look_ahead xk) before c)) by (rewrite F; left; reflexivity).
    unfold excluded_text in I. apply filter_In in I. destruct I as [I _]. apply in_or_app. apply in_app_or in I. destruct I as [I|[<-|[]]].
    - left. unfold lastn in I. rewrite <- (firstn_skipn (length before - (xk_look_ahead xk + 1)) before). apply in_or_app. right. exact I.
    - right. left. reflexivity. }
  apply H in I. apply Nat.eqb_eq in I. rewrite nbytes_blen in W. cbn in W. rewrite I in W. cbn in W. lia.
Qed.

Lemma counted_example_ok : scan_setting simple_event_impl clen isort counted_example (finders counted_example) counted_event
    (simple_strings counted_event) (simple_holds counted_event) 100 /\
  counted_scanner counted_example counted_searches counted_rules (fun i => match_at (match i with 0 => digits 2 | _ => Engine.literal (text "key") end))
    (simple_strings counted_event).
Proof.
  assert (C : counted_scanner counted_example counted_searches counted_rules
    (fun i => match_at (match i with 0 => digits 2 | _ => Engine.literal (text "key") end)) (simple_strings counted_event)).
  { intros i r Hr. assert (A : forall p c, In (p, c) (simple_strings counted_event) -> forall r at_, scannable r at_ c).
    { intros p c [H|[H|[H|[]]]]; injection H as _ <-; intros; apply ascii_scannable; reflexivity. }
    destruct i as [|[|[|i]]]; try discriminate Hr; injection Hr as <-; (do 3 eexists); exists (fun _ _ _ => False); (split; [reflexivity|]);
      (split; [reflexivity|]); (split; [reflexivity|]); (split; [reflexivity|]); (split; [|intros p c Hin; exact (A p c Hin _ _)]).
    - apply excluding_ok.
    - apply plain_ok. }
  split; [|exact C]. apply simple_setting.
  - exact isort_ok.
  - constructor.
    + repeat (constructor; [simpl; intros H; repeat (destruct H as [H|H]; [discriminate H|]); exact H|]). constructor.
    + intros k c [E|[E|[E|[]]]]; injection E as _ <-; constructor.
  - intros i r Hr. destruct (C i r Hr) as (a & s & v & occ & -> & X & V & _ & O & Sc).
    exists (counted_rules i), (match_at (match i with 0 => digits 2 | _ => Engine.literal (text "key") end)), occ. split; [|exact Sc].
    exists a, s, v. auto.
  - intros p c [H|[H|[H|[]]]]; injection H as _ <-; apply Nat.leb_le; reflexivity.
Qed.

Lemma counted_hits : keyword_hits (excluding_rule 0 (digits 2) 5 [text "no"]) (match_at (digits 2)) (text "12 no 345 67") 2.
Proof.
  destruct (regex_hits (excluding_rule 0 (digits 2) 5 [text "no"]) (match_at (digits 2)) (engine_leftmost _) (text "12 no 345 67") [] false false) as [H _].
  - apply ascii_scannable. reflexivity.
  - exact H.
Qed.

(* the scanners of the tests of metrics in scanner/mod.rs *)
Definition test_scanner (a : match_action) (s : scope) (r : regex_rule) : scanner := {|
  sc_rules := [regex_compiled a s None r]; sc_kw_paths := true; sc_wild := false; sc_multipass := true; sc_return_matches := false
|}.
Definition test_counts (a : match_action) (s : scope) (r : regex_rule) (e : simple_event) : option (list emission) :=
  match scan_counted simple_event_impl 100 ex_hash isort (test_scanner a s r) [regex_counted r] [] e with
  | Ret (_, _, em) => Some em
  | _ => None
  end.
(* a configuration with excluded keywords, and a builder with a label *)
Definition keyword_config : rule_config := {|
  cf_pattern := chars "world"; cf_action := ActRedact (chars "[REDACTED]"); cf_scope := ScopeExclude [];
  cf_keywords := Some {| kc_look_ahead := 30; kc_included := []; kc_excluded := [chars "hello"] |};
  cf_validator := None; cf_labels := []; cf_validation := None
|}.
Definition test_builder (cs : list rule_config) : builder := {|
  bu_rules := cs; bu_labels := [(chars "s", chars "1")]; bu_kw_paths := true; bu_wild := false; bu_multipass := true
|}.
