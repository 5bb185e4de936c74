(* A concrete event and scanner that meet the hypotheses of the scan theorems.
   Nothing here models code of /repo. *)
From Coq Require Import Lia.
From Verif Require Import Proofs.Text.
From Verif Require Export Examples.Engine Proofs.RegexScan.

Definition everywhere : scope := ScopeExclude [].

(* rule 0: \d\d, redacted to "[R]"; rule 1: "key", hashed; rule 2: \d, only reported;
   rule 3: "abc", last two characters starred, not under the field "skip" *)
Definition ex_rules : list rule := [
  regex_compiled (ActRedact (text "[R]")) everywhere None (plain_rule 0 (digits 2));
  regex_compiled ActHash everywhere None (plain_rule 1 (literal (text "key")));
  regex_compiled ActNone everywhere None (plain_rule 2 (digits 1));
  regex_compiled (ActPartialRedact LastCharacters 2) (ScopeExclude [[Field (text "skip")]]) None
    (plain_rule 3 (literal (text "abc")))
].
Definition ex_scanner : scanner := {|
  sc_rules := ex_rules; sc_kw_paths := false; sc_wild := false; sc_multipass := true;
  sc_return_matches := true
|}.
Definition ex_hash : hashers := {| hash_utf8 := fun _ => text "#hash"; hash_utf16 := fun _ => text "#16" |}.

(* 233 is a two-byte character *)
Definition ex_event : simple_event := SMap [
  (text "list", SList [SString (233%N :: text "12cd345"); SString (text "a key")]);
  (text "message", SString (text "7 8"));
  (text "skip", SString (text "xyz"))
].
Definition ex_redacted : simple_event := SMap [
  (text "list", SList [SString (233%N :: text "[R]cd[R]5"); SString (text "a #hash")]);
  (text "message", SString (text "7 8"));
  (text "skip", SString (text "xyz"))
].

Lemma plain_scannable : forall i m c, scannable (plain_rule i m) (match_at m) c.
Proof. intros i m c _ xk a b H. discriminate H. Qed.

Lemma ex_regex_scanner : forall strs, regex_scanner ex_scanner strs.
Proof.
  assert (H : forall i r a s v m, nth_error ex_rules i = Some r -> r = regex_compiled a s v (plain_rule i m) ->
            action_validate a = true -> forall strs : list (path * str),
            exists rr at_ occ, regex_rule_at ex_scanner i rr at_ occ /\
              forall p c, In (p, c) strs -> scannable rr at_ c).
  { intros i r a s v m Hr E Ha strs. exists (plain_rule i m), (match_at m), (fun _ _ _ => False). split.
    - exists a, s, v. split; [subst r; exact Hr|]. split; [reflexivity|]. split; [exact Ha|apply plain_ok].
    - intros. apply plain_scannable. }
  intros strs i r Hr. do 4 (destruct i as [|i]; [eapply H; [exact Hr| |]; [injection Hr as <-; reflexivity|reflexivity]|]).
  destruct i; discriminate Hr.
Qed.

Lemma ex_distinct : distinct_keys ex_event.
Proof.
  constructor.
  - repeat (constructor; [simpl; intros H; repeat (destruct H as [H|H]; [discriminate H|]); exact H|]). constructor.
  - intros k c [E|[E|[E|[]]]]; injection E as _ <-; constructor.
    intros c' [<-|[<-|[]]]; constructor.
Qed.

Lemma ex_fuel : enough_fuel 100 (simple_strings ex_event).
Proof.
  intros p c H. apply Nat.leb_le. revert p c H.
  assert (forall l : list (path * str), forallb (fun pc => nbytes (snd pc) + 2 <=? 100) l = true ->
          forall p c, In (p, c) l -> (nbytes c + 2 <=? 100) = true) as H.
  { intros l Hl p c Hin. rewrite forallb_forall in Hl. exact (Hl _ Hin). }
  apply H. vm_compute. reflexivity.
Qed.

Lemma ex_setting : scan_setting simple_event_impl clen isort ex_scanner (finders ex_scanner) ex_event
  (simple_strings ex_event) (simple_holds ex_event) 100.
Proof. apply simple_setting; [exact isort_ok|exact ex_distinct|apply ex_regex_scanner|exact ex_fuel]. Qed.
