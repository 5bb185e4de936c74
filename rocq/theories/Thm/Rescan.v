(* Scanning the result of a scan (C93) *)
From Coq Require Import Lia.
From Verif Require Import Proofs.Text Proofs.ConversionClaims Proofs.RescanClaims Examples.Setting Examples.Build Examples.RegexEngine.

(* Rules that redact by their patterns alone, without assertions, keywords, checks or
   multi-pass.  Every string is cut into pieces that were replaced and parts that were left
   alone.  Every piece is a text that a rule in scope looks for.  If matches of different
   rules do not overlap in the string, no part that was left alone contains a text that a rule
   in scope looks for. *)
Theorem C93_kept :
  forall E fold en b t e srt fuel, plain_rules E fold en b t ->
  sorter_ok srt -> distinct_keys e -> enough_fuel fuel (simple_strings e) ->
  forall h, exists e' outs, scan simple_event_impl fuel h srt (bt_scanner t) [] e = Ret (e', outs) /\
  scan_result simple_event_impl (simple_strings e) (simple_holds e) e' outs (fun p s s' os => exists g0 cs,
    s = original g0 cs /\ s' = rewritten g0 cs /\ length cs = length os /\
    (forall u, In u cs -> exists c, In c (bu_rules b) /\ in_scope b c p /\ is_secret E c (cut_old u) /\
      cut_new u = redacted h (cf_action c) (cut_old u)) /\
    (apart E (bu_rules b) s -> forall c g t, In c (bu_rules b) -> in_scope b c p -> In g (left_alone g0 cs) ->
      is_secret E c t -> ~ occurs_in t g)).
Proof. exact c93_kept_lemma. Qed.
Print Assumptions C93_kept.

(* "123-45" and the like, and four letters from "a" to "f" *)
Definition rs_number := rs_rule (chars "\d{3}-\d{2,4}") (ActRedact (chars "[#]")).
Definition rs_hex := rs_rule (chars "(?:[a-f]{2}){2}") (ActRedact (chars "<x>")).
Definition rs_event : simple_event := SMap [
  (chars "m", SList [SString (chars "id 123-456789 cafecabx"); SString (chars "12-34 abc")]);
  (chars "n", SString (chars "555-11feed"))
].
Definition rs_done : simple_event := SMap [
  (chars "m", SList [SString (chars "id [#]89 <x>cabx"); SString (chars "12-34 abc")]);
  (chars "n", SString (chars "[#]<x>"))
].
Lemma rs_good : forall c, In c [rs_number; rs_hex] -> good_pattern ascii_env c /\ self_contained c /\ simple_rule c.
Proof.
  intros c [<-|[<-|[]]]; (split; [good|split; [eexists; split; [vm_compute; reflexivity|cbn; tauto]|apply rs_simple; discriminate]]).
  intros it [<-|[]]. cbn. lia.
Qed.
Lemma rs_event_ok : distinct_keys rs_event /\ enough_fuel 100 (simple_strings rs_event).
Proof.
  split.
  - constructor.
    + repeat (constructor; [simpl; intros H; repeat (destruct H as [H|H]; [discriminate H|]); exact H|]). constructor.
    + intros k c [E|[E|[]]]; injection E as _ <-; constructor. intros c' [<-|[<-|[]]]; constructor.
  - intros p s [E|[E|[E|[]]]]; injection E as _ <-; vm_compute; lia.
Qed.
(* the alphabets of the two rules *)
Definition rs_alphabet (r : nat) (x : char) : Prop :=
  match r with 0 => (48 <= x <= 57 \/ x = 45)%N | 1 => (97 <= lower x <= 102)%N | _ => False end.
Lemma rs_alphabets : forall r c, nth_error [rs_number; rs_hex] r = Some c -> uses_only ascii_env (rs_alphabet r) c.
Proof.
  assert (L : forall x y, same_letter ascii_env x y -> lower x = lower y) by (intros x y H; exact H).
  intros [|[|[|r]]] c H; try discriminate H; injection H as <-; (eexists; split; [vm_compute; reflexivity|]); cbn.
  - split; [intros _ x H; left; exact H|]. split; [|split; [intros _ x H; left; exact H|exact Logic.I]].
    intros i x [<-|(_ & d & <- & S)]; [right; reflexivity|right]. apply L in S. destruct (lower_spec x) as [[? K]|[? K]]; rewrite K in S; cbn in S; lia.
  - intros m x (it & [<-|[]] & [K|(_ & d & K & S)]).
    + destruct (lower_spec x) as [[? Q]|[? Q]]; rewrite Q; lia.
    + apply L in S. rewrite S. destruct (lower_spec d) as [[? Q]|[? Q]]; rewrite Q; lia.
Qed.
Lemma rs_disjoint : forall r r' x, r <> r' -> rs_alphabet r x -> ~ rs_alphabet r' x.
Proof.
  intros [|[|r]] [|[|r']] x N H H'; cbn in H, H'; try contradiction; try congruence; destruct (lower_spec x) as [[? Q]|[? Q]]; rewrite Q in *; lia.
Qed.
Lemma rs_replaced : forall c, In c [rs_number; rs_hex] -> exists y, cf_action c = ActRedact y /\ y <> [] /\ forall r x, In x y -> ~ rs_alphabet r x.
Proof.
  intros c [<-|[<-|[]]]; eexists; (split; [reflexivity|]); (split; [discriminate|]); intros [|[|r]] x [<-|[<-|[<-|[]]]] H; vm_compute in H; intuition congruence.
Qed.
Example C93_kept_applies : exists t, plain_rules ascii_env lower rs_engines (rs_builder [rs_number; rs_hex]) t /\ sorter_ok isort /\
  distinct_keys rs_event /\ enough_fuel 100 (simple_strings rs_event) /\ (forall s, apart ascii_env [rs_number; rs_hex] s) /\
  in_scope (rs_builder [rs_number; rs_hex]) rs_number [Field (chars "n")] /\ is_secret ascii_env rs_number (chars "123-456") /\
  exists outs, scan simple_event_impl 100 ex_hash isort (bt_scanner t) [] rs_event = Ret (rs_done, outs).
Proof.
  destruct (on_built_spec _ (fun t => match scan simple_event_impl 100 ex_hash isort (bt_scanner t) [] rs_event with Ret (e, _) => Some e | _ => None end)
    (build rs_engines (rs_builder [rs_number; rs_hex])) (Some rs_done)) as (t & B & H); [vm_compute; reflexivity|].
  exists t. split; [apply rs_plain; [exact B|exact rs_good]|]. split; [exact isort_ok|]. split; [apply rs_event_ok|]. split; [apply rs_event_ok|].
  split; [intros s; apply (alphabets_apart _ _ rs_alphabet); [intros c Hc; destruct (rs_good c Hc) as (G1 & G2 & _); auto|exact rs_alphabets|exact rs_disjoint]|].
  split; [split; [exact Logic.I|intros (sp & [] & _)]|]. split.
  - secret. apply rs_good. left. reflexivity.
  - destruct (scan simple_event_impl 100 ex_hash isort (bt_scanner t) [] rs_event) as [[e outs]| |]; try discriminate H. injection H as ->. eauto.
Qed.

(* Such rules again.  If matches of different rules do not overlap in the strings of the event
   and the replacements are inert, the result of the scan holds no text any more that a rule
   in scope looks for, and a second scan changes and reports nothing. *)
Theorem C93_again :
  forall E fold en b t e srt fuel, plain_rules E fold en b t ->
  sorter_ok srt -> distinct_keys e -> enough_fuel fuel (simple_strings e) ->
  (forall p s, In (p, s) (simple_strings e) -> apart E (bu_rules b) s) ->
  forall h, inert E h (bu_rules b) -> exists e' outs, scan simple_event_impl fuel h srt (bt_scanner t) [] e = Ret (e', outs) /\
  (forall c p s t, In c (bu_rules b) -> In (p, s) (simple_strings e') -> in_scope b c p -> is_secret E c t -> ~ occurs_in t s) /\
  forall h' srt' fuel', sorter_ok srt' -> enough_fuel fuel' (simple_strings e') ->
    scan simple_event_impl fuel' h' srt' (bt_scanner t) [] e' = Ret (e', []).
Proof. exact c93_again_lemma. Qed.
Print Assumptions C93_again.

Example C93_again_applies : exists t, plain_rules ascii_env lower rs_engines (rs_builder [rs_number; rs_hex]) t /\ sorter_ok isort /\
  distinct_keys rs_event /\ enough_fuel 100 (simple_strings rs_event) /\
  (forall p s, In (p, s) (simple_strings rs_event) -> apart ascii_env [rs_number; rs_hex] s) /\ inert ascii_env ex_hash [rs_number; rs_hex] /\
  (exists outs, length outs = 4 /\ scan simple_event_impl 100 ex_hash isort (bt_scanner t) [] rs_event = Ret (rs_done, outs)) /\
  scan simple_event_impl 100 ex_hash isort (bt_scanner t) [] rs_done = Ret (rs_done, []).
Proof.
  destruct (on_built_spec _ (fun t => (match scan simple_event_impl 100 ex_hash isort (bt_scanner t) [] rs_event with Ret (e, os) => Some (e, length os) | _ => None end,
    scan simple_event_impl 100 ex_hash isort (bt_scanner t) [] rs_done))
    (build rs_engines (rs_builder [rs_number; rs_hex])) (Some (rs_done, 4), Ret (rs_done, []))) as (t & B & H); [vm_compute; reflexivity|]. injection H as H H'.
  exists t. split; [apply rs_plain; [exact B|exact rs_good]|]. split; [exact isort_ok|]. split; [apply rs_event_ok|]. split; [apply rs_event_ok|].
  split; [intros p s _; apply (alphabets_apart _ _ rs_alphabet); [intros c Hc; destruct (rs_good c Hc) as (G1 & G2 & _); auto|exact rs_alphabets|exact rs_disjoint]|].
  split; [apply (alphabets_inert _ _ _ rs_alphabet); [intros c Hc; destruct (rs_good c Hc) as (_ & G2 & _); exact G2|exact rs_alphabets|exact rs_replaced]|].
  split; [|exact H'].
  destruct (scan simple_event_impl 100 ex_hash isort (bt_scanner t) [] rs_event) as [[e outs]| |]; try discriminate H. injection H as -> H. eauto.
Qed.

(* A condition that can be read off the configuration.  Give every rule an alphabet that
   contains all characters its pattern can match.  If the alphabets are disjoint and the
   replacements are fixed texts with none of these characters, a second scan changes and
   reports nothing, whatever the event. *)
Theorem C93_alphabets :
  forall E fold en b t e srt fuel (alphabet : nat -> char -> Prop), plain_rules E fold en b t ->
  (forall r c, nth_error (bu_rules b) r = Some c -> uses_only E (alphabet r) c) ->
  (forall r r' x, r <> r' -> alphabet r x -> ~ alphabet r' x) ->
  (forall c, In c (bu_rules b) -> exists y, cf_action c = ActRedact y /\ y <> [] /\ forall r x, In x y -> ~ alphabet r x) ->
  sorter_ok srt -> distinct_keys e -> enough_fuel fuel (simple_strings e) ->
  forall h, exists e' outs, scan simple_event_impl fuel h srt (bt_scanner t) [] e = Ret (e', outs) /\
  forall h' srt' fuel', sorter_ok srt' -> enough_fuel fuel' (simple_strings e') ->
    scan simple_event_impl fuel' h' srt' (bt_scanner t) [] e' = Ret (e', []).
Proof. exact c93_alphabets_lemma. Qed.
Print Assumptions C93_alphabets.

Example C93_alphabets_applies : (exists t, plain_rules ascii_env lower rs_engines (rs_builder [rs_number; rs_hex]) t) /\
  (forall r c, nth_error [rs_number; rs_hex] r = Some c -> uses_only ascii_env (rs_alphabet r) c) /\
  (forall r r' x, r <> r' -> rs_alphabet r x -> ~ rs_alphabet r' x) /\
  (forall c, In c [rs_number; rs_hex] -> exists y, cf_action c = ActRedact y /\ y <> [] /\ forall r x, In x y -> ~ rs_alphabet r x).
Proof.
  split; [|split; [exact rs_alphabets|split; [exact rs_disjoint|exact rs_replaced]]].
  destruct C93_kept_applies as (t & H & _). exists t. exact H.
Qed.

(* That a second scan finds nothing fails if matches of two rules overlap: the rule "x\d" wins
   over "\d+", of which the match is dropped as a whole; its digits that "x\d" does not cover
   stay in the result.  The replacements are inert. *)
Theorem C93_remainder_refuted :
  exists E fold en b t h, plain_rules E fold en b t /\ inert E h (bu_rules b) /\
    map (fun c => (cf_pattern c, cf_action c)) (bu_rules b) = [(chars "x\d", ActRedact (chars "[A]")); (chars "\d+", ActRedact (chars "[B]"))] /\
    (exists outs, scan simple_event_impl 100 h isort (bt_scanner t) [] (SString (chars "x12345")) = Ret (SString (chars "[A]2345"), outs)) /\
    (exists outs, scan simple_event_impl 100 h isort (bt_scanner t) [] (SString (chars "[A]2345")) = Ret (SString (chars "[A][B]"), outs)).
Proof. exact c93_remainder_refuted_lemma. Qed.
Print Assumptions C93_remainder_refuted.

(* ... or if a replacement is empty: the parts around it may join to such a text. *)
Theorem C93_joined_refuted :
  exists E fold en b t h, plain_rules E fold en b t /\ (forall s, apart E (bu_rules b) s) /\
    map (fun c => (cf_pattern c, cf_action c)) (bu_rules b) = [(chars "ab", ActRedact [])] /\
    (exists outs, scan simple_event_impl 100 h isort (bt_scanner t) [] (SString (chars "aabb")) = Ret (SString (chars "ab"), outs)) /\
    (exists outs, scan simple_event_impl 100 h isort (bt_scanner t) [] (SString (chars "ab")) = Ret (SString [], outs)).
Proof. exact c93_joined_refuted_lemma. Qed.
Print Assumptions C93_joined_refuted.

(* ... or if a part of the text is kept: what remains may be such a text again. *)
Theorem C93_partial_refuted :
  exists E fold en b t h, plain_rules E fold en b t /\ (forall s, apart E (bu_rules b) s) /\
    map (fun c => (cf_pattern c, cf_action c)) (bu_rules b) = [(chars "\d+", ActPartialRedact FirstCharacters 2)] /\
    (exists outs, scan simple_event_impl 100 h isort (bt_scanner t) [] (SString (chars "12345")) = Ret (SString (chars "**345"), outs)) /\
    (exists outs, scan simple_event_impl 100 h isort (bt_scanner t) [] (SString (chars "**345")) = Ret (SString (chars "****5"), outs)).
Proof. exact c93_partial_refuted_lemma. Qed.
Print Assumptions C93_partial_refuted.

(* ... or if the pattern looks at the text around its matches: a word boundary that was not
   there appears with the replacement.  All other conditions are met. *)
Theorem C93_assertion_refuted :
  exists E (fold : char -> char) en b t h, build en b = Ret (Ok t) /\ crate_ok E en /\ plain_env E /\ (forall c d, same_letter E c d <-> fold c = fold d) /\
    bu_multipass b = false /\ (forall c, In c (bu_rules b) -> good_pattern E c /\ simple_rule c) /\ (forall s, apart E (bu_rules b) s) /\
    map (fun c => (cf_pattern c, cf_action c)) (bu_rules b) = [(chars "\b\d\d", ActRedact (chars "[R]"))] /\
    (exists outs, scan simple_event_impl 100 h isort (bt_scanner t) [] (SString (chars "1234")) = Ret (SString (chars "[R]34"), outs)) /\
    (exists outs, scan simple_event_impl 100 h isort (bt_scanner t) [] (SString (chars "[R]34")) = Ret (SString (chars "[R][R]"), outs)).
Proof. exact c93_assertion_refuted_lemma. Qed.
Print Assumptions C93_assertion_refuted.

