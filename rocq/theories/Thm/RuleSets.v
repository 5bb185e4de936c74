(* What other rules of a scanner change (C100-C102) *)
From Coq Require Import Lia.
From Verif Require Import Proofs.Text Proofs.RuleSetsClaims Examples.Setting Examples.Build Thm.EndToEnd.

(* C100.  Rules that only report, and have no part in multi-pass, do not change what is
   redacted: blocking them gives the same event, and the same reports of the rules that
   change what they match. *)
Theorem C100_detect_only :
  forall I w srt sc fs e strs holds fuel,
  scan_setting I w srt sc fs e strs holds fuel ->
  forall h blocked quiet e1 outs1 e2 outs2,
  (forall i r, In i quiet -> nth_error (sc_rules sc) i = Some r -> rule_action r = ActNone) ->
  (sc_multipass sc = true -> forall t, found_excluded sc fs blocked strs t -> found_excluded sc fs (quiet ++ blocked) strs t) ->
  scan I fuel h srt sc blocked e = Ret (e1, outs1) ->
  scan I fuel h srt sc (quiet ++ blocked) e = Ret (e2, outs2) ->
  (exists l, holds e1 l /\ holds e2 l) /\ changing sc outs1 = changing sc outs2.
Proof. exact c100_detect_only_lemma. Qed.
Print Assumptions C100_detect_only.

Example C100_nonvacuous :
  let still := {| sc_rules := ex_rules; sc_kw_paths := false; sc_wild := false; sc_multipass := false; sc_return_matches := true |} in
  (forall i r, In i [2] -> nth_error (sc_rules still) i = Some r -> rule_action r = ActNone) /\
  exists outs1 outs2,
    scan simple_event_impl 100 ex_hash isort still [] ex_event = Ret (ex_redacted, outs1) /\
    scan simple_event_impl 100 ex_hash isort still [2] ex_event = Ret (ex_redacted, outs2) /\
    length outs1 = 6 /\ length outs2 = 3 /\ changing still outs1 = outs2.
Proof.
  split; [intros i r [<-|[]] Hr; injection Hr as <-; reflexivity|].
  eexists _, _. split; [vm_compute; reflexivity|]. split; [vm_compute; reflexivity|]. repeat split.
Qed.

(* C100 for SimpleEvent, without multi-pass: the same event. *)
Theorem C100_simple_event :
  forall srt sc e fuel,
  sorter_ok srt -> distinct_keys e -> regex_scanner sc (simple_strings e) ->
  enough_fuel fuel (simple_strings e) -> sc_multipass sc = false ->
  forall h blocked quiet,
  (forall i r, In i quiet -> nth_error (sc_rules sc) i = Some r -> rule_action r = ActNone) ->
  exists e' outs1 outs2,
    scan simple_event_impl fuel h srt sc blocked e = Ret (e', outs1) /\
    scan simple_event_impl fuel h srt sc (quiet ++ blocked) e = Ret (e', outs2) /\
    changing sc outs1 = changing sc outs2.
Proof. exact c100_simple_event_lemma. Qed.
Print Assumptions C100_simple_event.

Example C100_simple_nonvacuous :
  distinct_keys ex_event /\ regex_scanner ex_scanner (simple_strings ex_event) /\ enough_fuel 100 (simple_strings ex_event) /\ sorter_ok isort.
Proof. split; [exact ex_distinct|]. split; [apply ex_regex_scanner|]. split; [exact ex_fuel|exact isort_ok]. Qed.

(* C100 is false with multi-pass: adding a rule that only reports, and excludes one path,
   makes another rule redact nothing, in any path. *)
Theorem C100_multipass_refuted :
  exists (sc : scanner) (e e1 : simple_event) outs1 outs2,
  (forall strs, regex_scanner sc strs) /\
  option_map rule_action (nth_error (sc_rules sc) 1) = Some ActNone /\
  e = SMap [(text "log", SString (text "secret")); (text "skip", SString (text "secret"))] /\
  e1 = SMap [(text "log", SString (text "[R]")); (text "skip", SString (text "[R]"))] /\
  scan simple_event_impl 100 ex_hash isort sc [1] e = Ret (e1, outs1) /\
  scan simple_event_impl 100 ex_hash isort sc [] e = Ret (e, outs2).
Proof. exact c100_multipass_refuted_lemma. Qed.
Print Assumptions C100_multipass_refuted.

(* without the excluded path in the event it is redacted *)
Example C100_multipass_by_scope : exists outs,
  scan simple_event_impl 100 ex_hash isort passing [] (SMap [(text "log", SString (text "secret"))]) =
  Ret (SMap [(text "log", SString (text "[R]"))], outs).
Proof. eexists. vm_compute. reflexivity. Qed.

(* C101 is false: of "12345678" a rule leaves "123[A]"; with a second rule that redacts,
   "[B]5678" is left, which shows digits that the first rule alone does not. *)
Theorem C101_more_rules_refuted :
  exists (sc : scanner) outs1 outs2,
  (forall strs, regex_scanner sc strs) /\
  sc_multipass sc = false /\
  scan simple_event_impl 100 ex_hash isort sc [1] (SString (text "12345678")) = Ret (SString (text "123[A]"), outs1) /\
  scan simple_event_impl 100 ex_hash isort sc [] (SString (text "12345678")) = Ret (SString (text "[B]5678"), outs2).
Proof. exact c101_more_rules_refuted_lemma. Qed.
Print Assumptions C101_more_rules_refuted.

Example C101_other_order : exists outs,
  scan simple_event_impl 100 ex_hash isort crossing [0] (SString (text "12345678")) = Ret (SString (text "[B]5678"), outs).
Proof. eexists. vm_compute. reflexivity. Qed.

(* C101.  What does hold, without multi-pass: every piece that is redacted with some of
   the rules shares a byte with a piece that is redacted with more of them. *)
Theorem C101_still_touched :
  forall I w srt sc fs e strs holds fuel,
  scan_setting I w srt sc fs e strs holds fuel -> sc_multipass sc = false ->
  forall h blocked extra e1 outs1 e2 outs2,
  scan I fuel h srt sc blocked e = Ret (e1, outs1) ->
  scan I fuel h srt sc (extra ++ blocked) e = Ret (e2, outs2) ->
  exists res1 res2, scan_results I strs holds e1 outs1 res1 /\ scan_results I strs holds e2 outs2 res2 /\
    forall p c c1 o1 c2 o2, In ((p, c), (c1, o1), (c2, o2)) (combine (combine strs res1) res2) ->
    exists g1 cs1 g2 cs2,
      cut_by sc fs blocked h p c c1 o1 g1 cs1 /\ cut_by sc fs (extra ++ blocked) h p c c2 o2 g2 cs2 /\
      forall k2 x2 u2, nth_error o2 k2 = Some x2 -> nth_error cs2 k2 = Some u2 -> changes sc (rm_rule x2) = true ->
      exists k1 x1 u1, nth_error o1 k1 = Some x1 /\ nth_error cs1 k1 = Some u1 /\ changes sc (rm_rule x1) = true /\
        exists n,
          nbytes (original g2 (firstn k2 cs2)) <= n < nbytes (original g2 (firstn k2 cs2) ++ cut_old u2) /\
          nbytes (original g1 (firstn k1 cs1)) <= n < nbytes (original g1 (firstn k1 cs1) ++ cut_old u1).
Proof. exact c101_still_touched_lemma. Qed.
Print Assumptions C101_still_touched.

Example C101_touched_nonvacuous :
  scan_setting simple_event_impl clen isort crossing (finders crossing) (SString (text "12345678"))
    (simple_strings (SString (text "12345678"))) (simple_holds (SString (text "12345678"))) 100.
Proof.
  apply simple_setting; [exact isort_ok|constructor|eapply two_plain; reflexivity|].
  intros p c [E|[]]. injection E as <- <-. vm_compute. lia.
Qed.

(* C101.  And if the matches of the additional rules share no byte with those of the
   others, the pieces and reports for the others stay exactly as they were. *)
Theorem C101_apart :
  forall I w srt sc fs e strs holds fuel,
  scan_setting I w srt sc fs e strs holds fuel -> sc_multipass sc = false ->
  forall h blocked extra e1 outs1 e2 outs2,
  (forall p c i a b j a' b', In (p, c) strs -> In i extra -> ~ In j extra ->
     candidate sc fs blocked p c (i, a, b) -> candidate sc fs blocked p c (j, a', b') -> b <= a' \/ b' <= a) ->
  scan I fuel h srt sc blocked e = Ret (e1, outs1) ->
  scan I fuel h srt sc (extra ++ blocked) e = Ret (e2, outs2) ->
  exists res1 res2, scan_results I strs holds e1 outs1 res1 /\ scan_results I strs holds e2 outs2 res2 /\
    forall p c c1 o1 c2 o2, In ((p, c), (c1, o1), (c2, o2)) (combine (combine strs res1) res2) ->
    exists g1 cs1 g2 cs2,
      cut_by sc fs blocked h p c c1 o1 g1 cs1 /\ cut_by sc fs (extra ++ blocked) h p c c2 o2 g2 cs2 /\
      forall i a b t t',
        (exists k2 x2 u2, nth_error o2 k2 = Some x2 /\ nth_error cs2 k2 = Some u2 /\ rm_rule x2 = i /\
           nbytes (original g2 (firstn k2 cs2)) = a /\ nbytes (original g2 (firstn k2 cs2) ++ cut_old u2) = b /\
           cut_old u2 = t /\ cut_new u2 = t') <->
        ~ In i extra /\
        (exists k1 x1 u1, nth_error o1 k1 = Some x1 /\ nth_error cs1 k1 = Some u1 /\ rm_rule x1 = i /\
           nbytes (original g1 (firstn k1 cs1)) = a /\ nbytes (original g1 (firstn k1 cs1) ++ cut_old u1) = b /\
           cut_old u1 = t /\ cut_new u1 = t').
Proof. exact c101_apart_lemma. Qed.
Print Assumptions C101_apart.

Example C101_apart_nonvacuous : exists outs1 outs2,
  scan simple_event_impl 100 ex_hash isort crossing [1] (SString (text "1234 45678")) = Ret (SString (text "1234 [A]"), outs1) /\
  scan simple_event_impl 100 ex_hash isort crossing [] (SString (text "1234 45678")) = Ret (SString (text "[B] [A]"), outs2).
Proof. eexists _, _. split; vm_compute; reflexivity. Qed.

(* C102.  The order of the rules only decides between rules that find the same range: if
   no two rules of the same kind do, the rules in another order give the same event and
   the same reports, with the new rule numbers. *)
Theorem C102_order_of_rules :
  forall I w srt sc1 sc2 fs1 fs2 pi e strs holds fuel,
  scan_setting I w srt sc1 fs1 e strs holds fuel -> scan_setting I w srt sc2 fs2 e strs holds fuel ->
  reordered pi sc1 sc2 fs1 fs2 ->
  forall h blocked e1 outs1 e2 outs2, no_ties sc1 fs1 blocked strs ->
  scan I fuel h srt sc1 blocked e = Ret (e1, outs1) ->
  scan I fuel h srt sc2 (map pi blocked) e = Ret (e2, outs2) ->
  (exists l, holds e1 l /\ holds e2 l) /\ outs2 = map (renamed pi) outs1.
Proof. exact c102_order_of_rules_lemma. Qed.
Print Assumptions C102_order_of_rules.

(* two rules that redact the same text: the first wins *)
Example C102_ties : 
  let rules a b := {| sc_rules := [regex_compiled (ActRedact a) everywhere None (plain_rule 0 (Engine.literal (text "key")));
                                   regex_compiled (ActRedact b) everywhere None (plain_rule 1 (Engine.literal (text "key")))];
                      sc_kw_paths := false; sc_wild := false; sc_multipass := false; sc_return_matches := true |} in
  exists o1 o2,
    scan simple_event_impl 100 ex_hash isort (rules (text "[A]") (text "[B]")) [] (SString (text "a key")) = Ret (SString (text "a [A]"), o1) /\
    scan simple_event_impl 100 ex_hash isort (rules (text "[B]") (text "[A]")) [] (SString (text "a key")) = Ret (SString (text "a [B]"), o2).
Proof. eexists _, _. split; vm_compute; reflexivity. Qed.

(* C102 for scanners built from the same configurations in another order: the scan of one
   panics if that of the other does, and otherwise they give the same. *)
Theorem C102_built :
  forall en fold b1 b2 at1 at2 t1 t2 pi srt e fuel,
  build en b1 = Ret (Ok t1) -> build en b2 = Ret (Ok t2) ->
  behaves en fold b1 at1 -> behaves en fold b2 at2 -> sorter_ok srt -> distinct_keys e ->
  enough_fuel fuel (simple_strings e) ->
  length (bu_rules b1) = length (bu_rules b2) -> (forall i j, pi i = pi j -> i = j) ->
  (forall i c, nth_error (bu_rules b1) i = Some c -> nth_error (bu_rules b2) (pi i) = Some c) ->
  bu_kw_paths b1 = bu_kw_paths b2 -> bu_wild b1 = bu_wild b2 -> bu_multipass b1 = bu_multipass b2 ->
  (forall i j ci cj p s x y, nth_error (bu_rules b1) i = Some ci -> nth_error (bu_rules b1) j = Some cj ->
     (cf_action ci = ActNone <-> cf_action cj = ActNone) -> In (p, s) (simple_strings e) ->
     at1 i s x = Some y -> at1 j s x = Some y -> i = j) ->
  forall h blocked,
    (scan simple_event_impl fuel h srt (bt_scanner t1) blocked e = Panic /\
     scan simple_event_impl fuel h srt (bt_scanner t2) (map pi blocked) e = Panic) \/
    exists e' outs, scan simple_event_impl fuel h srt (bt_scanner t1) blocked e = Ret (e', outs) /\
      scan simple_event_impl fuel h srt (bt_scanner t2) (map pi blocked) e = Ret (e', map (renamed pi) outs).
Proof. exact c102_built_lemma. Qed.
Print Assumptions C102_built.

(* three rules, and the same in reverse order *)
Example C102_built_nonvacuous :
  let b1 := ex_builder [ex_plain; ex_keyed; ex_barred] in
  let b2 := ex_builder [ex_barred; ex_keyed; ex_plain] in
  let pi i := match i with 0 => 2 | 1 => 1 | 2 => 0 | _ => i end in
  behaves literal_engines (fun c => c) b1 (ex_at (bu_rules b1)) /\ behaves literal_engines (fun c => c) b2 (ex_at (bu_rules b2)) /\
  (forall i j, pi i = pi j -> i = j) /\
  (forall i c, nth_error (bu_rules b1) i = Some c -> nth_error (bu_rules b2) (pi i) = Some c) /\
  (forall i j ci cj p s x y, nth_error (bu_rules b1) i = Some ci -> nth_error (bu_rules b1) j = Some cj ->
     (cf_action ci = ActNone <-> cf_action cj = ActNone) -> In (p, s) (simple_strings ex_mixed) ->
     ex_at (bu_rules b1) i s x = Some y -> ex_at (bu_rules b1) j s x = Some y -> i = j) /\
  on_built (fun t => option_map (fun x => map rm_rule (snd x)) (on_ret (scan simple_event_impl 100 ex_hash isort (bt_scanner t) [] ex_mixed))) (build literal_engines b1) =
    Some (Some [0; 1; 0; 0; 2]) /\
  on_built (fun t => option_map (fun x => map rm_rule (snd x)) (on_ret (scan simple_event_impl 100 ex_hash isort (bt_scanner t) [] ex_mixed))) (build literal_engines b2) =
    Some (Some [2; 1; 2; 2; 0]).
Proof.
  intros b1 b2 pi. split; [apply ex_behaves; intros c [<-|[<-|[<-|[]]]]; simpl; auto|]. split; [apply ex_behaves; intros c [<-|[<-|[<-|[]]]]; simpl; auto|].
  split; [intros [|[|[|i]]] [|[|[|j]]]; simpl; congruence|].
  split; [intros [|[|[|i]]] c Hc; [exact Hc|exact Hc|exact Hc|destruct i; discriminate Hc]|].
  split; [|split; vm_compute; reflexivity].
  assert (K : forall m q n, Engine.literal m [] q = Some n -> hd_error m = hd_error q \/ m = []).
  { intros m q n Hm. unfold Engine.literal in Hm. destruct (str_eqb m (firstn (length m) q)) eqn:Em; [|discriminate Hm].
    apply str_eqb_eq in Em. destruct m as [|x m]; [right; reflexivity|]. left. destruct q; [discriminate Em|]. simpl in Em. injection Em as -> _. reflexivity. }
  assert (L : forall m1 m2 s x y1 y2 a b r1 r2, m1 = a :: r1 -> m2 = b :: r2 -> match_at (Engine.literal m1) s x = Some y1 -> match_at (Engine.literal m2) s x = Some y2 -> a = b).
  { intros m1 m2 s x y1 y2 a b r1 r2 -> -> H1 H2. unfold match_at in H1, H2. destruct (split_at s x) as [[q r]|]; [|discriminate H1].
    destruct (Engine.literal (a :: r1) q r) as [n1|] eqn:E1; [|discriminate H1]. destruct (Engine.literal (b :: r2) q r) as [n2|] eqn:E2; [|discriminate H2].
    destruct (K _ _ _ E1) as [K1|K1]; [|discriminate K1]. destruct (K _ _ _ E2) as [K2|K2]; [|discriminate K2]. simpl in K1, K2. congruence. }
  intros [|[|[|i]]] [|[|[|j]]] ci cj p s x y Hi Hj _ _ H1 H2; try reflexivity; try (destruct i; discriminate Hi); try (destruct j; discriminate Hj);
    exfalso; unfold ex_at in H1, H2; cbn in H1, H2; pose proof (L _ _ _ _ _ _ _ _ _ _ eq_refl eq_refl H1 H2) as Z; discriminate Z.
Qed.

