(* The regex store, its caches and the statistics (C43-C47) *)
From Coq Require Import Lia.
From Verif Require Import Proofs.RegexStoreClaims Examples.Store.

(* In every state that any interleaving of actions can reach, every action of the store
   that is possible succeeds: no unwrap and no debug assertion fails. *)
Theorem C43_no_panic :
  forall R (cache_size : R -> N) p a o, reachable cache_size p -> perform cache_size a p = Some o ->
    (forall n m, a <> AUse n m) -> exists p', o = Ret p'.
Proof. exact c43_no_panic_lemma. Qed.
Print Assumptions C43_no_panic.

Example C43_no_panic_example : reachable no_size two_patterns /\
  (exists o, perform no_size (ALookup (chars "b") always) two_patterns = Some o) /\ length (p_handles two_patterns) = 2.
Proof. split; [exact two_patterns_reachable|]. split; [eexists; vm_compute; reflexivity|reflexivity]. Qed.

(* The two maps stay in bijection, also in the middle of a collection. *)
Theorem C43_bijection :
  forall R (cache_size : R -> N) p, reachable cache_size p -> bijection p.
Proof. exact c43_bijection_lemma. Qed.
Print Assumptions C43_bijection.

Example C43_bijection_example : reachable no_size two_patterns /\
  indexed two_patterns (chars "a") {| sk_index := 1; sk_version := 1 |} /\
  indexed two_patterns (chars "b") {| sk_index := 2; sk_version := 1 |}.
Proof. split; [exact two_patterns_reachable|]. split; [right; left; reflexivity|left; reflexivity]. Qed.

(* Two live regexes of the same pattern are the same, and have the same key; live regexes
   of different patterns are different. *)
Theorem C43_one_live_regex :
  forall R (cache_size : R -> N) p h1 h2, reachable cache_size p -> In h1 (p_handles p) -> In h2 (p_handles p) ->
    (h_pattern h1 = h_pattern h2 -> h1 = h2) /\
    (h_pattern h1 <> h_pattern h2 -> h_regex h1 <> h_regex h2 /\ h_key h1 <> h_key h2).
Proof. exact c43_one_live_regex_lemma. Qed.
Print Assumptions C43_one_live_regex.

Example C43_one_live_regex_example : reachable no_size two_patterns /\ exists h1 h2,
  In h1 (p_handles two_patterns) /\ In h2 (p_handles two_patterns) /\ h_pattern h1 <> h_pattern h2.
Proof.
  split; [exact two_patterns_reachable|]. eexists _, _. split; [left; reflexivity|]. split; [right; left; reflexivity|]. vm_compute. discriminate.
Qed.

(* A request for a pattern that has a live regex gives that regex and compiles nothing; a
   request that gives a regex at once gives a live one of that pattern. *)
Theorem C43_lookup :
  forall R (cache_size : R -> N) p q factory p', reachable cache_size p ->
    perform cache_size (ALookup q factory) p = Some (Ret p') ->
    (forall h, In h (p_handles p) -> h_pattern h = q -> p' = with_handles p (h :: p_handles p)) /\
    (p_handles p' <> p_handles p -> exists h, In h (p_handles p) /\ h_pattern h = q /\ p' = with_handles p (h :: p_handles p)).
Proof. exact c43_lookup_lemma. Qed.
Print Assumptions C43_lookup.

Example C43_lookup_example : reachable no_size two_patterns /\ exists p' h,
  perform no_size (ALookup (chars "b") always) two_patterns = Some (Ret p') /\ In h (p_handles two_patterns) /\ h_pattern h = chars "b".
Proof.
  split; [exact two_patterns_reachable|]. eexists _, _. split; [vm_compute; reflexivity|]. split; [left; reflexivity|]. vm_compute. reflexivity.
Qed.

(* An insertion gives the live regex of the pattern if there is one and drops the new
   one; otherwise it gives the new one, under a number that no regex had before. *)
Theorem C43_insertion :
  forall R (cache_size : R -> N) p q x p', reachable cache_size p ->
    p_lock p = Some {| lk_pattern := q; lk_regex := x; lk_phase := Inserting |} ->
    perform cache_size AInsert p = Some (Ret p') -> exists h, p_handles p' = h :: p_handles p /\ h_pattern h = q /\
      (In h (p_handles p) /\ p_heap p' = p_heap p \/
       (forall h', In h' (p_handles p) -> h_pattern h' <> q) /\ h_regex h = length (p_heap p) /\ p_heap p' = p_heap p ++ [x]).
Proof. exact c43_insertion_lemma. Qed.
Print Assumptions C43_insertion.

Example C43_insertion_example : exists p p' x, run no_size [ALookup (chars "a") always; ALookup (chars "a") always; ABegin 0; AInsert; ABegin 0] process_new = Some (Ret p) /\
  p_lock p = Some {| lk_pattern := chars "a"; lk_regex := x; lk_phase := Inserting |} /\
  perform no_size AInsert p = Some (Ret p') /\ length (p_heap p') = 1 /\ length (p_handles p') = 2.
Proof. eexists _, _, _. split; [vm_compute; reflexivity|]. repeat split. Qed.

(* Right after a collection every entry is a regex that was live when the collection
   began, and every live regex has an entry.  If no regex is dropped while the collection
   runs, the number of entries is the number of live regexes. *)
Theorem C43_collection :
  forall R (cache_size : R -> N) p n p1 q x todo acts p2 p3, reachable cache_size p ->
    perform cache_size (ABegin n) p = Some (Ret p1) ->
    p_lock p1 = Some {| lk_pattern := q; lk_regex := x; lk_phase := Collecting todo |} ->
    run cache_size acts p1 = Some (Ret p2) -> (forall a, In a acts -> a <> AFinishGc) ->
    perform cache_size AFinishGc p2 = Some (Ret p3) ->
    (forall k w, stored p3 k w -> live p (wr_regex w)) /\
    (forall r, live p3 r -> exists k w, stored p3 k w /\ wr_regex w = r) /\
    p_total_regexes p3 = N.of_nat (sm_len (rs_keys (p_store p3))) /\
    ((forall a, In a acts -> forall n, a <> ADrop n) ->
       exists l, NoDup l /\ (forall r, In r l <-> live p3 r) /\ sm_len (rs_keys (p_store p3)) = length l).
Proof. exact c43_collection_lemma. Qed.
Print Assumptions C43_collection.

(* 999 insertions, of which one regex is still live, and then a collection *)
Example C43_collection_example : exists p1 p2 p3 q x todo, reachable no_size before_collection /\
  perform no_size (ABegin 0) before_collection = Some (Ret p1) /\
  p_lock p1 = Some {| lk_pattern := q; lk_regex := x; lk_phase := Collecting todo |} /\ length todo = 2 /\
  run no_size [AVisit 1; ANewCaches; AVisit 0] p1 = Some (Ret p2) /\
  perform no_size AFinishGc p2 = Some (Ret p3) /\ sm_len (rs_keys (p_store p3)) = 1 /\ length (p_handles p3) = 1.
Proof.
  eexists _, _, _, _, _, _. split; [exact before_collection_reachable|].
  split; [vm_compute; reflexivity|]. split; [vm_compute; reflexivity|]. split; [reflexivity|]. split; [vm_compute; reflexivity|]. split; [vm_compute; reflexivity|].
  split; vm_compute; reflexivity.
Qed.

(* As long as at most 2^30 regexes have been stored, every use of a regex with any of the
   caches succeeds, and the cache was made for that regex. *)
Theorem C44_caches :
  forall R (cache_size : R -> N) p n m o, reachable cache_size p -> (N.of_nat (length (p_heap p)) <= 2 ^ 30)%N ->
    perform cache_size (AUse n m) p = Some o ->
    exists p' h, o = Ret p' /\ nth_error (p_handles p) n = Some h /\ p_uses p' = (h_regex h, h_regex h) :: p_uses p.
Proof. exact c44_caches_lemma. Qed.
Print Assumptions C44_caches.

(* a slot that is used again: its old cache is replaced *)
Example C44_caches_example : exists p o, run no_size first_actions process_new = Some (Ret p) /\ perform no_size (AUse 0 0) p = Some o /\
  p_caches p = [[None; Some (1%N, 0)]] /\ map h_regex (p_handles p) = [2] /\ map (fun h => sk_index (h_key h)) (p_handles p) = [1].
Proof. eexists _, _. split; [vm_compute; reflexivity|]. split; [vm_compute; reflexivity|]. repeat split. Qed.

(* In the same histories every use that was made was made with the right cache. *)
Theorem C44_uses :
  forall R (cache_size : R -> N) p r c, reachable cache_size p -> (N.of_nat (length (p_heap p)) <= 2 ^ 30)%N ->
    In (r, c) (p_uses p) -> r = c.
Proof. exact c44_uses_lemma. Qed.
Print Assumptions C44_uses.

Example C44_uses_example : exists p, run no_size (first_actions ++ [AUse 0 0; AUse 0 0]) process_new = Some (Ret p) /\ p_uses p = [(2, 2); (2, 2); (0, 0)].
Proof. eexists. split; vm_compute; reflexivity. Qed.

(* Without the bound the lookup of a cache can fail: after 2^30 uses of a slot its key is
   taken for an older one than the cached one, and the unwrap panics. *)
Theorem C44_panic_refuted :
  exists (cache_size : unit -> N) acts, run cache_size acts process_new = Some Panic.
Proof. exact c44_panic_refuted_lemma. Qed.
Print Assumptions C44_panic_refuted.

(* After 2^31 uses of a slot its version begins again, and a cache made for another regex
   is used. *)
Theorem C44_wrong_cache_refuted :
  exists (cache_size : unit -> N) acts p r c, run cache_size acts process_new = Some (Ret p) /\ In (r, c) (p_uses p) /\ r <> c.
Proof. exact c44_wrong_cache_refuted_lemma. Qed.
Print Assumptions C44_wrong_cache_refuted.

(* A regex that is handed out was compiled on a request for the very same pattern text,
   though perhaps another request. *)
Theorem C45_provenance :
  forall R (cache_size : R -> N) acts p h, run cache_size acts process_new = Some (Ret p) -> In h (p_handles p) ->
    exists x, gives p h x /\ compiled_for acts (h_pattern h) x.
Proof. exact c45_provenance_lemma. Qed.
Print Assumptions C45_provenance.

Example C45_provenance_example : exists p h, run regex_size [ALookup (chars "a") (rule_factory any_text); ABegin 0; AInsert] process_new = Some (Ret p) /\
  In h (p_handles p) /\ gives p h {| cr_text := chars "a"; cr_case_insensitive := false |}.
Proof. eexists _, _. split; [vm_compute; reflexivity|]. split; [left; reflexivity|vm_compute; reflexivity]. Qed.

(* If all requests of a history, whatever else it does, would compile the same regex for
   the same pattern, then the store is invisible: a request gives (now or once inserted)
   exactly what it would compile, and fails exactly if that fails. *)
Theorem C45_transparent :
  forall R (cache_size : R -> N) g acts p, run cache_size acts process_new = Some (Ret p) -> agree g acts ->
    (forall h, In h (p_handles p) -> exists x, gives p h x /\ g (h_pattern h) = Some x) /\
    (forall q p', perform cache_size (ALookup q g) p = Some (Ret p') ->
       match g q with
       | None => p' = p
       | Some x => (exists h, p' = with_handles p (h :: p_handles p) /\ h_pattern h = q /\ gives p' h x) \/
                   p' = with_calls p ((q, x) :: p_calls p)
       end).
Proof. exact c45_transparent_lemma. Qed.
Print Assumptions C45_transparent.

Example C45_transparent_example : exists p, run regex_size rule_requests process_new = Some (Ret p) /\
  agree (rule_factory any_text) rule_requests /\ length (p_handles p) = 2 /\ rule_factory any_text (chars "a+") <> None.
Proof.
  eexists. split; [vm_compute; reflexivity|]. split; [|split; [reflexivity|vm_compute; discriminate]].
  intros q f H. repeat (destruct H as [H|H]; [try discriminate; injection H as <- <-; reflexivity|]). destruct H.
Qed.

(* Rules and keywords share the store but compile the same text differently.  A rule with
   the pattern "é" is not case insensitive, but it is if a keyword "é" is alive (and the
   other way round for the keyword). *)
Theorem C45_refuted :
  let lookup_of (acts : list (action compiled_regex)) (q : str) (x : compiled_regex) :=
      exists p h, run regex_size acts process_new = Some (Ret p) /\ hd_error (p_handles p) = Some h /\ h_pattern h = q /\ gives p h x in
    let rule_request := ALookup [233%N] (rule_factory any_text) in
    let keyword_request := ALookup (keywords_text [[KwLit 233]]) keyword_factory in
    keyword_content_pattern [233%N] = Ret [KwLit 233] /\
    lookup_of [rule_request; ABegin 0; AInsert] [233%N] {| cr_text := [233%N]; cr_case_insensitive := false |} /\
    lookup_of [keyword_request; ABegin 0; AInsert; rule_request] [233%N] {| cr_text := [233%N]; cr_case_insensitive := true |} /\
    lookup_of [rule_request; ABegin 0; AInsert; keyword_request] [233%N] {| cr_text := [233%N]; cr_case_insensitive := false |}.
Proof. exact c45_refuted_lemma. Qed.
Print Assumptions C45_refuted.

(* Whether a rule is accepted depends on the other rules as well: the text of the keyword
   "a" is not a valid pattern of a rule, but it is accepted while the keyword is alive. *)
Theorem C45_acceptance_refuted :
  let q := keywords_text [[KwBoundary; KwLit 97; KwBoundary]] in
    keyword_content_pattern (chars "a") = Ret [KwBoundary; KwLit 97; KwBoundary] /\
    q = chars "(?-u:\b)a(?-u:\b)" /\ rule_factory any_text q = None /\
    exists p p', run regex_size [ALookup q keyword_factory; ABegin 0; AInsert] process_new = Some (Ret p) /\
      perform regex_size (ALookup q (rule_factory any_text)) p = Some (Ret p') /\ length (p_handles p') = S (length (p_handles p)).
Proof. exact c45_acceptance_refuted_lemma. Qed.
Print Assumptions C45_acceptance_refuted.

(* The statistic is only ever decreased, so it becomes negative. *)
Theorem C46_refuted :
  exists p, run regex_size rule_requests process_new = Some (Ret p) /\ stored_size p = 20%Z /\ p_cache_size p = (- 10)%Z.
Proof. exact c46_refuted_lemma. Qed.
Print Assumptions C46_refuted.

(* What it is: the sum of the sizes of the entries, less the sizes of all the regexes that
   were ever stored.  So it is never positive, and zero only if nothing was removed. *)
Theorem C46_exact :
  forall R (cache_size : R -> N) p, reachable cache_size p ->
    p_cache_size p = (stored_size p - created_size cache_size p)%Z.
Proof. exact c46_exact_lemma. Qed.
Print Assumptions C46_exact.

Example C46_exact_example : exists p, reachable regex_size p /\ stored_size p = 20%Z /\ created_size regex_size p = 30%Z.
Proof. eexists. split; [exists rule_requests; vm_compute; reflexivity|]. split; vm_compute; reflexivity. Qed.

(* The statistic of the number of regexes, by contrast, is right whenever no collection is
   running. *)
Theorem C46_regex_count :
  forall R (cache_size : R -> N) p, reachable cache_size p -> not_collecting p ->
    p_total_regexes p = N.of_nat (length (rs_index (p_store p))).
Proof. exact c46_regex_count_lemma. Qed.
Print Assumptions C46_regex_count.

Example C46_regex_count_example : reachable no_size two_patterns /\ not_collecting two_patterns /\ p_total_regexes two_patterns = 2%N.
Proof. split; [exact two_patterns_reachable|]. split; [|reflexivity]. intros l H. discriminate H. Qed.

(* Two creations whose updates of the counter and the gauge interleave leave the gauge at
   one for good. *)
Theorem C47_refuted :
  exists acts s, stat_run acts stats_new = Some s /\ quiescent s /\ st_gauge s <> balance acts.
Proof. exact c47_refuted_lemma. Qed.
Print Assumptions C47_refuted.

(* The counter behind the gauge is always creations minus deletions. *)
Theorem C47_counter :
  forall acts s, stat_run acts stats_new = Some s -> st_count s = balance acts.
Proof. exact c47_counter_lemma. Qed.
Print Assumptions C47_counter.

Example C47_counter_example : exists s, stat_run [SAdd 1%Z; SAdd 1%Z; SAdd (-1)%Z; SSet 2] stats_new = Some s /\ st_count s = 1%Z.
Proof. eexists. split; reflexivity. Qed.

(* If the gauge is set in the order of the updates of the counter, as when no two calls
   overlap, then it is right once all calls have completed. *)
Theorem C47_in_order :
  forall acts s, stat_run acts stats_new = Some s -> quiescent s -> in_order acts \/ sequential acts -> st_gauge s = balance acts.
Proof. exact c47_in_order_lemma. Qed.
Print Assumptions C47_in_order.

Example C47_in_order_example : exists s, stat_run [SAdd 1%Z; SAdd 1%Z; SSet 0; SAdd (-1)%Z; SSet 0; SSet 0] stats_new = Some s /\ quiescent s /\
  in_order [SAdd 1%Z; SAdd 1%Z; SSet 0; SAdd (-1)%Z; SSet 0; SSet 0] /\ st_gauge s = 1%Z.
Proof.
  eexists. split; [reflexivity|]. split; [reflexivity|]. split; [|reflexivity]. intros n H. repeat (destruct H as [H|H]; [congruence|]). destruct H.
Qed.

(* In any case the gauge is a number that was right at some time. *)
Theorem C47_some_count :
  forall acts s, stat_run acts stats_new = Some s -> exists before after, acts = before ++ after /\ st_gauge s = balance before.
Proof. exact c47_some_count_lemma. Qed.
Print Assumptions C47_some_count.

Example C47_some_count_example : exists s, stat_run [SAdd 1%Z; SAdd 1%Z; SSet 1; SSet 0] stats_new = Some s /\ st_gauge s = balance [SAdd 1%Z].
Proof. eexists. split; reflexivity. Qed.

