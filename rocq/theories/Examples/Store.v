(* Concrete histories of the regex store.  Nothing here models code of /repo. *)
From Verif Require Export Proofs.RegexVersions Model.RegexFactories.

(* the state after a history, for histories that can be run *)
Definition after {R} (cs : R -> N) (acts : list (action R)) : process R :=
  match run cs acts process_new with Some (Ret p) => p | _ => process_new end.
Definition request (q : str) : list (action unit) := [ALookup q always; ABegin 0; AInsert].

Definition two_patterns : process unit := Eval vm_compute in after no_size (request (chars "a") ++ request (chars "b")).
Lemma two_patterns_reachable : reachable no_size two_patterns.
Proof. exists (request (chars "a") ++ request (chars "b")). vm_compute. reflexivity. Qed.

(* the pattern b stays alive, a is requested and dropped 998 times, and requested again *)
Definition many_requests : list (action unit) :=
  request (chars "b") ++ concat (repeat (request (chars "a") ++ [ADrop 0]) 998) ++ [ALookup (chars "a") always].
Definition before_collection : process unit := after no_size many_requests.
Lemma before_collection_reachable : reachable no_size before_collection.
Proof. exists many_requests. vm_compute. reflexivity. Qed.

(* regexes of size 10, and an engine that accepts every text *)
Definition regex_size (x : compiled_regex) : N := 10.
Definition any_text (t : str) : bool := true.
Definition rule_requests : list (action compiled_regex) :=
  let ask q := [ALookup q (rule_factory any_text); ABegin 0; AInsert] in
  ask (chars "a+") ++ [ADrop 0] ++ ask (chars "a+") ++ ask (chars "b").
