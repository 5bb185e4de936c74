(* Specification of the regex store: what the two maps and the handles mean, written
   without the functions of the model that look up, insert or remove *)
From Verif Require Export Model.RegexStore.

(* the key [k] is in the key map, with the value [w] *)
Definition stored {R} (p : process R) (k : slot_key) (w : weak_regex) : Prop :=
  exists s, nth_error (sm_slots (rs_keys (p_store p))) (sk_index k) = Some s /\
    sl_version s = sk_version k /\ sl_value s = Some w.
(* the pattern index has the entry from [q] to [k] *)
Definition indexed {R} (p : process R) (q : str) (k : slot_key) : Prop :=
  In (q, k) (rs_index (p_store p)).
(* some part of the program holds the regex number [r] *)
Definition live {R} (p : process R) (r : nat) : Prop :=
  exists h, In h (p_handles p) /\ h_regex h = r.

(* the two maps are in bijection *)
Record bijection {R} (p : process R) : Prop := {
  bj_key : forall q k1 k2, indexed p q k1 -> indexed p q k2 -> k1 = k2;
  bj_pattern : forall q1 q2 k, indexed p q1 k -> indexed p q2 k -> q1 = q2;
  bj_stored : forall q k, indexed p q k -> exists w, stored p k w;
  bj_indexed : forall k w, stored p k w -> exists q, indexed p q k;
  bj_size : length (rs_index (p_store p)) = sm_len (rs_keys (p_store p))
}.

(* a state of the process after some history *)
Definition reachable {R} (cache_size : R -> N) (p : process R) : Prop :=
  exists acts, run cache_size acts process_new = Some (Ret p).
(* the lock is not held by a collection *)
Definition not_collecting {R} (p : process R) : Prop :=
  forall l, p_lock p = Some l -> forall todo, lk_phase l <> Collecting todo.

(* sums of sizes *)
Definition sum {A} (f : A -> Z) (l : list A) : Z := fold_right Z.add 0%Z (map f l).
Definition slot_size (s : slot weak_regex) : Z :=
  match sl_value s with Some w => Z.of_N (wr_cache_size w) | None => 0%Z end.
(* the sizes of the caches of the entries *)
Definition stored_size {R} (p : process R) : Z := sum slot_size (sm_slots (rs_keys (p_store p))).
(* the sizes of the caches of all the regexes ever stored *)
Definition created_size {R} (cache_size : R -> N) (p : process R) : Z :=
  sum (fun x => Z.of_N (cache_size x)) (p_heap p).

(* in the history [acts] the regex [x] was compiled on a request for the pattern [q] *)
Definition compiled_for {R} (acts : list (action R)) (q : str) (x : R) : Prop :=
  exists factory, In (ALookup q factory) acts /\ factory q = Some x.
(* every request of the history [acts] would compile what [g] compiles *)
Definition agree {R} (g : str -> option R) (acts : list (action R)) : Prop :=
  forall q factory, In (ALookup q factory) acts -> factory q = g q.
(* the handle [h] gives the regex [x] *)
Definition gives {R} (p : process R) (h : handle) (x : R) : Prop := nth_error (p_heap p) (h_regex h) = Some x.
