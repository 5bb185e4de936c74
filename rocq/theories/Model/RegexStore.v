(* Model of sds/src/scanner/regex_rule/regex_store.rs, regex_cache_store.rs and the part
   of stats.rs they use.  The slot maps of the crate slotmap 1.0 are not part of the
   repository and written from memory.  A program with any number of threads is a
   process that performs atomic actions; the text between two uses of the lock, of a
   reference count or of an atomic counter is one action. *)
From Verif Require Export Model.MatchValidation.

(* ---- slotmap ---- *)
(* [KeyData]: an index and a u32 version, odd for occupied slots *)
Record slot_key := { sk_index : nat; sk_version : N }.
Record slot (A : Type) := { sl_version : N; sl_value : option A }.
Arguments sl_version {A}. Arguments sl_value {A}. Arguments Build_slot {A}.
(* [SlotMap]: the slots (number 0 is never used), the free list, and the number of
   elements *)
Record slot_map (A : Type) := { sm_slots : list (slot A); sm_free : list nat; sm_len : nat }.
Arguments sm_slots {A}. Arguments sm_free {A}. Arguments sm_len {A}. Arguments Build_slot_map {A}.

Definition u32_max_plus_1 : N := 4294967296.
Definition wrapping_u32 (n : N) : N := (n mod u32_max_plus_1)%N.

Definition slot_map_new {A} : slot_map A := {|
  sm_slots := [{| sl_version := 0%N; sl_value := None |}]; sm_free := []; sm_len := 0 |}.
Definition slot_get {A} (k : slot_key) (m : slot_map A) : option A :=
  match nth_error (sm_slots m) (sk_index k) with
  | Some s => if N.eqb (sl_version s) (sk_version k) then sl_value s else None
  | None => None
  end.
Fixpoint set_nth {A} (i : nat) (x : A) (l : list A) : list A :=
  match l, i with
  | [], _ => []
  | _ :: l', 0 => x :: l'
  | y :: l', S i' => y :: set_nth i' x l'
  end.
(* a free slot is used again with the next version; that there are at most 2^32 - 2
   elements is not modelled *)
Definition slot_insert {A} (x : A) (m : slot_map A) : slot_key * slot_map A :=
  match sm_free m with
  | i :: free =>
    let version := match nth_error (sm_slots m) i with
                   | Some s => N.lor (sl_version s) 1
                   | None => 1%N
                   end in
    ({| sk_index := i; sk_version := version |},
     {| sm_slots := set_nth i {| sl_version := version; sl_value := Some x |} (sm_slots m);
        sm_free := free; sm_len := S (sm_len m) |})
  | [] =>
    ({| sk_index := length (sm_slots m); sk_version := 1%N |},
     {| sm_slots := sm_slots m ++ [{| sl_version := 1%N; sl_value := Some x |}];
        sm_free := []; sm_len := S (sm_len m) |})
  end.
Definition slot_remove {A} (k : slot_key) (m : slot_map A) : option A * slot_map A :=
  match slot_get k m with
  | Some x =>
    (Some x,
     {| sm_slots := set_nth (sk_index k)
          {| sl_version := wrapping_u32 (sk_version k + 1); sl_value := None |} (sm_slots m);
        sm_free := sk_index k :: sm_free m; sm_len := pred (sm_len m) |})
  | None => (None, m)
  end.

(* [SecondaryMap]: for each index, nothing (version 0) or a version and a value *)
Definition secondary_map (A : Type) := list (option (N * A)).
(* [is_older_version] *)
Definition is_older_version (a b : N) : bool :=
  (2147483648 <=? wrapping_u32 (a + u32_max_plus_1 - b))%N.
(* [map.entry(k).unwrap().or_insert_with(|| x)]: the value and the new map; the entry of
   a key that is older than the one in the map is [None] *)
Definition entry_or_insert {A} (k : slot_key) (x : A) (m : secondary_map A)
  : outcome (A * secondary_map A) :=
  let m := m ++ repeat None (S (sk_index k) - length m) in
  match nth_error m (sk_index k) with
  | Some (Some (version, y)) =>
    if N.eqb (sk_version k) version then Ret (y, m)
    else if is_older_version (sk_version k) version then Panic
    else Ret (x, set_nth (sk_index k) (Some (sk_version k, x)) m)
  | _ =>
    if is_older_version (sk_version k) 0 then Panic
    else Ret (x, set_nth (sk_index k) (Some (sk_version k, x)) m)
  end.

(* ---- regex_store.rs ---- *)
(* 10-14: the regex a weak reference points to is given by its number *)
Record weak_regex := { wr_regex : nat; wr_cache_size : N }.
(* 58 *)
Definition gc_frequency : N := 1000.
(* 65-70; the map of patterns is a list of entries *)
Record regex_store := {
  rs_index : list (str * slot_key);
  rs_keys : slot_map weak_regex;
  rs_gc_counter : N
}.
(* 73-79 *)
Definition regex_store_new : regex_store := {|
  rs_index := []; rs_keys := slot_map_new; rs_gc_counter := 0%N |}.

(* 98-108; [alive r]: the regex [r] has a strong reference, so [upgrade] succeeds *)
Definition store_get (alive : nat -> bool) (s : regex_store) (pattern : str)
  : option (nat * slot_key) :=
  match assoc str_eqb pattern (rs_index s) with
  | Some k =>
    match slot_get k (rs_keys s) with
    | Some w => if alive (wr_regex w) then Some (wr_regex w, k) else None
    | None => None
    end
  | None => None
  end.

Definition remove_entry (pattern : str) (l : list (str * slot_key)) : list (str * slot_key) :=
  filter (fun e => negb (str_eqb (fst e) pattern)) l.
(* [AHashMap::insert], which returns the old value *)
Definition index_insert (pattern : str) (k : slot_key) (l : list (str * slot_key))
  : option slot_key * list (str * slot_key) :=
  (assoc str_eqb pattern l, (pattern, k) :: remove_entry pattern l).

(* 84-93: the closure of [retain] for one entry, and what it adds to the statistic of
   cache sizes *)
Definition gc_visit (alive : nat -> bool) (s : regex_store) (pattern : str)
  : outcome (regex_store * Z) :=
  match assoc str_eqb pattern (rs_index s) with
  | None => Ret (s, 0%Z)
  | Some k =>
    let* w := unwrap (slot_get k (rs_keys s)) in
    if alive (wr_regex w) then Ret (s, 0%Z)
    else
      let (old, keys) := slot_remove k (rs_keys s) in
      Ret ({| rs_index := remove_entry pattern (rs_index s); rs_keys := keys;
              rs_gc_counter := rs_gc_counter s |},
           match old with Some w => (- Z.of_N (wr_cache_size w))%Z | None => 0%Z end)
  end.

(* 126-147: the end of [insert], after the collection, with the number [r] and the cache
   size of the new regex; the result says whether the regex was stored.  The debug
   assertion of 137 is a panic. *)
Definition store_insert (alive : nat -> bool) (s : regex_store) (pattern : str) (r : nat) (size : N)
  : outcome (regex_store * (nat * slot_key) * bool * Z) :=
  match store_get alive s pattern with
  | Some found => Ret (s, found, false, 0%Z)
  | None =>
    let (k, keys) := slot_insert {| wr_regex := r; wr_cache_size := size |} (rs_keys s) in
    let (old_key, index) := index_insert pattern k (rs_index s) in
    let (removed, keys) := match old_key with
                           | Some old => slot_remove old keys
                           | None => (None, keys)
                           end in
    let* delta := match removed with
                  | Some w => if alive (wr_regex w) then Panic else Ret (- Z.of_N (wr_cache_size w))%Z
                  | None => Ret 0%Z
                  end in
    Ret ({| rs_index := index; rs_keys := keys; rs_gc_counter := rs_gc_counter s |}, (r, k), true, delta)
  end.

(* ---- the process ---- *)
(* a [SharedRegex] in use, 17-20; [h_pattern] is the pattern it was requested for *)
Record handle := { h_pattern : str; h_regex : nat; h_key : slot_key }.
(* the holder of the lock, in [insert]: collecting with some patterns to visit, or past
   the collection *)
Inductive phase := Collecting (todo : list str) | Inserting.
Record locked {R : Type} := { lk_pattern : str; lk_regex : R; lk_phase : phase }.
Arguments locked : clear implicits.

Record process {R : Type} := {
  p_store : regex_store;
  p_lock : option (locked R);
  p_heap : list R;                          (* all the regexes ever stored, by number *)
  p_handles : list handle;
  p_calls : list (str * R);                 (* calls that have compiled their regex *)
  p_caches : list (secondary_map nat);      (* for each cache the regex it was made for *)
  p_uses : list (nat * nat);                (* regexes used, with the caches they used *)
  p_total_regexes : N;
  p_cache_size : Z
}.
Arguments process : clear implicits.

Definition process_new {R} : process R := {|
  p_store := regex_store_new; p_lock := None; p_heap := []; p_handles := []; p_calls := [];
  p_caches := []; p_uses := []; p_total_regexes := 0%N; p_cache_size := 0%Z |}.

(* [strong_count() > 0]: some [SharedRegex] holds it *)
Definition alive_in (handles : list handle) (r : nat) : bool :=
  existsb (fun h => h_regex h =? r) handles.

Inductive action {R : Type} :=
| ALookup (pattern : str) (factory : str -> option R)   (* 41-49: look up, or compile *)
| ABegin (call : nat)          (* 51-52, 120-123: take the lock, count *)
| AVisit (n : nat)             (* 84-93: one entry of the collection, in any order *)
| AFinishGc                    (* 94 *)
| AInsert                      (* 124-148, and release the lock *)
| ADrop (n : nat)              (* a SharedRegex is dropped; takes no lock *)
| ANewCaches                   (* the pool makes new caches, regex_cache_store.rs 10-13 *)
| AUse (n caches : nat).       (* regex_cache_store.rs 34-47 *)
Arguments action : clear implicits.

Fixpoint remove_nth {A} (i : nat) (l : list A) : list A :=
  match l, i with
  | [], _ => []
  | _ :: l', 0 => l'
  | x :: l', S i' => x :: remove_nth i' l'
  end.

Definition with_store {R} (p : process R) (s : regex_store) (lock : option (locked R)) : process R := {|
  p_store := s; p_lock := lock; p_heap := p_heap p; p_handles := p_handles p; p_calls := p_calls p;
  p_caches := p_caches p; p_uses := p_uses p; p_total_regexes := p_total_regexes p;
  p_cache_size := p_cache_size p |}.
Definition with_handles {R} (p : process R) (l : list handle) : process R := {|
  p_store := p_store p; p_lock := p_lock p; p_heap := p_heap p; p_handles := l; p_calls := p_calls p;
  p_caches := p_caches p; p_uses := p_uses p; p_total_regexes := p_total_regexes p;
  p_cache_size := p_cache_size p |}.
Definition with_calls {R} (p : process R) (l : list (str * R)) : process R := {|
  p_store := p_store p; p_lock := p_lock p; p_heap := p_heap p; p_handles := p_handles p; p_calls := l;
  p_caches := p_caches p; p_uses := p_uses p; p_total_regexes := p_total_regexes p;
  p_cache_size := p_cache_size p |}.
Definition with_caches {R} (p : process R) (l : list (secondary_map nat)) (uses : list (nat * nat)) : process R := {|
  p_store := p_store p; p_lock := p_lock p; p_heap := p_heap p; p_handles := p_handles p; p_calls := p_calls p;
  p_caches := l; p_uses := uses; p_total_regexes := p_total_regexes p;
  p_cache_size := p_cache_size p |}.
Definition with_stats {R} (p : process R) (total : N) (size : Z) : process R := {|
  p_store := p_store p; p_lock := p_lock p; p_heap := p_heap p; p_handles := p_handles p; p_calls := p_calls p;
  p_caches := p_caches p; p_uses := p_uses p; p_total_regexes := total; p_cache_size := size |}.

(* regex_store.rs 37-54 and 119-149 cut into actions; [None]: the action is not possible
   (the lock is held, or there is nothing to act on) *)
Definition perform {R} (cache_size : R -> N) (a : action R) (p : process R) : option (outcome (process R)) :=
  match a with
  | ALookup pattern factory =>
    match p_lock p with
    | Some _ => None
    | None =>
      match store_get (alive_in (p_handles p)) (p_store p) pattern with
      | Some (r, k) =>
        Some (Ret (with_handles p ({| h_pattern := pattern; h_regex := r; h_key := k |} :: p_handles p)))
      | None =>
        match factory pattern with
        | Some x => Some (Ret (with_calls p ((pattern, x) :: p_calls p)))
        | None => Some (Ret p)
        end
      end
    end
  | ABegin n =>
    match p_lock p, nth_error (p_calls p) n with
    | None, Some (pattern, x) =>
      let count := (rs_gc_counter (p_store p) + 1)%N in
      let collect := (gc_frequency <=? count)%N in
      let s := {| rs_index := rs_index (p_store p); rs_keys := rs_keys (p_store p);
                  rs_gc_counter := if collect then 0%N else count |} in
      let ph := if collect then Collecting (map fst (rs_index s)) else Inserting in
      Some (Ret (with_calls (with_store p s (Some {| lk_pattern := pattern; lk_regex := x; lk_phase := ph |}))
                   (remove_nth n (p_calls p))))
    | _, _ => None
    end
  | AVisit n =>
    match p_lock p with
    | Some {| lk_pattern := pattern; lk_regex := x; lk_phase := Collecting todo |} =>
      match nth_error todo n with
      | Some q =>
        Some (let* r := gc_visit (alive_in (p_handles p)) (p_store p) q in
              let (s, delta) := r in
              Ret (with_stats
                (with_store p s (Some {| lk_pattern := pattern; lk_regex := x;
                                         lk_phase := Collecting (remove_nth n todo) |}))
                (p_total_regexes p) (p_cache_size p + delta)))
      | None => None
      end
    | _ => None
    end
  | AFinishGc =>
    match p_lock p with
    | Some {| lk_pattern := pattern; lk_regex := x; lk_phase := Collecting [] |} =>
      Some (Ret (with_stats
        (with_store p (p_store p) (Some {| lk_pattern := pattern; lk_regex := x; lk_phase := Inserting |}))
        (N.of_nat (sm_len (rs_keys (p_store p)))) (p_cache_size p)))
    | _ => None
    end
  | AInsert =>
    match p_lock p with
    | Some {| lk_pattern := pattern; lk_regex := x; lk_phase := Inserting |} =>
      Some (let* res := store_insert (alive_in (p_handles p)) (p_store p) pattern (length (p_heap p)) (cache_size x) in
            let '(s, (r, k), stored, delta) := res in
            Ret {| p_store := s; p_lock := None;
                   p_heap := if stored then p_heap p ++ [x] else p_heap p;
                   p_handles := {| h_pattern := pattern; h_regex := r; h_key := k |} :: p_handles p;
                   p_calls := p_calls p; p_caches := p_caches p; p_uses := p_uses p;
                   p_total_regexes := if stored then N.of_nat (sm_len (rs_keys s)) else p_total_regexes p;
                   p_cache_size := (p_cache_size p + delta)%Z |})
    | _ => None
    end
  | ADrop n =>
    match nth_error (p_handles p) n with
    | Some _ => Some (Ret (with_handles p (remove_nth n (p_handles p))))
    | None => None
    end
  | ANewCaches => Some (Ret (with_caches p ([] :: p_caches p) (p_uses p)))
  | AUse n m =>
    match nth_error (p_handles p) n, nth_error (p_caches p) m with
    | Some h, Some caches =>
      Some (let* r := entry_or_insert (h_key h) (h_regex h) caches in
            let (cache, caches') := r in
            Ret (with_caches p (set_nth m caches' (p_caches p)) ((h_regex h, cache) :: p_uses p)))
    | _, _ => None
    end
  end.

(* a history of actions *)
Fixpoint run {R} (cache_size : R -> N) (acts : list (action R)) (p : process R) : option (outcome (process R)) :=
  match acts with
  | [] => Some (Ret p)
  | a :: acts' =>
    match perform cache_size a p with
    | Some (Ret p') => run cache_size acts' p'
    | r => r
    end
  end.
