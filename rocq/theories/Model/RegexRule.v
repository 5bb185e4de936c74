(* Model of sds/src/scanner/regex_rule/compiled.rs and of
   sds/src/scanner/mod.rs 829-859 *)
From Verif Require Export Model.Keywords.

(* compiled.rs 19-30.  [rr_find content start] stands for
   [regex.search_with(cache, &Input::new(content).range(start..))]; the validator
   is a predicate on the matched text (secondary_validation). *)
Record regex_rule := {
  rr_index : nat;
  rr_find : str -> nat -> option (nat * nat);
  rr_included : option included_keywords;
  rr_excluded : option excluded_keywords;
  rr_validator : option (str -> bool)
}.

(* scanner/mod.rs 829-837 *)
Definition get_next_regex_start (content : str) (m : nat * nat) : outcome (option nat) :=
  let* rest := slice_from content (fst m) in
  Ret (option_map (fun p => fst m + fst p) (iter_nth (char_indices rest) 1)).

(* scanner/mod.rs 839-859 *)
Definition is_false_positive_match (r : regex_rule) (content : str) (m : nat * nat)
    (check_excluded_keywords : bool) : outcome bool :=
  let* by_keyword :=
    (if check_excluded_keywords then
       match rr_excluded r with
       | Some xk => contains_excluded_keyword_match xk content (fst m)
       | None => Ret false
       end
     else Ret false) in
  if by_keyword then Ret true
  else
    match rr_validator r with
    | Some valid =>
      let* text := slice content (fst m) (snd m) in
      Ret (negb (valid text))
    | None => Ret false
    end.

(* The set of texts matched in excluded scopes (AHashSet<String>); only insertion
   and membership are used. *)
Definition excluded_set := list str.
Definition excluded_contains (x : excluded_set) (t : str) : bool := existsb (str_eqb t) x.

(* compiled.rs 269-314: [TruePositiveSearch::next].  Returns the match (if any),
   the new start and the new excluded set. *)
Fixpoint tp_next (fuel : nat) (r : regex_rule) (content : str) (check_excl excluded : bool)
    (start : nat) (x : excluded_set)
  : outcome (option (nat * nat) * nat * excluded_set) :=
  match fuel with
  | 0 => Diverge
  | S fuel' =>
    match rr_find r content start with
    | None => Ret (None, start, x)
    | Some m =>
      let* fp := is_false_positive_match r content m check_excl in
      if fp then
        let* n := get_next_regex_start content m in
        match n with
        | Some next => tp_next fuel' r content check_excl excluded next x
        | None => Ret (None, start, x)
        end
      else if excluded then
        let* text := slice content (fst m) (snd m) in
        tp_next fuel' r content check_excl excluded (snd m) (text :: x)
      else Ret (Some m, snd m, x)
    end
  end.

(* [for string_match in true_positive_search { emitter.emit(string_match) }] *)
Fixpoint tp_all (fuel : nat) (r : regex_rule) (content : str) (check_excl excluded : bool)
    (start : nat) (x : excluded_set) : outcome (list (nat * nat) * excluded_set) :=
  match fuel with
  | 0 => Diverge
  | S fuel' =>
    let* res := tp_next (S fuel') r content check_excl excluded start x in
    let '(om, start', x') := res in
    match om with
    | None => Ret ([], x')
    | Some m =>
      let* rest := tp_all fuel' r content check_excl excluded start' x' in
      Ret (m :: fst rest, snd rest)
    end
  end.

(* compiled.rs 165-194: the inner loop for the keyword found at [k].  [kstart] is the
   cursor of the keyword search.  The first component of the answer tells whether
   the keyword search continues ([continue 'included_keyword_search]) or all
   true positives were seen ([break]). *)
Fixpoint kw_inner (fuel : nat) (r : regex_rule) (ik : included_keywords) (content : str)
    (excluded : bool) (k : nat) (start kstart : nat) (x : excluded_set)
  : outcome (bool * list (nat * nat) * nat * excluded_set) :=
  match fuel with
  | 0 => Diverge
  | S fuel' =>
    let* res := tp_next (S fuel') r content false excluded start x in
    let '(om, start', x') := res in
    match om with
    | None => Ret (false, [], kstart, x')
    | Some m =>
      let* within := is_index_within_prefix content k (fst m) (ik_look_ahead ik) in
      if within then
        let* rest := kw_inner fuel' r ik content excluded k start'
                              (skip_to kstart (fst m)) x' in
        let '(cont, ms, kstart', x'') := rest in
        Ret (cont, m :: ms, kstart', x'')
      else
        let* ps := get_prefix_start (fst m) (ik_look_ahead ik) content in
        Ret (true, [], skip_to kstart (ps_start ps), x')
    end
  end.

(* compiled.rs 151-198: the keyword loop *)
Fixpoint kw_outer (fuel : nat) (r : regex_rule) (ik : included_keywords) (content : str)
    (excluded : bool) (kstart : nat) (x : excluded_set)
  : outcome (list (nat * nat) * excluded_set) :=
  match fuel with
  | 0 => Diverge
  | S fuel' =>
    let* kn := keyword_next ik content kstart in
    match kn with
    | None => Ret ([], x)
    | Some (k, kstart1) =>
      let* res := kw_inner (S fuel') r ik content excluded k k kstart1 x in
      let '(cont, ms, kstart2, x') := res in
      if cont then
        let* rest := kw_outer fuel' r ik content excluded kstart2 x' in
        Ret (ms ++ fst rest, snd rest)
      else Ret (ms, x')
    end
  end.

(* compiled.rs 123-236 *)
Definition matches_with_included_keywords (fuel : nat) (r : regex_rule) (ik : included_keywords)
    (content : str) (p : path) (excluded : bool) (tp_rule_idx : list nat) (kw_paths : bool)
    (x : excluded_set) : outcome (list (nat * nat) * excluded_set) :=
  if existsb (Nat.eqb (rr_index r)) tp_rule_idx then
    tp_all fuel r content false excluded 0 x
  else
    let* res := kw_outer fuel r ik content excluded 0 x in
    let '(ms, x1) := res in
    if kw_paths then
      let verified :=
        match rr_find r content 0 with
        | Some _ => Some (ik_path_match ik (sanitize p))
        | None => None
        end in
      match verified with
      | Some true =>
        let* res2 := tp_all fuel r content false excluded 0 x1 in
        Ret (ms ++ fst res2, snd res2)
      | _ => Ret (ms, x1)
      end
    else Ret (ms, x1).

(* compiled.rs 51-93 *)
Definition regex_string_matches (fuel : nat) (r : regex_rule) (content : str) (p : path)
    (excluded : bool) (tp_rule_idx : list nat) (kw_paths : bool) (x : excluded_set)
  : outcome (list (nat * nat) * excluded_set) :=
  match rr_included r with
  | Some ik => matches_with_included_keywords fuel r ik content p excluded tp_rule_idx kw_paths x
  | None => tp_all fuel r content true excluded 0 x
  end.
