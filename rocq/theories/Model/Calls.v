(* Model of the calls of regex engines in sds/src/scanner/regex_rule/compiled.rs,
   sds/src/proximity_keywords/{included,excluded}_keywords.rs and scanner/mod.rs 729-795,
   839-859.  The functions are those of Model/RegexRule.v and Model/Scanner.v; in addition
   each returns the list of its calls of [search_with] and [is_match], in order. *)
From Verif Require Export Model.Builder.

Inductive call :=
| CallRule (start : nat)       (* compiled.rs 276-278: the regex of the rule, from [start] on *)
| CallKeyword (start : nat)    (* included_keywords.rs 33-40: the keywords, from [start] on *)
| CallWindow (start : nat)     (* excluded_keywords.rs 14-66: the excluded keywords before [start] *)
| CallPresence                 (* compiled.rs 205-210: is there any match in the string? *)
| CallPath.                    (* proximity_keywords/mod.rs 103-106: the keywords, in the path *)

(* scanner/mod.rs 839-859, as [is_false_positive_match] *)
Definition false_positive_calls (r : regex_rule) (m : nat * nat) (check_excluded_keywords : bool) : list call :=
  if check_excluded_keywords then
    match rr_excluded r with Some _ => [CallWindow (fst m)] | None => [] end
  else [].

(* compiled.rs 269-314, as [tp_next] *)
Fixpoint tp_next_calls (fuel : nat) (r : regex_rule) (content : str) (check_excl excluded : bool)
    (start : nat) (x : excluded_set)
  : outcome (option (nat * nat) * nat * excluded_set * list call) :=
  match fuel with
  | 0 => Diverge
  | S fuel' =>
    match rr_find r content start with
    | None => Ret (None, start, x, [CallRule start])
    | Some m =>
      let calls := CallRule start :: false_positive_calls r m check_excl in
      let* fp := is_false_positive_match r content m check_excl in
      if fp then
        let* n := get_next_regex_start content m in
        match n with
        | Some next =>
          let* res := tp_next_calls fuel' r content check_excl excluded next x in
          Ret (fst res, calls ++ snd res)
        | None => Ret (None, start, x, calls)
        end
      else if excluded then
        let* text := slice content (fst m) (snd m) in
        let* res := tp_next_calls fuel' r content check_excl excluded (snd m) (text :: x) in
        Ret (fst res, calls ++ snd res)
      else Ret (Some m, snd m, x, calls)
    end
  end.

(* as [tp_all] *)
Fixpoint tp_all_calls (fuel : nat) (r : regex_rule) (content : str) (check_excl excluded : bool)
    (start : nat) (x : excluded_set) : outcome (list (nat * nat) * excluded_set * list call) :=
  match fuel with
  | 0 => Diverge
  | S fuel' =>
    let* res := tp_next_calls (S fuel') r content check_excl excluded start x in
    let '(om, start', x', calls) := res in
    match om with
    | None => Ret ([], x', calls)
    | Some m =>
      let* rest := tp_all_calls fuel' r content check_excl excluded start' x' in
      let '(ms, x'', calls') := rest in
      Ret (m :: ms, x'', calls ++ calls')
    end
  end.

(* compiled.rs 165-194, as [kw_inner] *)
Fixpoint kw_inner_calls (fuel : nat) (r : regex_rule) (ik : included_keywords) (content : str)
    (excluded : bool) (k : nat) (start kstart : nat) (x : excluded_set)
  : outcome (bool * list (nat * nat) * nat * excluded_set * list call) :=
  match fuel with
  | 0 => Diverge
  | S fuel' =>
    let* res := tp_next_calls (S fuel') r content false excluded start x in
    let '(om, start', x', calls) := res in
    match om with
    | None => Ret (false, [], kstart, x', calls)
    | Some m =>
      let* within := is_index_within_prefix content k (fst m) (ik_look_ahead ik) in
      if within then
        let* rest := kw_inner_calls fuel' r ik content excluded k start'
                                    (skip_to kstart (fst m)) x' in
        let '(cont, ms, kstart', x'', calls') := rest in
        Ret (cont, m :: ms, kstart', x'', calls ++ calls')
      else
        let* ps := get_prefix_start (fst m) (ik_look_ahead ik) content in
        Ret (true, [], skip_to kstart (ps_start ps), x', calls)
    end
  end.

(* compiled.rs 151-198, as [kw_outer] *)
Fixpoint kw_outer_calls (fuel : nat) (r : regex_rule) (ik : included_keywords) (content : str)
    (excluded : bool) (kstart : nat) (x : excluded_set)
  : outcome (list (nat * nat) * excluded_set * list call) :=
  match fuel with
  | 0 => Diverge
  | S fuel' =>
    let* kn := keyword_next ik content kstart in
    match kn with
    | None => Ret ([], x, [CallKeyword kstart])
    | Some (k, kstart1) =>
      let* res := kw_inner_calls (S fuel') r ik content excluded k k kstart1 x in
      let '(cont, ms, kstart2, x', calls) := res in
      if cont then
        let* rest := kw_outer_calls fuel' r ik content excluded kstart2 x' in
        let '(ms', x'', calls') := rest in
        Ret (ms ++ ms', x'', CallKeyword kstart :: calls ++ calls')
      else Ret (ms, x', CallKeyword kstart :: calls)
    end
  end.

(* compiled.rs 123-236, as [matches_with_included_keywords] *)
Definition matches_with_included_keywords_calls (fuel : nat) (r : regex_rule) (ik : included_keywords)
    (content : str) (p : path) (excluded : bool) (tp_rule_idx : list nat) (kw_paths : bool)
    (x : excluded_set) : outcome (list (nat * nat) * excluded_set * list call) :=
  if existsb (Nat.eqb (rr_index r)) tp_rule_idx then
    tp_all_calls fuel r content false excluded 0 x
  else
    let* res := kw_outer_calls fuel r ik content excluded 0 x in
    let '(ms, x1, calls) := res in
    if kw_paths then
      match rr_find r content 0 with
      | Some _ =>
        if ik_path_match ik (sanitize p) then
          let* res2 := tp_all_calls fuel r content false excluded 0 x1 in
          let '(ms2, x2, calls2) := res2 in
          Ret (ms ++ ms2, x2, calls ++ [CallPresence; CallPath] ++ calls2)
        else Ret (ms, x1, calls ++ [CallPresence; CallPath])
      | None => Ret (ms, x1, calls ++ [CallPresence])
      end
    else Ret (ms, x1, calls).

(* compiled.rs 51-93, as [regex_string_matches] *)
Definition regex_string_matches_calls (fuel : nat) (r : regex_rule) (content : str) (p : path)
    (excluded : bool) (tp_rule_idx : list nat) (kw_paths : bool) (x : excluded_set)
  : outcome (list (nat * nat) * excluded_set * list call) :=
  match rr_included r with
  | Some ik => matches_with_included_keywords_calls fuel r ik content p excluded tp_rule_idx kw_paths x
  | None => tp_all_calls fuel r content true excluded 0 x
  end.

(* the calls of a scan: the rule, the string and the call *)
Definition called := (nat * path * str * call)%type.
Definition search_calls := nat -> str -> path -> (nat -> bool) -> list nat -> bool -> excluded_set ->
  outcome (list (nat * nat) * excluded_set * list call).
Definition regex_calls (r : regex_rule) : search_calls :=
  fun fuel content p excl tp_idx kw_paths x =>
    regex_string_matches_calls fuel r content p (excl (rr_index r)) tp_idx kw_paths x.

(* scanner/mod.rs 729-795, as [visit_content_rule] and [visit_content]; [cs] are the searches
   of the rules *)
Definition visit_content_rule_calls (fuel : nat) (sc : scanner) (cs : list search_calls) (blocked : list nat)
    (p : path) (content : str) (excl : nat -> bool)
    (st : list (nat * nat * nat) * excluded_set * list called) (rule_index : nat)
  : outcome (list (nat * nat * nat) * excluded_set * list called) :=
  if existsb (Nat.eqb rule_index) blocked then Ret st
  else
    let* c := unwrap (nth_error cs rule_index) in
    let* res := c fuel content p excl [] (sc_kw_paths sc) (snd (fst st)) in
    let '(ms, x', calls) := res in
    Ret (fst (fst st) ++ map (fun m => (rule_index, fst m, snd m)) ms, x',
         snd st ++ map (fun k => (rule_index, p, content, k)) calls).
Definition visit_content_calls {E} (fuel : nat) (srt : sorter) (sc : scanner) (cs : list search_calls)
    (blocked : list nat) : content_visitor (scan_state E * list called) :=
  fun p content rules excl st =>
    let* res := foldM (visit_content_rule_calls fuel sc cs blocked p content excl) rules
                      ([], snd (fst st), snd st) in
    let '(ms, x', calls) := res in
    let sorted := srt _ (fun a b => snd (fst a) ?= snd (fst b)) ms in
    let ix := enc_calculate E content (map (fun m => (snd (fst m), snd m)) sorted) in
    let ims := attach_indices sorted ix in
    match ims with
    | [] => Ret ((fst (fst st), x', calls), false)
    | _ => Ret ((fst (fst st) ++ [(p, ims)], x', calls), true)
    end.

(* scanner/mod.rs 316-386, as [scan]; what follows the visit calls no engine *)
Definition scan_calls (I : event_impl) (fuel : nat) (h : hashers) (srt : sorter) (sc : scanner)
    (cs : list search_calls) (blocked : list nat) (e : ev_t I)
  : outcome (ev_t I * list rule_match * list called) :=
  let* res := visit_string_rule_combinations (sc_tree sc) (length (sc_rules sc)) (sc_wild sc)
                (ev_ops I e) (visit_content_calls fuel srt sc cs blocked) (([], []), []) in
  let '((found, x, calls), log) := res in
  let* res2 := process_all I h srt sc x (ev_visited I e log) found in
  Ret (fst res2, snd res2, calls).
