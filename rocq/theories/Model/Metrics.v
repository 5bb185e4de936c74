(* Model of the metrics of a scanner: sds/src/scanner/metrics.rs, the increments in
   sds/src/scanner/mod.rs 345-383, sds/src/scanner/regex_rule/compiled.rs 99-101 and
   sds/src/proximity_keywords/excluded_keywords.rs 14-26, and of
   sds/src/scanner/shared_pool.rs.  The functions are those of Model/RegexRule.v and
   Model/Scanner.v with the increments added.  What a recorder does with increments is
   outside: here they are only listed.  The duration counter is left out. *)
From Verif Require Export Model.Builder Model.Ascii.

(* one call of [Counter::increment] *)
Inductive emission :=
| EmKeyword (rule_index : nat)     (* excluded_keywords.rs 22-24 *)
| EmExcluded (rule_index : nat)    (* compiled.rs 99-101 *)
| EmScanned                        (* mod.rs 379 *)
| EmMatches (n : nat).             (* mod.rs 381-383 *)

(* compiled.rs 269-314 with scanner/mod.rs 839-859 and excluded_keywords.rs 14-26: as
   [tp_next]; the last component counts the increments *)
Definition is_false_positive_counted (r : regex_rule) (content : str) (m : nat * nat)
    (check_excluded_keywords : bool) : outcome (bool * nat) :=
  let* by_keyword :=
    (if check_excluded_keywords then
       match rr_excluded r with
       | Some xk => contains_excluded_keyword_match xk content (fst m)
       | None => Ret false
       end
     else Ret false) in
  if by_keyword then Ret (true, 1)
  else
    match rr_validator r with
    | Some valid =>
      let* text := slice content (fst m) (snd m) in
      Ret (negb (valid text), 0)
    | None => Ret (false, 0)
    end.
Fixpoint tp_next_counted (fuel : nat) (r : regex_rule) (content : str) (check_excl excluded : bool)
    (start : nat) (x : excluded_set)
  : outcome (option (nat * nat) * nat * excluded_set * nat) :=
  match fuel with
  | 0 => Diverge
  | S fuel' =>
    match rr_find r content start with
    | None => Ret (None, start, x, 0)
    | Some m =>
      let* fp := is_false_positive_counted r content m check_excl in
      if fst fp then
        let* n := get_next_regex_start content m in
        match n with
        | Some next =>
          let* res := tp_next_counted fuel' r content check_excl excluded next x in
          Ret (fst res, snd fp + snd res)
        | None => Ret (None, start, x, snd fp)
        end
      else if excluded then
        let* text := slice content (fst m) (snd m) in
        let* res := tp_next_counted fuel' r content check_excl excluded (snd m) (text :: x) in
        Ret (fst res, snd fp + snd res)
      else Ret (Some m, snd m, x, snd fp)
    end
  end.
(* as [tp_all] *)
Fixpoint tp_all_counted (fuel : nat) (r : regex_rule) (content : str) (check_excl excluded : bool)
    (start : nat) (x : excluded_set) : outcome (list (nat * nat) * excluded_set * nat) :=
  match fuel with
  | 0 => Diverge
  | S fuel' =>
    let* res := tp_next_counted (S fuel') r content check_excl excluded start x in
    let '(om, start', x', k) := res in
    match om with
    | None => Ret ([], x', k)
    | Some m =>
      let* rest := tp_all_counted fuel' r content check_excl excluded start' x' in
      let '(ms, x'', k') := rest in
      Ret (m :: ms, x'', k + k')
    end
  end.
(* compiled.rs 51-93.  With included keywords every search is made with
   [check_excluded_keywords] false (141, 160, 227), so nothing is counted. *)
Definition regex_string_matches_counted (fuel : nat) (r : regex_rule) (content : str) (p : path)
    (excluded : bool) (tp_rule_idx : list nat) (kw_paths : bool) (x : excluded_set)
  : outcome (list (nat * nat) * excluded_set * nat) :=
  match rr_included r with
  | Some ik =>
    let* res := matches_with_included_keywords fuel r ik content p excluded tp_rule_idx kw_paths x in
    Ret (res, 0)
  | None => tp_all_counted fuel r content true excluded 0 x
  end.

(* the search of a rule, with the number of increments of its keyword counter *)
Definition counted_search :=
  nat -> str -> path -> (nat -> bool) -> list nat -> bool -> excluded_set ->
  outcome (list (nat * nat) * excluded_set * nat).
Definition regex_counted (r : regex_rule) : counted_search :=
  fun fuel content p excl tp_idx kw_paths x =>
    regex_string_matches_counted fuel r content p (excl (rr_index r)) tp_idx kw_paths x.

(* as [visit_content_rule] and [visit_content]; [cs] are the searches of the rules.  The
   increments are kept in order in the last component of the state. *)
Definition visit_content_rule_counted (fuel : nat) (sc : scanner) (cs : list counted_search) (blocked : list nat)
    (p : path) (content : str) (excl : nat -> bool)
    (st : list (nat * nat * nat) * excluded_set * list emission) (rule_index : nat)
  : outcome (list (nat * nat * nat) * excluded_set * list emission) :=
  if existsb (Nat.eqb rule_index) blocked then Ret st
  else
    let* c := unwrap (nth_error cs rule_index) in
    let* res := c fuel content p excl [] (sc_kw_paths sc) (snd (fst st)) in
    let '(ms, x', k) := res in
    Ret (fst (fst st) ++ map (fun m => (rule_index, fst m, snd m)) ms, x',
         snd st ++ repeat (EmKeyword rule_index) k).
Definition visit_content_counted {E} (fuel : nat) (srt : sorter) (sc : scanner) (cs : list counted_search)
    (blocked : list nat) : content_visitor (scan_state E * list emission) :=
  fun p content rules excl st =>
    let* res := foldM (visit_content_rule_counted fuel sc cs blocked p content excl) rules
                      ([], snd (fst st), snd st) in
    let '(ms, x', em) := res in
    let sorted := srt _ (fun a b => snd (fst a) ?= snd (fst b)) ms in
    let ix := enc_calculate E content (map (fun m => (snd (fst m), snd m)) sorted) in
    let ims := attach_indices sorted ix in
    match ims with
    | [] => Ret ((fst (fst st), x', em), false)
    | _ => Ret ((fst (fst st) ++ [(p, ims)], x', em), true)
    end.

(* scanner/mod.rs 344-359, as [multipass_retain] *)
Fixpoint multipass_retain_counted {E} (rules : list rule) (x : excluded_set) (content : str)
    (ms : list (internal_match E)) : outcome (list (internal_match E) * list emission) :=
  match ms with
  | [] => Ret ([], [])
  | m :: ms' =>
    let* r := unwrap (nth_error rules (im_rule m)) in
    let* keep :=
      (if rule_multipass r then
         let* t := slice content (im_start m) (im_end m) in
         Ret (negb (excluded_contains x t))
       else Ret true) in
    let* rest := multipass_retain_counted rules x content ms' in
    Ret (if keep then (m :: fst rest, snd rest) else (fst rest, EmExcluded (im_rule m) :: snd rest))
  end.
(* as [process_string] *)
Definition process_string_counted {E} (h : hashers) (srt : sorter) (sc : scanner) (x : excluded_set)
    (p : path) (ms : list (internal_match E)) (content : str)
  : outcome (str * bool * list rule_match * list emission) :=
  let* ms1 := (if sc_multipass sc then multipass_retain_counted (sc_rules sc) x content ms else Ret (ms, [])) in
  let* ms2 := sort_and_remove_overlapping_rules srt (sc_rules sc) (fst ms1) in
  let will_mutate := existsb (fun m => mutating_at (sc_rules sc) (im_rule m)) ms2 in
  let* res := apply_match_actions h sc p content ms2 in
  Ret (fst res, will_mutate, snd res, snd ms1).
(* as [process_all] *)
Fixpoint process_all_counted (I : event_impl) (h : hashers) (srt : sorter) (sc : scanner)
    (x : excluded_set) (e : ev_t I) (l : list (path * list (internal_match (ev_enc I))))
  : outcome (ev_t I * list rule_match * list emission) :=
  match l with
  | [] => Ret (e, [], [])
  | (p, ms) :: l' =>
    let* content := ev_get I e p in
    let* res := process_string_counted h srt sc x p ms content in
    let '(content', mutated, out, em) := res in
    let* rest := process_all_counted I h srt sc x (ev_set I e p content' mutated) l' in
    let '(e', outs, em') := rest in
    Ret (e', out ++ outs, em ++ em')
  end.
(* scanner/mod.rs 316-386, as [scan]; the last component lists the increments *)
Definition scan_counted (I : event_impl) (fuel : nat) (h : hashers) (srt : sorter) (sc : scanner)
    (cs : list counted_search) (blocked : list nat) (e : ev_t I)
  : outcome (ev_t I * list rule_match * list emission) :=
  let* res := visit_string_rule_combinations (sc_tree sc) (length (sc_rules sc)) (sc_wild sc)
                (ev_ops I e) (visit_content_counted fuel srt sc cs blocked) (([], []), []) in
  let '((found, x, em), log) := res in
  let* res2 := process_all_counted I h srt sc x (ev_visited I e log) found in
  let '(e', outs, em') := res2 in
  Ret (e', outs, em ++ em' ++ [EmScanned; EmMatches (length outs)]).

(* [counter!(name, labels)]: counters with the same name and labels are one counter *)
Definition metric_key := (str * labels)%type.
(* metrics.rs 8-17, 25-33; proximity_keywords/mod.rs 93-96; the labels of a scanner and of
   its rules are given to [new] in mod.rs 710 and regex_rule/config.rs 105-120 *)
Definition emission_key (scanner_labels : labels) (rule_labels : list labels) (e : emission)
  : option metric_key :=
  match e with
  | EmKeyword i =>
    option_map (fun l => (chars "false_positive.proximity_keywords",
                          clone_with_labels l [(chars "type", chars "excluded_keywords")]))
               (nth_error rule_labels i)
  | EmExcluded i =>
    option_map (fun l => (chars "false_positive.multipass.excluded_match", l)) (nth_error rule_labels i)
  | EmScanned => Some (chars "scanned_events", scanner_labels)
  | EmMatches _ => Some (chars "scanning.match_count", scanner_labels)
  end.
(* the argument of [increment] *)
Definition emission_amount (e : emission) : nat :=
  match e with EmMatches n => n | _ => 1 end.

(* shared_pool.rs 53-66: the number of stacks of the pool *)
Definition pool_stacks (count : nat) : nat :=
  if count <=? 4 then 4
  else if count <=? 8 then 8
  else if count <=? 16 then 16
  else if count <=? 32 then 32
  else 64.
