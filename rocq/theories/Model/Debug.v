(* The code of a scan that differs in a build with debug assertions (the default of
   [cargo build], of [cargo test] and of cargo-fuzz): proximity_keywords/mod.rs 131-133 and
   scanner/mod.rs 482-483 and 495-496.  The loops around these functions are repeated
   from Model/RegexRule.v and Model/Scanner.v.  The assertions of regex_store.rs are part
   of Model/RegexStore.v.  The overflow checks of such a build are not added here: where
   the release model could overflow it already panics. *)
From Verif Require Export Model.Scanner.

(* [debug_assert!] *)
Definition debug_assert (b : bool) : outcome unit := if b then Ret tt else Panic.

(* proximity_keywords/mod.rs 125-145 *)
Definition is_index_within_prefix_debug (content : str) (prefix_start target prefix_size : nat)
  : outcome bool :=
  let* _ := debug_assert (prefix_start <? target) in
  let* _ := debug_assert (is_char_boundary content prefix_start) in
  let* _ := debug_assert (is_char_boundary content target) in
  is_index_within_prefix content prefix_start target prefix_size.

(* regex_rule/compiled.rs 165-194, as [kw_inner] *)
Fixpoint kw_inner_debug (fuel : nat) (r : regex_rule) (ik : included_keywords) (content : str)
    (excluded : bool) (k : nat) (start kstart : nat) (x : excluded_set)
  : outcome (bool * list (nat * nat) * nat * excluded_set) :=
  match fuel with
  | 0 => Diverge
  | S fuel' =>
    let* res := tp_next (S fuel') r content false excluded start x in
    let '(om, start', x') := res in
    match om with
    | None => Ret (false, [], kstart, x')
    | Some m =>
      let* within := is_index_within_prefix_debug content k (fst m) (ik_look_ahead ik) in
      if within then
        let* rest := kw_inner_debug fuel' r ik content excluded k start'
                                    (skip_to kstart (fst m)) x' in
        let '(cont, ms, kstart', x'') := rest in
        Ret (cont, m :: ms, kstart', x'')
      else
        let* ps := get_prefix_start (fst m) (ik_look_ahead ik) content in
        Ret (true, [], skip_to kstart (ps_start ps), x')
    end
  end.

(* compiled.rs 151-198, as [kw_outer] *)
Fixpoint kw_outer_debug (fuel : nat) (r : regex_rule) (ik : included_keywords) (content : str)
    (excluded : bool) (kstart : nat) (x : excluded_set)
  : outcome (list (nat * nat) * excluded_set) :=
  match fuel with
  | 0 => Diverge
  | S fuel' =>
    let* kn := keyword_next ik content kstart in
    match kn with
    | None => Ret ([], x)
    | Some (k, kstart1) =>
      let* res := kw_inner_debug (S fuel') r ik content excluded k k kstart1 x in
      let '(cont, ms, kstart2, x') := res in
      if cont then
        let* rest := kw_outer_debug fuel' r ik content excluded kstart2 x' in
        Ret (ms ++ fst rest, snd rest)
      else Ret (ms, x')
    end
  end.

(* compiled.rs 123-236, as [matches_with_included_keywords] *)
Definition matches_with_included_keywords_debug (fuel : nat) (r : regex_rule)
    (ik : included_keywords) (content : str) (p : path) (excluded : bool)
    (tp_rule_idx : list nat) (kw_paths : bool)
    (x : excluded_set) : outcome (list (nat * nat) * excluded_set) :=
  if existsb (Nat.eqb (rr_index r)) tp_rule_idx then
    tp_all fuel r content false excluded 0 x
  else
    let* res := kw_outer_debug fuel r ik content excluded 0 x in
    let '(ms, x1) := res in
    if kw_paths then
      let verified :=
        match rr_find r content 0 with
        | Some _ => Some (ik_path_match ik (sanitize p))
        | None => None
        end in
      match verified with
      | Some true =>
        let* res2 := tp_all fuel r content false excluded 0 x1 in
        Ret (ms ++ fst res2, snd res2)
      | _ => Ret (ms, x1)
      end
    else Ret (ms, x1).

(* compiled.rs 51-93, as [regex_string_matches] *)
Definition regex_string_matches_debug (fuel : nat) (r : regex_rule) (content : str) (p : path)
    (excluded : bool) (tp_rule_idx : list nat) (kw_paths : bool) (x : excluded_set)
  : outcome (list (nat * nat) * excluded_set) :=
  match rr_included r with
  | Some ik =>
    matches_with_included_keywords_debug fuel r ik content p excluded tp_rule_idx kw_paths x
  | None => tp_all fuel r content true excluded 0 x
  end.

(* compiled.rs 19-121, as [regex_compiled] *)
Definition regex_compiled_debug (a : match_action) (s : scope) (v : option match_validation_type)
    (r : regex_rule) : rule := {|
  rule_action := a;
  rule_scope := s;
  rule_validation := v;
  rule_multipass := true;
  rule_string_matches := fun fuel content p excl tp_idx kw_paths x =>
    regex_string_matches_debug fuel r content p (excl (rr_index r)) tp_idx kw_paths x
|}.

(* scanner/mod.rs 456-539, as [apply_match_actions_for_string] *)
Definition apply_match_actions_for_string_debug {E} (h : hashers) (sc : scanner) (p : path)
    (content : str) (delta : Z) (cdelta : enc_shift E) (m : internal_match E)
  : outcome (str * Z * enc_shift E * rule_match) :=
  let* r := unwrap (nth_error (sc_rules sc) (im_rule m)) in
  let* custom_start :=
    as_usize (Z.of_nat (enc_get_index E (im_cstart m) (im_start m)) + enc_get_shift E cdelta delta) in
  let* value :=
    (if sc_return_matches sc then
       let* a := as_usize (Z.of_nat (im_start m) + delta) in
       let* b := as_usize (Z.of_nat (im_end m) + delta) in
       let* _ := debug_assert (is_char_boundary content a) in
       let* _ := debug_assert (is_char_boundary content b) in
       let* t := slice content a b in
       Ret (Some t)
     else Ret None) in
  let* st :=
    (if is_mutating (rule_action r) then
       let* a := as_usize (Z.of_nat (im_start m) + delta) in
       let* b := as_usize (Z.of_nat (im_end m) + delta) in
       let* _ := debug_assert (is_char_boundary content a) in
       let* _ := debug_assert (is_char_boundary content b) in
       let* t := slice content a b in
       let* orep := get_replacement h (rule_action r) t in
       match orep with
       | None => Ret (content, delta, cdelta)
       | Some rep =>
         let* before := slice t (rep_start rep) (rep_end rep) in
         let cdelta' := enc_adjust_shift E cdelta before (rep_text rep) in
         let delta' := (delta + (Z.of_nat (blen (rep_text rep)) - Z.of_nat (blen before)))%Z in
         let* content' := replace_range content (a + rep_start rep) (a + rep_end rep) (rep_text rep) in
         Ret (content', delta', cdelta')
       end
     else Ret (content, delta, cdelta)) in
  let '(content', delta', cdelta') := st in
  let shift := enc_get_shift E cdelta' delta' in
  let* custom_end := as_usize (Z.of_nat (enc_get_index E (im_cend m) (im_end m)) + shift) in
  let status := match rule_validation r with Some _ => NotChecked | None => NotAvailable end in
  Ret (content', delta', cdelta',
       {| rm_rule := im_rule m; rm_path := p;
          rm_kind := replacement_type (rule_action r);
          rm_start := custom_start; rm_end := custom_end; rm_shift := shift;
          rm_value := value; rm_status := status |}).

(* scanner/mod.rs 434-453, as [apply_match_actions] *)
Fixpoint apply_match_actions_loop_debug {E} (h : hashers) (sc : scanner) (p : path)
    (content : str) (delta : Z) (cdelta : enc_shift E) (ms : list (internal_match E))
  : outcome (str * list rule_match) :=
  match ms with
  | [] => Ret (content, [])
  | m :: ms' =>
    let* st := apply_match_actions_for_string_debug h sc p content delta cdelta m in
    let '(content', delta', cdelta', out) := st in
    let* rest := apply_match_actions_loop_debug h sc p content' delta' cdelta' ms' in
    Ret (fst rest, out :: snd rest)
  end.
Definition apply_match_actions_debug {E} (h : hashers) (sc : scanner) (p : path)
    (content : str) (ms : list (internal_match E)) : outcome (str * list rule_match) :=
  apply_match_actions_loop_debug h sc p content 0 (enc_zero_shift E) ms.

(* scanner/mod.rs 342-374, as [process_string] *)
Definition process_string_debug {E} (h : hashers) (srt : sorter) (sc : scanner) (x : excluded_set)
    (p : path) (ms : list (internal_match E)) (content : str)
  : outcome (str * bool * list rule_match) :=
  let* ms1 := (if sc_multipass sc then multipass_retain (sc_rules sc) x content ms else Ret ms) in
  let* ms2 := sort_and_remove_overlapping_rules srt (sc_rules sc) ms1 in
  let will_mutate := existsb (fun m => mutating_at (sc_rules sc) (im_rule m)) ms2 in
  let* res := apply_match_actions_debug h sc p content ms2 in
  Ret (fst res, will_mutate, snd res).

(* scanner/mod.rs 340-375, as [process_all] *)
Fixpoint process_all_debug (I : event_impl) (h : hashers) (srt : sorter) (sc : scanner)
    (x : excluded_set) (e : ev_t I) (l : list (path * list (internal_match (ev_enc I))))
  : outcome (ev_t I * list rule_match) :=
  match l with
  | [] => Ret (e, [])
  | (p, ms) :: l' =>
    let* content := ev_get I e p in
    let* res := process_string_debug h srt sc x p ms content in
    let '(content', mutated, out) := res in
    let* rest := process_all_debug I h srt sc x (ev_set I e p content' mutated) l' in
    Ret (fst rest, out ++ snd rest)
  end.

(* scanner/mod.rs 316-386, as [scan]; the rules of the scanner are those of
   [regex_compiled_debug] *)
Definition scan_debug (I : event_impl) (fuel : nat) (h : hashers) (srt : sorter) (sc : scanner)
    (blocked : list nat) (e : ev_t I) : outcome (ev_t I * list rule_match) :=
  let* res := visit_string_rule_combinations (sc_tree sc) (length (sc_rules sc)) (sc_wild sc)
                (ev_ops I e) (visit_content fuel srt sc blocked) ([], []) in
  let '((found, x), log) := res in
  process_all_debug I h srt sc x (ev_visited I e log) found.
