(* Model of sds/src/scanner/mod.rs (Scanner::scan and everything it calls) and of
   sds/src/rule_match.rs *)
From Verif Require Export Model.MatchAction Model.ScopedRuleset Model.RegexRule
  Model.MatchStatus Model.Encoding.

(* [slice::sort_unstable_by]: any function; what is assumed of it (a sorted
   permutation of its argument) is stated in the theorems. *)
Definition sorter := forall A : Type, (A -> A -> comparison) -> list A -> list A.

(* scanner/mod.rs 58-257: the part of the traits CompiledRule / CompiledRuleDyn the
   scanner uses.  Group data, group configs, scan caches, metrics and labels are left
   out.  [rule_string_matches fuel content path excluded tp_idx kw_paths x] returns the
   emitted matches and the updated set of excluded texts. *)
Record rule := {
  rule_action : match_action;
  rule_scope : scope;
  rule_validation : option match_validation_type;
  rule_multipass : bool;  (* should_exclude_multipass_v0 *)
  rule_string_matches :
    nat -> str -> path -> (nat -> bool) -> list nat -> bool -> excluded_set ->
    outcome (list (nat * nat) * excluded_set)
}.

(* scanner/regex_rule/compiled.rs 19-121: a regex rule as a rule of the scanner; the
   exclusion check is asked for the rule's own index (compiled.rs 297) *)
Definition regex_compiled (a : match_action) (s : scope) (v : option match_validation_type)
    (r : regex_rule) : rule := {|
  rule_action := a;
  rule_scope := s;
  rule_validation := v;
  rule_multipass := true;
  rule_string_matches := fun fuel content p excl tp_idx kw_paths x =>
    regex_string_matches fuel r content p (excl (rr_index r)) tp_idx kw_paths x
|}.

(* scanner/mod.rs 276-304; the tree is built by ScopedRuleSet::new (688-697) *)
Record scanner := {
  sc_rules : list rule;
  sc_kw_paths : bool;       (* should_keywords_match_event_paths *)
  sc_wild : bool;           (* add_implicit_index_wildcards *)
  sc_multipass : bool;      (* multipass_v0_enabled *)
  sc_return_matches : bool
}.
Definition sc_tree (s : scanner) : rule_tree := build_tree (map rule_scope (sc_rules s)).

(* rule_match.rs 8-38 *)
Record rule_match := {
  rm_rule : nat;
  rm_path : path;
  rm_kind : replacement_kind;
  rm_start : nat;
  rm_end : nat;
  rm_shift : Z;
  rm_value : option str;
  rm_status : match_status
}.

(* rule_match.rs 40-55 *)
Record internal_match (E : encoding) := {
  im_rule : nat;
  im_start : nat;
  im_end : nat;
  im_cstart : enc_index E;
  im_cend : enc_index E
}.
Arguments im_rule {E}. Arguments im_start {E}. Arguments im_end {E}.
Arguments im_cstart {E}. Arguments im_cend {E}.
Arguments Build_internal_match {E}.

(* rule_match.rs 57-61 *)
Definition im_len {E} (m : internal_match E) : nat := im_end m - im_start m.

Definition compare_bool (a b : bool) : comparison :=
  match a, b with
  | false, true => Lt
  | true, false => Gt
  | _, _ => Eq
  end.
(* [Ordering::then] and [Ordering::reverse] *)
Definition then_cmp (a b : comparison) : comparison :=
  match a with Eq => b | _ => a end.
Definition rev_cmp (a : comparison) : comparison := CompOpp a.

(* [self.rules[i].get_match_action().is_mutating()] *)
Definition mutating_at (rules : list rule) (i : nat) : bool :=
  match nth_error rules i with
  | Some r => is_mutating (rule_action r)
  | None => false
  end.

(* [self.rules[m.rule_index]] is evaluated for every match in the list: out of
   bounds panics *)
Definition check_rule_indices {E} (rules : list rule) (ms : list (internal_match E)) : outcome unit :=
  if forallb (fun m => im_rule m <? length rules) ms then Ret tt else Panic.

(* scanner/mod.rs 548-566 *)
Definition overlap_compare {E} (rules : list rule) (a b : internal_match E) : comparison :=
  let ord := rev_cmp (compare_bool (mutating_at rules (im_rule a)) (mutating_at rules (im_rule b))) in
  let ord := then_cmp ord (im_start a ?= im_start b) in
  let ord := then_cmp ord (rev_cmp (im_len a ?= im_len b)) in
  let ord := then_cmp ord (im_rule a ?= im_rule b) in
  rev_cmp ord.

(* scanner/mod.rs 575-593: [retained] is the vector [retained_rules] with the last
   pushed element first; [l] is the sequence of popped matches *)
Fixpoint retain_loop {E} (rules : list rule) (retained : list (internal_match E))
    (l : list (internal_match E)) : list (internal_match E) :=
  match l with
  | [] => retained
  | m :: l' =>
    let keep :=
      if mutating_at rules (im_rule m) then
        match retained with
        | last :: _ => negb (im_start m <? im_end last)
        | [] => true
        end
      else
        forallb (fun r => negb ((im_start r <? im_end m) && (im_start m <? im_end r))) retained in
    retain_loop rules (if keep then m :: retained else retained) l'
  end.

(* scanner/mod.rs 541-600 *)
Definition sort_and_remove_overlapping_rules {E} (srt : sorter) (rules : list rule)
    (ms : list (internal_match E)) : outcome (list (internal_match E)) :=
  let* _ := check_rule_indices rules ms in
  let sorted := srt _ (overlap_compare rules) ms in
  let retained := rev (retain_loop rules [] (rev sorted)) in
  Ret (srt _ (fun a b => im_start a ?= im_start b) retained).

(* scanner/mod.rs 456-539.  The state is the content and the two deltas. *)
Definition apply_match_actions_for_string {E} (h : hashers) (sc : scanner) (p : path)
    (content : str) (delta : Z) (cdelta : enc_shift E) (m : internal_match E)
  : outcome (str * Z * enc_shift E * rule_match) :=
  let* r := unwrap (nth_error (sc_rules sc) (im_rule m)) in
  let* custom_start :=
    as_usize (Z.of_nat (enc_get_index E (im_cstart m) (im_start m)) + enc_get_shift E cdelta delta) in
  let* value :=
    (if sc_return_matches sc then
       let* a := as_usize (Z.of_nat (im_start m) + delta) in
       let* b := as_usize (Z.of_nat (im_end m) + delta) in
       let* t := slice content a b in
       Ret (Some t)
     else Ret None) in
  let* st :=
    (if is_mutating (rule_action r) then
       let* a := as_usize (Z.of_nat (im_start m) + delta) in
       let* b := as_usize (Z.of_nat (im_end m) + delta) in
       let* t := slice content a b in
       let* orep := get_replacement h (rule_action r) t in
       match orep with
       | None => Ret (content, delta, cdelta)
       | Some rep =>
         let* before := slice t (rep_start rep) (rep_end rep) in
         let cdelta' := enc_adjust_shift E cdelta before (rep_text rep) in
         let delta' := (delta + (Z.of_nat (blen (rep_text rep)) - Z.of_nat (blen before)))%Z in
         let* content' := replace_range content (a + rep_start rep) (a + rep_end rep) (rep_text rep) in
         Ret (content', delta', cdelta')
       end
     else Ret (content, delta, cdelta)) in
  let '(content', delta', cdelta') := st in
  let shift := enc_get_shift E cdelta' delta' in
  let* custom_end := as_usize (Z.of_nat (enc_get_index E (im_cend m) (im_end m)) + shift) in
  let status := match rule_validation r with Some _ => NotChecked | None => NotAvailable end in
  Ret (content', delta', cdelta',
       {| rm_rule := im_rule m; rm_path := p;
          rm_kind := replacement_type (rule_action r);
          rm_start := custom_start; rm_end := custom_end; rm_shift := shift;
          rm_value := value; rm_status := status |}).

(* scanner/mod.rs 434-453 *)
Fixpoint apply_match_actions_loop {E} (h : hashers) (sc : scanner) (p : path)
    (content : str) (delta : Z) (cdelta : enc_shift E) (ms : list (internal_match E))
  : outcome (str * list rule_match) :=
  match ms with
  | [] => Ret (content, [])
  | m :: ms' =>
    let* st := apply_match_actions_for_string h sc p content delta cdelta m in
    let '(content', delta', cdelta', out) := st in
    let* rest := apply_match_actions_loop h sc p content' delta' cdelta' ms' in
    Ret (fst rest, out :: snd rest)
  end.
Definition apply_match_actions {E} (h : hashers) (sc : scanner) (p : path)
    (content : str) (ms : list (internal_match E)) : outcome (str * list rule_match) :=
  apply_match_actions_loop h sc p content 0 (enc_zero_shift E) ms.

(* scanner/mod.rs 344-359: [rule_matches.retain(..)] of multi-pass V0 *)
Fixpoint multipass_retain {E} (rules : list rule) (x : excluded_set) (content : str)
    (ms : list (internal_match E)) : outcome (list (internal_match E)) :=
  match ms with
  | [] => Ret []
  | m :: ms' =>
    let* r := unwrap (nth_error rules (im_rule m)) in
    let* keep :=
      (if rule_multipass r then
         let* t := slice content (im_start m) (im_end m) in
         Ret (negb (excluded_contains x t))
       else Ret true) in
    let* rest := multipass_retain rules x content ms' in
    Ret (if keep then m :: rest else rest)
  end.

(* scanner/mod.rs 342-374: the closure given to visit_string_mut; returns the new
   string, whether it was mutated, and the matches to report *)
Definition process_string {E} (h : hashers) (srt : sorter) (sc : scanner) (x : excluded_set)
    (p : path) (ms : list (internal_match E)) (content : str)
  : outcome (str * bool * list rule_match) :=
  let* ms1 := (if sc_multipass sc then multipass_retain (sc_rules sc) x content ms else Ret ms) in
  let* ms2 := sort_and_remove_overlapping_rules srt (sc_rules sc) ms1 in
  let will_mutate := existsb (fun m => mutating_at (sc_rules sc) (im_rule m)) ms2 in
  let* res := apply_match_actions h sc p content ms2 in
  Ret (fst res, will_mutate, snd res).

(* scanner/mod.rs 744-778: the closure given to visit_rule_indices, for one rule.
   The candidates are (rule index, start, end); the list of true positive rules is
   always empty (see Model/ScopedRuleset.v). *)
Definition visit_content_rule (fuel : nat) (sc : scanner) (blocked : list nat) (p : path)
    (content : str) (excl : nat -> bool)
    (st : list (nat * nat * nat) * excluded_set) (rule_index : nat)
  : outcome (list (nat * nat * nat) * excluded_set) :=
  if existsb (Nat.eqb rule_index) blocked then Ret st
  else
    let* r := unwrap (nth_error (sc_rules sc) rule_index) in
    let* res := rule_string_matches r fuel content p excl [] (sc_kw_paths sc) (snd st) in
    let '(ms, x') := res in
    Ret (fst st ++ map (fun m => (rule_index, fst m, snd m)) ms, x').

(* writing the computed indices into the matches, scanner/mod.rs 783-793; a match
   the encoding does not visit keeps the zero index of 756-757 *)
Fixpoint attach_indices {E} (ms : list (nat * nat * nat)) (ix : list (enc_index E * enc_index E))
  : list (internal_match E) :=
  match ms with
  | [] => []
  | (i, s, e) :: ms' =>
    match ix with
    | [] => Build_internal_match i s e (enc_zero_index E) (enc_zero_index E) :: attach_indices ms' []
    | (cs, ce) :: ix' => Build_internal_match i s e cs ce :: attach_indices ms' ix'
    end
  end.

(* state of ScannerContentVisitor, scanner/mod.rs 718-727 *)
Definition scan_state (E : encoding) := (list (path * list (internal_match E)) * excluded_set)%type.

(* scanner/mod.rs 729-805 *)
Definition visit_content {E} (fuel : nat) (srt : sorter) (sc : scanner) (blocked : list nat)
  : content_visitor (scan_state E) :=
  fun p content rules excl st =>
    let* res := foldM (visit_content_rule fuel sc blocked p content excl) rules ([], snd st) in
    let '(ms, x') := res in
    let sorted := srt _ (fun a b => snd (fst a) ?= snd (fst b)) ms in
    let ix := enc_calculate E content (map (fun m => (snd (fst m), snd m)) sorted) in
    let ims := attach_indices sorted ix in
    match ims with
    | [] => Ret ((fst st, x'), false)
    | _ => Ret ((fst st ++ [(p, ims)], x'), true)
    end.

(* event.rs 8-19: the trait Event.  [visit_event] shows the operations [ev_ops];
   [ev_visited] is the event after the visit, given for each string its path,
   content and the [might_mutate] answer.  [visit_string_mut(path, f)] is
   represented by a read [ev_get] (which may panic) and a write [ev_set] with the
   [bool] returned by [f]: every implementation calls [f] exactly once. *)
Record event_impl := {
  ev_t : Type;
  ev_enc : encoding;
  ev_ops : ev_t -> list visit_op;
  ev_visited : ev_t -> list (path * str * bool) -> ev_t;
  ev_get : ev_t -> path -> outcome str;
  ev_set : ev_t -> path -> str -> bool -> ev_t
}.

(* scanner/mod.rs 340-375: the loop over the strings that have matches *)
Fixpoint process_all (I : event_impl) (h : hashers) (srt : sorter) (sc : scanner)
    (x : excluded_set) (e : ev_t I) (l : list (path * list (internal_match (ev_enc I))))
  : outcome (ev_t I * list rule_match) :=
  match l with
  | [] => Ret (e, [])
  | (p, ms) :: l' =>
    let* content := ev_get I e p in
    let* res := process_string h srt sc x p ms content in
    let '(content', mutated, out) := res in
    let* rest := process_all I h srt sc x (ev_set I e p content' mutated) l' in
    Ret (fst rest, out ++ snd rest)
  end.

(* scanner/mod.rs 316-386; metrics are left out *)
Definition scan (I : event_impl) (fuel : nat) (h : hashers) (srt : sorter) (sc : scanner)
    (blocked : list nat) (e : ev_t I) : outcome (ev_t I * list rule_match) :=
  let* res := visit_string_rule_combinations (sc_tree sc) (length (sc_rules sc)) (sc_wild sc)
                (ev_ops I e) (visit_content fuel srt sc blocked) ([], []) in
  let '((found, x), log) := res in
  process_all I h srt sc x (ev_visited I e log) found.
