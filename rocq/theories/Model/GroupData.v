(* Model of the data that rules share, sds/src/scanner/mod.rs 58-257 (CompiledRuleDyn for
   CompiledRule), 668-671 (ScannerBuilder::build) and 718-805 (ScannerContentVisitor): group
   data, group configs and the caches of a scan.  Model/Scanner.v is the same code without them;
   C91 relates the two.
   Simplifications: a value of any Rust type is an element of one type [V], and its TypeId is a
   number stored beside it, which the downcasts check; the labels are those of the scanner and
   part of [dr_new_data]. *)
From Verif Require Export Model.Scanner.

(* Box<dyn Any> *)
Record any (V : Type) := { any_type : N; any_value : V }.
Arguments any_type {V}. Arguments any_value {V}.
(* downcast_ref / downcast_mut of std::any *)
Definition downcast {V} (t : N) (a : any V) : option V :=
  if (any_type a =? t)%N then Some (any_value a) else None.

(* AHashMap<TypeId, Box<dyn Any>>; the newest entry of a key is the one that counts *)
Definition type_map (V : Type) := list (N * any V).
Fixpoint tm_get {V} (m : type_map V) (t : N) : option (any V) :=
  match m with
  | [] => None
  | (t', a) :: m' => if (t' =? t)%N then Some a else tm_get m' t
  end.
Definition tm_insert {V} (m : type_map V) (t : N) (a : any V) : type_map V := (t, a) :: m.
(* map.entry(TypeId::of::<T>()).or_insert_with(|| Box::new(new)) *)
Definition tm_entry {V} (m : type_map V) (t : N) (new : V) : type_map V * any V :=
  match tm_get m t with
  | Some a => (m, a)
  | None => let a := {| any_type := t; any_value := new |} in (tm_insert m t a, a)
  end.

(* scanner/mod.rs 187-257: the trait CompiledRule.  [dr_data], [dr_config] and [dr_cache] are
   the TypeIds of GroupData, GroupConfig and RuleScanCache. *)
Record data_rule (V : Type) := {
  dr_action : match_action;
  dr_scope : scope;
  dr_validation : option match_validation_type;
  dr_multipass : bool;
  dr_data : N;
  dr_config : N;
  dr_cache : N;
  dr_new_data : V;
  dr_new_config : V;
  dr_new_cache : V;
  dr_process : V -> V;  (* process_scanner_config *)
  (* the arguments of [rule_string_matches] in Model/Scanner.v, then the group data, the group
     config and the cache; the new group data and cache are returned *)
  dr_string_matches :
    nat -> str -> path -> (nat -> bool) -> list nat -> bool -> excluded_set -> V -> V -> V ->
    outcome (list (nat * nat) * excluded_set * V * V)
}.
Arguments dr_action {V}. Arguments dr_scope {V}. Arguments dr_validation {V}. Arguments dr_multipass {V}.
Arguments dr_data {V}. Arguments dr_config {V}. Arguments dr_cache {V}.
Arguments dr_new_data {V}. Arguments dr_new_config {V}. Arguments dr_new_cache {V}.
Arguments dr_process {V}. Arguments dr_string_matches {V}.

(* scanner/mod.rs 122-162 *)
Definition dyn_string_matches {V} (r : data_rule V) (fuel : nat) (content : str) (p : path) (excl : nat -> bool)
    (tp_idx : list nat) (kw_paths : bool) (x : excluded_set)
    (data configs caches : type_map V)
  : outcome (list (nat * nat) * excluded_set * type_map V * type_map V) :=
  let '(data, data_any) := tm_entry data (dr_data r) (dr_new_data r) in
  let* group_data := unwrap (downcast (dr_data r) data_any) in
  let* config_any := unwrap (tm_get configs (dr_config r)) in
  let* group_config := unwrap (downcast (dr_config r) config_any) in
  let '(caches, cache_any) := tm_entry caches (dr_cache r) (dr_new_cache r) in
  let* cache := unwrap (downcast (dr_cache r) cache_any) in
  let* res := dr_string_matches r fuel content p excl tp_idx kw_paths x group_data group_config cache in
  let '(ms, x', group_data', cache') := res in
  Ret (ms, x',
       tm_insert data (dr_data r) {| any_type := dr_data r; any_value := group_data' |},
       tm_insert caches (dr_cache r) {| any_type := dr_cache r; any_value := cache' |}).

(* scanner/mod.rs 173-184 *)
Definition dyn_process_scanner_config {V} (configs : type_map V) (r : data_rule V) : outcome (type_map V) :=
  let '(configs, config_any) := tm_entry configs (dr_config r) (dr_new_config r) in
  let* group_config := unwrap (downcast (dr_config r) config_any) in
  Ret (tm_insert configs (dr_config r) {| any_type := dr_config r; any_value := dr_process r group_config |}).

(* scanner/mod.rs 294-304 *)
Record data_scanner (V : Type) := {
  ds_rules : list (data_rule V);
  ds_kw_paths : bool;
  ds_wild : bool;
  ds_multipass : bool;
  ds_return_matches : bool;
  ds_configs : type_map V
}.
Arguments ds_rules {V}. Arguments ds_kw_paths {V}. Arguments ds_wild {V}. Arguments ds_multipass {V}.
Arguments ds_return_matches {V}. Arguments ds_configs {V}.

(* scanner/mod.rs 668-671 and 690-703; the rest of the builder is Model/Builder.v *)
Definition build_data_scanner {V} (rules : list (data_rule V)) (kw_paths wild multipass return_matches : bool)
  : outcome (data_scanner V) :=
  let* configs := foldM dyn_process_scanner_config rules [] in
  Ret {| ds_rules := rules; ds_kw_paths := kw_paths; ds_wild := wild; ds_multipass := multipass;
         ds_return_matches := return_matches; ds_configs := configs |}.

(* What the second half of a scan uses of the rules; it does not look for matches. *)
Definition dr_plain {V} (r : data_rule V) : rule := {|
  rule_action := dr_action r; rule_scope := dr_scope r; rule_validation := dr_validation r;
  rule_multipass := dr_multipass r; rule_string_matches := fun _ _ _ _ _ _ _ => Panic |}.
Definition ds_plain {V} (s : data_scanner V) : scanner := {|
  sc_rules := map dr_plain (ds_rules s); sc_kw_paths := ds_kw_paths s; sc_wild := ds_wild s;
  sc_multipass := ds_multipass s; sc_return_matches := ds_return_matches s |}.

(* scanner/mod.rs 744-778 *)
Definition visit_data_rule {V} (fuel : nat) (s : data_scanner V) (blocked : list nat) (p : path)
    (content : str) (excl : nat -> bool)
    (st : list (nat * nat * nat) * excluded_set * type_map V * type_map V) (rule_index : nat)
  : outcome (list (nat * nat * nat) * excluded_set * type_map V * type_map V) :=
  let '(found, x, data, caches) := st in
  if existsb (Nat.eqb rule_index) blocked then Ret st
  else
    let* r := unwrap (nth_error (ds_rules s) rule_index) in
    let* res := dyn_string_matches r fuel content p excl [] (ds_kw_paths s) x data (ds_configs s) caches in
    let '(ms, x', data', caches') := res in
    Ret (found ++ map (fun m => (rule_index, fst m, snd m)) ms, x', data', caches').

(* scanner/mod.rs 729-805 *)
Definition visit_data_content {V E} (fuel : nat) (srt : sorter) (s : data_scanner V) (blocked : list nat)
  : content_visitor (scan_state E * type_map V) :=
  fun p content rules excl st =>
    let '((list_so_far, x), caches) := st in
    let* res := foldM (visit_data_rule fuel s blocked p content excl) rules ([], x, [], caches) in
    let '(ms, x', _, caches') := res in
    let sorted := srt _ (fun a b => snd (fst a) ?= snd (fst b)) ms in
    let ix := enc_calculate E content (map (fun m => (snd (fst m), snd m)) sorted) in
    let ims := attach_indices sorted ix in
    match ims with
    | [] => Ret ((list_so_far, x', caches'), false)
    | _ => Ret ((list_so_far ++ [(p, ims)], x', caches'), true)
    end.

(* scanner/mod.rs 316-386 *)
Definition data_scan {V} (I : event_impl) (fuel : nat) (h : hashers) (srt : sorter) (s : data_scanner V)
    (blocked : list nat) (e : ev_t I) : outcome (ev_t I * list rule_match) :=
  let* res := visit_string_rule_combinations (build_tree (map dr_scope (ds_rules s))) (length (ds_rules s)) (ds_wild s)
                (ev_ops I e) (visit_data_content fuel srt s blocked) (([], []), []) in
  let '((found, x, _), log) := res in
  process_all I h srt (ds_plain s) x (ev_visited I e log) found.

(* scanner/regex_rule/compiled.rs 32-121: GroupData, GroupConfig and RuleScanCache are (), the
   TypeId of which is [unit_type]; [u] is the value () *)
Definition unit_type : N := 0.
Definition regex_data_rule {V} (u : V) (a : match_action) (s : scope) (v : option match_validation_type)
    (r : regex_rule) : data_rule V := {|
  dr_action := a; dr_scope := s; dr_validation := v; dr_multipass := true;
  dr_data := unit_type; dr_config := unit_type; dr_cache := unit_type;
  dr_new_data := u; dr_new_config := u; dr_new_cache := u;
  dr_process := fun c => c;
  dr_string_matches := fun fuel content p excl tp_idx kw_paths x d _ c =>
    let* res := regex_string_matches fuel r content p (excl (rr_index r)) tp_idx kw_paths x in
    Ret (res, d, c) |}.
