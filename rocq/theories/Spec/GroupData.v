(* What a rule finds in the data it shares with other rules, told by the calls before. *)
From Verif Require Export Model.GroupData.

(* a call of a rule: the rule, the group data and the cache it left behind *)
Record call (V : Type) := { ca_rule : data_rule V; ca_data : V; ca_cache : V }.
Arguments ca_rule {V}. Arguments ca_data {V}. Arguments ca_cache {V}. Arguments Build_call {V}.

(* the last of the calls that has the property; the calls are in the order they were made *)
Definition last_call {V} (P : call V -> bool) (calls : list (call V)) : option (call V) :=
  match filter P (rev calls) with c :: _ => Some c | [] => None end.
(* the group data [r] is given after the calls in the same string *)
Definition data_after {V} (calls : list (call V)) (r : data_rule V) : V :=
  match last_call (fun c => (dr_data (ca_rule c) =? dr_data r)%N) calls with
  | Some c => ca_data c
  | None => dr_new_data r
  end.
(* the cache [r] is given after the calls in the same event *)
Definition cache_after {V} (calls : list (call V)) (r : data_rule V) : V :=
  match last_call (fun c => (dr_cache (ca_rule c) =? dr_cache r)%N) calls with
  | Some c => ca_cache c
  | None => dr_new_cache r
  end.
(* the config [r] is given in a scanner of the rules: the first rule of the group creates it,
   every rule of the group adds to it *)
Definition config_in {V} (rules : list (data_rule V)) (r : data_rule V) : V :=
  let group := filter (fun r' => (dr_config r' =? dr_config r)%N) rules in
  fold_left (fun v r' => dr_process r' v) group (dr_new_config (hd r group)).

(* a scan in which rules are given exactly that; [in_string] and [in_event] are the calls so far *)
Definition told_rule {V} (fuel : nat) (rules : list (data_rule V)) (kw_paths : bool) (blocked : list nat) (p : path)
    (content : str) (excl : nat -> bool)
    (st : list (nat * nat * nat) * excluded_set * list (call V) * list (call V)) (i : nat)
  : outcome (list (nat * nat * nat) * excluded_set * list (call V) * list (call V)) :=
  let '(found, x, in_string, in_event) := st in
  if existsb (Nat.eqb i) blocked then Ret st
  else
    match nth_error rules i with
    | None => Panic
    | Some r =>
      let* res := dr_string_matches r fuel content p excl [] kw_paths x
                    (data_after in_string r) (config_in rules r) (cache_after in_event r) in
      let '(ms, x', d, c) := res in
      Ret (found ++ map (fun m => (i, fst m, snd m)) ms, x',
           in_string ++ [Build_call r d c], in_event ++ [Build_call r d c])
    end.
Definition told_content {V E} (fuel : nat) (srt : sorter) (rules : list (data_rule V)) (kw_paths : bool) (blocked : list nat)
  : content_visitor (scan_state E * list (call V)) :=
  fun p content idx excl st =>
    let '((so_far, x), in_event) := st in
    let* res := foldM (told_rule fuel rules kw_paths blocked p content excl) idx ([], x, [], in_event) in
    let '(ms, x', _, in_event') := res in
    let sorted := srt _ (fun a b => snd (fst a) ?= snd (fst b)) ms in
    let ims := attach_indices sorted (enc_calculate E content (map (fun m => (snd (fst m), snd m)) sorted)) in
    Ret (match ims with [] => so_far | _ => so_far ++ [(p, ims)] end, x', in_event',
         negb (length ims =? 0)).
Definition told_scan {V} (I : event_impl) (fuel : nat) (h : hashers) (srt : sorter) (rules : list (data_rule V))
    (kw_paths wild multipass return_matches : bool) (blocked : list nat) (e : ev_t I) : outcome (ev_t I * list rule_match) :=
  let* res := visit_string_rule_combinations (build_tree (map dr_scope rules)) (length rules) wild
                (ev_ops I e) (told_content fuel srt rules kw_paths blocked) (([], []), []) in
  let '((found, x, _), log) := res in
  process_all I h srt {| sc_rules := map dr_plain rules; sc_kw_paths := kw_paths; sc_wild := wild;
      sc_multipass := multipass; sc_return_matches := return_matches |} x (ev_visited I e log) found.

(* a rule that finds the same whatever data it is given *)
Definition ignores_data {V} (d : data_rule V) (r : rule) : Prop :=
  dr_action d = rule_action r /\ dr_scope d = rule_scope r /\ dr_validation d = rule_validation r /\
  dr_multipass d = rule_multipass r /\
  forall fuel content p excl tp kw x gd gc ca, exists gd' ca',
    dr_string_matches d fuel content p excl tp kw x gd gc ca =
    (let* res := rule_string_matches r fuel content p excl tp kw x in Ret (fst res, snd res, gd', ca')).

(* a sort that looks at the order only by comparing *)
Definition extensional_sort (srt : sorter) : Prop :=
  forall A (f g : A -> A -> comparison) l, (forall a b, f a b = g a b) -> srt A f l = srt A g l.
