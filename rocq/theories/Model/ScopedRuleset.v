(* Model of sds/src/scoped_ruleset/mod.rs, sds/src/scoped_ruleset/bool_set.rs
   and sds/src/scanner/scope.rs *)
From Verif Require Export Model.Path.

(* scanner/scope.rs 6-14 *)
Inductive scope :=
| ScopeInclude (include exclude : list path)
| ScopeExclude (paths : list path).

(* scoped_ruleset/mod.rs 335-338 *)
Inductive rule_change := Add (i : nat) | Remove (i : nat).
Definition change_eqb (a b : rule_change) : bool :=
  match a, b with
  | Add i, Add j => i =? j
  | Remove i, Remove j => i =? j
  | _, _ => false
  end.

(* scoped_ruleset/mod.rs 341-344; the hash map of children is an association
   list (its iteration order is never observable: children are only looked up,
   or all treated alike by [recursively_remove]) *)
Inductive rule_tree :=
| Node (changes : list rule_change) (children : list (segment * rule_tree)).
Definition tree_changes (t : rule_tree) := let 'Node c _ := t in c.
Definition tree_children (t : rule_tree) := let 'Node _ k := t in k.

(* scoped_ruleset/mod.rs 347-352 *)
Definition tree_new : rule_tree := Node [] [].

(* AHashMap::get *)
Fixpoint child_get (kids : list (segment * rule_tree)) (s : segment) : option rule_tree :=
  match kids with
  | [] => None
  | (k, t) :: kids' => if segment_eqb k s then Some t else child_get kids' s
  end.

(* [children.entry(s).or_insert_with(RuleTree::new)] followed by an in-place
   update [f] of the entry *)
Fixpoint child_update (kids : list (segment * rule_tree)) (s : segment)
    (f : rule_tree -> rule_tree) : list (segment * rule_tree) :=
  match kids with
  | [] => [(s, f tree_new)]
  | (k, t) :: kids' =>
      if segment_eqb k s then (k, f t) :: kids' else (k, t) :: child_update kids' s f
  end.

(* scoped_ruleset/mod.rs 381-386 *)
Fixpoint recursively_remove (c : rule_change) (t : rule_tree) : rule_tree :=
  match t with
  | Node chs kids =>
      Node (filter (fun x => negb (change_eqb x c)) chs)
           (map (fun sk => match sk with (s, k) => (s, recursively_remove c k) end) kids)
  end.

(* scoped_ruleset/mod.rs 362-377 *)
Fixpoint insert_rule_inner (p : path) (c : rule_change) (t : rule_tree) : rule_tree :=
  if existsb (fun x => change_eqb x c) (tree_changes t) then t
  else
    match p with
    | first :: remaining =>
        Node (tree_changes t)
             (child_update (tree_children t) first (insert_rule_inner remaining c))
    | [] =>
        let t' := recursively_remove c t in
        Node (tree_changes t' ++ [c]) (tree_children t')
    end.

(* scoped_ruleset/mod.rs 24-51: the insertions of one rule *)
Definition insert_removals (paths : list path) (i : nat) (t : rule_tree) : rule_tree :=
  fold_left (fun t p => insert_rule_inner p (Remove i) t) paths t.
Definition insert_adds (paths : list path) (i : nat) (t : rule_tree) : rule_tree :=
  fold_left (fun t p => insert_rule_inner p (Add i) t) paths t.
Definition insert_scope (i : nat) (s : scope) (t : rule_tree) : rule_tree :=
  match s with
  | ScopeInclude include exclude => insert_adds include i (insert_removals exclude i t)
  | ScopeExclude paths => insert_removals paths i (insert_adds [[]] i t)
  end.
Fixpoint insert_scopes (i : nat) (scopes : list scope) (t : rule_tree) : rule_tree :=
  match scopes with
  | [] => t
  | s :: scopes' => insert_scopes (S i) scopes' (insert_scope i s t)
  end.
Definition build_tree (scopes : list scope) : rule_tree := insert_scopes 0 scopes tree_new.

(* scoped_ruleset/mod.rs 136-141 *)
Record active_tree := { at_tree : rule_tree; at_wild : bool }.

(* scoped_ruleset/bool_set.rs: a vector of flags; indexing out of bounds panics *)
Definition bool_set := list bool.
Definition bool_set_new (n : nat) : bool_set := repeat false n.
Fixpoint set_nth (l : list bool) (i : nat) (v : bool) : list bool :=
  match l, i with
  | [], _ => []
  | _ :: l', 0 => v :: l'
  | x :: l', S i' => x :: set_nth l' i' v
  end.
Definition get_and_set (b : bool_set) (i : nat) : outcome (bool * bool_set) :=
  let* r := unwrap (nth_error b i) in Ret (r, set_nth b i true).
Definition bool_set_reset (b : bool_set) : bool_set := map (fun _ => false) b.

(* scoped_ruleset/mod.rs 155-182: the state of the event visitor.
   [vs_nodes] is the vector [tree_nodes] (oldest first); [vs_counts] is the vector
   [active_node_counter] with the last element first; [true_positive_rule_idx] and
   the sanitized segments stay empty because the code filling them is under
   [if false] (mod.rs 221-252), so they are left out. *)
Record vstate := {
  vs_nodes : list active_tree;
  vs_counts : list nat;
  vs_path : path;
  vs_bools : option bool_set
}.

(* scoped_ruleset/mod.rs 69-90 *)
Definition vstate_init (t : rule_tree) (num_rules : nat) (wild : bool) : vstate := {|
  vs_nodes := [ {| at_tree := t; at_wild := false |} ];
  vs_counts := [1];
  vs_path := [];
  vs_bools := if wild then Some (bool_set_new num_rules) else None
|}.

(* scoped_ruleset/mod.rs 197-213: what one active tree contributes *)
Definition push_one (wild : bool) (seg : segment) (a : active_tree) : list active_tree :=
  (if negb (at_wild a) || negb (is_index seg) then
     match child_get (tree_children (at_tree a)) seg with
     | Some child => [ {| at_tree := child; at_wild := false |} ]
     | None => []
     end
   else []) ++
  (if wild && is_index seg then [ {| at_tree := at_tree a; at_wild := true |} ] else []).

(* scoped_ruleset/mod.rs 188-261 *)
Definition push_segment (wild : bool) (seg : segment) (v : vstate) : outcome vstate :=
  let* n := unwrap (hd_error (vs_counts v)) in
  let len := length (vs_nodes v) in
  if n <=? len then
    let new := flat_map (push_one wild seg) (skipn (len - n) (vs_nodes v)) in
    Ret {| vs_nodes := vs_nodes v ++ new;
           vs_counts := length new :: vs_counts v;
           vs_path := vs_path v ++ [seg];
           vs_bools := vs_bools v |}
  else Panic.

(* scoped_ruleset/mod.rs 263-276; Vec::pop on an empty vector does nothing *)
Definition pop_segment (v : vstate) : outcome vstate :=
  match vs_counts v with
  | [] => Panic
  | n :: counts =>
    Ret {| vs_nodes := firstn (length (vs_nodes v) - n) (vs_nodes v);
           vs_counts := counts;
           vs_path := removelast (vs_path v);
           vs_bools := vs_bools v |}
  end.

(* scoped_ruleset/mod.rs 96-117 *)
Definition is_excluded (nodes : list active_tree) (rule_index : nat) : bool :=
  existsb (fun a => existsb (fun c => match c with
                                      | Add _ => false
                                      | Remove i => i =? rule_index
                                      end) (tree_changes (at_tree a))) nodes.

(* scoped_ruleset/mod.rs 301-332: the rule indices given to the closure, in order.
   The closure never touches the bit set, so the list can be computed first. *)
Definition visit_change (st : list nat * option bool_set) (c : rule_change)
  : outcome (list nat * option bool_set) :=
  match c with
  | Remove _ => Ret st
  | Add i =>
    match snd st with
    | None => Ret (fst st ++ [i], None)
    | Some b =>
      let* (used, b') := get_and_set b i in
      Ret (if used then fst st else fst st ++ [i], Some b')
    end
  end.
Definition visit_node (st : list nat * option bool_set) (a : active_tree)
  : outcome (list nat * option bool_set) :=
  if at_wild a then Ret st else foldM visit_change (tree_changes (at_tree a)) st.
Definition visit_rule_indices (nodes : list active_tree) (b : option bool_set)
  : outcome (list nat * option bool_set) :=
  foldM visit_node nodes ([], b).

(* event.rs 21-25: what an event shows to its visitor *)
Inductive visit_op := OpPush (s : segment) | OpPop | OpString (content : str).

(* scoped_ruleset/mod.rs 118-133: a content visitor with state [S]; it receives the
   path, the string, the rules to run and the exclusion test, and tells whether
   the string might be mutated *)
Definition content_visitor (S : Type) :=
  path -> str -> list nat -> (nat -> bool) -> S -> outcome (S * bool).

(* scoped_ruleset/mod.rs 278-298 *)
Definition visit_string {S} (cv : content_visitor S) (content : str) (v : vstate) (s : S)
  : outcome (vstate * S * bool) :=
  let* (rules, b) := visit_rule_indices (vs_nodes v) (vs_bools v) in
  let* (s', might_mutate) := cv (vs_path v) content rules (is_excluded (vs_nodes v)) s in
  Ret ({| vs_nodes := vs_nodes v; vs_counts := vs_counts v; vs_path := vs_path v;
          vs_bools := option_map bool_set_reset b |}, s', might_mutate).

(* one operation of the event; the last component collects for each visited
   string its path, content and the [might_mutate] answer (event.rs 27-32) *)
Definition run_op {S} (wild : bool) (cv : content_visitor S)
    (st : vstate * S * list (path * str * bool)) (op : visit_op)
  : outcome (vstate * S * list (path * str * bool)) :=
  let '(v, s, log) := st in
  match op with
  | OpPush seg => let* v' := push_segment wild seg v in Ret (v', s, log)
  | OpPop => let* v' := pop_segment v in Ret (v', s, log)
  | OpString c =>
    let* r := visit_string cv c v s in
    let '(v', s', mm) := r in
    Ret (v', s', log ++ [(vs_path v, c, mm)])
  end.

(* scoped_ruleset/mod.rs 64-92 *)
Definition visit_string_rule_combinations {S} (t : rule_tree) (num_rules : nat) (wild : bool)
    (ops : list visit_op) (cv : content_visitor S) (s : S)
  : outcome (S * list (path * str * bool)) :=
  let* r := foldM (run_op wild cv) ops (vstate_init t num_rules wild, s, []) in
  let '(_, s', log) := r in Ret (s', log).
