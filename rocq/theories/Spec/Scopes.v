(* Specification of rule scopes: which rules run on a string at a path, and for
   which rules the path is excluded. *)
From Verif Require Export Model.ScopedRuleset.

(* a scope path covers everything at or below it *)
Definition prefix_of (sp p : path) : Prop := exists rest, p = sp ++ rest.

(* Implicit index wildcards: [skips b p sp] holds when [sp] is [p] with some index
   segments deleted, where a kept index never follows a deleted one directly
   ([b] tells that the segment before was deleted). *)
Inductive skips : bool -> path -> path -> Prop :=
| skips_nil : forall b, skips b [] []
| skips_field : forall b f p sp, skips false p sp -> skips b (Field f :: p) (Field f :: sp)
| skips_index : forall i p sp, skips false p sp -> skips false (Index i :: p) (Index i :: sp)
| skips_delete : forall b i p sp, skips true p sp -> skips b (Index i :: p) sp.

Definition covers (wild : bool) (sp p : path) : Prop :=
  if wild then exists p1 rest, p = p1 ++ rest /\ skips false p1 sp else prefix_of sp p.

(* the rule is run on strings at path [p] *)
Definition included (wild : bool) (s : scope) (p : path) : Prop :=
  match s with
  | ScopeInclude include _ => exists sp, In sp include /\ covers wild sp p
  | ScopeExclude _ => True
  end.

(* the path is excluded for the rule *)
Definition excluded (wild : bool) (s : scope) (p : path) : Prop :=
  match s with
  | ScopeInclude _ exclude => exists sp, In sp exclude /\ covers wild sp p
  | ScopeExclude paths => exists sp, In sp paths /\ covers wild sp p
  end.

(* the strings an event shows, each with the path made of the segments pushed and
   not yet popped; [None] if there is a pop without a push *)
Fixpoint strings_at (stack : path) (ops : list visit_op) : option (list (path * str)) :=
  match ops with
  | [] => Some []
  | OpPush s :: ops' => strings_at (stack ++ [s]) ops'
  | OpPop :: ops' =>
      match stack with
      | [] => None
      | _ => strings_at (removelast stack) ops'
      end
  | OpString c :: ops' =>
      match strings_at stack ops' with
      | Some l => Some ((stack, c) :: l)
      | None => None
      end
  end.
Definition strings_of (ops : list visit_op) : option (list (path * str)) := strings_at [] ops.

(* a content visitor that only writes down what it is given *)
Definition recorder : content_visitor (list (path * str * list nat * (nat -> bool))) :=
  fun p c rules excl st => Ret (st ++ [(p, c, rules, excl)], false).

(* operations that end where they began: every push has its pop *)
Inductive balanced : list visit_op -> Prop :=
| bal_nil : balanced []
| bal_string : forall c ops, balanced ops -> balanced (OpString c :: ops)
| bal_under : forall s inner ops, balanced inner -> balanced ops ->
    balanced (OpPush s :: inner ++ OpPop :: ops).
