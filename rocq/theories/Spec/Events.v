(* Specification of events: replacing every string of an event, keeping its shape *)
From Verif Require Export Model.Event Spec.Scan.

(* [f p s] is what the string [s] at path [p] becomes *)
Fixpoint simple_map (f : path -> str -> str) (e : simple_event) : simple_event :=
  match e with
  | SString s => SString (f [] s)
  | SList l =>
      SList ((fix go (i : nat) (l : list simple_event) : list simple_event :=
                match l with
                | [] => []
                | c :: l' => simple_map (fun p => f (Index i :: p)) c :: go (S i) l'
                end) 0 l)
  | SMap m =>
      SMap ((fix go (m : list (str * simple_event)) : list (str * simple_event) :=
               match m with
               | [] => []
               | (k, c) :: m' => (k, simple_map (fun p => f (Field k :: p)) c) :: go m'
               end) m)
  end.

(* the keys of every map are distinct, as in a BTreeMap *)
Inductive distinct_keys : simple_event -> Prop :=
| dk_string : forall s, distinct_keys (SString s)
| dk_list : forall l, (forall c, In c l -> distinct_keys c) -> distinct_keys (SList l)
| dk_map : forall m, NoDup (map fst m) -> (forall k c, In (k, c) m -> distinct_keys c) ->
    distinct_keys (SMap m).

(* the event holds string [s] at path [p] *)
Inductive holds_at : simple_event -> path -> str -> Prop :=
| ha_string : forall s, holds_at (SString s) [] s
| ha_list : forall l i c p s, nth_error l i = Some c -> holds_at c p s ->
    holds_at (SList l) (Index i :: p) s
| ha_map : forall m k c p s, In (k, c) m -> holds_at c p s ->
    holds_at (SMap m) (Field k :: p) s.

(* the strings of an event with their paths, in visiting order ("message" first) *)
Definition pre (s : segment) (l : list (path * str)) : list (path * str) :=
  map (fun pc => (s :: fst pc, snd pc)) l.
Section StrLoops.
Variable strs : simple_event -> list (path * str).
Definition list_strs := fix go (i : nat) (l : list simple_event) : list (path * str) :=
  match l with
  | [] => []
  | c :: l' => pre (Index i) (strs c) ++ go (S i) l'
  end.
Definition first_strs := fix first (m : list (str * simple_event)) : list (path * str) :=
  match m with
  | [] => []
  | (k, c) :: m' => (if str_eqb k first_visit_key then pre (Field k) (strs c) else []) ++ first m'
  end.
Definition others_strs := fix others (m : list (str * simple_event)) : list (path * str) :=
  match m with
  | [] => []
  | (k, c) :: m' => (if str_eqb k first_visit_key then [] else pre (Field k) (strs c)) ++ others m'
  end.
End StrLoops.
Fixpoint simple_strings (e : simple_event) : list (path * str) :=
  match e with
  | SString s => [([], s)]
  | SList l => list_strs simple_strings 0 l
  | SMap m => first_strs simple_strings m ++ others_strs simple_strings m
  end.

(* the event [e] is [e0] with its strings replaced as in [l] *)
Definition simple_holds (e0 : simple_event) (e : simple_event) (l : list (path * str * bool)) : Prop :=
  exists f, e = simple_map f e0 /\
    map fst l = map (fun pc => (fst pc, f (fst pc) (snd pc))) (simple_strings e0).
