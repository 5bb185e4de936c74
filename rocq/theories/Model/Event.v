(* Model of the Event implementations: sds/src/event.rs 34-44 (String),
   sds/src/simple_event.rs, sds/src/event_json.rs *)
From Verif Require Export Model.Scanner.

(* event.rs 34-44 *)
Definition string_event : event_impl := {|
  ev_t := str;
  ev_enc := utf8_encoding;
  ev_ops := fun s => [OpString s];
  ev_visited := fun s _ => s;
  ev_get := fun s _ => Ret s;
  ev_set := fun _ _ s' _ => s'
|}.

(* simple_event.rs 10-14; a BTreeMap is an association list in key order *)
Inductive simple_event :=
| SString (s : str)
| SList (l : list simple_event)
| SMap (m : list (str * simple_event)).

(* simple_event.rs 5: "message" *)
Definition first_visit_key : str := [109; 101; 115; 115; 97; 103; 101]%N.

(* operations of a child under a segment: push, visit, pop *)
Definition under (s : segment) (ops : list visit_op) : list visit_op :=
  OpPush s :: ops ++ [OpPop].

(* simple_event.rs 19-50 *)
Fixpoint simple_ops (e : simple_event) : list visit_op :=
  match e with
  | SString s => [OpString s]
  | SList l =>
      (fix go (i : nat) (l : list simple_event) : list visit_op :=
         match l with
         | [] => []
         | c :: l' => under (Index i) (simple_ops c) ++ go (S i) l'
         end) 0 l
  | SMap m =>
      (fix first (m : list (str * simple_event)) : list visit_op :=
         match m with
         | [] => []
         | (k, c) :: m' =>
             (if str_eqb k first_visit_key then under (Field k) (simple_ops c) else []) ++ first m'
         end) m ++
      (fix others (m : list (str * simple_event)) : list visit_op :=
         match m with
         | [] => []
         | (k, c) :: m' =>
             (if str_eqb k first_visit_key then [] else under (Field k) (simple_ops c)) ++ others m'
         end) m
  end.

Fixpoint map_get {A} (m : list (str * A)) (k : str) : option A :=
  match m with
  | [] => None
  | (k', v) :: m' => if str_eqb k' k then Some v else map_get m' k
  end.
Fixpoint map_set {A} (m : list (str * A)) (k : str) (v : A) : list (str * A) :=
  match m with
  | [] => []
  | (k', v') :: m' => if str_eqb k' k then (k', v) :: m' else (k', v') :: map_set m' k v
  end.
Fixpoint list_set {A} (l : list A) (i : nat) (v : A) : list A :=
  match l, i with
  | [], _ => []
  | _ :: l', 0 => v :: l'
  | x :: l', S i' => x :: list_set l' i' v
  end.

(* simple_event.rs 52-66: reading the string at a path *)
Fixpoint simple_get (e : simple_event) (p : path) : outcome str :=
  match p with
  | [] => match e with SString s => Ret s | _ => Panic end
  | Field k :: p' =>
      match e with
      | SMap m => match map_get m k with Some c => simple_get c p' | None => Panic end
      | _ => Panic
      end
  | Index i :: p' =>
      match e with
      | SList l => match nth_error l i with Some c => simple_get c p' | None => Panic end
      | _ => Panic
      end
  end.

(* simple_event.rs 52-66: the same walk, writing the string *)
Fixpoint simple_set (e : simple_event) (p : path) (s : str) : simple_event :=
  match p with
  | [] => match e with SString _ => SString s | _ => e end
  | Field k :: p' =>
      match e with
      | SMap m => match map_get m k with
                  | Some c => SMap (map_set m k (simple_set c p' s))
                  | None => e
                  end
      | _ => e
      end
  | Index i :: p' =>
      match e with
      | SList l => match nth_error l i with
                   | Some c => SList (list_set l i (simple_set c p' s))
                   | None => e
                   end
      | _ => e
      end
  end.

Definition simple_event_impl : event_impl := {|
  ev_t := simple_event;
  ev_enc := utf8_encoding;
  ev_ops := simple_ops;
  ev_visited := fun e _ => e;
  ev_get := simple_get;
  ev_set := fun e p s _ => simple_set e p s
|}.

(* event_json.rs 7-62: serde_json::Value.  A number is represented by its printed
   text. *)
Inductive json :=
| JNull
| JBool (b : bool)
| JNumber (text : str)
| JString (s : str)
| JArray (l : list json)
| JObject (m : list (str * json)).

Definition bool_text (b : bool) : str :=
  if b then [116; 114; 117; 101]%N else [102; 97; 108; 115; 101]%N.

(* event_json.rs 10-37 *)
Fixpoint json_ops (e : json) : list visit_op :=
  match e with
  | JNull => []
  | JBool b => [OpString (bool_text b)]
  | JNumber t => [OpString t]
  | JString s => [OpString s]
  | JObject m =>
      (fix go (m : list (str * json)) : list visit_op :=
         match m with
         | [] => []
         | (k, c) :: m' => under (Field k) (json_ops c) ++ go m'
         end) m
  | JArray l =>
      (fix go (i : nat) (l : list json) : list visit_op :=
         match l with
         | [] => []
         | c :: l' => under (Index i) (json_ops c) ++ go (S i) l'
         end) 0 l
  end.

(* event_json.rs 39-61 *)
Fixpoint json_get (e : json) (p : path) : outcome str :=
  match p with
  | [] => match e with JString s => Ret s | _ => Panic end
  | Field k :: p' =>
      match e with
      | JObject m => match map_get m k with Some c => json_get c p' | None => Panic end
      | _ => Panic
      end
  | Index i :: p' =>
      match e with
      | JArray l => match nth_error l i with Some c => json_get c p' | None => Panic end
      | _ => Panic
      end
  end.
Fixpoint json_set (e : json) (p : path) (s : str) : json :=
  match p with
  | [] => match e with JString _ => JString s | _ => e end
  | Field k :: p' =>
      match e with
      | JObject m => match map_get m k with
                     | Some c => JObject (map_set m k (json_set c p' s))
                     | None => e
                     end
      | _ => e
      end
  | Index i :: p' =>
      match e with
      | JArray l => match nth_error l i with
                    | Some c => JArray (list_set l i (json_set c p' s))
                    | None => e
                    end
      | _ => e
      end
  end.
Definition json_event_impl : event_impl := {|
  ev_t := json;
  ev_enc := utf8_encoding;
  ev_ops := json_ops;
  ev_visited := fun e _ => e;
  ev_get := json_get;
  ev_set := fun e p s _ => json_set e p s
|}.
