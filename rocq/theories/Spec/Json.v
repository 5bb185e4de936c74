(* Specification of JSON events *)
From Verif Require Export Spec.Claims.

(* the text [s] is shown at [p]; the flag tells that it is the text of a JSON string *)
Inductive json_shown : json -> path -> str -> bool -> Prop :=
| js_string : forall s, json_shown (JString s) [] s true
| js_true : json_shown (JBool true) [] [116; 114; 117; 101]%N false
| js_false : json_shown (JBool false) [] [102; 97; 108; 115; 101]%N false
| js_number : forall t, json_shown (JNumber t) [] t false
| js_array : forall l i c p s b, nth_error l i = Some c -> json_shown c p s b ->
    json_shown (JArray l) (Index i :: p) s b
| js_object : forall m k c p s b, In (k, c) m -> json_shown c p s b ->
    json_shown (JObject m) (Field k :: p) s b.

(* keys of an object are distinct, as in serde_json::Map *)
Inductive json_distinct : json -> Prop :=
| jd_null : json_distinct JNull
| jd_bool : forall b, json_distinct (JBool b)
| jd_number : forall t, json_distinct (JNumber t)
| jd_string : forall s, json_distinct (JString s)
| jd_array : forall l, (forall c, In c l -> json_distinct c) -> json_distinct (JArray l)
| jd_object : forall m, NoDup (map fst m) -> (forall k c, In (k, c) m -> json_distinct c) ->
    json_distinct (JObject m).

(* everything but the texts of strings *)
Fixpoint json_shape (e : json) : json :=
  match e with
  | JString _ => JString []
  | JArray l => JArray (map json_shape l)
  | JObject m => JObject (map (fun kc => (fst kc, json_shape (snd kc))) m)
  | _ => e
  end.

(* [e] is [e0] with the texts of its strings as in [l] *)
Definition json_holds (e0 e : json) (l : list (path * str * bool)) : Prop :=
  json_shape e = json_shape e0 /\
  forall p s b, In (p, s, b) l -> json_shown e p s true.
