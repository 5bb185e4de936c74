(* JSON values with every number and boolean written as a string *)
From Verif Require Export Spec.Json Model.Ascii.

Fixpoint as_strings (e : json) : json :=
  match e with
  | JNull => JNull
  | JBool true => JString (chars "true")
  | JBool false => JString (chars "false")
  | JNumber t => JString t
  | JString s => JString s
  | JArray l => JArray (map as_strings l)
  | JObject m => JObject (map (fun kc => (fst kc, as_strings (snd kc))) m)
  end.

(* the numbers and booleans, as they stand in the value *)
Fixpoint scalars_kept (e e' : json) : Prop :=
  match e, e' with
  | JString _, JString _ => True
  | JArray l, JArray l' =>
      (fix go l l' := match l, l' with
                      | [], [] => True
                      | c :: l, c' :: l' => scalars_kept c c' /\ go l l'
                      | _, _ => False
                      end) l l'
  | JObject m, JObject m' =>
      (fix go m m' := match m, m' with
                      | [], [] => True
                      | (k, c) :: m, (k', c') :: m' => k = k' /\ scalars_kept c c' /\ go m m'
                      | _, _ => False
                      end) m m'
  | JString _, _ | JArray _, _ | JObject _, _ => False
  | _, _ => e = e'
  end.
