(* event_json.rs 64-84: HashMap<String, serde_json::Value> as an event.  The map is the list
   of its entries in the order of iteration, which is arbitrary but does not change while
   the map is not resized.  [visit_string_mut] of a path that begins with an index does
   not call the closure (79); such paths are not shown (C42_map_fields), and here they
   are a panic like the other paths that are not shown. *)
From Verif Require Export Model.Event.

(* event_json.rs 67-73 *)
Fixpoint map_ops (m : list (str * json)) : list visit_op :=
  match m with
  | [] => []
  | (k, v) :: m' => under (Field k) (json_ops v) ++ map_ops m'
  end.

(* event_json.rs 75-83 *)
Definition map_string (m : list (str * json)) (p : path) : outcome str :=
  match p with
  | [] => Panic
  | Field k :: remaining => let* v := unwrap (map_get m k) in json_get v remaining
  | Index _ :: _ => Panic
  end.
Definition map_set_string (m : list (str * json)) (p : path) (s : str) : list (str * json) :=
  match p with
  | Field k :: remaining =>
      match map_get m k with
      | Some v => map_set m k (json_set v remaining s)
      | None => m
      end
  | _ => m
  end.

(* event_json.rs 64-84 *)
Definition map_event_impl : event_impl := {|
  ev_t := list (str * json);
  ev_enc := utf8_encoding;
  ev_ops := map_ops;
  ev_visited := fun m _ => m;
  ev_get := map_string;
  ev_set := fun m p s _ => map_set_string m p s
|}.
