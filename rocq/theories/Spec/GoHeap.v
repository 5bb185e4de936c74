(* What the memory of Go holds at a value, and when nothing is shared. *)
From Verif Require Export Model.GoHeap.

(* the event as a tree; shared objects occur in it several times *)
Inductive unfolds (H : go_heap) : go_ref -> go_value -> Prop :=
| un_string : forall b, unfolds H (GrString b) (GString b)
| un_map : forall a m m', H a = Some (GcMap m) -> Forall2 (fun x y => fst x = fst y /\ unfolds H (snd x) (snd y)) m m' ->
    unfolds H (GrMap a) (GMap m')
| un_list : forall a l l', H a = Some (GcList l) -> Forall2 (unfolds H) l l' -> unfolds H (GrList a) (GList l')
| un_other : unfolds H GrOther GOther.

(* the same, and the objects at [A] are all that is reached, each of them once *)
Inductive owns (H : go_heap) : go_ref -> go_value -> list N -> Prop :=
| ow_string : forall b, owns H (GrString b) (GString b) []
| ow_map : forall a m m' A, H a = Some (GcMap m) -> own_entries H m m' A -> ~ In a A -> owns H (GrMap a) (GMap m') (a :: A)
| ow_list : forall a l l' A, H a = Some (GcList l) -> own_items H l l' A -> ~ In a A -> owns H (GrList a) (GList l') (a :: A)
| ow_other : owns H GrOther GOther []
with own_entries (H : go_heap) : list (octets * go_ref) -> list (octets * go_value) -> list N -> Prop :=
| oe_nil : own_entries H [] [] []
| oe_cons : forall k v t A m m' B, owns H v t A -> own_entries H m m' B -> (forall a, In a A -> ~ In a B) ->
    own_entries H ((k, v) :: m) ((k, t) :: m') (A ++ B)
with own_items (H : go_heap) : list go_ref -> list go_value -> list N -> Prop :=
| oi_nil : own_items H [] [] []
| oi_cons : forall v t A l l' B, owns H v t A -> own_items H l l' B -> (forall a, In a A -> ~ In a B) ->
    own_items H (v :: l) (t :: l') (A ++ B).
