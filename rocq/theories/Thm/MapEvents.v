(* Hash maps as events, and the order of strings (C42, C61) *)
From Coq Require Import Lia Permutation.
From Verif Require Import Proofs.MapEventsClaims Examples.Setting.

(* C42.  A hash map is scanned exactly as the JSON object with the same entries, in every
   case: with the same reports, the same new entries, and the same panics. *)
Theorem C42_map_object :
  forall fuel h srt sc blocked m,
  scan json_event_impl fuel h srt sc blocked (JObject m) =
  let* r := scan map_event_impl fuel h srt sc blocked m in Ret (JObject (fst r), snd r).
Proof. exact c42_map_object_lemma. Qed.
Print Assumptions C42_map_object.

Example C42_map_object_applies :
  let m := [(text "n", JNumber (text "xyz")); (text "a", JArray [JString (text "key 12")])] in
  exists outs, scan map_event_impl 100 ex_hash isort ex_scanner [] m =
    Ret ([(text "n", JNumber (text "xyz")); (text "a", JArray [JString (text "#hash [R]")])], outs) /\
  scan map_event_impl 100 ex_hash isort ex_scanner [] [(text "n", JNumber (text "12"))] = Panic.
Proof. eexists. split; vm_compute; reflexivity. Qed.

(* C42.  Every path that is shown for a hash map begins with a field, and leads to a shown
   text of the value there: the case of visit_string_mut that does nothing is never
   reached. *)
Theorem C42_map_fields :
  forall m, exists strs, strings_of (map_ops m) = Some strs /\
  forall p s, In (p, s) strs <-> exists k v q b, p = Field k :: q /\ In (k, v) m /\ json_shown v q s b.
Proof. exact c42_map_fields_lemma. Qed.
Print Assumptions C42_map_fields.

Example C42_map_fields_applies :
  strings_of (map_ops [(text "a", JArray [JString (text "x"); JBool true]); (text "b", JNull)]) =
  Some [([Field (text "a"); Index 0], text "x"); ([Field (text "a"); Index 1], text "true")].
Proof. vm_compute. reflexivity. Qed.

(* C61.  The order in which the strings of an event are shown, for instance the order of
   iteration of a hash map, changes nothing but the order of the reports; also with
   multi-pass. *)
Theorem C61_order :
  forall I w srt sc fs e1 strs1 holds1 fuel1 e2 strs2 holds2 fuel2,
  scan_setting I w srt sc fs e1 strs1 holds1 fuel1 ->
  scan_setting I w srt sc fs e2 strs2 holds2 fuel2 ->
  Permutation strs1 strs2 ->
  forall h blocked e1' outs1 e2' outs2,
  scan I fuel1 h srt sc blocked e1 = Ret (e1', outs1) ->
  scan I fuel2 h srt sc blocked e2 = Ret (e2', outs2) ->
  Permutation outs1 outs2 /\
  exists res1 res2,
    scan_results I strs1 holds1 e1' outs1 res1 /\ scan_results I strs2 holds2 e2' outs2 res2 /\
    Permutation (combine strs1 res1) (combine strs2 res2).
Proof. exact c61_order_lemma. Qed.
Print Assumptions C61_order.

(* the same entries in two orders *)
Definition one_order : simple_event := SMap [(text "a", SString (text "12")); (text "b", SString (text "a key"))].
Definition other_order : simple_event := SMap [(text "b", SString (text "a key")); (text "a", SString (text "12"))].
Example C61_order_applies :
  scan_setting simple_event_impl clen isort ex_scanner (finders ex_scanner) one_order (simple_strings one_order) (simple_holds one_order) 100 /\
  scan_setting simple_event_impl clen isort ex_scanner (finders ex_scanner) other_order (simple_strings other_order) (simple_holds other_order) 100 /\
  Permutation (simple_strings one_order) (simple_strings other_order) /\
  exists outs1 outs2, scan simple_event_impl 100 ex_hash isort ex_scanner [] one_order = Ret (SMap [(text "a", SString (text "[R]")); (text "b", SString (text "a #hash"))], outs1) /\
    scan simple_event_impl 100 ex_hash isort ex_scanner [] other_order = Ret (SMap [(text "b", SString (text "a #hash")); (text "a", SString (text "[R]"))], outs2) /\
    outs1 <> outs2.
Proof.
  assert (F : forall e, (e = one_order \/ e = other_order) -> distinct_keys e /\ enough_fuel 100 (simple_strings e)).
  { intros e [-> | ->]; (split; [constructor; [repeat constructor; simpl; intuition discriminate|intros k c [E|[E|[]]]; injection E as _ <-; constructor]|]);
      intros p c H; vm_compute in H; destruct H as [H|[H|[]]]; injection H as _ <-; vm_compute; lia. }
  split; [|split; [|split]].
  1-2: apply simple_setting; [exact isort_ok|apply F; auto|apply ex_regex_scanner|apply F; auto].
  - apply perm_swap.
  - do 2 eexists. split; [vm_compute; reflexivity|]. split; [vm_compute; reflexivity|discriminate].
Qed.

