(* Events in the memory of Go, shared and not.  Nothing here models code of /repo. *)
From Verif Require Import Proofs.Text.
From Verif Require Export Examples.Setting Examples.Codec Spec.GoHeap.

(* {"a": M, "b": M} with M = {"k": "12"} *)
Definition shared_heap : go_heap :=
  heap_set (heap_set (fun _ => None) 1 (GcMap [(text "a", GrMap 2); (text "b", GrMap 2)]))
    2 (GcMap [(text "k", GrString (text "12"))]).
Lemma shared_unfolds : forall s H, H 1%N = Some (GcMap [(text "a", GrMap 2); (text "b", GrMap 2)]) ->
  H 2%N = Some (GcMap [(text "k", GrString s)]) ->
  unfolds H (GrMap 1) (GMap [(text "a", GMap [(text "k", GString s)]); (text "b", GMap [(text "k", GString s)])]).
Proof.
  intros s H E1 E2. assert (K : unfolds H (GrMap 2) (GMap [(text "k", GString s)])).
  { econstructor; [exact E2|]. constructor; [split; [reflexivity|constructor]|constructor]. }
  econstructor; [exact E1|]. constructor; [split; [reflexivity|exact K]|]. constructor; [split; [reflexivity|exact K]|constructor].
Qed.
(* \d\d is redacted below the field "a" only *)
Definition only_a : scanner := {|
  sc_rules := [regex_compiled (ActRedact (text "[R]")) (ScopeInclude [[Field (text "a")]] []) None (plain_rule 0 (digits 2))];
  sc_kw_paths := false; sc_wild := false; sc_multipass := false; sc_return_matches := false |}.
(* {"a": {"k": "12"}, "l": ["34"]} *)
Definition unshared_heap : go_heap :=
  heap_set (heap_set (heap_set (fun _ => None) 1 (GcMap [(text "a", GrMap 2); (text "l", GrList 3)]))
    2 (GcMap [(text "k", GrString (text "12"))])) 3 (GcList [GrString (text "34")]).
