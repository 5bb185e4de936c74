(* Go events in which maps and slices are shared (C90) *)
From Coq Require Import Lia.
From Verif Require Import Proofs.GoHeapClaims Proofs.GoHeap Examples.Setting Examples.Codec Examples.GoHeap.

(* The same map at two places of an event: the library redacts the string at one of them, as
   its rule does not include the other path, and Go changes both.  The response names only the
   string at the first place. *)
Theorem C90_shared_refuted :
  exists sc H a t o t' H' t'' p secret redacted,
  unfolds H (GrMap a) (GMap t) /\
  go_scan_events_map (native_scan 100 ex_hash isort sc) t = Ret (Ok o, t') /\
  heap_scan_events_map 9 (native_scan 100 ex_hash isort sc) H a = Ret (Ok o, H') /\ unfolds H' (GrMap a) t'' /\
  go_holds (GMap t) [GKey p; GKey (text "k")] secret /\ go_holds t' [GKey p; GKey (text "k")] secret /\
  go_holds t'' [GKey p; GKey (text "k")] redacted /\ secret <> redacted /\
  map gm_path (so_matches o) = [text "a.k"] /\ p = text "b".
Proof. exact c90_shared_refuted_lemma. Qed.
Print Assumptions C90_shared_refuted.

(* A map that contains itself is encoded without end, whatever the size of the stack. *)
Theorem C90_cycle_refuted :
  forall H a k, H a = Some (GcMap [(k, GrMap a)]) ->
  forall stack scan, heap_scan_events_map stack scan H a = Diverge.
Proof. exact c90_cycle_refuted_lemma. Qed.
Print Assumptions C90_cycle_refuted.

Example C90_cycle_refuted_applies : exists H : go_heap, H 1%N = Some (GcMap [(text "self", GrMap 1)]).
Proof. exists (heap_set (fun _ => None) 1 (GcMap [(text "self", GrMap 1)])). reflexivity. Qed.

(* If nothing is shared, scanning in memory does what it does to the tree (so C38 to C41 hold
   for it), given enough stack, and the rest of the memory stays as it is. *)
Theorem C90_unshared :
  forall scan H a t A, owns H (GrMap a) (GMap t) A ->
  exists depth, forall stack, depth <= stack ->
  match go_scan_events_map scan t with
  | Ret (x, t') => exists H' B, heap_scan_events_map stack scan H a = Ret (x, H') /\ owns H' (GrMap a) t' B /\
      (forall b, In b B -> In b A) /\ (forall b, ~ In b A -> H' b = H b)
  | Panic => heap_scan_events_map stack scan H a = Panic
  | Diverge => heap_scan_events_map stack scan H a = Diverge
  end.
Proof. exact c90_unshared_lemma. Qed.
Print Assumptions C90_unshared.

Example C90_unshared_applies : owns unshared_heap (GrMap 1) (GMap [(text "a", GMap [(text "k", GString (text "12"))]); (text "l", GList [GString (text "34")])]) [1; 2; 3]%N /\
  exists o H', heap_scan_events_map 9 (native_scan 100 ex_hash isort ex_scanner) unshared_heap 1 = Ret (Ok o, H') /\
    map H' [1; 2; 3]%N = [unshared_heap 1%N; Some (GcMap [(text "k", GrString (text "[R]"))]); Some (GcList [GrString (text "[R]")])] /\
    length (so_matches o) = 2.
Proof.
  split.
  - apply (ow_map _ 1%N [(text "a", GrMap 2); (text "l", GrList 3)] _ [2; 3]%N); [reflexivity| |intros [Q|[Q|[]]]; discriminate Q].
    apply (oe_cons _ (text "a") (GrMap 2) _ [2%N] _ _ [3%N]); [| |intros b [<-|[]] [Q|[]]; discriminate Q].
    + apply (ow_map _ 2%N [(text "k", GrString (text "12"))] _ []); [reflexivity| |intros []]. apply (oe_cons _ _ _ _ [] _ _ []); [constructor|constructor|intros b []].
    + apply (oe_cons _ (text "l") (GrList 3) _ [3%N] _ _ []); [| constructor|intros b _ []].
      apply (ow_list _ 3%N [GrString (text "34")] _ []); [reflexivity| |intros []]. apply (oi_cons _ _ _ [] _ _ []); [constructor|constructor|intros b []].
  - eexists. eexists. split; [vm_compute; reflexivity|]. split; reflexivity.
Qed.

(* With or without sharing, the event is sent exactly if it is finite as a tree, and what is
   sent is the encoding of the tree. *)
Theorem C90_encoding :
  forall H v b, (exists stack, heap_encode stack H v = Ret (Ok b)) <-> exists t, unfolds H v t /\ go_encode t = Ok b.
Proof. exact c90_encoding_lemma. Qed.
Print Assumptions C90_encoding.

Example C90_encoding_applies : exists b t, unfolds shared_heap (GrMap 1) t /\ go_encode t = Ok b /\ heap_encode 3 shared_heap (GrMap 1) = Ret (Ok b) /\
  heap_encode 2 shared_heap (GrMap 1) = Diverge.
Proof. do 2 eexists. split; [exact (shared_unfolds (text "12") shared_heap eq_refl eq_refl)|]. split; [reflexivity|]. split; vm_compute; reflexivity. Qed.

