(* Go events in which maps and slices are shared (C90): proofs of the statements of Thm/GoHeap.v *)
From Coq Require Import Lia.
From Verif Require Import Proofs.Text Proofs.Codec Proofs.GoHeap.
From Verif Require Import Examples.Setting Examples.Codec Examples.GoHeap.
From Verif Require Export Spec.Codec Spec.GoHeap.



Lemma c90_shared_refuted_lemma :
  exists sc H a t o t' H' t'' p secret redacted,
  unfolds H (GrMap a) (GMap t) /\
  go_scan_events_map (native_scan 100 ex_hash isort sc) t = Ret (Ok o, t') /\
  heap_scan_events_map 9 (native_scan 100 ex_hash isort sc) H a = Ret (Ok o, H') /\ unfolds H' (GrMap a) t'' /\
  go_holds (GMap t) [GKey p; GKey (text "k")] secret /\ go_holds t' [GKey p; GKey (text "k")] secret /\
  go_holds t'' [GKey p; GKey (text "k")] redacted /\ secret <> redacted /\
  map gm_path (so_matches o) = [text "a.k"] /\ p = text "b".
Proof.
  exists only_a, shared_heap, 1%N, [(text "a", GMap [(text "k", GString (text "12"))]); (text "b", GMap [(text "k", GString (text "12"))])].
  eexists. eexists. exists (heap_set shared_heap 2 (GcMap [(text "k", GrString (text "[R]"))])).
  exists (GMap [(text "a", GMap [(text "k", GString (text "[R]"))]); (text "b", GMap [(text "k", GString (text "[R]"))])]).
  exists (text "b"), (text "12"), (text "[R]").
  split; [exact (shared_unfolds (text "12") shared_heap eq_refl eq_refl)|].
  split; [vm_compute; reflexivity|]. split; [vm_compute; reflexivity|].
  split; [exact (shared_unfolds (text "[R]") _ eq_refl eq_refl)|].
  split; [|split; [|split; [|split; [discriminate|split; reflexivity]]]].
  - econstructor; [right; left; reflexivity|]. econstructor; [left; reflexivity|]. constructor.
  - econstructor; [right; left; reflexivity|]. econstructor; [left; reflexivity|]. constructor.
  - econstructor; [right; left; reflexivity|]. econstructor; [left; reflexivity|]. constructor.
Qed.

Lemma c90_cycle_refuted_lemma :
  forall H a k, H a = Some (GcMap [(k, GrMap a)]) ->
  forall stack scan, heap_scan_events_map stack scan H a = Diverge.
Proof.
  intros H a k E stack scan. unfold heap_scan_events_map.
  assert (K : heap_encode stack H (GrMap a) = Diverge).
  { induction stack as [|stack IH]; [reflexivity|]. rewrite heap_encode_map, E. cbn [ref_entries]. rewrite IH. reflexivity. }
  rewrite K. reflexivity.
Qed.

Lemma c90_unshared_lemma :
  forall scan H a t A, owns H (GrMap a) (GMap t) A ->
  exists depth, forall stack, depth <= stack ->
  match go_scan_events_map scan t with
  | Ret (x, t') => exists H' B, heap_scan_events_map stack scan H a = Ret (x, H') /\ owns H' (GrMap a) t' B /\
      (forall b, In b B -> In b A) /\ (forall b, ~ In b A -> H' b = H b)
  | Panic => heap_scan_events_map stack scan H a = Panic
  | Diverge => heap_scan_events_map stack scan H a = Diverge
  end.
Proof.
  intros scan H a t A O. destruct (encoded (GMap t) H (GrMap a) (proj1 (owned_unfolds H) _ _ _ O)) as (d & D).
  exists d. intros stack L. unfold go_scan_events_map, heap_scan_events_map. rewrite (D stack L). cbn [bind].
  destruct (go_encode (GMap t)) as [data|e].
  - destruct (low_level_scan scan data) as [[response|e]| |]; cbn [bind]; try reflexivity.
    + pose proof (heap_decoded (length response) response (GMap t) (GrMap a) H A no_outcome O) as K. unfold agrees in K.
      destruct (decode_event_map_response (length response) response (GMap t) no_outcome) as [[x t']| |]; exact K.
    + exists H, A. repeat split; auto.
  - exists H, A. repeat split; auto.
Qed.

Lemma c90_encoding_lemma :
  forall H v b, (exists stack, heap_encode stack H v = Ret (Ok b)) <-> exists t, unfolds H v t /\ go_encode t = Ok b.
Proof.
  intros H v b. split.
  - intros (stack & E). exact (encoded_only stack H v b E).
  - intros (t & U & E). destruct (encoded t H v U) as (d & D). exists d. rewrite (D d (le_n _)), E. reflexivity.
Qed.

