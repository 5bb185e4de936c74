(* Handles of the native library (C71, C72, C73) *)
From Coq Require Import Lia.
From Verif Require Import Proofs.NativeClaims Examples.Engine Examples.Setting.

(* Whatever careful calls have been made, in whatever order, with whatever addresses reused
   and whatever panics: another careful call is defined, and returns and leaves what it does
   for a client that knows nothing about reference counts.  It does not return only if no
   memory is left or if building or scanning itself does not end. *)
Theorem C71_safe :
  forall w tr m cl c, sane_world w -> reaches w tr m cl -> careful cl c ->
  (step w m c = Never /\ never_returns w cl c) \/
  exists r m' cl', step w m c = Done r m' /\ ideal (nw_build w) (nw_scan w) (nw_message w) cl c r cl' /\ reaches w ((c, r) :: tr) m' cl'.
Proof. exact c71_safe_lemma. Qed.
Print Assumptions C71_safe.

(* two rules in two lists, freed rules, addresses used again, a panic that poisons a list, a
   scan that has ended and one that has not *)
Example C71_safe_applies : exists m cl, sane_world small_world /\ reaches small_world history m cl /\ careful cl (CFinish 0) /\
  exists m', step small_world m (CFinish 0) = Done (RScanned 2 2 7 None) m'.
Proof.
  destruct history_reached as (m & cl & R & U & H & E). exists m, cl. split; [exact small_sane|]. split; [exact R|].
  assert (C : careful cl (CFinish 0)) by (apply (ca_finish _ _ (6%N, [7; 8]%N)); apply U). split; [exact C|exact E].
Qed.

(* the handle of any address of 64 bits is an integer of 64 bits with a sign, and leads back to
   the address; it is negative, as error codes are, just for the upper half *)
Theorem C71_handles :
  forall a, (a < 18446744073709551616)%N ->
  pointer (handle_of a) = a /\ (-9223372036854775808 <= handle_of a < 9223372036854775808)%Z /\
  ((handle_of a < 0)%Z <-> (9223372036854775808 <= a)%N).
Proof. exact c71_handles_lemma. Qed.
Print Assumptions C71_handles.

Example C71_handles_applies : (18446744073709551614 < 18446744073709551616)%N /\ handle_of 18446744073709551614 = (-2)%Z.
Proof. split; reflexivity. Qed.

(* This holds for the library: its responses are never empty, and it remains to trust the
   allocator. *)
Theorem C71_library :
  forall alloc capacity message en fuel hs srt,
  (forall hp a, alloc hp = Some a -> address a /\ load hp a = None) -> (forall b, (N.of_nat (length b) <= capacity b)%N) ->
  sane_world (library alloc capacity message en fuel hs srt).
Proof. exact c71_library_lemma. Qed.
Print Assumptions C71_library.

Example C71_library_applies : (forall hp a, lowest_free hp = Some a -> address a /\ load hp a = None) /\
  lowest_free [(1%N, new_cell (ObC [])); (3%N, new_cell (ObC []))] = Some 2%N.
Proof. split; [exact lowest_free_sane|reflexivity]. Qed.

(* A scanner does not change until it is deleted, whatever happens to the rules and lists it
   was made from; so what it answers, by the theorem before, does not either. *)
Theorem C71_scanner_is_independent :
  forall w tr m cl later m' cl' a t, reaches w tr m cl -> cl_handle cl a = Some (HScanner t) ->
  reaches w (later ++ tr) m' cl' -> (forall r, ~ In (CDelete (as_int a), r) later) -> cl_handle cl' a = Some (HScanner t).
Proof. exact c71_scanner_is_independent_lemma. Qed.
Print Assumptions C71_scanner_is_independent.

(* the scanner at 6 was made from a list and rules that have all been freed since *)
Example C71_scanner_is_independent_applies : exists m cl m' cl', reaches small_world (skipn 12 history) m cl /\
  cl_handle cl 6 = Some (HScanner empty_built) /\ cl_handle cl 5 = Some (HRule bad_keywords) /\
  reaches small_world (firstn 12 history ++ skipn 12 history) m' cl' /\ cl_handle cl' 5 = None /\
  (forall r, ~ In (CDelete (as_int 6), r) (firstn 12 history)).
Proof.
  destruct history_reached as (m' & cl' & R & _ & H & _). destruct middle_reached as (m & cl & R0 & H6 & H5).
  exists m, cl, m', cl'. rewrite firstn_skipn. repeat (split; [assumption || apply H|]).
  intros r I. vm_compute in I. repeat (destruct I as [I|I]; [discriminate I|]). exact I.
Qed.

(* When a careful client holds nothing, nothing is left in memory: no rule, no message, no
   event, and no scan is in progress. *)
Theorem C72_all_freed :
  forall w tr m cl, sane_world w -> reaches w tr m cl -> (forall a, cl_handle cl a = None) ->
  m = {| ma_heap := []; ma_scans := [] |}.
Proof. exact c72_all_freed_lemma. Qed.
Print Assumptions C72_all_freed.

Example C72_all_freed_applies : exists m cl, reaches small_world shared_history m cl /\ (forall a, cl_handle cl a = None).
Proof. exact shared_reached. Qed.

(* CreateScanner of the Go binding, called at any time: no undefined behaviour, and when it
   returns nothing more is held than before but the scanner, if one is returned. *)
Theorem C72_create :
  forall w conf l tr m cl, sane_world w -> reaches w tr m cl ->
  (go_create w conf m l = Never /\ (out_of_memory w \/ exists configs, all_some (map conf l) = Some configs /\ nw_build w configs false = Diverge)) \/
  exists r m' tr' cl', go_create w conf m l = Done r m' /\ reaches w (tr' ++ tr) m' cl' /\
    created w cl (all_some (map conf l)) r cl'.
Proof. exact c72_create_lemma. Qed.
Print Assumptions C72_create.

(* one rule; no rule, for which this world panics; a rule that is refused *)
Example C72_create_applies :
  on_done (go_create small_world (go_create_rule false) start [ex_native_rule]) = Some (GoScanner 3, [3%N]) /\
  on_done (go_create small_world (go_create_rule false) start []) = Some (GoErrPanic (Some (chars "oops")), []) /\
  on_done (go_create small_world (go_create_rule false) start [ex_native_rule; ex_bad_rule]) = Some (GoErrRule, []).
Proof. vm_compute. auto. Qed.

(* The result is the one computed without memory. *)
Theorem C72_same_result :
  forall alloc capacity message en fuel hs srt utf16 l tr m cl r m',
  let w := library alloc capacity message en fuel hs srt in
  sane_world w -> reaches w tr m cl -> go_create w (go_create_rule utf16) m l = Done r m' ->
  exists a s, fresh cl a /\ c_string message s /\ go_create_scanner en utf16 (as_int a) s l = Ret r.
Proof. exact c72_same_result_lemma. Qed.
Print Assumptions C72_same_result.

(* the library, given rules of its own kind *)
Example C72_same_result_applies :
  on_done (go_create (library lowest_free (fun b => N.of_nat (length b)) [] literal_engines 9 ex_hash isort) (go_create_rule false) start [ex_native_rule; ex_native_rule])
    = Some (GoScanner 4, [4%N]).
Proof. vm_compute. reflexivity. Qed.

(* lowLevelScan of the Go binding: no undefined behaviour, everything held is as before, and
   the result is the one computed without memory.  This includes the panic of Go when the
   response is too long. *)
Theorem C72_scan :
  forall w tr m cl u a t encoded, sane_world w -> reaches w tr m cl -> address a -> cl_handle cl a = Some (HScanner t) ->
  cl_scan cl u = None ->
  (go_low_level_scan w m u (as_int a) encoded = Never /\ (out_of_memory w \/ nw_scan w t encoded = Diverge)) \/
  exists r m' tr' cl', go_low_level_scan w m u (as_int a) encoded = Done r m' /\ reaches w (tr' ++ tr) m' cl' /\ equivalent cl' cl /\
    low_level_scan (nw_scan w t) encoded = r.
Proof. exact c72_scan_lemma. Qed.
Print Assumptions C72_scan.

(* found, nothing and a panic, each leaving the scanner only *)
Example C72_scan_applies :
  map (fun b => on_done (after (go_create small_world (go_create_rule false) start [ex_native_rule]) (fun r m =>
                         match r with GoScanner z => go_low_level_scan small_world m 0 z b | _ => Undefined end)))
      [[7; 8]; []; [33]]%N =
  [Some (Ret (Ok [7; 8]%N), [3%N]); Some (Ret (Ok []), [3%N]); Some (Ret (Err tt), [3%N])].
Proof. vm_compute. reflexivity. Qed.

(* Scan and ScanEventsMap of the Go binding, called while a scanner is held: no undefined
   behaviour, everything held is as before, and the result is the one computed without
   memory. *)
Theorem C72_scan_events :
  forall w tr m cl u a t, sane_world w -> reaches w tr m cl -> address a -> cl_handle cl a = Some (HScanner t) ->
  cl_scan cl u = None ->
  (forall event, (go_scan_map w m u (as_int a) event = Never /\ exists encoded, go_encode (GMap event) = Ok encoded /\ (out_of_memory w \/ nw_scan w t encoded = Diverge)) \/
   exists m' tr' cl', go_scan_map w m u (as_int a) event = Done (go_scan_events_map (nw_scan w t) event) m' /\
     reaches w (tr' ++ tr) m' cl' /\ equivalent cl' cl) /\
  (forall event, (go_scan_string w m u (as_int a) event = Never /\ (out_of_memory w \/ nw_scan w t (go_encode_string event) = Diverge)) \/
   exists m' tr' cl', go_scan_string w m u (as_int a) event = Done (go_scan (nw_scan w t) event) m' /\
     reaches w (tr' ++ tr) m' cl' /\ equivalent cl' cl).
Proof. exact c72_scan_events_lemma. Qed.
Print Assumptions C72_scan_events.

(* the library: a map and a string, scanned while another scanner is held *)
Definition ex_scanned_rule : go_rule := {|
  gr_id := chars "r"; gr_pattern := chars "ab"; gr_action := {| ga_type := chars "Redact"; ga_redaction := chars "[x]"; ga_count := 1; ga_direction := [] |};
  gr_keywords := None; gr_validator := []
|}.
Example C72_scan_events_applies :
  let w := library lowest_free (fun b => N.of_nat (length b)) [] literal_engines 99 ex_hash isort in
  on_done (after (go_create w (go_create_rule false) start [ex_native_rule]) (fun _ m =>
           after (go_create w (go_create_rule false) m [ex_scanned_rule; ex_native_rule]) (fun r m =>
             match r with
             | GoScanner z => after (go_scan_map w m 7 z [(chars "k", GString (chars "xab")); (chars "l", GString (chars "c"))]) (fun v m =>
                              after (go_scan_string w m 7 z (chars "ab")) (fun s m =>
                              Done (match v with Ret (_, x) => Some x | _ => None end, match s with Ret (Ok o) => Some (so_event o) | _ => None end) m))
             | _ => Undefined
             end))) =
  Some (Some (GMap [(chars "k", GString (chars "x[x]")); (chars "l", GString (chars "c"))]), Some (chars "[x]"), [5%N; 3%N]).
Proof. vm_compute. reflexivity. Qed.

(* A scanner that has been deleted is not safe to use: deleting it again and scanning with it
   are undefined behaviour, not errors.  This is so after every deletion. *)
Theorem C73_deleted_refuted :
  forall w tr m cl a t, sane_world w -> reaches w tr m cl -> address a -> cl_handle cl a = Some (HScanner t) ->
  (forall u d, cl_scan cl u <> Some (a, d)) ->
  exists m', go_delete w m (as_int a) = Done 0%Z m' /\ go_delete w m' 0%Z = Undefined /\
    forall u encoded, go_low_level_scan w m' u 0%Z encoded = Undefined \/ go_low_level_scan w m' u 0%Z encoded = Never.
Proof. exact c73_deleted_refuted_lemma. Qed.
Print Assumptions C73_deleted_refuted.

Example C73_deleted_refuted_applies : exists m cl, reaches small_world (skipn 1 shared_history) m cl /\ cl_handle cl 5 = Some (HScanner empty_built) /\
  forall u d, cl_scan cl u <> Some (5%N, d).
Proof. exact deleted_reached. Qed.

(* Deleting a scanner while another thread scans with it is undefined behaviour. *)
Theorem C73_busy_refuted :
  forall w tr m cl u a d, sane_world w -> reaches w tr m cl -> cl_scan cl u = Some (a, d) -> address a ->
  go_delete w m (as_int a) = Undefined.
Proof. exact c73_busy_refuted_lemma. Qed.
Print Assumptions C73_busy_refuted.

Example C73_busy_refuted_applies : exists m cl, reaches small_world history m cl /\ cl_scan cl 0 = Some (6%N, [7; 8]%N).
Proof. destruct history_reached as (m & cl & R & U & _). exists m, cl. split; [exact R|apply U]. Qed.

(* A handle freed twice is not noticed when its address is used again: the second call frees
   the rule of somebody else, whose next call is undefined. *)
Theorem C73_stale_refuted :
  exists w calls, sane_world w /\
  calls = [CRule (Some zero_redact); CFreeRule 2; CRule (Some bad_keywords); CFreeRule 2; CList; CAppend 2 1] /\
  run w start calls = ([RInt 2; RUnit; RInt 2; RUnit; RInt 1], Undefined) /\
  fst (run w start [CRule (Some zero_redact); CFreeRule 2; CRule (Some bad_keywords); CList; CAppend 2 3]) = [RInt 2; RUnit; RInt 2; RInt 3; RUnit].
Proof. exact c73_stale_refuted_lemma. Qed.
Print Assumptions C73_stale_refuted.

Example C73_stale_refuted_applies : snd (run small_world start [CFreeRule 2]) = Undefined.
Proof. vm_compute. reflexivity. Qed.

