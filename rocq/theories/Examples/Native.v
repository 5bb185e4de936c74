(* A small world for examples: the allocator returns the lowest free address. *)
From Coq Require Import Lia.
From Verif Require Export Spec.Native Examples.Build.

Definition lowest_free (h : heap) : option N :=
  find (fun a => match load h a with None => (0 <? a)%N && (a <? 9223372036854775808)%N | Some _ => false end)
    (map N.of_nat (seq 1 (S (length h)))).
Definition empty_built : built := {|
  bt_scanner := {| sc_rules := []; sc_kw_paths := false; sc_wild := false; sc_multipass := true; sc_return_matches := false |};
  bt_validators := []; bt_labels := []; bt_rule_labels := [] |}.
(* building panics for an empty list; scanning answers with the event, and panics for "!" *)
Definition small_world : native_world := {|
  nw_alloc := lowest_free;
  nw_build := fun l _ => match l with [] => Panic | _ => Ret (Ok empty_built) end;
  nw_scan := fun _ d => match d with [] => Ret None | [33%N] => Panic | _ => Ret (Some d) end;
  nw_capacity := fun b => (N.of_nat (length b) + 5)%N;
  nw_message := chars "oops"
|}.
Lemma lowest_free_sane : forall h a, lowest_free h = Some a -> address a /\ load h a = None.
Proof.
  intros h a H. apply find_some in H. destruct H as [_ H]. destruct (load h a); [discriminate|].
  apply andb_true_iff in H. destruct H as [A B]. apply N.ltb_lt in A, B. split; [split; assumption|reflexivity].
Qed.
Lemma small_sane : sane_world small_world.
Proof.
  split.
  - exact lowest_free_sane.
  - intros b. cbn. lia.
  - intros t d b H. cbn in H. destruct d as [|x d]; [discriminate|].
    destruct x as [|p]; [injection H as <-; discriminate|].
    intros ->. destruct d; repeat (destruct p as [p|p|]; try discriminate H).
Qed.
Definition start : machine := {| ma_heap := []; ma_scans := [] |}.
Fixpoint run (w : native_world) (m : machine) (l : list call) : list reply * stepped unit :=
  match l with
  | [] => ([], Done tt m)
  | c :: l' =>
    match step w m c with
    | Done r m => let (rs, s) := run w m l' in (r :: rs, s)
    | Undefined => ([], Undefined)
    | Never => ([], Never)
    end
  end.

(* a history with two rules in two lists, freed rules whose addresses are used again, a panic
   that poisons a list, and two scans at the same time; the last call comes first *)
Definition history : list (call * reply) := rev
  [(CRule (Some zero_redact), RInt (as_int 2)); (CRule None, RInt (-5)%Z); (CList, RInt (as_int 3)); (CList, RInt (as_int 4));
   (CAppend (as_int 2) (as_int 3), RUnit); (CAppend (as_int 2) (as_int 4), RUnit); (CFreeRule (as_int 2), RUnit);
   (CRule (Some bad_keywords), RInt (as_int 5)); (CAppend (as_int 5) (as_int 3), RUnit);
   (CScanner (as_int 3) true, RCreated (as_int 6) None); (CFreeList (as_int 3), RUnit);
   (CList, RInt (as_int 3)); (CScanner (as_int 3) false, RCreated (-5)%Z (Some 7%N)); (CFreeString 7, RUnit);
   (CAppend (as_int 5) (as_int 3), RUnit); (CFreeRule (as_int 5), RUnit); (CFreeList (as_int 4), RUnit);
   (CBytes [7; 8; 9]%N, RInt (as_int 1)); (CStart 0 (as_int 6) 1 2, RUnit); (CStart 1 (as_int 6) 1 3, RUnit); (CFree 1, RUnit);
   (CFinish 1, RScanned 1 3 8 None)].

Lemma reached_nil : forall w, reaches w [] start nothing.
Proof. intros w. split; constructor. Qed.
Lemma extend : forall w tr m cl c r m' cl', reaches w tr m cl -> step w m c = Done r m' ->
  ideal (nw_build w) (nw_scan w) (nw_message w) cl c r cl' -> reaches w ((c, r) :: tr) m' cl'.
Proof. intros w tr m cl c r m' cl' [A B] S I. split; econstructor; eassumption. Qed.
Ltac here := first [reflexivity | split; reflexivity | split; [split; reflexivity|reflexivity] | discriminate
  | (cbn; lia) | (left; split; [cbn; intros H; repeat destruct H as [H|H]; discriminate || contradiction|reflexivity])
  | (let u := fresh in intros u ?; cbn; repeat destruct u as [|u]; discriminate)].
Ltac traced := lazymatch goal with
  | |- reaches _ [] _ _ => apply reached_nil
  | _ => eapply extend; [traced | vm_compute; reflexivity | once (econstructor; here)]
  end.
Lemma history_reached : exists m cl, reaches small_world history m cl /\
  (forall u, cl_scan cl u = if u =? 0 then Some (6%N, [7; 8]%N) else None) /\
  (forall a, cl_handle cl a = if (a =? 6)%N then Some (HScanner empty_built) else if (a =? 3)%N then Some (HList [] true)
             else if (a =? 1)%N then Some (HVec [7; 8; 9]%N 8) else None) /\
  exists m', step small_world m (CFinish 0) = Done (RScanned 2 2 7 None) m'.
Proof.
  eexists. eexists. split; [|split; [|split]].
  - unfold history. cbn [rev app]. eapply extend; [traced|vm_compute; reflexivity|].
    apply (il_found _ _ _ _ 1 6%N [7; 8; 9]%N empty_built [7; 8; 9]%N 1%N 8%N); here.
  - intros u. cbn. destruct u as [|[|u]]; reflexivity.
  - intros a. cbn. destruct (N.eqb_spec a 1) as [->|]; [reflexivity|]. destruct (N.eqb_spec a 7) as [->|]; [reflexivity|].
    destruct (N.eqb_spec a 3) as [->|]; [reflexivity|]. destruct (N.eqb_spec a 6) as [->|]; [reflexivity|].
    destruct (N.eqb a 4), (N.eqb a 5), (N.eqb a 2); reflexivity.
  - eexists. vm_compute. reflexivity.
Qed.
Lemma middle_reached : exists m cl, reaches small_world (skipn 12 history) m cl /\
  cl_handle cl 6 = Some (HScanner empty_built) /\ cl_handle cl 5 = Some (HRule bad_keywords).
Proof.
  eexists. eexists. split; [|split].
  - unfold history. cbn [rev app skipn]. traced.
  - reflexivity.
  - reflexivity.
Qed.
(* one rule in two lists and a scanner, freed in some order *)
Definition shared_history : list (call * reply) := rev
  [(CRule (Some zero_redact), RInt (as_int 2)); (CList, RInt (as_int 3)); (CList, RInt (as_int 4));
   (CAppend (as_int 2) (as_int 3), RUnit); (CAppend (as_int 2) (as_int 4), RUnit); (CAppend (as_int 2) (as_int 4), RUnit);
   (CScanner (as_int 4) false, RCreated (as_int 5) None); (CFreeList (as_int 4), RUnit); (CFreeRule (as_int 2), RUnit);
   (CFreeList (as_int 3), RUnit); (CDelete (as_int 5), RUnit)].
Lemma shared_reached : exists m cl, reaches small_world shared_history m cl /\ (forall a, cl_handle cl a = None).
Proof.
  eexists. eexists. split.
  - unfold shared_history. cbn [rev app]. traced.
  - intros a. cbn. destruct (N.eqb a 5), (N.eqb a 3), (N.eqb a 2), (N.eqb a 4); reflexivity.
Qed.
Lemma deleted_reached : exists m cl, reaches small_world (skipn 1 shared_history) m cl /\
  cl_handle cl 5 = Some (HScanner empty_built) /\ forall u d, cl_scan cl u <> Some (5%N, d).
Proof.
  eexists. eexists. split; [|split].
  - unfold shared_history. cbn [rev app skipn]. traced.
  - reflexivity.
  - discriminate.
Qed.

(* the result and the addresses in use *)
Definition on_done {A} (s : stepped A) : option (A * list N) :=
  match s with Done r m => Some (r, map fst (ma_heap m)) | _ => None end.
Definition ex_rule_of (ty : str) : go_rule := {|
  gr_id := chars "r"; gr_pattern := chars "ab"; gr_action := {| ga_type := ty; ga_redaction := chars "[x]"; ga_count := 1; ga_direction := chars "LastCharacters" |};
  gr_keywords := None; gr_validator := chars "LuhnChecksum"
|}.
Definition ex_native_rule : go_rule := ex_rule_of (chars "Hash").
Definition ex_bad_rule : go_rule := ex_rule_of (chars "hash").
