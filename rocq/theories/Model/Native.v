(* The native library of the Go binding as Go sees it: handles (addresses of objects with
   reference counts) and the calls that make and free them.
   Files: sds-go/rust/src/native/*.rs, sds-go/go/{dd_sds.h,rule.go,scanner.go}.
   The use of memory that is not allocated, or not as the object that was put there, is
   undefined behaviour in Rust and C; it is made visible as [Undefined].
   When no memory is left the process is aborted: the call never returns.
   Simplifications: every call is one atomic step, except that a scan is in progress between
   its start and its end; all panics carry the same message; the text of JSON configurations
   is not modelled, nor the C string that holds it. *)
From Verif Require Export Model.Builder Model.GoBinding.

(* What Rust or C keeps at an address.  native/mod.rs 15-17: RulePtr is Arc<dyn RuleConfig>,
   RuleDoublePtr is Arc<RulePtr>, RuleList is Arc<Mutex<Vec<RulePtr>>>. *)
Inductive object :=
| ObRule (c : rule_config)
| ObDouble (inner : N)
| ObList (items : list N) (poisoned : bool)
| ObScanner (t : built)
| ObVec (b : octets) (cap : N)
| ObString (s : str)
| ObC (b : octets).
(* the strong count of an Arc, 1 for the others; nothing makes weak references *)
Record cell := { ce_count : nat; ce_object : object }.
Definition heap := list (N * cell).

Fixpoint load (h : heap) (a : N) : option cell :=
  match h with
  | [] => None
  | (b, c) :: h' => if N.eqb b a then Some c else load h' a
  end.
Fixpoint release (h : heap) (a : N) : heap :=
  match h with
  | [] => []
  | (b, c) :: h' => if N.eqb b a then h' else (b, c) :: release h' a
  end.
Definition store (h : heap) (a : N) (c : cell) : heap := (a, c) :: release h a.

(* The allocator, the code behind the calls, the capacity of the buffer of a response and the
   message of panics. *)
Record native_world := {
  nw_alloc : heap -> option N;
  nw_build : list rule_config -> bool -> outcome (result built create_error);
  nw_scan : built -> octets -> outcome (option octets);
  nw_capacity : octets -> N;
  nw_message : str
}.
(* The library itself: create_scanner.rs 20-22 sets one option, the others keep their
   defaults; scan.rs 23-30. *)
Definition library (alloc : heap -> option N) (capacity : octets -> N) (message : str) (en : engines)
    (fuel : nat) (hs : hashers) (srt : sorter) : native_world := {|
  nw_alloc := alloc;
  nw_build := fun rules kw =>
    build en {| bu_rules := rules; bu_labels := []; bu_kw_paths := kw; bu_wild := false; bu_multipass := true |};
  nw_scan := fun t data => native_scan fuel hs srt (bt_scanner t) data;
  nw_capacity := capacity;
  nw_message := message
|}.

(* a handle of type i64 as an address ([as usize as *const _]) and back *)
Definition pointer (z : Z) : N := Z.to_N (z mod 18446744073709551616).
Definition handle_of (a : N) : Z :=
  let z := Z.of_N a in if (z <? 9223372036854775808)%Z then z else (z - 18446744073709551616)%Z.

(* Arc<dyn RuleConfig>: clone and drop *)
Definition clone_rule (h : heap) (a : N) : option heap :=
  let? c := load h a in
  match ce_object c with
  | ObRule _ => Some (store h a {| ce_count := S (ce_count c); ce_object := ce_object c |})
  | _ => None
  end.
Definition drop_rule (h : heap) (a : N) : option heap :=
  let? c := load h a in
  match ce_object c, ce_count c with
  | ObRule _, 1 => Some (release h a)
  | ObRule _, S n => Some (store h a {| ce_count := n; ce_object := ce_object c |})
  | _, _ => None
  end.
(* Vec<RulePtr>: the elements are dropped in order *)
Fixpoint drop_rules (h : heap) (l : list N) : option heap :=
  match l with
  | [] => Some h
  | a :: l' => let? h := drop_rule h a in drop_rules h l'
  end.
Definition rule_at (h : heap) (a : N) : option rule_config :=
  match load h a with
  | Some c => match ce_object c with ObRule x => Some x | _ => None end
  | None => None
  end.
Definition rules_at (h : heap) (l : list N) : option (list rule_config) := all_some (map (rule_at h) l).

Definition new_cell (o : object) : cell := {| ce_count := 1; ce_object := o |}.

(* CString::new of the message: a message with a null byte is replaced (native/mod.rs 29-36) *)
Definition c_message (m : str) : str :=
  if existsb (N.eqb 0) m then chars "Rust panicked. No more information is available." else m.

(* what a call returns: nothing, a number, a number and an error string, or the pointer,
   size and capacity of a response and an error string *)
Inductive reply :=
| RUnit
| RInt (z : Z)
| RCreated (z : Z) (error : option N)
| RScanned (data : N) (size cap : Z) (error : option N).

(* the objects, and the scans in progress: thread, scanner and copied event *)
Record machine := { ma_heap : heap; ma_scans : list (nat * (N * octets)) }.
Inductive stepped (A : Type) :=
| Done (r : A) (m : machine)
| Undefined
| Never.
Arguments Done {A} r m.
Arguments Undefined {A}.
Arguments Never {A}.
Definition after {A B} (s : stepped A) (f : A -> machine -> stepped B) : stepped B :=
  match s with Done r m => f r m | Undefined => Undefined | Never => Never end.

Inductive call :=
| CRule (json : option rule_config)
| CFreeRule (rule : Z)
| CList
| CAppend (rule rules : Z)
| CFreeList (rules : Z)
| CScanner (rules : Z) (kw_paths : bool)
| CDelete (scanner : Z)
| CBytes (b : octets)
| CFree (a : N)
| CStart (thread : nat) (scanner : Z) (event : N) (size : nat)
| CFinish (thread : nat)
| CFreeVec (a : N) (len cap : Z)
| CFreeString (a : N).

Definition allocate {A} (w : native_world) (h : heap) (o : object) (f : N -> heap -> stepped A) : stepped A :=
  match nw_alloc w h with
  | Some a => f a (store h a (new_cell o))
  | None => Never
  end.
Definition with_heap (m : machine) (h : heap) : machine := {| ma_heap := h; ma_scans := ma_scans m |}.
Definition defined (m : machine) (r : reply) (o : option heap) : stepped reply :=
  match o with Some h => Done r (with_heap m h) | None => Undefined end.

(* rule.rs 10-25: JSON that is not a configuration (None) panics in unwrap, and the panic
   becomes the number -5, see native/mod.rs 52-60 *)
Definition create_regex_rule (w : native_world) (m : machine) (json : option rule_config) : stepped reply :=
  match json with
  | None => Done (RInt err_panic) m
  | Some c =>
    allocate w (ma_heap m) (ObRule c) (fun i h =>
    allocate w h (ObDouble i) (fun d h =>
    Done (RInt (handle_of d)) (with_heap m h)))
  end.
(* rule.rs 27-35 *)
Definition free_any_rule (m : machine) (z : Z) : stepped reply :=
  defined m RUnit (
    let? c := load (ma_heap m) (pointer z) in
    match ce_object c, ce_count c with
    | ObDouble i, 1 => drop_rule (release (ma_heap m) (pointer z)) i
    | ObDouble i, S n => Some (store (ma_heap m) (pointer z) {| ce_count := n; ce_object := ObDouble i |})
    | _, _ => None
    end).
(* rule.rs 37-46 *)
Definition create_rule_list (w : native_world) (m : machine) : stepped reply :=
  allocate w (ma_heap m) (ObList [] false) (fun l h => Done (RInt (handle_of l)) (with_heap m h)).
(* rule.rs 48-58: a poisoned lock panics; the clone is dropped again and the panic ignored *)
Definition append_rule_to_list (m : machine) (rule rules : Z) : stepped reply :=
  defined m RUnit (
    let? l := load (ma_heap m) (pointer rules) in
    let? d := load (ma_heap m) (pointer rule) in
    match ce_object l, ce_object d with
    | ObList items poisoned, ObDouble i =>
      let? h := clone_rule (ma_heap m) i in
      if poisoned then drop_rule h i
      else Some (store h (pointer rules) {| ce_count := ce_count l; ce_object := ObList (items ++ [i]) false |})
    | _, _ => None
    end).
(* rule.rs 60-67 *)
Definition free_rule_list (m : machine) (z : Z) : stepped reply :=
  defined m RUnit (
    let? c := load (ma_heap m) (pointer z) in
    match ce_object c, ce_count c with
    | ObList items _, 1 => drop_rules (release (ma_heap m) (pointer z)) items
    | ObList items p, S n => Some (store (ma_heap m) (pointer z) {| ce_count := n; ce_object := ObList items p |})
    | _, _ => None
    end).
(* native/mod.rs 29-60 with create_scanner.rs 10-15: the message of a panic is stored for the
   caller *)
Definition create_panicked (w : native_world) (m : machine) (h : heap) : stepped reply :=
  allocate w h (ObString (c_message (nw_message w))) (fun e h =>
  Done (RCreated err_panic (Some e)) (with_heap m h)).
(* create_scanner.rs 10-35: the list stays; a panic while the lock is held poisons it *)
Definition create_scanner (w : native_world) (m : machine) (z : Z) (kw_paths : bool) : stepped reply :=
  match load (ma_heap m) (pointer z) with
  | Some l =>
    match ce_object l with
    | ObList items true => create_panicked w m (ma_heap m)
    | ObList items false =>
      match rules_at (ma_heap m) items with
      | None => Undefined
      | Some configs =>
        match nw_build w configs kw_paths with
        | Ret (Ok t) =>
          allocate w (ma_heap m) (ObScanner t) (fun a h =>
          Done (RCreated (handle_of a) None) (with_heap m h))
        | Ret (Err e) => Done (RCreated (error_code e) None) m
        | Panic => create_panicked w m (store (ma_heap m) (pointer z)
                     {| ce_count := ce_count l; ce_object := ObList items true |})
        | Diverge => Never
        end
      end
    | _ => Undefined
    end
  | None => Undefined
  end.
(* delete_scanner.rs 5-11; a scan in progress goes on with freed memory *)
Definition delete_scanner (m : machine) (z : Z) : stepped reply :=
  if existsb (fun x => N.eqb (fst (snd x)) (pointer z)) (ma_scans m) then Undefined
  else defined m RUnit (
    let? c := load (ma_heap m) (pointer z) in
    match ce_object c, ce_count c with
    | ObScanner t, 1 => Some (release (ma_heap m) (pointer z))
    | ObScanner t, S n => Some (store (ma_heap m) (pointer z) {| ce_count := n; ce_object := ObScanner t |})
    | _, _ => None
    end).
(* C.CBytes and C.free *)
Definition c_bytes (w : native_world) (m : machine) (b : octets) : stepped reply :=
  allocate w (ma_heap m) (ObC b) (fun a h => Done (RInt (handle_of a)) (with_heap m h)).
Definition c_free (m : machine) (a : N) : stepped reply :=
  defined m RUnit (
    let? c := load (ma_heap m) a in
    match ce_object c with ObC _ => Some (release (ma_heap m) a) | _ => None end).
(* scan.rs 10-26: the event is copied; the Arc of the scanner is only borrowed *)
Definition start_scan (m : machine) (thread : nat) (z : Z) (event : N) (size : nat) : stepped reply :=
  match load (ma_heap m) (pointer z), load (ma_heap m) event with
  | Some s, Some e =>
    match ce_object s, ce_object e with
    | ObScanner _, ObC b =>
      if size <=? length b then
        Done RUnit {| ma_heap := ma_heap m; ma_scans := (thread, (pointer z, firstn size b)) :: ma_scans m |}
      else Undefined
    | _, _ => Undefined
    end
  | _, _ => Undefined
  end.
(* scan.rs 28-68 *)
Fixpoint scan_of (l : list (nat * (N * octets))) (thread : nat) : option (N * octets) :=
  match l with
  | [] => None
  | (t, x) :: l' => if t =? thread then Some x else scan_of l' thread
  end.
Definition end_scan (l : list (nat * (N * octets))) (thread : nat) : list (nat * (N * octets)) :=
  filter (fun x => negb (fst x =? thread)) l.
Definition finish_scan (w : native_world) (m : machine) (thread : nat) : stepped reply :=
  match scan_of (ma_scans m) thread with
  | Some (a, data) =>
    match load (ma_heap m) a with
    | Some s =>
      match ce_object s with
      | ObScanner t =>
        let rest := end_scan (ma_scans m) thread in
        match nw_scan w t data with
        | Ret (Some b) =>
          allocate w (ma_heap m) (ObVec b (nw_capacity w b)) (fun v h =>
          Done (RScanned v (Z.of_nat (length b)) (Z.of_N (nw_capacity w b)) None) {| ma_heap := h; ma_scans := rest |})
        | Ret None => Done (RScanned 0 0 0 None) {| ma_heap := ma_heap m; ma_scans := rest |}
        | Panic =>
          allocate w (ma_heap m) (ObString (c_message (nw_message w))) (fun e h =>
          Done (RScanned 0 0 0 (Some e)) {| ma_heap := h; ma_scans := rest |})
        | Diverge => Never
        end
      | _ => Undefined
      end
    | None => Undefined
    end
  | None => Undefined
  end.
(* scan.rs 70-80: the layout is computed from the capacity *)
Definition free_vec (m : machine) (a : N) (len cap : Z) : stepped reply :=
  defined m RUnit (
    let? c := load (ma_heap m) a in
    match ce_object c with
    | ObVec b k => if (Z.of_N k =? cap)%Z && (len <=? cap)%Z then Some (release (ma_heap m) a) else None
    | _ => None
    end).
(* scan.rs 82-87 *)
Definition free_string (m : machine) (a : N) : stepped reply :=
  defined m RUnit (
    let? c := load (ma_heap m) a in
    match ce_object c with ObString _ => Some (release (ma_heap m) a) | _ => None end).

(* dd_sds.h *)
Definition step (w : native_world) (m : machine) (c : call) : stepped reply :=
  match c with
  | CRule json => create_regex_rule w m json
  | CFreeRule z => free_any_rule m z
  | CList => create_rule_list w m
  | CAppend r l => append_rule_to_list m r l
  | CFreeList l => free_rule_list m l
  | CScanner l kw => create_scanner w m l kw
  | CDelete s => delete_scanner m s
  | CBytes b => c_bytes w m b
  | CFree a => c_free m a
  | CStart t s e n => start_scan m t s e n
  | CFinish t => finish_scan w m t
  | CFreeVec a len cap => free_vec m a len cap
  | CFreeString a => free_string m a
  end.

(* ---- the Go binding ---- *)
Definition run_int (w : native_world) (m : machine) (c : call) : stepped Z :=
  after (step w m c) (fun r m => match r with RInt z => Done z m | _ => Undefined end).
Definition run_unit (w : native_world) (m : machine) (c : call) : stepped unit :=
  after (step w m c) (fun r m => Done tt m).
(* regex_rule.go 116-131; [conf] is what Rust reads from the JSON text of a rule: see go_create_rule
   in Model/Config.v and go_create_rule_bytes in Model/JsonText.v *)
Definition go_rule_handle (w : native_world) (conf : go_rule -> option rule_config) (m : machine) (r : go_rule) : stepped (option Z) :=
  after (run_int w m (CRule (conf r))) (fun z m => Done (if (z <? 0)%Z then None else Some z) m).
(* scanner.go 60-67: true if all rules were appended *)
Fixpoint go_append_rules (w : native_world) (conf : go_rule -> option rule_config) (m : machine) (rules : Z) (l : list go_rule) : stepped bool :=
  match l with
  | [] => Done true m
  | r :: l' =>
    after (go_rule_handle w conf m r) (fun h m =>
      match h with
      | None => Done false m
      | Some z =>
        after (run_unit w m (CAppend z rules)) (fun _ m =>
        after (run_unit w m (CFreeRule z)) (fun _ m => go_append_rules w conf m rules l'))
      end)
  end.
(* C.GoString *)
Definition go_string (m : machine) (a : N) : stepped str :=
  match load (ma_heap m) a with
  | Some c => match ce_object c with ObString s => Done s m | _ => Undefined end
  | None => Undefined
  end.
(* scanner.go 72-98, with the deferred free_string *)
Definition go_created_from (w : native_world) (m : machine) (code : Z) (error : option N) : stepped go_created :=
  if (code =? -5)%Z then
    match error with
    | Some e => after (go_string m e) (fun s m =>
                after (run_unit w m (CFreeString e)) (fun _ m => Done (go_created_of code (Some s)) m))
    | None => Done (go_created_of code None) m
    end
  else Done (go_created_of code None) m.
(* scanner.go 56-99, with the deferred Delete of the list; rule.go *)
Definition go_create (w : native_world) (conf : go_rule -> option rule_config) (m : machine) (l : list go_rule) : stepped go_created :=
  after (run_int w m CList) (fun rules m =>
  after (after (go_append_rules w conf m rules l) (fun ok m =>
         if ok then
           after (step w m (CScanner rules false)) (fun r m =>
             match r with RCreated code error => go_created_from w m code error | _ => Undefined end)
         else Done GoErrRule m)) (fun r m =>
  after (run_unit w m (CFreeList rules)) (fun _ m => Done r m))).
(* scanner.go 103-107: the id after the call *)
Definition go_delete (w : native_world) (m : machine) (id : Z) : stepped Z :=
  after (run_unit w m (CDelete id)) (fun _ m => Done 0%Z m).
(* C.GoBytes, see Model/GoBinding.v; reading past the end is undefined *)
Definition go_bytes (m : machine) (a : N) (size : Z) : stepped (outcome octets) :=
  match load (ma_heap m) a with
  | Some c => match ce_object c with
              | ObVec b _ => if (size <=? Z.of_nat (length b))%Z then Done (go_bytes_of b size) m else Undefined
              | _ => Undefined
              end
  | None => Undefined
  end.
(* scanner.go 109-138; the deferred calls run after a panic of Go, too *)
Definition go_low_level_scan (w : native_world) (m : machine) (thread : nat) (id : Z) (encoded : octets)
  : stepped (outcome (result octets go_error)) :=
  after (run_int w m (CBytes encoded)) (fun cdata m =>
  after (step w m (CStart thread id (pointer cdata) (length encoded))) (fun _ m =>
  after (step w m (CFinish thread)) (fun r m =>
  after (match r with
         | RScanned data size cap (Some e) =>
             after (go_string m e) (fun _ m => after (run_unit w m (CFreeString e)) (fun _ m => Done (Ret (Err tt)) m))
         | RScanned data size cap None =>
             if ((size <=? 0) || (cap <=? 0))%Z then Done (Ret (Ok [])) m
             else after (go_bytes m data (c_int size)) (fun b m =>
                  after (run_unit w m (CFreeVec data size cap)) (fun _ m => Done (let* x := b in Ret (Ok x)) m))
         | _ => Undefined
         end) (fun r m =>
  after (run_unit w m (CFree (pointer cdata))) (fun _ m => Done r m))))).
(* scanner.go 195-203, 140-153 *)
Definition go_scan_map (w : native_world) (m : machine) (thread : nat) (id : Z) (event : list (octets * go_value))
  : stepped (outcome (result scan_outcome go_error * go_value)) :=
  match go_encode (GMap event) with
  | Err e => Done (Ret (Err e, GMap event)) m
  | Ok encoded =>
    after (go_low_level_scan w m thread id encoded) (fun r m =>
      Done (let* r := r in
            match r with
            | Err e => Ret (Err e, GMap event)
            | Ok response => decode_event_map_response (length response) response (GMap event) no_outcome
            end) m)
  end.
(* scanner.go 172-190, 155-168 *)
Definition go_scan_string (w : native_world) (m : machine) (thread : nat) (id : Z) (event : octets)
  : stepped (outcome (result scan_outcome go_error)) :=
  after (go_low_level_scan w m thread id (go_encode_string event)) (fun r m =>
    Done (let* r := r in
          match r with
          | Err e => Ret (Err e)
          | Ok response =>
            let* r := decode_response (length response) response no_outcome in
            match r with
            | Err e => Ret (Err e)
            | Ok o => Ret (Ok (if so_mutated o then o
                               else {| so_event := event; so_mutated := false; so_matches := so_matches o |}))
            end
          end) m).
