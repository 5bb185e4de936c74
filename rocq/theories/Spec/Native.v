(* The handles of the native library as a careful client sees them: no reference counts, no
   addresses inside objects.  Written without the heap of the model. *)
From Verif Require Export Model.Native.

Inductive handle :=
| HRule (c : rule_config)
| HList (l : list rule_config) (poisoned : bool)
| HScanner (t : built)
| HVec (b : octets) (cap : N)
| HString (s : str)
| HC (b : octets).
(* what the client holds, and the scans in progress *)
Record client := {
  cl_handle : N -> option handle;
  cl_scan : nat -> option (N * octets)
}.
Definition nothing : client := {| cl_handle := fun _ => None; cl_scan := fun _ => None |}.
Definition hold (cl : client) (a : N) (x : option handle) : client :=
  {| cl_handle := fun b => if N.eqb b a then x else cl_handle cl b; cl_scan := cl_scan cl |}.
Definition scanning (cl : client) (t : nat) (x : option (N * octets)) : client :=
  {| cl_handle := cl_handle cl; cl_scan := fun u => if u =? t then x else cl_scan cl u |}.

(* addresses below 2^63, so that handles are not negative; never null *)
Definition address (a : N) : Prop := (0 < a < 9223372036854775808)%N.
Definition fresh (cl : client) (a : N) : Prop := address a /\ cl_handle cl a = None.
(* a handle as an i64 *)
Definition as_int (a : N) : Z := Z.of_N a.

Section Ideal.
Variable build : list rule_config -> bool -> outcome (result built create_error).
Variable scan : built -> octets -> outcome (option octets).
(* the message of panics; a C string cannot contain the null character *)
Variable message : str.
Definition c_string (s : str) : Prop :=
  (~ In 0%N message /\ s = message) \/
  (In 0%N message /\ s = chars "Rust panicked. No more information is available.").

(* one call of a careful client: what it returns and what the client holds afterwards *)
Inductive ideal : client -> call -> reply -> client -> Prop :=
| il_rule : forall cl c a, fresh cl a -> ideal cl (CRule (Some c)) (RInt (as_int a)) (hold cl a (Some (HRule c)))
| il_not_a_rule : forall cl, ideal cl (CRule None) (RInt (-5)) cl
| il_free_rule : forall cl a c, address a -> cl_handle cl a = Some (HRule c) -> ideal cl (CFreeRule (as_int a)) RUnit (hold cl a None)
| il_list : forall cl a, fresh cl a -> ideal cl CList (RInt (as_int a)) (hold cl a (Some (HList [] false)))
| il_append : forall cl a c l cs, address a -> address l -> cl_handle cl a = Some (HRule c) -> cl_handle cl l = Some (HList cs false) ->
    ideal cl (CAppend (as_int a) (as_int l)) RUnit (hold cl l (Some (HList (cs ++ [c]) false)))
| il_append_poisoned : forall cl a c l cs, address a -> address l -> cl_handle cl a = Some (HRule c) -> cl_handle cl l = Some (HList cs true) ->
    ideal cl (CAppend (as_int a) (as_int l)) RUnit cl
| il_free_list : forall cl l cs p, address l -> cl_handle cl l = Some (HList cs p) -> ideal cl (CFreeList (as_int l)) RUnit (hold cl l None)
| il_scanner : forall cl l cs kw t a, address l -> cl_handle cl l = Some (HList cs false) -> build cs kw = Ret (Ok t) -> fresh cl a ->
    ideal cl (CScanner (as_int l) kw) (RCreated (as_int a) None) (hold cl a (Some (HScanner t)))
| il_refused : forall cl l cs kw e, address l -> cl_handle cl l = Some (HList cs false) -> build cs kw = Ret (Err e) ->
    ideal cl (CScanner (as_int l) kw) (RCreated (error_code e) None) cl
| il_panics : forall cl l cs kw a s, address l -> cl_handle cl l = Some (HList cs false) -> build cs kw = Panic -> fresh cl a -> c_string s ->
    ideal cl (CScanner (as_int l) kw) (RCreated (-5) (Some a)) (hold (hold cl l (Some (HList cs true))) a (Some (HString s)))
| il_poisoned : forall cl l cs kw a s, address l -> cl_handle cl l = Some (HList cs true) -> fresh cl a -> c_string s ->
    ideal cl (CScanner (as_int l) kw) (RCreated (-5) (Some a)) (hold cl a (Some (HString s)))
| il_delete : forall cl a t, address a -> cl_handle cl a = Some (HScanner t) -> (forall u d, cl_scan cl u <> Some (a, d)) ->
    ideal cl (CDelete (as_int a)) RUnit (hold cl a None)
| il_bytes : forall cl b a, fresh cl a -> ideal cl (CBytes b) (RInt (as_int a)) (hold cl a (Some (HC b)))
| il_free : forall cl a b, cl_handle cl a = Some (HC b) -> ideal cl (CFree a) RUnit (hold cl a None)
| il_start : forall cl u a t e b n, address a -> cl_handle cl a = Some (HScanner t) -> cl_handle cl e = Some (HC b) -> n <= length b ->
    cl_scan cl u = None -> ideal cl (CStart u (as_int a) e n) RUnit (scanning cl u (Some (a, firstn n b)))
| il_found : forall cl u a d t b v cap, cl_scan cl u = Some (a, d) -> cl_handle cl a = Some (HScanner t) -> scan t d = Ret (Some b) ->
    fresh cl v -> (N.of_nat (length b) <= cap)%N ->
    ideal cl (CFinish u) (RScanned v (Z.of_nat (length b)) (Z.of_N cap) None) (hold (scanning cl u None) v (Some (HVec b cap)))
| il_nothing : forall cl u a d t, cl_scan cl u = Some (a, d) -> cl_handle cl a = Some (HScanner t) -> scan t d = Ret None ->
    ideal cl (CFinish u) (RScanned 0 0 0 None) (scanning cl u None)
| il_scan_panics : forall cl u a d t e s, cl_scan cl u = Some (a, d) -> cl_handle cl a = Some (HScanner t) -> scan t d = Panic -> fresh cl e -> c_string s ->
    ideal cl (CFinish u) (RScanned 0 0 0 (Some e)) (hold (scanning cl u None) e (Some (HString s)))
| il_free_vec : forall cl a b cap, cl_handle cl a = Some (HVec b cap) ->
    ideal cl (CFreeVec a (Z.of_nat (length b)) (Z.of_N cap)) RUnit (hold cl a None)
| il_free_string : forall cl a s, cl_handle cl a = Some (HString s) -> ideal cl (CFreeString a) RUnit (hold cl a None).

(* the calls a careful client makes: on handles it holds, of the right kind, and no scanner is
   deleted during a scan *)
Inductive careful (cl : client) : call -> Prop :=
| ca_rule : forall json, careful cl (CRule json)
| ca_free_rule : forall a c, address a -> cl_handle cl a = Some (HRule c) -> careful cl (CFreeRule (as_int a))
| ca_list : careful cl CList
| ca_append : forall a c l cs p, address a -> address l -> cl_handle cl a = Some (HRule c) -> cl_handle cl l = Some (HList cs p) ->
    careful cl (CAppend (as_int a) (as_int l))
| ca_free_list : forall l cs p, address l -> cl_handle cl l = Some (HList cs p) -> careful cl (CFreeList (as_int l))
| ca_scanner : forall l cs p kw, address l -> cl_handle cl l = Some (HList cs p) -> careful cl (CScanner (as_int l) kw)
| ca_delete : forall a t, address a -> cl_handle cl a = Some (HScanner t) -> (forall u d, cl_scan cl u <> Some (a, d)) ->
    careful cl (CDelete (as_int a))
| ca_bytes : forall b, careful cl (CBytes b)
| ca_free : forall a b, cl_handle cl a = Some (HC b) -> careful cl (CFree a)
| ca_start : forall u a t e b n, address a -> cl_handle cl a = Some (HScanner t) -> cl_handle cl e = Some (HC b) -> n <= length b ->
    cl_scan cl u = None -> careful cl (CStart u (as_int a) e n)
| ca_finish : forall u x, cl_scan cl u = Some x -> careful cl (CFinish u)
| ca_free_vec : forall a b cap, cl_handle cl a = Some (HVec b cap) -> careful cl (CFreeVec a (Z.of_nat (length b)) (Z.of_N cap))
| ca_free_string : forall a s, cl_handle cl a = Some (HString s) -> careful cl (CFreeString a).

(* calls with their replies, the last one first *)
Inductive ideally : list (call * reply) -> client -> Prop :=
| iy_nil : ideally [] nothing
| iy_call : forall tr cl c r cl', ideally tr cl -> ideal cl c r cl' -> ideally ((c, r) :: tr) cl'.
End Ideal.

(* the same calls made to the library *)
Inductive really (w : native_world) : list (call * reply) -> machine -> Prop :=
| ry_nil : really w [] {| ma_heap := []; ma_scans := [] |}
| ry_call : forall tr m c r m', really w tr m -> step w m c = Done r m' -> really w ((c, r) :: tr) m'.

(* both together *)
Definition reaches (w : native_world) (tr : list (call * reply)) (m : machine) (cl : client) : Prop :=
  really w tr m /\ ideally (nw_build w) (nw_scan w) (nw_message w) tr cl.
(* clients that hold the same *)
Definition equivalent (cl cl' : client) : Prop :=
  (forall a, cl_handle cl a = cl_handle cl' a) /\ (forall u, cl_scan cl u = cl_scan cl' u).
(* when a call does not return: no memory is left, or building or scanning does not end *)
Definition out_of_memory (w : native_world) : Prop := exists hp, nw_alloc w hp = None.
Definition never_ends (w : native_world) (cl : client) (c : call) : Prop :=
  match c with
  | CScanner z kw => exists l cs, z = as_int l /\ cl_handle cl l = Some (HList cs false) /\ nw_build w cs kw = Diverge
  | CFinish u => exists a d t, cl_scan cl u = Some (a, d) /\ cl_handle cl a = Some (HScanner t) /\ nw_scan w t d = Diverge
  | _ => False
  end.
Definition never_returns (w : native_world) (cl : client) (c : call) : Prop := out_of_memory w \/ never_ends w cl c.

(* an allocator that returns free addresses, and responses that are not empty *)
Record sane_world (w : native_world) : Prop := {
  sw_alloc : forall hp a, nw_alloc w hp = Some a -> address a /\ load hp a = None;
  sw_capacity : forall b, (N.of_nat (length b) <= nw_capacity w b)%N;
  sw_scan : forall t d b, nw_scan w t d = Ret (Some b) -> b <> []
}.
(* what CreateScanner returns and what is held afterwards *)
Definition created (w : native_world) (cl : client) (made : option (list rule_config)) (r : go_created) (cl' : client) : Prop :=
  match made with
  | None => r = GoErrRule /\ equivalent cl' cl
  | Some configs =>
    match nw_build w configs false with
    | Ret (Ok t) => exists a, fresh cl a /\ r = GoScanner (as_int a) /\ equivalent cl' (hold cl a (Some (HScanner t)))
    | Ret (Err e) => r = go_created_of (error_code e) None /\ equivalent cl' cl
    | Panic => exists s, c_string (nw_message w) s /\ r = GoErrPanic (Some s) /\ equivalent cl' cl
    | Diverge => False
    end
  end.
