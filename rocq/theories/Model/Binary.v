(* Model of sds-bindings-utils/src/binary_encoding.rs (BinaryEvent, encode_response) and
   of the native entry point sds-go/rust/src/native/scan.rs.
   Here strings_are_valid_utf8 is false, as the Go entry point sets it (scan.rs 26); the other
   setting is in Model/TrustedBinary.v. *)
From Verif Require Export Model.Utf8 Model.Event.

(* ---- decoding ---- *)

(* [n as u32] *)
Definition as_u32 (n : N) : N := (n mod 4294967296)%N.

(* [u32::to_be_bytes] *)
Definition be32 (n : N) : octets :=
  [n / 16777216 mod 256; n / 65536 mod 256; n / 256 mod 256; n mod 256]%N.
(* [u32::from_be_bytes] *)
Definition of_be32 (a b c d : octet) : N :=
  (a * 16777216 + b * 65536 + c * 256 + d)%N.

(* binary_encoding.rs 41-43, 59-61, 72-74: [bytes[index + 1..index + 5]]; out of range
   is a panic.  The model drops the bytes before [index] instead of keeping an index. *)
Definition read_u32 (l : octets) : outcome (N * octets) :=
  match l with
  | a :: b :: c :: d :: l' => Ret (of_be32 a b c d, l')
  | _ => Panic
  end.

(* binary_encoding.rs 48-52, 79-83: [bytes[index..index + len]] *)
Definition read_bytes (n : N) (l : octets) : outcome (octets * octets) :=
  if (n <=? N.of_nat (length l))%N then Ret (firstn (N.to_nat n) l, skipn (N.to_nat n) l)
  else Panic.

(* binary_encoding.rs 35-97: the calls on the visitor.  [fuel] bounds the loop; every
   turn takes at least one byte.  The effect of the returned VisitStringResult on the
   storage is in [store_visited]. *)
Fixpoint decode_ops (fuel : nat) (l : octets) : outcome (list visit_op) :=
  match l with
  | [] => Ret []
  | tag :: l0 =>
    match fuel with
    | 0 => Diverge
    | S fuel' =>
      if (tag =? 0)%N then
        let* r := read_u32 l0 in let '(len, l1) := r in
        let* r := read_bytes len l1 in let '(field, l2) := r in
        let* ops := decode_ops fuel' l2 in
        Ret (OpPush (Field (from_utf8_lossy field)) :: ops)
      else if (tag =? 1)%N then
        let* r := read_u32 l0 in let '(i, l1) := r in
        let* ops := decode_ops fuel' l1 in
        Ret (OpPush (Index (N.to_nat i)) :: ops)
      else if (tag =? 2)%N then
        let* ops := decode_ops fuel' l0 in Ret (OpPop :: ops)
      else if (tag =? 3)%N then
        let* r := read_u32 l0 in let '(len, l1) := r in
        let* r := read_bytes len l1 in let '(content, l2) := r in
        let* ops := decode_ops fuel' l2 in
        Ret (OpString (from_utf8_lossy content) :: ops)
      else Panic
    end
  end.
Definition decode_event (l : octets) : outcome (list visit_op) := decode_ops (length l) l.

(* ---- storage ---- *)

(* the derived Ord of str, PathSegment and Path (path.rs 8-20): Field before Index,
   strings by their bytes (the same order as by scalar values) *)
Fixpoint str_compare (a b : str) : comparison :=
  match a, b with
  | [], [] => Eq
  | [], _ :: _ => Lt
  | _ :: _, [] => Gt
  | x :: a', y :: b' => match (x ?= y)%N with Eq => str_compare a' b' | c => c end
  end.
Definition segment_compare (a b : segment) : comparison :=
  match a, b with
  | Field x, Field y => str_compare x y
  | Field _, Index _ => Lt
  | Index _, Field _ => Gt
  | Index i, Index j => Nat.compare i j
  end.
Fixpoint path_compare (a b : path) : comparison :=
  match a, b with
  | [], [] => Eq
  | [], _ :: _ => Lt
  | _ :: _, [] => Gt
  | x :: a', y :: b' => match segment_compare x y with Eq => path_compare a' b' | c => c end
  end.

(* binary_encoding.rs 16: BTreeMap<Path, (bool, String)>, the entries in key order *)
Definition storage := list (path * (bool * str)).
Fixpoint storage_get (st : storage) (p : path) : option (bool * str) :=
  match st with
  | [] => None
  | (q, v) :: st' => if path_eqb q p then Some v else storage_get st' p
  end.
(* BTreeMap::insert of a key that is not there *)
Fixpoint storage_insert (st : storage) (p : path) (v : bool * str) : storage :=
  match st with
  | [] => [(p, v)]
  | (q, x) :: st' =>
    match path_compare p q with
    | Lt => (p, v) :: st
    | _ => (q, x) :: storage_insert st' p v
    end
  end.
Fixpoint storage_set (st : storage) (p : path) (v : bool * str) : storage :=
  match st with
  | [] => []
  | (q, x) :: st' => if path_eqb q p then (q, v) :: st' else (q, x) :: storage_set st' p v
  end.

(* binary_encoding.rs 86-92: what visit_event keeps of the strings it showed, from the
   answers of the visitor (path, content, might_mutate) *)
Fixpoint store_visited (st : storage) (log : list (path * str * bool)) : storage :=
  match log with
  | [] => st
  | ((p, content), might_mutate) :: log' =>
    store_visited
      (if might_mutate then
         match storage_get st p with
         | None => storage_insert st p (false, content)
         | Some _ => st
         end
       else st) log'
  end.

(* binary_encoding.rs 12-31: the event after its bytes have been decoded *)
Record binary_event := { be_ops : list visit_op; be_storage : storage }.

(* binary_encoding.rs 32-106; visit_string_mut is split in reading the content and
   writing it back with the flag returned by the callback *)
Definition binary_event_impl (E : encoding) : event_impl := {|
  ev_t := binary_event;
  ev_enc := E;
  ev_ops := be_ops;
  ev_visited := fun e log =>
    {| be_ops := be_ops e; be_storage := store_visited (be_storage e) log |};
  ev_get := fun e p => let* v := unwrap (storage_get (be_storage e) p) in Ret (snd v);
  ev_set := fun e p s mutated =>
    {| be_ops := be_ops e; be_storage := storage_set (be_storage e) p (mutated, s) |}
|}.

(* ---- encoding the response ---- *)

(* binary_encoding.rs 169-172 *)
Definition encode_bytes (b : octets) : octets := be32 (as_u32 (N.of_nat (length b))) ++ b.

(* binary_encoding.rs 154-167 *)
Fixpoint encode_path (p : path) : octets :=
  match p with
  | [] => []
  | Field f :: p' => 0%N :: encode_bytes (as_bytes f) ++ encode_path p'
  | Index i :: p' => 1%N :: be32 (as_u32 (N.of_nat i)) ++ encode_path p'
  end.

(* binary_encoding.rs 174-179 *)
Definition encode_mutation (p : path) (content : str) : octets :=
  4%N :: encode_path p ++ 3%N :: encode_bytes (as_bytes content).

(* rule_match.rs 72-82, ASCII *)
Definition kind_text (k : replacement_kind) : octets :=
  match k with
  | RKNone => [110; 111; 110; 101]
  | RKPlaceholder => [112; 108; 97; 99; 101; 104; 111; 108; 100; 101; 114]
  | RKHash => [104; 97; 115; 104]
  | RKPartialStart =>
      [112; 97; 114; 116; 105; 97; 108; 95; 98; 101; 103; 105; 110; 110; 105; 110; 103]
  | RKPartialEnd => [112; 97; 114; 116; 105; 97; 108; 95; 101; 110; 100]
  end%N.

(* [z as u32] of an isize *)
Definition isize_as_u32 (z : Z) : N := Z.to_N (z mod 4294967296).

(* binary_encoding.rs 137-152 *)
Definition encode_match (m : rule_match) : octets :=
  5%N :: be32 (as_u32 (N.of_nat (rm_rule m))) ++
  encode_bytes (as_bytes (display (rm_path m))) ++
  encode_bytes (kind_text (rm_kind m)) ++
  be32 (as_u32 (N.of_nat (rm_start m))) ++
  be32 (as_u32 (N.of_nat (rm_end m))) ++
  be32 (isize_as_u32 (rm_shift m)).

(* binary_encoding.rs 116-135 *)
Fixpoint encode_mutations (st : storage) : octets :=
  match st with
  | [] => []
  | (p, (mutated, content)) :: st' =>
    (if mutated then encode_mutation p content else []) ++ encode_mutations st'
  end.
Definition encode_response (st : storage) (matches : list rule_match) : option octets :=
  match matches with
  | [] => None
  | _ => Some (encode_mutations st ++ flat_map encode_match matches)
  end.

(* native/scan.rs 11-53: None stands for retsize = 0.  The pointer handling is left
   out; a panic becomes an error string of the caller, see Model/GoBinding.v. *)
Definition native_scan (fuel : nat) (h : hashers) (srt : sorter) (sc : scanner) (data : octets)
  : outcome (option octets) :=
  let* ops := decode_event data in
  let* res := scan (binary_event_impl utf8_encoding) fuel h srt sc []
                {| be_ops := ops; be_storage := [] |} in
  Ret (encode_response (be_storage (fst res)) (snd res)).
