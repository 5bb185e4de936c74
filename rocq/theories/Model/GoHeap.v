(* Model of sds-go/go/scanner.go for events in which maps and slices are shared: a map or a
   slice is a reference into the memory of Go, and the mutations are written to that memory.
   Model/GoBinding.v is the same code for events that are trees; C90 relates the two.
   Simplifications: a slice is all of its array, so two slices are the same or disjoint; a map
   is met in the same order each time it is encoded. *)
From Verif Require Export Model.GoBinding.

(* interface{} values *)
Inductive go_ref :=
| GrString (b : octets)
| GrMap (a : N)
| GrList (a : N)
| GrOther.
Inductive go_cell :=
| GcMap (m : list (octets * go_ref))
| GcList (l : list go_ref).
Definition go_heap := N -> option go_cell.
Definition heap_set (H : go_heap) (a : N) (c : go_cell) : go_heap :=
  fun b => if N.eqb b a then Some c else H b.

(* scanner.go 213-258.  [fuel] is the depth of the stack: Go dies of a stack overflow when it
   is used up.  References always lead to an object of their type; the panics here do not
   happen in Go. *)
Fixpoint heap_encode (fuel : nat) (H : go_heap) (v : go_ref) : outcome (result octets go_error) :=
  match fuel with
  | 0 => Diverge
  | S fuel' =>
    match v with
    | GrString b => Ret (Ok (go_encode_string b))
    | GrMap a =>
      match H a with
      | Some (GcMap m) =>
        (fix entries (m : list (octets * go_ref)) : outcome (result octets go_error) :=
           match m with
           | [] => Ret (Ok [])
           | (k, c) :: m' =>
             let* r := heap_encode fuel' H c in
             match r with
             | Err e => Ret (Err e)
             | Ok b =>
               let* r := entries m' in
               match r with
               | Err e => Ret (Err e)
               | Ok rest => Ret (Ok (0%N :: be32 (as_u32 (N.of_nat (length k))) ++ k ++ b ++ 2%N :: rest))
               end
             end
           end) m
      | _ => Panic
      end
    | GrList a =>
      match H a with
      | Some (GcList l) =>
        (fix items (idx : nat) (l : list go_ref) : outcome (result octets go_error) :=
           match l with
           | [] => Ret (Ok [])
           | c :: l' =>
             let* r := heap_encode fuel' H c in
             match r with
             | Err e => Ret (Err e)
             | Ok b =>
               let* r := items (S idx) l' in
               match r with
               | Err e => Ret (Err e)
               | Ok rest => Ret (Ok (1%N :: be32 (as_u32 (N.of_nat idx)) ++ b ++ 2%N :: rest))
               end
             end
           end) 0 l
      | _ => Panic
      end
    | GrOther => Ret (Err tt)
    end
  end.

(* event[k] = v, see Model/GoBinding.v *)
Fixpoint ref_map_set (m : list (octets * go_ref)) (k : octets) (v : go_ref) : list (octets * go_ref) :=
  match m with
  | [] => [(k, v)]
  | (k', v') :: m' => if str_eqb k' k then (k', v) :: m' else (k', v') :: ref_map_set m' k v
  end.

(* scanner.go 381-434; what is returned is the new string, the memory and the rest of the
   buffer *)
Fixpoint heap_apply (fuel : nat) (H : go_heap) (v : go_ref) (tag : octet) (buf : octets)
  : outcome (result (octets * go_heap * octets) go_error) :=
  match fuel with
  | 0 => Diverge
  | S fuel' =>
    match v with
    | GrMap a =>
      match H a with
      | Some (GcMap m) =>
        if negb (tag =? 0)%N then Ret (Err tt)
        else
          let* r := next_string buf in let '(field, buf) := r in
          match buf with
          | [] => Ret (Err tt)
          | next_tag :: buf =>
            if (next_tag =? 3)%N then
              let* r := next_string buf in let '(res, buf) := r in
              Ret (Ok (res, heap_set H a (GcMap (ref_map_set m field (GrString res))), buf))
            else
              match map_get m field with
              | None => Panic
              | Some c => heap_apply fuel' H c next_tag buf
              end
          end
      | _ => Panic
      end
    | GrList a =>
      match H a with
      | Some (GcList l) =>
        if negb (tag =? 1)%N then Ret (Err tt)
        else
          let* r := buf_u32 buf in let '(i, buf) := r in
          match buf with
          | [] => Ret (Err tt)
          | next_tag :: buf =>
            if (next_tag =? 3)%N then
              let* r := next_string buf in let '(res, buf) := r in
              match nth_error l (N.to_nat i) with
              | None => Panic
              | Some _ => Ret (Ok (res, heap_set H a (GcList (list_set l (N.to_nat i) (GrString res))), buf))
              end
            else
              match nth_error l (N.to_nat i) with
              | None => Panic
              | Some c => heap_apply fuel' H c next_tag buf
              end
          end
      | _ => Panic
      end
    | GrString _ | GrOther => Ret (Err tt)
    end
  end.

(* scanner.go 301-326 *)
Fixpoint heap_decode_response (fuel : nat) (buf : octets) (H : go_heap) (event : go_ref) (acc : scan_outcome)
  : outcome (result scan_outcome go_error * go_heap) :=
  match buf with
  | [] => Ret (Ok acc, H)
  | typ :: buf =>
    match fuel with
    | 0 => Diverge
    | S fuel' =>
      if (typ =? 4)%N then
        match buf with
        | [] => Ret (Err tt, H)
        | tag :: buf =>
          let* r := heap_apply (S (length buf)) H event tag buf in
          match r with
          | Err e => Ret (Err e, H)
          | Ok (res, H', buf) =>
            heap_decode_response fuel' buf H' event
              {| so_event := res; so_mutated := true; so_matches := so_matches acc |}
          end
        end
      else if (typ =? 5)%N then
        let* r := decode_match_response buf in let '(m, buf) := r in
        heap_decode_response fuel' buf H event
          {| so_event := so_event acc; so_mutated := so_mutated acc;
             so_matches := so_matches acc ++ [m] |}
      else Ret (Err tt, H)
    end
  end.

(* scanner.go 195-203, 140-153 *)
Definition heap_scan_events_map (fuel : nat) (scan : octets -> outcome (option octets)) (H : go_heap) (event : N)
  : outcome (result scan_outcome go_error * go_heap) :=
  let* r := heap_encode fuel H (GrMap event) in
  match r with
  | Err e => Ret (Err e, H)
  | Ok encoded =>
    let* r := low_level_scan scan encoded in
    match r with
    | Err e => Ret (Err e, H)
    | Ok response => heap_decode_response (length response) response H (GrMap event) no_outcome
    end
  end.
