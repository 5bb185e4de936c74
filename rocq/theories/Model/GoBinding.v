(* Model of sds-go/go/scanner.go: encoding an event for the native library, decoding its
   response and applying the mutations to the event.
   Simplifications: a Go map is the list of its entries in the order in which the range
   loop of this call meets them; maps and slices reachable from the event are not shared
   (a Go event with the same map at two places is not a tree); error texts are left out;
   the encoded event is shorter than 2^63 bytes (C.long of its length, scanner.go 117). *)
From Verif Require Export Model.Binary Model.Keywords Model.Ascii.

Definition go_error := unit.

(* interface{} values of an event (scanner.go 213-225): string, map[string]interface{},
   []interface{}, anything else.  Go strings are arbitrary bytes. *)
Inductive go_value :=
| GString (b : octets)
| GMap (m : list (octets * go_value))
| GList (l : list go_value)
| GOther.

(* scanner.go 206-211; AppendUint32(uint32(len)) *)
Definition go_encode_string (b : octets) : octets :=
  3%N :: be32 (as_u32 (N.of_nat (length b))) ++ b.

(* scanner.go 213-258: encodeValueRecursive, encodeMapEvent and encodeListEvent; what is
   appended to the result *)
Fixpoint go_encode (v : go_value) : result octets go_error :=
  match v with
  | GString b => Ok (go_encode_string b)
  | GMap m =>
      (fix entries (m : list (octets * go_value)) : result octets go_error :=
         match m with
         | [] => Ok []
         | (k, c) :: m' =>
           match go_encode c with
           | Err e => Err e
           | Ok b =>
             match entries m' with
             | Err e => Err e
             | Ok rest => Ok (0%N :: be32 (as_u32 (N.of_nat (length k))) ++ k ++ b ++ 2%N :: rest)
             end
           end
         end) m
  | GList l =>
      (fix items (idx : nat) (l : list go_value) : result octets go_error :=
         match l with
         | [] => Ok []
         | c :: l' =>
           match go_encode c with
           | Err e => Err e
           | Ok b =>
             match items (S idx) l' with
             | Err e => Err e
             | Ok rest => Ok (1%N :: be32 (as_u32 (N.of_nat idx)) ++ b ++ 2%N :: rest)
             end
           end
         end) 0 l
  | GOther => Err tt
  end.

(* bytes.Buffer.Next: at most [n] bytes *)
Definition buf_next (n : N) (buf : octets) : octets * octets :=
  let k := N.to_nat (N.min n (N.of_nat (length buf))) in
  (firstn k buf, skipn k buf).
(* binary.BigEndian.Uint32(buf.Next(4)): panics on fewer than four bytes *)
Definition buf_u32 (buf : octets) : outcome (N * octets) :=
  match buf with
  | a :: b :: c :: d :: buf' => Ret (of_be32 a b c d, buf')
  | _ => Panic
  end.
(* scanner.go 363-367: nextString; a truncated string is returned as it is *)
Definition next_string (buf : octets) : outcome (octets * octets) :=
  let* r := buf_u32 buf in
  let '(size, buf') := r in
  Ret (buf_next size buf').

(* scanner.go 260-273; strings.ToLower on ASCII *)
Definition parse_replacement_type (b : octets) : replacement_kind :=
  let l := map to_ascii_lower b in
  if str_eqb l (chars "placeholder") then RKPlaceholder
  else if str_eqb l (chars "hash") then RKHash
  else if str_eqb l (chars "partial_beginning") then RKPartialStart
  else if str_eqb l (chars "partial_end") then RKPartialEnd
  else RKNone.

(* int32(x) of a uint32 *)
Definition go_int32 (x : N) : Z :=
  if (x <? 2147483648)%N then Z.of_N x else (Z.of_N x - 4294967296)%Z.

(* regex_rule.go: RuleMatch *)
Record go_match := {
  gm_rule : N;
  gm_path : octets;
  gm_kind : replacement_kind;
  gm_start : N;
  gm_end : N;
  gm_shift : Z
}.

(* scanner.go 275-299 *)
Definition decode_match_response (buf : octets) : outcome (go_match * octets) :=
  let* r := buf_u32 buf in let '(rule_idx, buf) := r in
  let* r := next_string buf in let '(path, buf) := r in
  let* r := next_string buf in let '(kind, buf) := r in
  let* r := buf_u32 buf in let '(start, buf) := r in
  let* r := buf_u32 buf in let '(stop, buf) := r in
  let* r := buf_u32 buf in let '(shift, buf) := r in
  Ret ({| gm_rule := rule_idx; gm_path := path; gm_kind := parse_replacement_type kind;
          gm_start := start; gm_end := stop; gm_shift := go_int32 shift |}, buf).

(* scanner.go 36-49 *)
Record scan_outcome := { so_event : octets; so_mutated : bool; so_matches : list go_match }.
Definition no_outcome : scan_outcome :=
  {| so_event := []; so_mutated := false; so_matches := [] |}.

(* event[k] = v *)
Fixpoint go_map_set (m : list (octets * go_value)) (k : octets) (v : go_value)
  : list (octets * go_value) :=
  match m with
  | [] => [(k, v)]
  | (k', v') :: m' => if str_eqb k' k then (k', v) :: m' else (k', v') :: go_map_set m' k v
  end.

(* scanner.go 381-434: applyStringMutation and its two cases, the tag already read.
   The value is returned with the update applied, together with the new string and the
   rest of the buffer.  The zero value of a missing key is nil: TypeOf(nil).Kind()
   panics (scanner.go 426).  [fuel] bounds the recursion; every turn takes a byte. *)
Fixpoint apply_string_mutation (fuel : nat) (v : go_value) (tag : octet) (buf : octets)
  : outcome (result (octets * go_value * octets) go_error) :=
  match fuel with
  | 0 => Diverge
  | S fuel' =>
    match v with
    | GMap m =>
      if negb (tag =? 0)%N then Ret (Err tt)
      else
        let* r := next_string buf in let '(field, buf) := r in
        match buf with
        | [] => Ret (Err tt)
        | next_tag :: buf =>
          if (next_tag =? 3)%N then
            let* r := next_string buf in let '(res, buf) := r in
            Ret (Ok (res, GMap (go_map_set m field (GString res)), buf))
          else
            match map_get m field with
            | None => Panic
            | Some c =>
              let* r := apply_string_mutation fuel' c next_tag buf in
              match r with
              | Err e => Ret (Err e)
              | Ok (res, c', buf) => Ret (Ok (res, GMap (go_map_set m field c'), buf))
              end
            end
        end
    | GList l =>
      if negb (tag =? 1)%N then Ret (Err tt)
      else
        let* r := buf_u32 buf in let '(i, buf) := r in
        match buf with
        | [] => Ret (Err tt)
        | next_tag :: buf =>
          if (next_tag =? 3)%N then
            let* r := next_string buf in let '(res, buf) := r in
            match nth_error l (N.to_nat i) with
            | None => Panic
            | Some _ => Ret (Ok (res, GList (list_set l (N.to_nat i) (GString res)), buf))
            end
          else
            match nth_error l (N.to_nat i) with
            | None => Panic
            | Some c =>
              let* r := apply_string_mutation fuel' c next_tag buf in
              match r with
              | Err e => Ret (Err e)
              | Ok (res, c', buf) => Ret (Ok (res, GList (list_set l (N.to_nat i) c'), buf))
              end
            end
        end
    | GString _ | GOther => Ret (Err tt)
    end
  end.

(* scanner.go 301-326; the event is updated in place, so it is returned also with an
   error (what a failing mutation already wrote is nothing).  A mutation starts on the
   top map, scanner.go 373-379. *)
Fixpoint decode_event_map_response (fuel : nat) (buf : octets) (event : go_value) (acc : scan_outcome)
  : outcome (result scan_outcome go_error * go_value) :=
  match buf with
  | [] => Ret (Ok acc, event)
  | typ :: buf =>
    match fuel with
    | 0 => Diverge
    | S fuel' =>
      if (typ =? 4)%N then
        match buf with
        | [] => Ret (Err tt, event)
        | tag :: buf =>
          let* r := apply_string_mutation (S (length buf)) event tag buf in
          match r with
          | Err e => Ret (Err e, event)
          | Ok (res, event', buf) =>
            decode_event_map_response fuel' buf event'
              {| so_event := res; so_mutated := true; so_matches := so_matches acc |}
          end
        end
      else if (typ =? 5)%N then
        let* r := decode_match_response buf in let '(m, buf) := r in
        decode_event_map_response fuel' buf event
          {| so_event := so_event acc; so_mutated := so_mutated acc;
             so_matches := so_matches acc ++ [m] |}
      else Ret (Err tt, event)
    end
  end.

(* scanner.go 438-474: the path is skipped, an unknown marker is skipped too *)
Fixpoint decode_mutation (fuel : nat) (buf : octets) : outcome (result (octets * octets) go_error) :=
  match buf with
  | [] => Ret (Err tt)
  | marker :: buf =>
    match fuel with
    | 0 => Diverge
    | S fuel' =>
      if (marker =? 0)%N then
        let* r := next_string buf in decode_mutation fuel' (snd r)
      else if (marker =? 1)%N then
        let* r := buf_u32 buf in decode_mutation fuel' (snd r)
      else if (marker =? 3)%N then
        let* r := next_string buf in Ret (Ok r)
      else decode_mutation fuel' buf
    end
  end.

(* scanner.go 330-355 *)
Fixpoint decode_response (fuel : nat) (buf : octets) (acc : scan_outcome)
  : outcome (result scan_outcome go_error) :=
  match buf with
  | [] => Ret (Ok acc)
  | typ :: buf =>
    match fuel with
    | 0 => Diverge
    | S fuel' =>
      if (typ =? 4)%N then
        let* r := decode_mutation (length buf) buf in
        match r with
        | Err e => Ret (Err e)
        | Ok (res, buf) =>
          decode_response fuel' buf
            {| so_event := res; so_mutated := true; so_matches := so_matches acc |}
        end
      else if (typ =? 5)%N then
        let* r := decode_match_response buf in let '(m, buf) := r in
        decode_response fuel' buf
          {| so_event := so_event acc; so_mutated := so_mutated acc;
             so_matches := so_matches acc ++ [m] |}
      else Ret (Err tt)
    end
  end.

(* The conversion C.int(n) of an int64 (scanner.go 135): 32 bits, two's complement. *)
Definition c_int (n : Z) : Z :=
  let k := (n mod 4294967296)%Z in if (k <? 2147483648)%Z then k else (k - 4294967296)%Z.
(* C.GoBytes of the memory that holds [b] (scanner.go 135): runtime.gobytes panics if the
   size is negative.  The size is never above the length of [b] here. *)
Definition go_bytes_of (b : octets) (size : Z) : outcome octets :=
  if (size <? 0)%Z then Panic else Ret (firstn (Z.to_nat size) b).

(* scanner.go 109-138: a panic of the native library is an error, no response is nil.
   [scan] is the native library; a response is never empty (C71_library). *)
Definition low_level_scan (scan : octets -> outcome (option octets)) (encoded : octets)
  : outcome (result octets go_error) :=
  match scan encoded with
  | Ret (Some b) => let* r := go_bytes_of b (c_int (Z.of_nat (length b))) in Ret (Ok r)
  | Ret None => Ret (Ok [])
  | Panic => Ret (Err tt)
  | Diverge => Diverge
  end.

(* scanner.go 172-190 *)
Definition go_scan (scan : octets -> outcome (option octets)) (event : octets)
  : outcome (result scan_outcome go_error) :=
  let* r := low_level_scan scan (go_encode_string event) in
  match r with
  | Err e => Ret (Err e)
  | Ok response =>
    let* r := decode_response (length response) response no_outcome in
    match r with
    | Err e => Ret (Err e)
    | Ok o =>
      Ret (Ok (if so_mutated o then o
               else {| so_event := event; so_mutated := false; so_matches := so_matches o |}))
    end
  end.

(* scanner.go 195-203, 140-153: the result and the event after the call *)
Definition go_scan_events_map (scan : octets -> outcome (option octets))
    (event : list (octets * go_value)) : outcome (result scan_outcome go_error * go_value) :=
  match go_encode (GMap event) with
  | Err e => Ret (Err e, GMap event)
  | Ok encoded =>
    let* r := low_level_scan scan encoded in
    match r with
    | Err e => Ret (Err e, GMap event)
    | Ok response => decode_event_map_response (length response) response (GMap event) no_outcome
    end
  end.
