(* Model of sds-bindings-utils/src/binary_encoding.rs 35-97 with the setting
   strings_are_valid_utf8, which Model/Binary.v fixes to false.  Undefined behaviour is [None];
   what follows it is not modelled. *)
From Verif Require Export Model.Binary Model.Jwt.

(* std::str::from_utf8_unchecked: undefined unless the bytes are UTF-8, in which case it gives
   the string they encode; [from_utf8] of Model/Jwt.v is std::str::from_utf8. *)
Definition from_utf8_unchecked (b : octets) : option str := from_utf8 b.
(* 45-53, 77-84 *)
Definition read_text (trusted : bool) (b : octets) : option str :=
  if trusted then from_utf8_unchecked b else Some (from_utf8_lossy b).

(* 35-97 *)
Fixpoint decode_ops_as (trusted : bool) (fuel : nat) (l : octets) : outcome (option (list visit_op)) :=
  match l with
  | [] => Ret (Some [])
  | tag :: l0 =>
    match fuel with
    | 0 => Diverge
    | S fuel' =>
      if (tag =? 0)%N then
        let* r := read_u32 l0 in let '(len, l1) := r in
        let* r := read_bytes len l1 in let '(field, l2) := r in
        match read_text trusted field with
        | None => Ret None
        | Some f =>
          let* ops := decode_ops_as trusted fuel' l2 in
          Ret (option_map (cons (OpPush (Field f))) ops)
        end
      else if (tag =? 1)%N then
        let* r := read_u32 l0 in let '(i, l1) := r in
        let* ops := decode_ops_as trusted fuel' l1 in
        Ret (option_map (cons (OpPush (Index (N.to_nat i)))) ops)
      else if (tag =? 2)%N then
        let* ops := decode_ops_as trusted fuel' l0 in Ret (option_map (cons OpPop) ops)
      else if (tag =? 3)%N then
        let* r := read_u32 l0 in let '(len, l1) := r in
        let* r := read_bytes len l1 in let '(content, l2) := r in
        match read_text trusted content with
        | None => Ret None
        | Some s =>
          let* ops := decode_ops_as trusted fuel' l2 in
          Ret (option_map (cons (OpString s)) ops)
        end
      else Panic
    end
  end.
Definition decode_event_as (trusted : bool) (l : octets) : outcome (option (list visit_op)) :=
  decode_ops_as trusted (length l) l.
