(* Specification of redaction: a text is cut into gaps and matched pieces, the
   matched pieces are replaced, the gaps are kept. *)
From Coq Require Sorted.
From Verif Require Export Model.Scanner Spec.Text.

(* what a matched text becomes *)
Definition redacted (h : hashers) (a : match_action) (m : str) : str :=
  match a with
  | ActNone => m
  | ActRedact r => r
  | ActHash => hash_utf8 h m
  | ActUtf16Hash => hash_utf16 h m
  | ActPartialRedact FirstCharacters n => repeat 42%N n ++ skipn n m
  | ActPartialRedact LastCharacters n => firstn (length m - n) m ++ repeat 42%N n
  end.

(* one matched piece, what stands for it afterwards, and the text up to the next one *)
Record cut := { cut_old : str; cut_new : str; cut_gap : str }.

Definition original (g0 : str) (cs : list cut) : str :=
  g0 ++ flat_map (fun c => cut_old c ++ cut_gap c) cs.
Definition rewritten (g0 : str) (cs : list cut) : str :=
  g0 ++ flat_map (fun c => cut_new c ++ cut_gap c) cs.

(* candidate [m] matched the piece number [k], and that piece was treated with the
   action of the rule of [m] *)
Definition cut_for {E} (h : hashers) (rules : list rule) (g0 : str) (cs : list cut) (k : nat)
    (m : internal_match E) : Prop :=
  exists c r,
    nth_error cs k = Some c /\
    nth_error rules (im_rule m) = Some r /\
    nbytes (original g0 (firstn k cs)) = im_start m /\
    nbytes (original g0 (firstn k cs) ++ cut_old c) = im_end m /\
    cut_new c = redacted h (rule_action r) (cut_old c).

(* An encoding counts characters with weight [w]: after any sequence of edits
   (text before, text after) the shift is the accumulated change of weight, given
   the accumulated change of bytes. *)
Definition edit_delta (len : str -> nat) (edits : list (str * str)) : Z :=
  fold_right Z.add 0%Z (map (fun e => Z.of_nat (len (snd e)) - Z.of_nat (len (fst e)))%Z edits).
Definition shifts_additive (E : encoding) (w : char -> nat) : Prop :=
  forall edits : list (str * str),
    enc_get_shift E
      (fold_left (fun s e => enc_adjust_shift E s (fst e) (snd e)) edits (enc_zero_shift E))
      (edit_delta nbytes edits) = edit_delta (weight w) edits.

(* ... and the indices it computes for ranges sorted by start are the weights of the
   prefixes *)
Definition indices_additive (E : encoding) (w : char -> nat) : Prop :=
  forall content ranges,
    Sorted.StronglySorted (fun x y => fst x <= fst y) ranges ->
    (forall a b, In (a, b) ranges -> boundary content a /\ boundary content b) ->
    forall k a b, nth_error ranges k = Some (a, b) ->
    let ix := nth k (enc_calculate E content ranges) (enc_zero_index E, enc_zero_index E) in
    (forall p q, content = p ++ q -> nbytes p = a -> enc_get_index E (fst ix) a = weight w p) /\
    (forall p q, content = p ++ q -> nbytes p = b -> enc_get_index E (snd ix) b = weight w p).

(* the index computed for a match is the weight of the text before it *)
Definition indexed {E} (w : char -> nat) (content : str) (m : internal_match E) : Prop :=
  (forall p q, content = p ++ q -> nbytes p = im_start m ->
     enc_get_index E (im_cstart m) (im_start m) = weight w p) /\
  (forall p q, content = p ++ q -> nbytes p = im_end m ->
     enc_get_index E (im_cend m) (im_end m) = weight w p).

(* the matches are in order and do not overlap, and lie on character boundaries *)
Definition in_text {E} (content : str) (m : internal_match E) : Prop :=
  exists t, part_at content (im_start m) (im_end m) t.
Definition separated {E} (ms : list (internal_match E)) : Prop :=
  forall i j a b, i < j -> nth_error ms i = Some a -> nth_error ms j = Some b ->
    im_end a <= im_start b.
