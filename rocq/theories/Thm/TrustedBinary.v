(* The format of binary events (C92) *)
From Coq Require Import Lia.
From Verif Require Import Proofs.TrustedBinaryClaims Proofs.Codec Proofs.TrustedBinary Examples.Setting Examples.Codec.

(* The decoder accepts exactly the bytes of the format, and shows the operations they stand for. *)
Theorem C92_format :
  forall l ops, decode_event l = Ret ops <-> written read_lossily l ops.
Proof. exact c92_format_lemma. Qed.
Print Assumptions C92_format.

(* field "a", the byte 255 as content, pop *)
Example C92_format_applies : written read_lossily [0; 0; 0; 0; 1; 97; 3; 0; 0; 0; 1; 255; 2]%N
  [OpPush (Field [97%N]); OpString [65533%N]; OpPop].
Proof. apply C92_format. reflexivity. Qed.

(* All other bytes make it panic (which the native library reports as an error). *)
Theorem C92_rejected :
  forall l, decode_event l = Panic <-> forall ops, ~ written read_lossily l ops.
Proof. exact c92_rejected_lemma. Qed.
Print Assumptions C92_rejected.

(* an unknown tag, a length that is cut off, a length beyond the end *)
Example C92_rejected_applies : forall l, In l [[4]; [3; 0; 0; 0]; [0; 0; 0; 0; 2; 97]]%N -> forall ops, ~ written read_lossily l ops.
Proof. intros l H. apply C92_rejected. repeat (destruct H as [<-|H]; [reflexivity|]). destruct H. Qed.

(* With strings_are_valid_utf8 the decoder is defined and accepts exactly if, in addition, all
   strings are UTF-8. *)
Theorem C92_trusted :
  forall l ops, decode_event_as true l = Ret (Some ops) <-> written (fun b s => utf8_of s b) l ops.
Proof. exact c92_trusted_lemma. Qed.
Print Assumptions C92_trusted.

Example C92_trusted_applies : written (fun b s => utf8_of s b) [0; 0; 0; 0; 2; 195; 169; 3; 0; 0; 0; 1; 49; 2]%N
    [OpPush (Field [233%N]); OpString [49%N]; OpPop] /\
  decode_event_as true [3; 0; 0; 0; 1; 255]%N = Ret None.
Proof. split; [apply C92_trusted; vm_compute; reflexivity|reflexivity]. Qed.

(* Wherever it is defined, the setting strings_are_valid_utf8 changes nothing. *)
Theorem C92_setting :
  forall l ops, decode_event_as true l = Ret (Some ops) -> decode_event_as false l = Ret (Some ops) /\ decode_event l = Ret ops.
Proof. exact c92_setting_lemma. Qed.
Print Assumptions C92_setting.

Example C92_setting_applies : exists ops, decode_event_as true [3; 0; 0; 0; 2; 195; 169]%N = Ret (Some ops).
Proof. eexists. vm_compute. reflexivity. Qed.

(* Malformed events are not all rejected.  After one pop too many nothing is scanned any more:
   the answer is that of the event without the strings that follow, whatever they hold. *)
Theorem C92_extra_pop_refuted :
  forall fuel h srt sc data ops more rest, sorter_ok srt ->
  written read_lossily data ops -> balanced ops -> written read_lossily more rest -> strings_only rest ->
  native_scan fuel h srt sc (data ++ 2%N :: more) = native_scan fuel h srt sc data.
Proof. exact c92_extra_pop_refuted_lemma. Qed.
Print Assumptions C92_extra_pop_refuted.

(* field "a" with the content "12", pop, a pop too many, the content "12"; without the extra pop
   both are redacted *)
Definition popped_part : octets := [0; 0; 0; 0; 1; 97; 3; 0; 0; 0; 2; 49; 50; 2]%N.
Definition lost_part : octets := [3; 0; 0; 0; 2; 49; 50]%N.
Example C92_extra_pop_refuted_applies :
  (exists ops, written read_lossily popped_part ops /\ balanced ops) /\
  (exists rest, written read_lossily lost_part rest /\ strings_only rest) /\
  (exists r r', native_scan 100 ex_hash isort ex_scanner (popped_part ++ 2%N :: lost_part) = Ret (Some r) /\
    native_scan 100 ex_hash isort ex_scanner (popped_part ++ lost_part) = Ret (Some r') /\ length r < length r').
Proof.
  split; [eexists; split; [apply C92_format; reflexivity|apply (bal_under _ [_] []); constructor; constructor]|].
  split; [eexists; split; [apply C92_format; reflexivity|constructor; constructor]|].
  do 2 eexists. split; [vm_compute; reflexivity|]. split; [vm_compute; reflexivity|]. apply Nat.ltb_lt. reflexivity.
Qed.

(* If a push or a pop follows the pop too many, the scan panics. *)
Theorem C92_extra_pop_panics :
  forall fuel h srt sc data ops more rest, sorter_ok srt ->
  written read_lossily data ops -> balanced ops -> written read_lossily more rest -> ~ strings_only rest ->
  native_scan fuel h srt sc data <> Diverge ->
  native_scan fuel h srt sc (data ++ 2%N :: more) = Panic.
Proof. exact c92_extra_pop_panics_lemma. Qed.
Print Assumptions C92_extra_pop_panics.

Example C92_extra_pop_panics_applies :
  (exists ops, written read_lossily popped_part ops /\ balanced ops) /\
  (exists rest, written read_lossily (lost_part ++ [2%N]) rest /\ ~ strings_only rest) /\
  native_scan 100 ex_hash isort ex_scanner popped_part <> Diverge.
Proof.
  split; [eexists; split; [apply C92_format; reflexivity|apply (bal_under _ [_] []); constructor; constructor]|].
  split; [eexists; split; [apply C92_format; reflexivity|]|vm_compute; discriminate].
  intro S. inversion S as [|s ops S' E]. inversion S'.
Qed.

