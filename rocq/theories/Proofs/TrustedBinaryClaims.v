(* The format of binary events (C92): proofs of the statements of Thm/TrustedBinary.v *)
From Coq Require Import Lia.
From Verif Require Import Proofs.Codec Proofs.TrustedBinary Examples.Setting Examples.Codec.
From Verif Require Export Spec.Sorting Spec.TrustedBinary.

Lemma utf8_lossily : forall s b, utf8_of s b -> read_lossily b s.
Proof. induction 1 as [|c b s bs C U IH]; [constructor|]. apply rl_char; assumption. Qed.

Lemma c92_format_lemma :
  forall l ops, decode_event l = Ret ops <-> written read_lossily l ops.
Proof.
  exact event_format.
Qed.

Lemma c92_rejected_lemma :
  forall l, decode_event l = Panic <-> forall ops, ~ written read_lossily l ops.
Proof.
  exact event_rejected.
Qed.

Lemma c92_trusted_lemma :
  forall l ops, decode_event_as true l = Ret (Some ops) <-> written (fun b s => utf8_of s b) l ops.
Proof.
  intros l ops. split; [apply (decoded_written true)|]. intro W. exact (written_decoded true l ops W _ (le_n _)).
Qed.

Lemma c92_setting_lemma :
  forall l ops, decode_event_as true l = Ret (Some ops) -> decode_event_as false l = Ret (Some ops) /\ decode_event l = Ret ops.
Proof.
  intros l ops E. apply (decoded_written true) in E. cbn [text_as] in E.
  assert (W : written read_lossily l ops).
  { induction E as [|n b s l ops Q T W IH|n i l ops Q W IH|l ops W IH|n b s l ops Q T W IH]; constructor; try assumption; apply utf8_lossily; exact T. }
  split; [exact (written_decoded false l ops W _ (le_n _))|apply event_format; exact W].
Qed.

Lemma c92_extra_pop_refuted_lemma :
  forall fuel h srt sc data ops more rest, sorter_ok srt ->
  written read_lossily data ops -> balanced ops -> written read_lossily more rest -> strings_only rest ->
  native_scan fuel h srt sc (data ++ 2%N :: more) = native_scan fuel h srt sc data.
Proof.
  exact extra_pop.
Qed.

Lemma c92_extra_pop_panics_lemma :
  forall fuel h srt sc data ops more rest, sorter_ok srt ->
  written read_lossily data ops -> balanced ops -> written read_lossily more rest -> ~ strings_only rest ->
  native_scan fuel h srt sc data <> Diverge ->
  native_scan fuel h srt sc (data ++ 2%N :: more) = Panic.
Proof.
  exact extra_pop_panics.
Qed.

