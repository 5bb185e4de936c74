(* Concrete events and responses for the theorems on the Go binding.  Nothing here
   models code of /repo. *)
From Coq Require Import Lia.
From Verif Require Import Proofs.Text Proofs.Events Proofs.Codec Proofs.Binary.
From Verif Require Export Spec.Codec Examples.Setting.

Definition scalar_b (c : N) : bool :=
  ((c <? 55296) || (57344 <=? c) && (c <? 1114112))%N.
Lemma utf8_text : forall s, forallb scalar_b s = true -> utf8_of s (as_bytes s).
Proof.
  intros s H. apply utf8_of_iff. split; auto. rewrite forallb_forall in H. apply Forall_forall.
  intros c Hc. apply H in Hc. unfold scalar_b in Hc. unfold scalar.
  apply orb_true_iff in Hc as [Hc|Hc]; [left; apply N.ltb_lt; auto|right].
  apply andb_true_iff in Hc as [A B]. apply N.leb_le in A. apply N.ltb_lt in B. auto.
Qed.

(* the Go value of an event *)
Fixpoint to_go (e : simple_event) : go_value :=
  match e with
  | SString s => GString (as_bytes s)
  | SList l => GList (map to_go l)
  | SMap m => GMap (map (fun kc => (as_bytes (fst kc), to_go (snd kc))) m)
  end.
Fixpoint all_text (e : simple_event) : bool :=
  match e with
  | SString s => forallb scalar_b s
  | SList l => forallb all_text l
  | SMap m => forallb (fun kc => forallb scalar_b (fst kc) && all_text (snd kc)) m
  end.
Lemma to_go_image : forall e, all_text e = true -> go_image e (to_go e).
Proof.
  induction e as [s|l IH|m IH] using simple_ind'; simpl; intros H.
  - constructor. apply utf8_text, H.
  - constructor. induction IH as [|c l Hc Hl IH]; simpl in *; constructor; apply andb_true_iff in H as [A B]; auto.
  - constructor. induction IH as [|[k c] m Hc Hm IH]; simpl in *; constructor;
      apply andb_true_iff in H as [A B]; apply andb_true_iff in A as [A1 A2]; auto. apply utf8_text; auto.
Qed.

Fixpoint small (v : go_value) : bool :=
  match v with
  | GString b => length b <? 1000
  | GList l => (length l <? 1000) && forallb small l
  | GMap m => forallb (fun kc => (length (fst kc) <? 1000) && small (snd kc)) m
  | GOther => true
  end.
Lemma small_lt : forall n, (n <? 1000) = true -> (N.of_nat n < two32)%N.
Proof.
  intros n H. apply Nat.ltb_lt in H. unfold two32. assert (N.of_nat n < 1000)%N by lia. lia.
Qed.
Lemma small_fits : forall v, small v = true -> go_fits v.
Proof.
  induction v as [b|m IH|l IH|] using go_ind'; cbn [small]; intros H; constructor.
  - apply small_lt, H.
  - rewrite forallb_forall in H. rewrite Forall_forall in IH. intros k v Hin. specialize (H _ Hin).
    apply andb_true_iff in H as [A B]. split; [apply small_lt, A|]. apply (IH (k, v) Hin B).
  - apply andb_true_iff in H as [A _]. apply small_lt in A. lia.
  - apply andb_true_iff in H as [_ B]. rewrite forallb_forall in B. rewrite Forall_forall in IH. auto.
Qed.

Lemma small_holds : forall v q b, small v = true -> go_holds v q b -> length b < 1000.
Proof.
  intros v q b H Hb. apply small_fits in H as F. revert H. induction Hb as [b|l i v q b Hi Hb IH|m k v q b Hk Hb IH]; cbn [small]; intros H.
  - apply Nat.ltb_lt in H. exact H.
  - apply andb_true_iff in H as [_ B]. rewrite forallb_forall in B. apply nth_error_In in Hi. inversion F; subst. apply IH; auto.
  - rewrite forallb_forall in H. specialize (H _ Hk). apply andb_true_iff in H as [_ B]. apply IH; [|exact B]. inversion F; subst. eapply H0. exact Hk.
Qed.
Lemma small_short : forall v, small v = true -> go_short v.
Proof. intros v H q b Hb. pose proof (small_holds v q b H Hb). lia. Qed.

(* a small event with a non-ASCII key *)
Definition co_event : simple_event :=
  SMap [(text "b", SList [SString (text "x"); SString [233%N; 128512%N]]); ([233%N], SString (text "y"))].
Definition co_value : go_value := to_go co_event.
Lemma co_image : go_image co_event co_value.
Proof. apply to_go_image. reflexivity. Qed.
Lemma co_fits : go_fits co_value.
Proof. apply small_fits. reflexivity. Qed.
Lemma co_distinct : distinct_keys co_event.
Proof.
  constructor.
  - repeat constructor; simpl; intuition discriminate.
  - intros k c [E|[E|[]]]; injection E as _ <-; constructor. intros c' [<-|[<-|[]]]; constructor.
Qed.

(* a response *)
Definition co_path : path := [Field (text "a"); Index 12; Field [233%N]].
Definition co_match : rule_match := {| rm_rule := 3; rm_path := co_path; rm_kind := RKPartialStart;
  rm_start := 2; rm_end := 300; rm_shift := (-3)%Z; rm_value := None; rm_status := NotChecked |}.
Definition co_storage : storage := [(co_path, (true, text "new")); ([Field (text "b")], (false, text "old"))].
Lemma co_storage_fits : forall e, In e co_storage -> fst (snd e) = true -> entry_fits e.
Proof.
  intros e [<-|[<-|[]]] H; [|discriminate]. split; simpl.
  - intros x [<-|[<-|[<-|[]]]]; simpl; [eexists; split; [apply utf8_text; reflexivity|reflexivity]|reflexivity|
      eexists; split; [apply utf8_text; reflexivity|reflexivity]].
  - eexists. split; [apply utf8_text; reflexivity|reflexivity].
Qed.
Lemma co_match_fits : match_fits co_match.
Proof. constructor; vm_compute; try reflexivity; split; congruence. Qed.

(* the text of a number determines it *)
Lemma reads_as_small : forall t n, reads_as t n -> length t <= S n.
Proof.
  assert (H : forall t a, (1 <= a)%N -> (forall c, In c t -> is_digit c) ->
            (a + N.of_nat (length t) <= fold_left (fun n c => n * 10 + (c - 48)) t a)%N).
  { induction t as [|c t IH]; intros a Ha Hd; simpl; [lia|].
    specialize (IH (a * 10 + (c - 48))%N). assert (1 <= a * 10 + (c - 48))%N by lia.
    specialize (IH H (fun x Hx => Hd x (or_intror Hx))). lia. }
  intros t n (Hne & Hd & Hv & Hz). destruct t as [|c t]; [congruence|]. simpl.
  destruct (N.eq_dec c 48) as [->|Hc].
  - rewrite (Hz t eq_refl). simpl. lia.
  - unfold decimal_value in Hv. simpl in Hv. pose proof (Hd c (or_introl eq_refl)) as Hdc. unfold is_digit in Hdc.
    specialize (H t (c - 48)%N ltac:(lia) (fun x Hx => Hd x (or_intror Hx))). lia.
Qed.
Lemma reads_as_scalar : forall t n, reads_as t n -> forallb scalar_b t = true /\ length (as_bytes t) = length t.
Proof.
  intros t n (_ & Hd & _). clear n. induction t as [|c t IH]; [auto|].
  pose proof (Hd c (or_introl eq_refl)) as Hc. unfold is_digit in Hc.
  destruct IH as [A B]; [intros; apply Hd; right; auto|]. split.
  - simpl. rewrite A. unfold scalar_b. rewrite (proj2 (N.ltb_lt c 55296)) by lia. reflexivity.
  - unfold as_bytes in *. simpl. rewrite app_length, B. unfold char_bytes.
    rewrite (proj2 (N.ltb_lt c 128)) by lia. reflexivity.
Qed.

(* a bound on the text of a path *)
Fixpoint path_size (p : path) : nat :=
  match p with
  | [] => 0
  | Field f :: p' => S (length (as_bytes f)) + path_size p'
  | Index i :: p' => S (S (S i)) + path_size p'
  end.
Definition path_ok (p : path) : bool :=
  forallb (fun s => match s with Field f => forallb scalar_b f | Index _ => true end) p.
Lemma path_text_fits : forall first p t, path_text first p t -> path_ok p = true ->
  exists b, utf8_of t b /\ length b <= path_size p.
Proof.
  intros first p t H. induction H as [first|f p t H IH|f p t H IH|first i p d t Hd H IH]; simpl; intros Hok.
  - exists []. split; [constructor|auto].
  - apply andb_true_iff in Hok as [A B]. destruct (IH B) as (b & Hb & Hl).
    exists (as_bytes f ++ b). split; [apply utf8_of_app; auto; apply utf8_text, A|]. rewrite app_length. lia.
  - apply andb_true_iff in Hok as [A B]. destruct (IH B) as (b & Hb & Hl).
    exists ([46%N] ++ as_bytes f ++ b). split.
    + constructor; [constructor; reflexivity|]. apply utf8_of_app; auto. apply utf8_text, A.
    + simpl. rewrite app_length. lia.
  - destruct (IH Hok) as (b & Hb & Hl). destruct (reads_as_scalar d i Hd) as [A B].
    exists ([91%N] ++ as_bytes d ++ [93%N] ++ b). split.
    + constructor; [constructor; reflexivity|]. apply utf8_of_app; [apply utf8_text, A|].
      constructor; [constructor; reflexivity|]. exact Hb.
    + simpl. rewrite app_length. simpl. pose proof (reads_as_small d i Hd). lia.
Qed.
Lemma path_ok_fits : forall p, path_ok p = true -> (path_size p <? 1000) = true -> path_fits p.
Proof.
  intros p Hok Hs t Ht. destruct (path_text_fits true p t Ht Hok) as (b & Hb & Hl). exists b. split; auto.
  apply small_lt. apply Nat.ltb_lt in Hs. apply Nat.ltb_lt. lia.
Qed.
Lemma co_path_fits : path_fits co_path.
Proof. apply path_ok_fits; reflexivity. Qed.

(* the event of Examples/Setting.v through the binding *)
Definition simple_entries (e : simple_event) : list (str * simple_event) :=
  match e with SMap m => m | _ => [] end.
Definition go_entries_of (v : go_value) : list (list N * go_value) :=
  match v with GMap m => m | _ => [] end.
Definition co_ex_value : go_value := to_go ex_event.
Definition co_ex_redacted : go_value := to_go ex_redacted.
Definition co_ex_outs : list rule_match :=
  Eval vm_compute in
    match scan simple_event_impl 100 ex_hash isort ex_scanner [] ex_event with
    | Ret (_, outs) => outs
    | _ => []
    end.
Lemma co_ex_image : go_image ex_event (GMap (go_entries_of co_ex_value)).
Proof. apply (to_go_image ex_event). reflexivity. Qed.
Lemma co_ex_fits : go_fits (GMap (go_entries_of co_ex_value)).
Proof. apply (small_fits co_ex_value). reflexivity. Qed.
Lemma co_ex_image' : go_image ex_redacted co_ex_redacted.
Proof. apply to_go_image. reflexivity. Qed.
Lemma co_ex_fits' : go_fits co_ex_redacted.
Proof. apply small_fits. reflexivity. Qed.
Lemma co_ex_matches : forall o, In o co_ex_outs -> match_fits o /\ path_fits (rm_path o).
Proof.
  intros o H. unfold co_ex_outs in H.
  repeat (destruct H as [<-|H];
    [split; [constructor; vm_compute; try reflexivity; split; congruence|apply path_ok_fits; reflexivity]|]).
  destruct H.
Qed.

Lemma co_string_setting : scan_setting string_event clen isort ex_scanner (finders ex_scanner) (text "n 12")
  [([], text "n 12")] (fun e l => exists x, l = [([], e, x)]) 100.
Proof.
  constructor.
  - exact utf8_shifts.
  - exact utf8_indices.
  - exact isort_ok.
  - apply regex_scanner_meets, ex_regex_scanner.
  - apply string_laws.
  - intros p c [E|[]]. injection E as <- <-. vm_compute. lia.
Qed.
