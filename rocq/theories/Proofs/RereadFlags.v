(* The flags after conversion: a closed form, and how they are read and what they set. *)
From Verif Require Import Proofs.Pattern Spec.RegexMeaning Model.RegexSyntax.
From Coq Require Import Lia.

Definition all_flags : list flag := [CaseInsensitive; MultiLine; DotMatchesNewLine; IgnoreWhitespace].
Definition mem (l : list flag) (f : flag) : bool := existsb (is_flag f) l.

Lemma is_flag_eq : forall a b, is_flag a b = true <-> a = b.
Proof. intros [] []; split; intros H; try reflexivity; discriminate. Qed.
Lemma mem_in : forall l f, mem l f = true <-> In f l.
Proof.
  intros l f. unfold mem. rewrite existsb_exists. split.
  - intros (g & Hg & E). apply is_flag_eq in E. subst. exact Hg.
  - intros H. exists f. split; auto. apply is_flag_eq. reflexivity.
Qed.

Lemma ascending_unique : forall a b, ascending a -> NoDup a -> ascending b -> NoDup b ->
  (forall x, In x a <-> In x b) -> a = b.
Proof.
  induction a as [|x a IH]; intros b Ha Na Hb Nb E.
  - destruct b as [|y b]; [reflexivity|]. exfalso. apply (E y). left. reflexivity.
  - destruct b as [|y b]; [exfalso; apply (E x); left; reflexivity|].
    simpl in Ha, Hb. destruct Ha as [Ha1 Ha2], Hb as [Hb1 Hb2].
    inversion Na as [|? ? Na1 Na2]; subst. inversion Nb as [|? ? Nb1 Nb2]; subst.
    assert (R : flag_rank x = flag_rank y).
    { destruct (proj1 (E x) (or_introl eq_refl)) as [->|Hx]; [reflexivity|].
      destruct (proj2 (E y) (or_introl eq_refl)) as [->|Hy]; [reflexivity|].
      specialize (Ha1 _ Hy). specialize (Hb1 _ Hx). lia. }
    assert (x = y) by (destruct x, y; simpl in R; congruence). subst y.
    f_equal. apply IH; auto. intros z. split; intros Hz.
    + destruct (proj1 (E z) (or_intror Hz)) as [->|]; [contradiction|auto].
    + destruct (proj2 (E z) (or_intror Hz)) as [->|]; [contradiction|auto].
Qed.

Lemma dedup_ascending : forall l, ascending l -> ascending (dedup_flags l).
Proof.
  induction l as [|f l IH]; intros H; [exact I|]. destruct l as [|g l]; [simpl; split; [intros ? []|exact I]|].
  change (dedup_flags (f :: g :: l)) with (if flag_eqb f g then dedup_flags (g :: l) else f :: dedup_flags (g :: l)).
  destruct H as [H1 H2]. destruct (flag_eqb f g); [apply IH; exact H2|].
  split; [|apply IH; exact H2]. intros x Hx. rewrite dedup_flags_in in Hx. auto.
Qed.

Lemma dedup_sorted : forall l, dedup_flags (sort_flags l) = filter (mem l) all_flags.
Proof.
  intros l. apply ascending_unique.
  - apply dedup_ascending, sort_flags_ascending.
  - apply dedup_flags_nodup, sort_flags_ascending.
  - simpl. destruct (mem l CaseInsensitive), (mem l MultiLine), (mem l DotMatchesNewLine), (mem l IgnoreWhitespace);
      simpl; intuition (subst; simpl; lia).
  - apply NoDup_filter. repeat constructor; simpl; intuition congruence.
  - intros x. rewrite dedup_flags_in, sort_flags_in, filter_In, mem_in. unfold all_flags. destruct x; simpl; tauto.
Qed.

(* the flags after conversion are determined by eight truth values *)
Definition converted_flags (a0 a1 a2 a3 r0 r1 r2 r3 : bool) : list rflags_item :=
  let pick (b0 b1 b2 b3 : bool) := (if b0 then [CaseInsensitive] else []) ++ (if b1 then [MultiLine] else []) ++
    (if b2 then [DotMatchesNewLine] else []) ++ (if b3 then [IgnoreWhitespace] else []) in
  let add := pick (a0 && negb r0) (a1 && negb r1) (a2 && negb r2) (a3 && negb r3) in
  let remove := pick r0 r1 r2 r3 in
  map (fun x => RFlag (convert_flag x)) add ++
  match remove with [] => [] | _ => RNegation :: map (fun x => RFlag (convert_flag x)) remove end.
Lemma convert_flags_closed : forall f, convert_flags f =
  converted_flags (mem (fl_add f) CaseInsensitive) (mem (fl_add f) MultiLine)
    (mem (fl_add f) DotMatchesNewLine) (mem (fl_add f) IgnoreWhitespace)
    (mem (fl_remove f) CaseInsensitive) (mem (fl_remove f) MultiLine)
    (mem (fl_remove f) DotMatchesNewLine) (mem (fl_remove f) IgnoreWhitespace).
Proof.
  intros f. unfold convert_flags. rewrite !dedup_sorted. unfold all_flags. cbn [filter].
  destruct (mem (fl_add f) CaseInsensitive), (mem (fl_add f) MultiLine), (mem (fl_add f) DotMatchesNewLine),
    (mem (fl_add f) IgnoreWhitespace), (mem (fl_remove f) CaseInsensitive), (mem (fl_remove f) MultiLine),
    (mem (fl_remove f) DotMatchesNewLine), (mem (fl_remove f) IgnoreWhitespace); reflexivity.
Qed.

Definition rmode_of (m : mode) : rmode := {| ri := mi m; rm := mm m; rs := ms m; ru := true |}.

Lemma set_items_converted : forall f m, set_items true (convert_flags f) (rmode_of m) = rmode_of (set_flags f m).
Proof.
  intros f [i mu s x]. rewrite convert_flags_closed. unfold set_flags, set_flag, rmode_of. fold (mem (fl_add f)) (mem (fl_remove f)).
  cbn [mi mm ms mx].
  change (existsb (is_flag CaseInsensitive)) with (fun l => mem l CaseInsensitive).
  change (existsb (is_flag MultiLine)) with (fun l => mem l MultiLine).
  change (existsb (is_flag DotMatchesNewLine)) with (fun l => mem l DotMatchesNewLine).
  change (existsb (is_flag IgnoreWhitespace)) with (fun l => mem l IgnoreWhitespace). cbv beta.
  destruct (mem (fl_add f) CaseInsensitive), (mem (fl_add f) MultiLine), (mem (fl_add f) DotMatchesNewLine),
    (mem (fl_add f) IgnoreWhitespace), (mem (fl_remove f) CaseInsensitive), (mem (fl_remove f) MultiLine),
    (mem (fl_remove f) DotMatchesNewLine), (mem (fl_remove f) IgnoreWhitespace); reflexivity.
Qed.
Lemma x_after_converted : forall f m, x_after (convert_flags f) (mx m) = mx (set_flags f m).
Proof.
  intros f [i mu s x]. rewrite convert_flags_closed. unfold set_flags, set_flag.
  cbn [mi mm ms mx].
  change (existsb (is_flag IgnoreWhitespace)) with (fun l => mem l IgnoreWhitespace). cbv beta.
  destruct (mem (fl_add f) CaseInsensitive), (mem (fl_add f) MultiLine), (mem (fl_add f) DotMatchesNewLine),
    (mem (fl_add f) IgnoreWhitespace), (mem (fl_remove f) CaseInsensitive), (mem (fl_remove f) MultiLine),
    (mem (fl_remove f) DotMatchesNewLine), (mem (fl_remove f) IgnoreWhitespace); reflexivity.
Qed.

(* flags that can be written and read *)
Definition flags_ok (f : list rflags_item) : Prop := forall c rest, c = 58%N \/ c = 41%N ->
  read_flags [] (print_flags f ++ c :: rest) = Some (f, c, rest).
Lemma flags_ok_converted : forall f, flags_ok (convert_flags f).
Proof.
  intros f c rest Hc. rewrite convert_flags_closed.
  destruct (mem (fl_add f) CaseInsensitive), (mem (fl_add f) MultiLine), (mem (fl_add f) DotMatchesNewLine),
    (mem (fl_add f) IgnoreWhitespace), (mem (fl_remove f) CaseInsensitive), (mem (fl_remove f) MultiLine),
    (mem (fl_remove f) DotMatchesNewLine), (mem (fl_remove f) IgnoreWhitespace); destruct Hc as [-> | ->]; reflexivity.
Qed.
Lemma flags_ok_ascii : flags_ok [RNegation; RFlag RfUnicode].
Proof. intros c rest [-> | ->]; reflexivity. Qed.
Lemma converted_nonempty : forall f, fl_add f <> [] \/ fl_remove f <> [] -> convert_flags f <> [].
Proof.
  intros f H. rewrite convert_flags_closed.
  assert (K : exists x, In x (fl_add f) \/ In x (fl_remove f)).
  { destruct f as [[|a l] [|b r]]; simpl in *; [destruct H; congruence|exists b; auto|exists a; auto|exists a; auto]. }
  destruct K as [x K]. rewrite <- !mem_in in K.
  destruct x;
  destruct (mem (fl_add f) CaseInsensitive), (mem (fl_add f) MultiLine), (mem (fl_add f) DotMatchesNewLine),
    (mem (fl_add f) IgnoreWhitespace), (mem (fl_remove f) CaseInsensitive), (mem (fl_remove f) MultiLine),
    (mem (fl_remove f) DotMatchesNewLine), (mem (fl_remove f) IgnoreWhitespace);
    (discriminate || (destruct K; discriminate)).
Qed.
