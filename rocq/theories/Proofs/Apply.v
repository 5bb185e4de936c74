(* Applying match actions one at a time is a simultaneous substitution *)
From Coq Require Import Lia.
From Verif Require Import Proofs.Text.
From Verif Require Export Spec.Redaction.

Lemma repeat_all : forall A (x : A) n, length (repeat x n) = n.
Proof. intros; apply repeat_length. Qed.

Lemma partial_first_ok : forall n m, exists t q,
  partial_redaction_first n m =
    Ret {| rep_start := 0; rep_end := blen t; rep_text := repeat 42%N n |} /\
  m = t ++ q /\ skipn n m = q.
Proof.
  intros n m. unfold partial_redaction_first.
  destruct (n <? length m) eqn:E.
  - apply Nat.ltb_lt in E. exists (firstn n m), (skipn n m).
    unfold iter_nth, char_indices. rewrite char_indices_nth.
    destruct (nth_error m n) as [c|] eqn:Hn.
    + simpl. rewrite firstn_skipn. auto.
    + apply nth_error_None in Hn. lia.
  - apply Nat.ltb_ge in E. exists m, []. simpl. rewrite app_nil_r, skipn_all2 by lia. auto.
Qed.

Lemma partial_last_ok : forall n m, n <> 0 -> exists p t,
  partial_redaction_last n m =
    Ret {| rep_start := blen p; rep_end := blen m; rep_text := repeat 42%N n |} /\
  m = p ++ t /\ firstn (length m - n) m = p.
Proof.
  intros n m Hn. unfold partial_redaction_last.
  destruct (n <? length m) eqn:E.
  - apply Nat.ltb_lt in E. destruct n as [|n]; [contradiction|].
    destruct (char_indices_nth_back m n) as (c & H & _); [lia|].
    rewrite H. simpl. exists (firstn (length m - S n) m), (skipn (length m - S n) m).
    rewrite firstn_skipn. auto.
  - apply Nat.ltb_ge in E. exists [], m. simpl.
    replace (length m - n) with 0 by lia. auto.
Qed.

Lemma get_replacement_ok : forall h a m, action_validate a = true -> is_mutating a = true ->
  exists rep p t q, get_replacement h a m = Ret (Some rep) /\ m = p ++ t ++ q /\
    rep_start rep = blen p /\ rep_end rep = blen p + blen t /\
    redacted h a m = p ++ rep_text rep ++ q.
Proof.
  intros h a m Hv Hm. destruct a as [|r| | |[] n]; try discriminate Hm; simpl.
  - eexists _, [], m, []. repeat split; simpl; rewrite ?app_nil_r; auto.
  - eexists _, [], m, []. repeat split; simpl; rewrite ?app_nil_r; auto.
  - eexists _, [], m, []. repeat split; simpl; rewrite ?app_nil_r; auto.
  - destruct (partial_first_ok n m) as (t & q & H & E & F). rewrite H. simpl.
    eexists _, [], t, q. repeat split; simpl; auto. rewrite F. reflexivity.
  - assert (n <> 0). { simpl in Hv. destruct n; [discriminate|lia]. }
    destruct (partial_last_ok n m H) as (p & t & H1 & E & F). rewrite H1. simpl.
    eexists _, p, t, []. repeat split; simpl; rewrite ?app_nil_r; auto.
    + rewrite E at 1. apply blen_app.
    + rewrite F. reflexivity.
Qed.

Lemma redacted_none : forall h a m, is_mutating a = false -> redacted h a m = m.
Proof. intros h [] m H; try discriminate; reflexivity. Qed.

Lemma edit_delta_snoc : forall len l e,
  edit_delta len (l ++ [e]) =
  (edit_delta len l + (Z.of_nat (len (snd e)) - Z.of_nat (len (fst e))))%Z.
Proof.
  intros. unfold edit_delta. rewrite map_app.
  induction l; simpl in *; [lia|]. rewrite IHl. lia.
Qed.

(* What one output says, given what precedes the match in the original ([old]) and
   in the final text ([new]). *)
Definition report {E} (w : char -> nat) (h : hashers) (sc : scanner) (p : path)
    (old new : str) (m : internal_match E) (c : cut) (o : rule_match) : Prop :=
  exists r,
    nth_error (sc_rules sc) (im_rule m) = Some r /\
    blen old = im_start m /\ blen old + blen (cut_old c) = im_end m /\
    cut_new c = redacted h (rule_action r) (cut_old c) /\
    o = {| rm_rule := im_rule m; rm_path := p; rm_kind := replacement_type (rule_action r);
           rm_start := weight w new; rm_end := weight w (new ++ cut_new c);
           rm_shift := Z.of_nat (weight w (new ++ cut_new c))
                       - Z.of_nat (weight w (old ++ cut_old c));
           rm_value := if sc_return_matches sc then Some (cut_old c) else None;
           rm_status := match rule_validation r with Some _ => NotChecked | None => NotAvailable end |}.

Fixpoint reports {E} (w : char -> nat) (h : hashers) (sc : scanner) (p : path)
    (old new g : str) (cs : list cut) (ms : list (internal_match E)) (os : list rule_match)
  : Prop :=
  match cs, ms, os with
  | [], [], [] => True
  | c :: cs', m :: ms', o :: os' =>
      report w h sc p (old ++ g) (new ++ g) m c o /\
      reports w h sc p (old ++ g ++ cut_old c) (new ++ g ++ cut_new c) (cut_gap c) cs' ms' os'
  | _, _, _ => False
  end.

Definition good_rule {E} (sc : scanner) (m : internal_match E) : Prop :=
  exists r, nth_error (sc_rules sc) (im_rule m) = Some r /\ action_validate (rule_action r) = true.

Lemma separated_tail : forall E (m : internal_match E) ms, separated (m :: ms) -> separated ms.
Proof. intros E m ms H i j a b Hij Ha Hb. apply (H (S i) (S j)); auto. lia. Qed.

Lemma separated_head : forall E (m : internal_match E) ms, separated (m :: ms) ->
  forall m', In m' ms -> im_end m <= im_start m'.
Proof.
  intros E m ms H m' Hin. apply In_nth_error in Hin as (j & Hj).
  apply (H 0 (S j)); auto. lia.
Qed.

Lemma apply_one : forall E w h sc p (m : internal_match E) g t q old new edits r,
  shifts_additive E w ->
  nth_error (sc_rules sc) (im_rule m) = Some r -> action_validate (rule_action r) = true ->
  indexed w (old ++ g ++ t ++ q) m ->
  blen (old ++ g) = im_start m -> blen (old ++ g) + blen t = im_end m ->
  edit_delta nbytes edits = (Z.of_nat (blen new) - Z.of_nat (blen old))%Z ->
  edit_delta (weight w) edits = (Z.of_nat (weight w new) - Z.of_nat (weight w old))%Z ->
  exists edits' o,
    apply_match_actions_for_string h sc p (new ++ g ++ t ++ q) (edit_delta nbytes edits)
      (fold_left (fun s e => enc_adjust_shift E s (fst e) (snd e)) edits (enc_zero_shift E)) m
    = Ret (new ++ g ++ redacted h (rule_action r) t ++ q, edit_delta nbytes edits',
           fold_left (fun s e => enc_adjust_shift E s (fst e) (snd e)) edits' (enc_zero_shift E), o) /\
    edit_delta nbytes edits' =
      (Z.of_nat (blen (new ++ g ++ redacted h (rule_action r) t)) - Z.of_nat (blen (old ++ g ++ t)))%Z /\
    edit_delta (weight w) edits' =
      (Z.of_nat (weight w (new ++ g ++ redacted h (rule_action r) t)) - Z.of_nat (weight w (old ++ g ++ t)))%Z /\
    report w h sc p (old ++ g) (new ++ g) m
      {| cut_old := t; cut_new := redacted h (rule_action r) t; cut_gap := q |} o.
Proof.
  intros E w h sc p m g t q old new edits r HE Hr Hv [Hi1 Hi2] Hs He Hd Hw.
  unfold apply_match_actions_for_string. rewrite Hr. cbn [unwrap bind].
  rewrite HE, Hw.
  rewrite (Hi1 (old ++ g) (t ++ q)) by (rewrite ?nbytes_blen, <- ?app_assoc; auto).
  rewrite (as_usize_eq _ (weight w (new ++ g))) by (rewrite !weight_app; lia).
  cbn [bind].
  assert (Ha : (Z.of_nat (im_start m) + edit_delta nbytes edits = Z.of_nat (blen (new ++ g)))%Z).
  { rewrite Hd, <- Hs, !blen_app. lia. }
  assert (Hb : (Z.of_nat (im_end m) + edit_delta nbytes edits
               = Z.of_nat (blen (new ++ g) + blen t))%Z).
  { rewrite Hd, <- He, !blen_app. lia. }
  rewrite (as_usize_eq _ _ Ha), (as_usize_eq _ _ Hb). cbn [bind].
  assert (Hsl : slice (new ++ g ++ t ++ q) (blen (new ++ g)) (blen (new ++ g) + blen t) = Ret t).
  { rewrite (app_assoc new g). apply slice_app. }
  rewrite Hsl. cbn [bind].
  match goal with |- context [bind (if sc_return_matches sc then ?a else ?b) _] =>
    replace (if sc_return_matches sc then a else b)
      with (Ret (if sc_return_matches sc then Some t else None))
      by (destruct (sc_return_matches sc); reflexivity)
  end.
  cbn [bind].
  assert (Hend : enc_get_index E (im_cend m) (im_end m) = weight w (old ++ g ++ t)).
  { apply (Hi2 (old ++ g ++ t) q); [rewrite <- !app_assoc; reflexivity|].
    rewrite nbytes_blen, app_assoc, blen_app. exact He. }
  destruct (is_mutating (rule_action r)) eqn:Hm.
  - destruct (get_replacement_ok h (rule_action r) t Hv Hm)
      as (rep & a & b & c & H1 & H2 & H3 & H4 & H5).
    rewrite H1. cbn [bind]. rewrite H3, H4.
    assert (Hb2 : slice t (blen a) (blen a + blen b) = Ret b).
    { rewrite H2. apply slice_app. }
    rewrite Hb2. cbn [bind].
    assert (Hrr : replace_range (new ++ g ++ t ++ q) (blen (new ++ g) + blen a)
              (blen (new ++ g) + (blen a + blen b)) (rep_text rep)
              = Ret (new ++ g ++ redacted h (rule_action r) t ++ q)).
    { rewrite H2 at 1. rewrite H5.
      pose proof (replace_range_app (new ++ g ++ a) b (c ++ q) (rep_text rep)) as K.
      rewrite <- !app_assoc in K. rewrite <- !app_assoc.
      rewrite !blen_app in K. rewrite !blen_app.
      replace (blen new + blen g + blen a) with (blen new + (blen g + blen a)) by lia.
      replace (blen new + blen g + (blen a + blen b)) with (blen new + (blen g + blen a) + blen b) by lia.
      exact K. }
    rewrite Hrr. cbn [bind].
    pose (edits' := edits ++ [(b, rep_text rep)]).
    assert (Hf : fold_left (fun s e => enc_adjust_shift E s (fst e) (snd e)) edits' (enc_zero_shift E)
              = enc_adjust_shift E (fold_left (fun s e => enc_adjust_shift E s (fst e) (snd e)) edits (enc_zero_shift E)) b (rep_text rep)).
    { unfold edits'. rewrite fold_left_app. reflexivity. }
    assert (Hd' : edit_delta nbytes edits' =
              (edit_delta nbytes edits + (Z.of_nat (blen (rep_text rep)) - Z.of_nat (blen b)))%Z).
    { unfold edits'. rewrite edit_delta_snoc. simpl. rewrite !nbytes_blen. reflexivity. }
    assert (Hw' : edit_delta (weight w) edits' =
              (Z.of_nat (weight w (new ++ g ++ redacted h (rule_action r) t)) - Z.of_nat (weight w (old ++ g ++ t)))%Z).
    { unfold edits'. rewrite edit_delta_snoc, Hw. simpl.
      rewrite H5. rewrite H2 at 1. rewrite !weight_app. lia. }
    rewrite <- Hf, <- Hd', HE, Hw', Hend.
    rewrite (as_usize_eq _ (weight w (new ++ g ++ redacted h (rule_action r) t))) by lia.
    cbn [bind]. eexists edits', _. split; [reflexivity|]. split; [|split; [exact Hw'|]].
    + rewrite Hd', Hd, H5. rewrite H2 at 1. rewrite !blen_app. lia.
    + exists r. cbn [cut_old cut_new]. rewrite <- !app_assoc. auto.
  - cbn [bind]. rewrite HE, Hw, Hend, redacted_none by assumption.
    rewrite (as_usize_eq _ (weight w (new ++ g ++ t))) by (rewrite !weight_app; lia).
    cbn [bind]. eexists edits, _. split; [reflexivity|]. split; [|split].
    + rewrite Hd, !blen_app. lia.
    + rewrite Hw, !weight_app. lia.
    + exists r. cbn [cut_old cut_new]. rewrite redacted_none by assumption.
      rewrite <- !app_assoc. repeat split; auto. f_equal. rewrite !weight_app. lia.
Qed.

Lemma apply_loop : forall E w h sc p (ms : list (internal_match E)) old new rest edits,
  shifts_additive E w ->
  (forall m, In m ms -> good_rule sc m) ->
  (forall m, In m ms -> indexed w (old ++ rest) m) ->
  (forall m, In m ms -> in_text (old ++ rest) m) ->
  separated ms ->
  (forall m, In m ms -> blen old <= im_start m) ->
  edit_delta nbytes edits = (Z.of_nat (blen new) - Z.of_nat (blen old))%Z ->
  edit_delta (weight w) edits = (Z.of_nat (weight w new) - Z.of_nat (weight w old))%Z ->
  exists g cs os,
    rest = original g cs /\
    apply_match_actions_loop h sc p (new ++ rest) (edit_delta nbytes edits)
      (fold_left (fun s e => enc_adjust_shift E s (fst e) (snd e)) edits (enc_zero_shift E)) ms
    = Ret (new ++ rewritten g cs, os) /\
    reports w h sc p old new g cs ms os.
Proof.
  intros E w h sc p. induction ms as [|m ms IH]; intros old new rest edits HE Hg Hi Ht Hsep Hle Hd Hw.
  - exists rest, [], []. unfold original, rewritten. simpl. rewrite app_nil_r. auto.
  - destruct (Hg m (or_introl eq_refl)) as (r & Hr & Hv).
    destruct (Ht m (or_introl eq_refl)) as (t & pp & qq & Hpq & Hp & Hq).
    rewrite nbytes_blen in Hp, Hq.
    assert (Hgm : exists g, pp = old ++ g /\ rest = g ++ t ++ qq).
    { apply (app_prefix_le old rest pp (t ++ qq) Hpq). rewrite Hp. apply Hle. left; reflexivity. }
    destruct Hgm as (g & -> & ->).
    destruct (apply_one E w h sc p m g t qq old new edits r) as (edits' & o & H1 & H2 & H3 & H4);
      auto.
    { apply Hi. left; reflexivity. }
    { rewrite blen_app in Hq. lia. }
    set (t' := redacted h (rule_action r) t) in *.
    assert (Hrest : old ++ g ++ t ++ qq = (old ++ g ++ t) ++ qq).
    { rewrite <- !app_assoc. reflexivity. }
    destruct (IH (old ++ g ++ t) (new ++ g ++ t') qq edits') as (g' & cs & os & K1 & K2 & K3); auto.
    + intros m' Hin. apply Hg. right; auto.
    + intros m' Hin. rewrite <- Hrest. apply Hi. right; auto.
    + intros m' Hin. rewrite <- Hrest. apply Ht. right; auto.
    + eapply separated_tail; eauto.
    + intros m' Hin. pose proof (separated_head _ _ _ Hsep m' Hin).
      rewrite blen_app in Hq. rewrite app_assoc, blen_app. lia.
    + exists g, ({| cut_old := t; cut_new := t'; cut_gap := g' |} :: cs), (o :: os).
      split; [|split].
      * unfold original in *. simpl. rewrite K1, <- app_assoc. reflexivity.
      * cbn [apply_match_actions_loop]. rewrite H1. cbn [bind].
        replace (new ++ g ++ t' ++ qq) with ((new ++ g ++ t') ++ qq) by (rewrite <- !app_assoc; reflexivity).
        rewrite K2. cbn [bind fst snd]. f_equal. f_equal.
        unfold rewritten. simpl. rewrite <- !app_assoc. reflexivity.
      * simpl. split; [|exact K3].
        destruct H4 as (r' & A1 & A2 & A3 & A4 & A5). exists r'. simpl in *. auto.
Qed.

Lemma reports_nth : forall E w h sc p cs (ms : list (internal_match E)) os old new g k m o,
  reports w h sc p old new g cs ms os ->
  nth_error ms k = Some m -> nth_error os k = Some o ->
  exists c, nth_error cs k = Some c /\
    report w h sc p (old ++ original g (firstn k cs)) (new ++ rewritten g (firstn k cs)) m c o.
Proof.
  intros E w h sc p. induction cs as [|c cs IH]; intros [|m0 ms] [|o0 os] old new g k m o H Hm Ho;
    simpl in H; try contradiction; destruct k as [|k]; simpl in Hm, Ho; try discriminate.
  - inversion Hm; inversion Ho; subst. destruct H as [H _]. exists c. split; [reflexivity|].
    unfold original, rewritten. simpl. rewrite !app_nil_r. exact H.
  - destruct H as [_ H]. destruct (IH _ _ _ _ _ _ _ _ H Hm Ho) as (c' & Hc & Hr).
    exists c'. split; [exact Hc|].
    unfold original, rewritten in *. simpl. rewrite <- !app_assoc in Hr.
    rewrite <- !app_assoc. exact Hr.
Qed.

Lemma reports_length : forall E w h sc p cs (ms : list (internal_match E)) os old new g,
  reports w h sc p old new g cs ms os -> length cs = length ms /\ length os = length ms.
Proof.
  intros E w h sc p. induction cs as [|c cs IH]; intros [|m ms] [|o os] old new g H;
    simpl in H; try contradiction; [auto|].
  destruct H as [_ H]. apply IH in H as [A B]. simpl. lia.
Qed.

(* what the theorems about apply_match_actions share *)
Lemma apply_spec : forall E w h sc p content (ms : list (internal_match E)),
  shifts_additive E w ->
  (forall m, In m ms -> good_rule sc m) ->
  (forall m, In m ms -> indexed w content m) ->
  (forall m, In m ms -> in_text content m) ->
  separated ms ->
  exists g0 cs os,
    content = original g0 cs /\
    apply_match_actions h sc p content ms = Ret (rewritten g0 cs, os) /\
    length cs = length ms /\ length os = length ms /\
    forall k m o, nth_error ms k = Some m -> nth_error os k = Some o ->
      exists c, nth_error cs k = Some c /\
        report w h sc p (original g0 (firstn k cs)) (rewritten g0 (firstn k cs)) m c o.
Proof.
  intros E w h sc p content ms HE Hg Hi Ht Hs.
  destruct (apply_loop E w h sc p ms [] [] content []) as (g & cs & os & H1 & H2 & H3); auto.
  - intros; simpl; lia.
  - exists g, cs, os. split; [exact H1|]. split; [exact H2|].
    destruct (reports_length _ _ _ _ _ _ _ _ _ _ _ H3) as [L1 L2].
    split; [exact L1|]. split; [exact L2|].
    intros k m o Hm Ho. destruct (reports_nth _ _ _ _ _ _ _ _ _ _ _ _ _ _ H3 Hm Ho) as (c & Hc & Hr).
    exists c. auto.
Qed.
