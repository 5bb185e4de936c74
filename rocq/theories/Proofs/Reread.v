(* What the printer writes is read back by the parser of the regex crate. *)
From Verif Require Import Proofs.Pattern Proofs.Binary Proofs.Text Proofs.RereadFlags Spec.RegexMeaning Model.RegexSyntax.
From Coq Require Import Lia ZifyN ZifyBool.

Lemma strip_app : forall p s, strip p (p ++ s) = Some s.
Proof.
  intros p s. unfold strip. rewrite firstn_app, firstn_all, Nat.sub_diag. cbn [firstn]. rewrite app_nil_r, str_eqb_refl.
  rewrite skipn_app, skipn_all, Nat.sub_diag. reflexivity.
Qed.
Lemma strip_head : forall c p d s, c <> d -> strip (c :: p) (d :: s) = None.
Proof.
  intros c p d s H. unfold strip. cbn [length firstn].
  destruct (str_eqb (d :: firstn (length p) s) (c :: p)) eqn:E; [|reflexivity]. apply str_eqb_eq in E. congruence.
Qed.

Lemma strip_other : forall p d s, match p with c :: _ => (c =? d)%N = false | [] => False end -> strip p (d :: s) = None.
Proof. intros [|c p] d s H; [contradiction|]. apply strip_head. apply N.eqb_neq. exact H. Qed.

Lemma pop_last_app : forall A (l : list A) a, pop_last (l ++ [a]) = Some (l, a).
Proof.
  intros A l a. induction l as [|b l IH]; [reflexivity|]. cbn [app pop_last]. rewrite IH.
  destruct (l ++ [a]) eqn:E; [destruct l; discriminate|reflexivity].
Qed.

(* ---- white space ---- *)
Lemma skip_plain : forall x c s, is_whitespace c = false -> c <> 35%N -> skip x (c :: s) = c :: s.
Proof.
  intros [] c s H1 H2; [|reflexivity]. unfold skip. cbn [skip_space]. rewrite H1.
  destruct (N.eqb_spec c 35); [contradiction|reflexivity].
Qed.
Lemma skip_nil : forall x, skip x [] = [].
Proof. intros []; reflexivity. Qed.

(* ---- literals ---- *)
Definition small_or_space (c : char) : bool := ((c <? 32)%N || is_whitespace c)%bool.
Definition lit_ok (l : rliteral) : Prop :=
  match rl_kind l with
  | RMeta => is_meta_character (rl_c l) = true
  | RVerbatim => is_meta_character (rl_c l) = false
  | RHexBrace => small_or_space (rl_c l) = true
  end.

Definition small_chars : list N :=
  [0;1;2;3;4;5;6;7;8;9;10;11;12;13;14;15;16;17;18;19;20;21;22;23;24;25;26;27;28;29;30;31;32;133;160;5760;
   8192;8193;8194;8195;8196;8197;8198;8199;8200;8201;8202;8232;8233;8239;8287;12288]%N.
Lemma small_listed : forall c, small_or_space c = true -> In c small_chars.
Proof.
  intros c H. unfold small_or_space, is_whitespace, in_range in H. unfold small_chars.
  repeat (apply orb_true_iff in H; destruct H as [H|H]);
    try (apply N.eqb_eq in H; subst c; simpl; tauto).
  - apply N.ltb_lt in H.
    assert (K : In (N.to_nat c) (List.seq 0 32)) by (apply in_seq; lia).
    cbn [List.seq] in K. simpl In in K.
    repeat (destruct K as [K|K]; [apply (f_equal N.of_nat) in K; rewrite N2Nat.id in K; cbn in K; subst c; simpl; tauto|]).
    contradiction.
  - assert (K : In (N.to_nat c) (List.seq 9 5)) by (apply in_seq; lia).
    cbn [List.seq] in K. simpl In in K.
    repeat (destruct K as [K|K]; [apply (f_equal N.of_nat) in K; rewrite N2Nat.id in K; cbn in K; subst c; simpl; tauto|]).
    contradiction.
  - assert (K : In (N.to_nat (c - 8192)) (List.seq 0 11)) by (apply in_seq; lia).
    cbn [List.seq] in K. simpl In in K.
    repeat (destruct K as [K|K]; [apply (f_equal N.of_nat) in K; rewrite N2Nat.id in K; cbn in K;
      match type of K with ?n = _ => replace c with (n + 8192)%N by lia end; simpl; tauto|]).
    contradiction.
Qed.
Lemma hex_small : forall c x rest, small_or_space c = true ->
  read_escape x (chars "x{" ++ hex_text 8 c ++ chars "}" ++ rest) =
  Some (MLiteral {| rl_kind := RHexBrace; rl_c := c |}, rest).
Proof.
  intros c x rest H. apply small_listed in H. unfold small_chars in H. simpl In in H.
  repeat (destruct H as [<-|H]; [destruct x; reflexivity|]). contradiction.
Qed.

Lemma is_meta_in : forall c, is_meta_character c = true <-> In c (chars "\.+*?()|[]{}^$#&-~").
Proof.
  intros c. unfold is_meta_character. rewrite existsb_exists. split.
  - intros (d & Hd & E). apply N.eqb_eq in E. subst. exact Hd.
  - intros H. exists c. split; [exact H|apply N.eqb_refl].
Qed.
Ltac meta H := rewrite is_meta_in in H; simpl In in H;
  repeat (destruct H as [<-|H]; [|]); try contradiction.
Lemma not_meta : forall c d, is_meta_character c = false -> is_meta_character d = true -> c <> d.
Proof. intros c d H1 H2 ->. congruence. Qed.

(* what the printed literal starts with *)
Lemma literal_read : forall x l rest, lit_ok l ->
  read_item_primitive x (print_literal l ++ rest) = Some (MLiteral l, rest).
Proof.
  intros x [k c] rest H. unfold lit_ok in H. cbn [rl_kind rl_c] in H. unfold print_literal. cbn [rl_kind rl_c].
  destruct k.
  - cbn [app read_item_primitive]. change (92 =? 92)%N with true. cbn match. unfold read_escape. rewrite H. reflexivity.
  - cbn [app read_item_primitive]. destruct (N.eqb_spec c 92) as [->|]; [discriminate|reflexivity].
  - rewrite <- !app_assoc. change (chars "\x{" ++ ?s) with (92%N :: chars "x{" ++ s). cbn [read_item_primitive].
    change (92 =? 92)%N with true. cbn match. apply hex_small. exact H.
Qed.
Lemma literal_read_primitive : forall x l rest, lit_ok l ->
  read_primitive x (print_literal l ++ rest) = Some (MLiteral l, rest).
Proof.
  intros x [k c] rest H. pose proof (literal_read x {| rl_kind := k; rl_c := c |} rest H) as R.
  unfold lit_ok in H. cbn [rl_kind rl_c] in H. unfold print_literal in *. cbn [rl_kind rl_c] in *.
  destruct k; [exact R| |exact R].
  cbn [app read_primitive]. 
  destruct (N.eqb_spec c 92) as [->|]; [discriminate|].
  destruct (N.eqb_spec c 46) as [->|]; [discriminate|].
  destruct (N.eqb_spec c 94) as [->|]; [discriminate|].
  destruct (N.eqb_spec c 36) as [->|]; [discriminate|]. reflexivity.
Qed.

(* the first character of a text: not skipped and none of the given *)
Definition begins (x : bool) (bad : str) (s : str) : Prop :=
  exists c t, s = c :: t /\ ~ In c bad /\ forall u, skip x (c :: u) = c :: u.
Lemma begins_skip : forall x bad s rest, begins x bad s -> skip x (s ++ rest) = s ++ rest.
Proof. intros x bad s rest (c & t & -> & _ & H). apply H. Qed.
Lemma begins_app : forall x bad s rest, begins x bad s -> begins x bad (s ++ rest).
Proof. intros x bad s rest (c & t & -> & H1 & H2). exists c, (t ++ rest). auto. Qed.
Lemma begins_char : forall x bad c s, existsb (N.eqb c) bad = false -> is_whitespace c = false -> c <> 35%N -> begins x bad (c :: s).
Proof.
  intros x bad c s H1 H2 H3. exists c, s. split; [reflexivity|]. split; [|intros; apply skip_plain; auto].
  intros K. assert (existsb (N.eqb c) bad = true); [|congruence]. apply existsb_exists. exists c. split; auto. apply N.eqb_refl.
Qed.

(* the characters that are never first, in the body of a pattern and in a class *)
Definition bad_chars : str := chars "?*+{|)".
Definition bad_class_chars : str := chars "]-^[&~".

Lemma meta_bad : forall bad c, (forall b, In b bad -> is_meta_character b = true) -> is_meta_character c = false -> ~ In c bad.
Proof. intros bad c H1 H2 H. apply H1 in H. congruence. Qed.
Lemma bad_meta : forall b, In b bad_chars -> is_meta_character b = true.
Proof. intros b H. simpl in H. repeat (destruct H as [<-|H]; [reflexivity|]). contradiction. Qed.
Lemma bad_class_meta : forall b, In b bad_class_chars -> is_meta_character b = true.
Proof. intros b H. simpl in H. repeat (destruct H as [<-|H]; [reflexivity|]). contradiction. Qed.

Definition visible (x : bool) (l : rliteral) : Prop := x = true -> rl_kind l = RVerbatim -> is_whitespace (rl_c l) = false.
Lemma literal_begins : forall x bad l, lit_ok l -> visible x l ->
  (forall b, In b bad -> is_meta_character b = true) -> ~ In 92%N bad -> begins x bad (print_literal l).
Proof.
  intros x bad [k c] H V Hb H92. unfold lit_ok, visible in *. cbn [rl_kind rl_c] in *. unfold print_literal. cbn [rl_kind rl_c].
  destruct k.
  - exists 92%N, [c]. split; [reflexivity|]. split; [exact H92|]. intros. apply skip_plain; [reflexivity|discriminate].
  - exists c, []. split; [reflexivity|]. split; [eapply meta_bad; eauto|]. intros u. destruct x; [|reflexivity].
    apply skip_plain; [apply V; reflexivity|]. apply (not_meta c 35); [exact H|reflexivity].
  - exists 92%N. eexists. split; [reflexivity|]. split; [exact H92|]. intros. apply skip_plain; [reflexivity|discriminate].
Qed.

(* ---- classes ---- *)
Definition clit_ok (l : rliteral) : Prop := lit_ok l /\ visible true l.
Lemma clit_visible : forall x l, clit_ok l -> visible x l.
Proof. intros x l [_ H] E1 E2. apply H; auto. Qed.
Inductive flat_ok : class_item -> Prop :=
| fo_literal : forall l, clit_ok l -> flat_ok (KLiteral l)
| fo_range : forall a b, clit_ok a -> clit_ok b -> (rl_c a <= rl_c b)%N -> flat_ok (KRange a b).
Inductive item_ok : class_item -> Prop :=
| io_flat : forall i, flat_ok i -> item_ok i
| io_ascii : forall n k, item_ok (KAscii n k)
| io_unicode : forall n name, In name unicode_property_names -> item_ok (KUnicode n name)
| io_nested : forall n i l, Forall flat_ok (i :: l) ->
    (forall rest, strip (chars ":") (print_class_item i ++ rest) = None) -> item_ok (KBracketed n (i :: l)).

Definition class_bad : str := chars "]-^&~".
Lemma class_bad_meta : forall b, In b class_bad -> is_meta_character b = true.
Proof. intros b H. simpl in H. repeat (destruct H as [<-|H]; [reflexivity|]). contradiction. Qed.
Lemma class_bad_92 : ~ In 92%N class_bad.
Proof. simpl. intuition discriminate. Qed.
Lemma item_begins : forall x i, item_ok i -> begins x class_bad (print_class_item i).
Proof.
  intros x i [j H|n k|n name H|n j l H _].
  - destruct H as [l H|a b H _ _].
    + apply literal_begins; [apply H|apply clit_visible, H|apply class_bad_meta|apply class_bad_92].
    + cbn [print_class_item]. apply begins_app, literal_begins; [apply H|apply clit_visible, H|apply class_bad_meta|apply class_bad_92].
  - destruct n; apply begins_char; try reflexivity; discriminate.
  - destruct n; apply begins_char; try reflexivity; discriminate.
  - destruct n; apply begins_char; try reflexivity; discriminate.
Qed.

(* a class goes on: with something that is neither skipped nor a dash *)
Definition goes_on (x : bool) (s : str) : Prop := begins x (chars "-") s.
Lemma begins_weaken : forall x bad bad' s, (forall b, In b bad' -> In b bad) -> begins x bad s -> begins x bad' s.
Proof. intros x bad bad' s H (c & t & -> & H1 & H2). exists c, t. split; [reflexivity|]. split; auto. Qed.
Lemma item_goes_on : forall x i rest, item_ok i -> goes_on x (print_class_item i ++ rest).
Proof.
  intros x i rest H. apply begins_app. apply (begins_weaken x class_bad); [|apply item_begins; exact H].
  intros b [<-|[]]. simpl. tauto.
Qed.
Lemma close_goes_on : forall x rest, goes_on x (93%N :: rest).
Proof. intros. apply begins_char; [reflexivity|reflexivity|discriminate]. Qed.
Lemma items_go_on : forall x l rest, Forall item_ok l -> goes_on x (flat_map print_class_item l ++ 93%N :: rest).
Proof.
  intros x [|i l] rest H; [apply close_goes_on|]. cbn [flat_map]. rewrite <- app_assoc. apply item_goes_on.
  inversion H; auto.
Qed.

Lemma read_single : forall x s p rest i, read_item_primitive x s = Some (p, rest) -> item_of p = Some i ->
  goes_on x rest -> read_item x s = Some (i, rest).
Proof.
  intros x s p rest i H1 H2 (c & t & -> & H3 & H4). unfold read_item. rewrite H1, H2, H4.
  destruct (N.eqb_spec c 45) as [->|]; [exfalso; apply H3; left; reflexivity|]. reflexivity.
Qed.
Lemma read_range : forall x a b rest, clit_ok a -> clit_ok b -> (rl_c a <= rl_c b)%N ->
  read_item x (print_literal a ++ chars "-" ++ print_literal b ++ rest) = Some (KRange a b, rest).
Proof.
  intros x a b rest Ha Hb L. unfold read_item. rewrite literal_read by apply Ha.
  change (chars "-" ++ ?s) with (45%N :: s). rewrite skip_plain by (reflexivity || discriminate).
  change (negb (45 =? 45)%N) with false. cbn match.
  assert (B : begins x class_bad (print_literal b)).
  { apply literal_begins; [apply Hb|apply clit_visible, Hb|apply class_bad_meta|apply class_bad_92]. }
  rewrite (begins_skip _ _ _ rest B), literal_read by apply Hb.
  destruct B as (d & t & E & Hd & _). rewrite E. cbn [app].
  destruct (N.eqb_spec d 93) as [->|]; [exfalso; apply Hd; simpl; tauto|].
  destruct (N.eqb_spec d 45) as [->|]; [exfalso; apply Hd; simpl; tauto|]. cbn [orb].
  destruct (N.leb_spec (rl_c a) (rl_c b)); [reflexivity|lia].
Qed.

Lemma property_name_read : forall x name acc rest,
  forallb (fun c => negb ((c =? 125)%N || is_whitespace c)) name = true ->
  read_property x acc (name ++ 125%N :: rest) = Some (acc ++ name, rest).
Proof.
  intros x. induction name as [|c name IH]; intros acc rest H.
  - cbn [app read_property]. change (125 =? 125)%N with true. cbn match. rewrite app_nil_r. reflexivity.
  - cbn [forallb] in H. apply andb_true_iff in H as [H1 H2]. apply negb_true_iff, orb_false_iff in H1 as [H1 H3].
    cbn [app read_property]. rewrite H1, H3, andb_false_r, IH by exact H2. rewrite <- app_assoc. reflexivity.
Qed.
Lemma property_names_plain : forall name, In name unicode_property_names ->
  forallb (fun c => negb ((c =? 125)%N || is_whitespace c)) name = true.
Proof. apply forallb_forall. vm_compute. reflexivity. Qed.
Lemma property_read : forall x n name rest, In name unicode_property_names ->
  read_item_primitive x (print_unicode n name ++ rest) = Some (MUnicode n name, rest).
Proof.
  intros x n name rest H. unfold print_unicode. rewrite <- !app_assoc. change (chars "}" ++ rest) with (125%N :: rest).
  pose proof (property_name_read x name [] rest (property_names_plain name H)) as R. cbn [app] in R.
  assert (K : forall l (n : bool), (l = 112%N /\ n = false \/ l = 80%N /\ n = true) ->
    read_item_primitive x (92%N :: l :: chars "{" ++ name ++ 125%N :: rest) = Some (MUnicode n name, rest)).
  { intros l w Hl. cbn [read_item_primitive]. change (92 =? 92)%N with true. cbn match. unfold read_escape.
    destruct Hl as [[-> ->]|[-> ->]].
    - change (is_meta_character 112) with false. change (112 =? 120)%N with false. change ((112 =? 112) || (112 =? 80))%N with true.
      cbn match. rewrite strip_app, R. reflexivity.
    - change (is_meta_character 80) with false. change (80 =? 120)%N with false. change ((80 =? 112) || (80 =? 80))%N with true.
      cbn match. rewrite strip_app, R. reflexivity. }
  destruct n; [apply (K 80%N true); auto|apply (K 112%N false); auto].
Qed.

(* one step of the loop over the items *)
Lemma read_items_step : forall fuel x acc s i rest,
  begins x (chars "][&-~") s -> read_item x s = Some (i, rest) ->
  read_items (S fuel) x acc s = read_items fuel x (acc ++ [i]) rest.
Proof.
  intros fuel x acc s i rest (c & t & -> & H1 & H2) R. cbn [read_items]. rewrite H2.
  assert (K : forall b, In b (chars "][&-~") -> (c =? b)%N = false).
  { intros b Hb. apply N.eqb_neq. intros ->. contradiction. }
  rewrite (K 91%N), (K 93%N), (K 38%N), (K 45%N), (K 126%N) by (simpl; tauto). cbn [orb andb]. rewrite R. reflexivity.
Qed.
Lemma flat_begins : forall x i, flat_ok i -> begins x (chars "][&-~^") (print_class_item i).
Proof.
  assert (M : forall b, In b (chars "][&-~^") -> is_meta_character b = true).
  { intros b H. simpl in H. repeat (destruct H as [<-|H]; [reflexivity|]). contradiction. }
  assert (M92 : ~ In 92%N (chars "][&-~^")) by (simpl; intuition discriminate).
  intros x i [l H|a b H _ _].
  - apply literal_begins; [apply H|apply clit_visible, H|exact M|exact M92].
  - cbn [print_class_item]. apply begins_app, literal_begins; [apply H|apply clit_visible, H|exact M|exact M92].
Qed.
Lemma flat_read : forall x i rest, flat_ok i -> goes_on x rest ->
  read_item x (print_class_item i ++ rest) = Some (i, rest).
Proof.
  intros x i rest [l H|a b H1 H2 H3] G.
  - cbn [print_class_item]. eapply read_single; [apply literal_read, H|reflexivity|exact G].
  - cbn [print_class_item]. rewrite <- !app_assoc. apply read_range; auto.
Qed.
Lemma flat_items_read : forall x l fuel acc rest, Forall flat_ok l ->
  length (flat_map print_class_item l ++ 93%N :: rest) < fuel ->
  read_items fuel x acc (flat_map print_class_item l ++ 93%N :: rest) = Some (acc ++ l, rest).
Proof.
  intros x. induction l as [|i l IH]; intros fuel acc rest H L.
  - destruct fuel as [|fuel]; [simpl in L; lia|]. cbn [flat_map app read_items].
    rewrite skip_plain by (reflexivity || discriminate). cbn. rewrite app_nil_r. reflexivity.
  - inversion H as [|? ? Hi Hl]; subst. destruct fuel as [|fuel]; [simpl in L; lia|].
    cbn [flat_map]. rewrite <- app_assoc.
    pose proof (flat_begins x i Hi) as B.
    rewrite (read_items_step fuel x acc _ i (flat_map print_class_item l ++ 93%N :: rest)).
    + rewrite IH; [rewrite <- app_assoc; reflexivity|exact Hl|].
      cbn [flat_map] in L. rewrite <- app_assoc, app_length in L.
      destruct B as (c & t & E & _). rewrite E in L. cbn [length] in L. lia.
    + apply begins_app, (begins_weaken _ (chars "][&-~^")); [simpl; tauto|exact B].
    + apply flat_read; auto. apply items_go_on. eapply Forall_impl; [|exact Hl]. intros; constructor; auto.
Qed.

Lemma class_open_read : forall x n s, begins x (chars "^-]") s ->
  read_class_open x ((if n : bool then chars "^" else []) ++ s) = (n, [], s).
Proof.
  intros x n s (c & t & -> & H1 & H2). unfold read_class_open.
  assert (D : forall k, read_dashes k x [] (c :: t) = ([], c :: t)).
  { intros [|k]; [reflexivity|]. simpl. destruct c as [|p]; [reflexivity|].
    do 6 (destruct p as [p|p|]; try reflexivity). exfalso. apply H1. simpl. tauto. }
  assert (N93 : c <> 93%N) by (intros ->; apply H1; simpl; tauto).
  assert (Q : forall (w : bool), match (@nil class_item), c :: t with
      | [], 93%N :: s' => (w, [KLiteral {| rl_kind := RVerbatim; rl_c := 93%N |}], skip x s')
      | _, _ => (w, [], c :: t) end = (w, [], c :: t)).
  { intros w. destruct c as [|p]; [reflexivity|]. do 7 (destruct p as [p|p|]; try reflexivity). congruence. }
  destruct n.
  - change (chars "^" ++ c :: t) with (94%N :: c :: t). rewrite skip_plain by (reflexivity || discriminate).
    change (94%N :: c :: t) with (chars "^" ++ c :: t). rewrite strip_app, H2, D. apply (Q true).
  - cbn [app]. rewrite H2. change (chars "^") with [94%N].
    rewrite strip_head by (intros E; apply H1; rewrite <- E; simpl; tauto). rewrite D. apply (Q false).
Qed.

Lemma ascii_read : forall n k rest,
  read_ascii ((if n : bool then chars "^" else []) ++ ascii_name k ++ chars ":]" ++ rest) = Some (KAscii n k, rest).
Proof. intros [] [] rest; reflexivity. Qed.

Lemma item_read : forall x i fuel acc rest, item_ok i -> goes_on x rest ->
  length (print_class_item i ++ rest) < fuel ->
  exists fuel', length rest < fuel' /\
  read_items fuel x acc (print_class_item i ++ rest) = read_items fuel' x (acc ++ [i]) rest.
Proof.
  intros x i fuel acc rest H G L. destruct fuel as [|fuel]; [lia|]. exists fuel.
  assert (L' : length rest < fuel).
  { pose proof (item_begins x i H) as (c & t & E & _). rewrite E in L. cbn [app length] in L. rewrite app_length in L. lia. }
  split; [exact L'|]. destruct H as [i H|n k|n name H|n i l H Hc].
  - apply read_items_step; [|apply flat_read; auto].
    apply begins_app, (begins_weaken _ (chars "][&-~^")); [simpl; tauto|apply flat_begins; exact H].
  - cbn [print_class_item read_items].
    replace (((if n then chars "[:^" else chars "[:") ++ ascii_name k ++ chars ":]") ++ rest)
      with (91%N :: chars ":" ++ (if n then chars "^" else []) ++ ascii_name k ++ chars ":]" ++ rest)
      by (destruct n; cbn [app chars]; rewrite <- ?app_assoc; reflexivity).
    rewrite skip_plain by (reflexivity || discriminate). change (91 =? 91)%N with true. cbn match.
    rewrite strip_app, ascii_read. reflexivity.
  - cbn [print_class_item]. apply read_items_step.
    + apply begins_app. destruct n; apply begins_char; try reflexivity; discriminate.
    + eapply read_single; [apply property_read; exact H|reflexivity|exact G].
  - cbn [print_class_item read_items].
    replace (((if n then chars "[^" else chars "[") ++ flat_map print_class_item (i :: l) ++ chars "]") ++ rest)
      with (91%N :: (if n then chars "^" else []) ++ flat_map print_class_item (i :: l) ++ 93%N :: rest)
      by (destruct n; cbn [app chars]; rewrite <- ?app_assoc; reflexivity).
    rewrite skip_plain by (reflexivity || discriminate). change (91 =? 91)%N with true. cbn match.
    assert (B : begins x (chars "^-]") (flat_map print_class_item (i :: l) ++ 93%N :: rest)).
    { cbn [flat_map]. rewrite <- app_assoc. apply begins_app. inversion H; subst.
      apply (begins_weaken _ (chars "][&-~^")); [simpl; tauto|apply flat_begins; auto]. }
    assert (S1 : strip (chars ":") ((if n then chars "^" else []) ++ flat_map print_class_item (i :: l) ++ 93%N :: rest) = None).
    { destruct n; [apply strip_head; discriminate|]. cbn [app flat_map]. rewrite <- app_assoc. apply Hc. }
    rewrite S1. rewrite class_open_read by exact B.
    rewrite (flat_items_read x (i :: l) fuel []); [reflexivity|exact H|].
    clear - L. cbn [print_class_item] in L. rewrite !app_length in *. change (length (chars "]")) with 1 in L. cbn [length].
    destruct n; [change (length (chars "[^")) with 2 in L|change (length (chars "[")) with 1 in L]; lia.
Qed.

Lemma items_read : forall x l fuel acc rest, Forall item_ok l ->
  length (flat_map print_class_item l ++ 93%N :: rest) < fuel ->
  read_items fuel x acc (flat_map print_class_item l ++ 93%N :: rest) = Some (acc ++ l, rest).
Proof.
  intros x. induction l as [|i l IH]; intros fuel acc rest H L.
  - apply flat_items_read; [constructor|exact L].
  - inversion H as [|? ? Hi Hl]; subst. cbn [flat_map] in *. rewrite <- app_assoc in *.
    destruct (item_read x i fuel acc (flat_map print_class_item l ++ 93%N :: rest) Hi) as (fuel' & L' & E).
    + apply items_go_on. exact Hl.
    + exact L.
    + rewrite E, IH; [rewrite <- app_assoc; reflexivity|exact Hl|exact L'].
Qed.
