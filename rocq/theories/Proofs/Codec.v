(* UTF-8, 32-bit integers, and what Rust decodes of an event encoded by Go *)
From Coq Require Import Lia ZifyN.
From Verif Require Import Proofs.Text Proofs.Scopes Proofs.Events.
From Verif Require Export Spec.Codec.
Ltac Zify.zify_post_hook ::= Z.div_mod_to_equations.

(* ---- UTF-8 ---- *)
Lemma in_range_spec : forall lo hi c, in_range lo hi c = true <-> (lo <= c <= hi)%N.
Proof. intros. unfold in_range. rewrite andb_true_iff, !N.leb_le. tauto. Qed.

Lemma char_utf8_bytes : forall c b, char_utf8 c b -> char_bytes c = b.
Proof.
  intros c b H. unfold char_bytes. destruct H.
  - rewrite (proj2 (N.ltb_lt _ _)) by lia. reflexivity.
  - rewrite (proj2 (N.ltb_ge _ _)) by lia. rewrite (proj2 (N.ltb_lt _ _)) by lia.
    assert ((x * 64 + y) / 64 = x)%N by lia. assert ((x * 64 + y) mod 64 = y)%N by lia. congruence.
  - rewrite (proj2 (N.ltb_ge _ 128)) by lia. rewrite (proj2 (N.ltb_ge _ 2048)) by lia.
    rewrite (proj2 (N.ltb_lt _ _)) by lia.
    assert ((x * 4096 + y * 64 + z) / 4096 = x)%N by lia.
    assert ((x * 4096 + y * 64 + z) / 64 = x * 64 + y)%N as -> by lia.
    assert ((x * 64 + y) mod 64 = y)%N by lia.
    assert ((x * 4096 + y * 64 + z) mod 64 = z)%N by lia. congruence.
  - rewrite (proj2 (N.ltb_ge _ 128)) by lia. rewrite (proj2 (N.ltb_ge _ 2048)) by lia.
    rewrite (proj2 (N.ltb_ge _ _)) by lia.
    assert ((x * 262144 + y * 4096 + z * 64 + t) / 262144 = x)%N by lia.
    assert ((x * 262144 + y * 4096 + z * 64 + t) / 4096 = x * 64 + y)%N as -> by lia.
    assert ((x * 262144 + y * 4096 + z * 64 + t) / 64 = x * 4096 + y * 64 + z)%N as -> by lia.
    assert ((x * 64 + y) mod 64 = y)%N by lia.
    assert ((x * 4096 + y * 64 + z) mod 64 = z)%N by lia.
    assert ((x * 262144 + y * 4096 + z * 64 + t) mod 64 = t)%N by lia. congruence.
Qed.

Lemma utf8_of_bytes : forall s b, utf8_of s b -> as_bytes s = b.
Proof.
  intros s b H. induction H as [|c b s bs Hc H IH]; simpl; [reflexivity|].
  rewrite (char_utf8_bytes c b Hc), IH. reflexivity.
Qed.

(* scalar values *)
Definition scalar (c : char) : Prop := (c < 55296 \/ 57344 <= c < 1114112)%N.

Lemma scalar_utf8 : forall c, scalar c -> char_utf8 c (char_bytes c).
Proof.
  intros c H. unfold char_bytes.
  destruct (c <? 128)%N eqn:E1; [apply N.ltb_lt in E1; constructor; auto|apply N.ltb_ge in E1].
  destruct (c <? 2048)%N eqn:E2; [apply N.ltb_lt in E2|apply N.ltb_ge in E2].
  { replace c with (c / 64 * 64 + c mod 64)%N at 1 by lia. constructor; lia. }
  unfold scalar in H.
  destruct (c <? 65536)%N eqn:E3; [apply N.ltb_lt in E3|apply N.ltb_ge in E3].
  { replace c with (c / 4096 * 4096 + (c / 64 mod 64) * 64 + c mod 64)%N at 1 by lia. constructor; lia. }
  replace c with (c / 262144 * 262144 + (c / 4096 mod 64) * 4096 + (c / 64 mod 64) * 64 + c mod 64)%N at 1 by lia.
  constructor; lia.
Qed.

Lemma utf8_scalar : forall c b, char_utf8 c b -> scalar c.
Proof. intros c b H. unfold scalar. destruct H; lia. Qed.

Lemma utf8_of_iff : forall s b, utf8_of s b <-> Forall scalar s /\ b = as_bytes s.
Proof.
  intros s b. split.
  - intros H. split; [|symmetry; apply utf8_of_bytes, H].
    induction H; constructor; auto. eapply utf8_scalar; eauto.
  - intros [H ->]. induction H as [|c s Hc H IH]; simpl; constructor; auto. apply scalar_utf8, Hc.
Qed.

Lemma lossy_char : forall c b rest, char_utf8 c b ->
  from_utf8_lossy (b ++ rest) = c :: from_utf8_lossy rest.
Proof.
  intros c b rest H. destruct H; cbn [app from_utf8_lossy].
  - rewrite (proj2 (N.ltb_lt _ _)) by lia. reflexivity.
  - rewrite (proj2 (N.ltb_ge _ _)) by lia.
    rewrite (proj2 (in_range_spec 194 223 _)) by lia. unfold is_cont.
    rewrite (proj2 (in_range_spec 128 191 _)) by lia. f_equal. lia.
  - rewrite (proj2 (N.ltb_ge _ _)) by lia.
    destruct (in_range 194 223 (224 + x)) eqn:E; [apply in_range_spec in E; lia|].
    rewrite (proj2 (in_range_spec 224 239 _)) by lia.
    assert (second_of_three (224 + x) (128 + y) = true) as ->.
    { unfold second_of_three. rewrite !orb_true_iff, !andb_true_iff, !in_range_spec, !N.eqb_eq. lia. }
    unfold is_cont. rewrite (proj2 (in_range_spec 128 191 _)) by lia. f_equal. lia.
  - rewrite (proj2 (N.ltb_ge _ _)) by lia.
    destruct (in_range 194 223 (240 + x)) eqn:E; [apply in_range_spec in E; lia|].
    destruct (in_range 224 239 (240 + x)) eqn:E'; [apply in_range_spec in E'; lia|].
    rewrite (proj2 (in_range_spec 240 244 _)) by lia.
    assert (second_of_four (240 + x) (128 + y) = true) as ->.
    { unfold second_of_four. rewrite !orb_true_iff, !andb_true_iff, !in_range_spec, !N.eqb_eq. lia. }
    unfold is_cont. rewrite (proj2 (in_range_spec 128 191 (128 + z))) by lia.
    rewrite (proj2 (in_range_spec 128 191 (128 + t))) by lia. f_equal. lia.
Qed.

Lemma lossy_utf8 : forall s b, utf8_of s b -> from_utf8_lossy b = s.
Proof.
  intros s b H. induction H as [|c b s bs Hc H IH]; [reflexivity|].
  rewrite (lossy_char c b bs Hc), IH. reflexivity.
Qed.

Lemma utf8_of_app : forall s1 b1 s2 b2, utf8_of s1 b1 -> utf8_of s2 b2 -> utf8_of (s1 ++ s2) (b1 ++ b2).
Proof.
  intros s1 b1 s2 b2 H1 H2. induction H1; simpl; auto. rewrite <- app_assoc. constructor; auto.
Qed.

(* ---- 32-bit integers ---- *)
Lemma be32_back : forall n, (n < two32)%N ->
  of_be32 (n / 16777216 mod 256) (n / 65536 mod 256) (n / 256 mod 256) (n mod 256) = n.
Proof. unfold two32, of_be32. intros. lia. Qed.

Lemma read_be32 : forall n l, (n < two32)%N -> read_u32 (be32 n ++ l) = Ret (n, l).
Proof. intros. cbn [be32 app read_u32]. rewrite be32_back by auto. reflexivity. Qed.
Lemma buf_be32 : forall n l, (n < two32)%N -> buf_u32 (be32 n ++ l) = Ret (n, l).
Proof. intros. cbn [be32 app buf_u32]. rewrite be32_back by auto. reflexivity. Qed.

Lemma as_u32_id : forall n, (n < two32)%N -> as_u32 n = n.
Proof. intros. apply N.mod_small. exact H. Qed.
Lemma as_u32_lt : forall n, (as_u32 n < two32)%N.
Proof. intros. apply N.mod_lt. discriminate. Qed.

Lemma read_bytes_app : forall b l, read_bytes (N.of_nat (length b)) (b ++ l) = Ret (b, l).
Proof.
  intros. unfold read_bytes. rewrite app_length. rewrite (proj2 (N.leb_le _ _)) by lia.
  rewrite Nnat.Nat2N.id, firstn_app, firstn_all, skipn_app, skipn_all, Nat.sub_diag.
  simpl. rewrite app_nil_r. reflexivity.
Qed.
Lemma buf_next_app : forall b l, buf_next (N.of_nat (length b)) (b ++ l) = (b, l).
Proof.
  intros. unfold buf_next. rewrite app_length.
  assert (N.min (N.of_nat (length b)) (N.of_nat (length b + length l)) = N.of_nat (length b)) as -> by lia.
  rewrite Nnat.Nat2N.id, firstn_app, firstn_all, skipn_app, skipn_all, Nat.sub_diag.
  simpl. rewrite app_nil_r. reflexivity.
Qed.

Lemma next_string_app : forall b l, (N.of_nat (length b) < two32)%N ->
  next_string (be32 (as_u32 (N.of_nat (length b))) ++ b ++ l) = Ret (b, l).
Proof.
  intros. unfold next_string. rewrite as_u32_id by auto. rewrite buf_be32 by auto. cbn [bind].
  rewrite buf_next_app. reflexivity.
Qed.

Lemma be32_length : forall n, length (be32 n) = 4.
Proof. reflexivity. Qed.

(* ---- Go events ---- *)
Section Ind.
Variable P : go_value -> Prop.
Hypothesis HS : forall b, P (GString b).
Hypothesis HM : forall m, Forall (fun kc => P (snd kc)) m -> P (GMap m).
Hypothesis HL : forall l, Forall P l -> P (GList l).
Hypothesis HO : P GOther.
Fixpoint go_ind' (v : go_value) : P v :=
  match v with
  | GString b => HS b
  | GMap m => HM m ((fix go (m : list (octets * go_value)) : Forall (fun kc => P (snd kc)) m :=
      match m with
      | [] => Forall_nil _
      | kc :: m' => Forall_cons kc (go_ind' (snd kc)) (go m')
      end) m)
  | GList l => HL l ((fix go (l : list go_value) : Forall P l :=
      match l with
      | [] => Forall_nil _
      | c :: l' => Forall_cons c (go_ind' c) (go l')
      end) l)
  | GOther => HO
  end.
End Ind.

Section Loops.
Variable enc : go_value -> result octets go_error.
Definition enc_entries := fix entries (m : list (octets * go_value)) : result octets go_error :=
  match m with
  | [] => Ok []
  | (k, c) :: m' =>
    match enc c with
    | Err e => Err e
    | Ok b =>
      match entries m' with
      | Err e => Err e
      | Ok rest => Ok (0%N :: be32 (as_u32 (N.of_nat (length k))) ++ k ++ b ++ 2%N :: rest)
      end
    end
  end.
Definition enc_items := fix items (idx : nat) (l : list go_value) : result octets go_error :=
  match l with
  | [] => Ok []
  | c :: l' =>
    match enc c with
    | Err e => Err e
    | Ok b =>
      match items (S idx) l' with
      | Err e => Err e
      | Ok rest => Ok (1%N :: be32 (as_u32 (N.of_nat idx)) ++ b ++ 2%N :: rest)
      end
    end
  end.
End Loops.
Lemma go_encode_map : forall m, go_encode (GMap m) = enc_entries go_encode m.
Proof. reflexivity. Qed.
Lemma go_encode_list : forall l, go_encode (GList l) = enc_items go_encode 0 l.
Proof. reflexivity. Qed.

(* what Rust shows of a Go value *)
Section OpsLoops.
Variable ops : go_value -> list visit_op.
Definition entries_ops := fix go (m : list (octets * go_value)) : list visit_op :=
  match m with
  | [] => []
  | (k, c) :: m' => under (Field (from_utf8_lossy k)) (ops c) ++ go m'
  end.
Definition items_ops := fix go (i : nat) (l : list go_value) : list visit_op :=
  match l with
  | [] => []
  | c :: l' => under (Index i) (ops c) ++ go (S i) l'
  end.
End OpsLoops.
Fixpoint go_ops (v : go_value) : list visit_op :=
  match v with
  | GString b => [OpString (from_utf8_lossy b)]
  | GMap m => entries_ops go_ops m
  | GList l => items_ops go_ops 0 l
  | GOther => []
  end.

Lemma decode_more : forall fuel l ops fuel', decode_ops fuel l = Ret ops -> fuel <= fuel' ->
  decode_ops fuel' l = Ret ops.
Proof.
  induction fuel as [|fuel IH]; intros l ops fuel' H Hle.
  - destruct l; simpl in H; [|discriminate]. injection H as <-. destruct fuel'; reflexivity.
  - destruct fuel' as [|fuel']; [lia|]. destruct l as [|tag l]; [exact H|].
    cbn [decode_ops] in *.
    assert (K : forall (f : list visit_op -> outcome (list visit_op)) l1,
      (let* ops0 := decode_ops fuel l1 in f ops0) = Ret ops ->
      (let* ops0 := decode_ops fuel' l1 in f ops0) = Ret ops).
    { intros f l1 K. destruct (decode_ops fuel l1) as [o| |] eqn:E; try discriminate.
      rewrite (IH l1 o fuel' E) by lia. exact K. }
    destruct (tag =? 0)%N.
    { destruct (read_u32 l) as [[n l1]| |]; try discriminate. cbn [bind] in *.
      destruct (read_bytes n l1) as [[b l2]| |]; try discriminate. cbn [bind] in *. apply K, H. }
    destruct (tag =? 1)%N.
    { destruct (read_u32 l) as [[n l1]| |]; try discriminate. cbn [bind] in *. apply K, H. }
    destruct (tag =? 2)%N; [apply K, H|].
    destruct (tag =? 3)%N; [|discriminate].
    destruct (read_u32 l) as [[n l1]| |]; try discriminate. cbn [bind] in *.
    destruct (read_bytes n l1) as [[b l2]| |]; try discriminate. cbn [bind] in *. apply K, H.
Qed.

Lemma decode_field : forall fuel k l ops, (N.of_nat (length k) < two32)%N ->
  decode_ops fuel l = Ret ops ->
  decode_ops (S fuel) (0%N :: be32 (as_u32 (N.of_nat (length k))) ++ k ++ l)
  = Ret (OpPush (Field (from_utf8_lossy k)) :: ops).
Proof.
  intros. cbn [decode_ops]. rewrite N.eqb_refl, as_u32_id, read_be32 by auto. cbn [bind].
  rewrite read_bytes_app. cbn [bind]. rewrite H0. reflexivity.
Qed.
Lemma decode_index : forall fuel i l ops, (N.of_nat i < two32)%N ->
  decode_ops fuel l = Ret ops ->
  decode_ops (S fuel) (1%N :: be32 (as_u32 (N.of_nat i)) ++ l) = Ret (OpPush (Index i) :: ops).
Proof.
  intros. cbn [decode_ops]. change (1 =? 0)%N with false. rewrite N.eqb_refl, as_u32_id, read_be32 by auto.
  cbn [bind]. rewrite H0. cbn [bind]. rewrite Nnat.Nat2N.id. reflexivity.
Qed.
Lemma decode_pop : forall fuel l ops, decode_ops fuel l = Ret ops ->
  decode_ops (S fuel) (2%N :: l) = Ret (OpPop :: ops).
Proof. intros. cbn [decode_ops]. change (2 =? 0)%N with false. change (2 =? 1)%N with false. rewrite N.eqb_refl, H. reflexivity. Qed.
Lemma decode_string : forall fuel b l ops, (N.of_nat (length b) < two32)%N ->
  decode_ops fuel l = Ret ops ->
  decode_ops (S fuel) (go_encode_string b ++ l) = Ret (OpString (from_utf8_lossy b) :: ops).
Proof.
  intros. unfold go_encode_string. cbn [app decode_ops]. rewrite <- app_assoc.
  change (3 =? 0)%N with false. change (3 =? 1)%N with false. change (3 =? 2)%N with false.
  rewrite N.eqb_refl, as_u32_id, read_be32 by auto. cbn [bind]. rewrite read_bytes_app. cbn [bind].
  rewrite H0. reflexivity.
Qed.

Lemma go_decode : forall v, go_fits v -> forall b, go_encode v = Ok b ->
  forall fuel rest ops, decode_ops fuel rest = Ret ops ->
  decode_ops (length b + fuel) (b ++ rest) = Ret (go_ops v ++ ops).
Proof.
  induction v as [s|m IH|l IH|] using go_ind'; intros Hf b Hb fuel rest ops Hr; inversion Hf; subst.
  - injection Hb as <-. apply decode_more with (S fuel); [|simpl; lia].
    apply decode_string; auto.
  - rewrite go_encode_map in Hb. cbn [go_ops]. revert b Hb fuel rest ops Hr.
    assert (K : forall k v, In (k, v) m -> (N.of_nat (length k) < two32)%N /\ go_fits v) by assumption.
    clear Hf H0. induction m as [|[k c] m IHm]; intros b Hb fuel rest ops Hr.
    + injection Hb as <-. exact Hr.
    + inversion IH as [|x y Hc Hm]; subst. cbn [enc_entries] in Hb. simpl in Hc.
      destruct (go_encode c) as [bc|] eqn:Ec; [|discriminate].
      fold enc_entries in Hb. destruct (enc_entries go_encode m) as [bm|] eqn:Em; [|discriminate].
      injection Hb as <-.
      destruct (K k c (or_introl eq_refl)) as [Hk Hfc].
      assert (Hrest : decode_ops (S (length bm + fuel)) (2%N :: bm ++ rest) = Ret (OpPop :: entries_ops go_ops m ++ ops)).
      { apply decode_pop. apply IHm; auto. intros k' v' Hin. apply K. right; auto. }
      pose proof (Hc Hfc bc eq_refl _ _ _ Hrest) as H1.
      apply decode_field with (k := k) in H1; auto.
      cbn [entries_ops]. unfold under. cbn [app]. rewrite <- !app_assoc. cbn [app].
      replace (((k ++ bc ++ 2%N :: bm) ++ rest)) with (k ++ bc ++ 2%N :: bm ++ rest)
        by (rewrite <- !app_assoc; reflexivity).
      apply decode_more with (1 := H1). simpl length. repeat (rewrite ?app_length; simpl). lia.
  - rewrite go_encode_list in Hb. cbn [go_ops].
    assert (K : forall v, In v l -> go_fits v) by assumption.
    assert (Hl : (N.of_nat (0 + length l) <= two32)%N) by assumption.
    clear Hf H0 H1. revert Hl b Hb fuel rest ops Hr. generalize 0 as i.
    induction l as [|c l IHl]; intros i Hl b Hb fuel rest ops Hr.
    + injection Hb as <-. exact Hr.
    + inversion IH as [|x y Hc Hm]; subst. cbn [enc_items] in Hb.
      destruct (go_encode c) as [bc|] eqn:Ec; [|discriminate].
      fold enc_items in Hb. destruct (enc_items go_encode (S i) l) as [bm|] eqn:Em; [|discriminate].
      injection Hb as <-.
      assert (Hrest : decode_ops (S (length bm + fuel)) (2%N :: bm ++ rest) = Ret (OpPop :: items_ops go_ops (S i) l ++ ops)).
      { apply decode_pop. apply IHl; auto. intros v' Hin. apply K. right; auto. simpl in Hl. lia. }
      pose proof (Hc (K c (or_introl eq_refl)) bc eq_refl _ _ _ Hrest) as H1.
      apply decode_index with (i := i) in H1; [|simpl in Hl; lia].
      cbn [items_ops]. unfold under. cbn [app]. rewrite <- !app_assoc. cbn [app].
      replace ((bc ++ 2%N :: bm) ++ rest) with (bc ++ 2%N :: bm ++ rest)
        by (rewrite <- !app_assoc; reflexivity).
      apply decode_more with (1 := H1). simpl length. repeat (rewrite ?app_length; simpl). lia.
  - discriminate.
Qed.

Lemma go_decode_all : forall v b, go_fits v -> go_encode v = Ok b -> decode_event b = Ret (go_ops v).
Proof.
  intros v b Hf Hb. pose proof (go_decode v Hf b Hb 0 [] [] eq_refl) as H.
  rewrite !app_nil_r, Nat.add_0_r in H. exact H.
Qed.

(* the encoder fails exactly on unknown types *)
Lemma go_encode_fails : forall v, (exists e, go_encode v = Err e) <-> has_unknown v.
Proof.
  induction v as [s|m IH|l IH|] using go_ind'.
  - split; [intros (e & H); discriminate|intros H; inversion H].
  - rewrite go_encode_map. transitivity (exists k v, In (k, v) m /\ has_unknown v).
    + induction m as [|[k c] m IHm]; cbn [enc_entries].
      * split; [intros (e & H); discriminate|]. intros (k & v & [] & _).
      * inversion IH as [|x y Hc Hm]; subst. simpl in Hc. specialize (IHm Hm). fold enc_entries.
        destruct (go_encode c) as [bc|] eqn:Ec.
        -- destruct (enc_entries go_encode m) as [bm|] eqn:Em.
           ++ split; [intros (e & H); discriminate|]. intros (k' & v & [E|Hin] & Hu).
              ** injection E as <- <-. apply Hc in Hu as (e & Hu). discriminate.
              ** destruct (proj2 IHm) as (e & H); [eauto|discriminate].
           ++ split; [|eauto]. intros _. destruct (proj1 IHm) as (k' & v & Hin & Hu); eauto.
              exists k', v. split; auto. right; auto.
        -- split; [|eauto]. intros _. exists k, c. split; [left; auto|]. apply Hc. eauto.
    + split.
      * intros (k & v & H1 & H2). econstructor; eauto.
      * intros H. inversion H; subst. eauto.
  - rewrite go_encode_list. transitivity (exists v, In v l /\ has_unknown v).
    + generalize 0 as i. induction l as [|c l IHl]; intros i; cbn [enc_items].
      * split; [intros (e & H); discriminate|]. intros (v & [] & _).
      * inversion IH as [|x y Hc Hm]; subst. specialize (IHl Hm (S i)). fold enc_items.
        destruct (go_encode c) as [bc|] eqn:Ec.
        -- destruct (enc_items go_encode (S i) l) as [bm|] eqn:Em.
           ++ split; [intros (e & H); discriminate|]. intros (v & [E|Hin] & Hu).
              ** subst v. apply Hc in Hu as (e & Hu). discriminate.
              ** destruct (proj2 IHl) as (e & H); [eauto|discriminate].
           ++ split; [|eauto]. intros _. destruct (proj1 IHl) as (v & Hin & Hu); eauto.
              exists v. split; auto. right; auto.
        -- split; [|eauto]. intros _. exists c. split; [left; auto|]. apply Hc. eauto.
    + split.
      * intros (v & H1 & H2). econstructor; eauto.
      * intros H. inversion H; subst. eauto.
  - split; [intros _; constructor|]. intros _. exists tt. reflexivity.
Qed.

(* the strings shown *)
Section StrLoops.
Variable strs : go_value -> list (path * str).
Definition entries_strs := fix go (m : list (octets * go_value)) : list (path * str) :=
  match m with
  | [] => []
  | (k, c) :: m' => pre (Field (from_utf8_lossy k)) (strs c) ++ go m'
  end.
Definition items_strs := fix go (i : nat) (l : list go_value) : list (path * str) :=
  match l with
  | [] => []
  | c :: l' => pre (Index i) (strs c) ++ go (S i) l'
  end.
End StrLoops.
Fixpoint go_strings (v : go_value) : list (path * str) :=
  match v with
  | GString b => [([], from_utf8_lossy b)]
  | GMap m => entries_strs go_strings m
  | GList l => items_strs go_strings 0 l
  | GOther => []
  end.

Lemma go_shows : forall v, shows (go_ops v) (go_strings v).
Proof.
  induction v as [s|m IH|l IH|] using go_ind'.
  - intros stack rest. simpl. rewrite app_nil_r. destruct (strings_at stack rest); reflexivity.
  - cbn [go_ops go_strings]. induction IH as [|[k c] m Hc Hm IH]; simpl; [apply shows_nil|].
    apply (shows_app (under (Field (from_utf8_lossy k)) (go_ops c))); [apply shows_under; auto|apply IH].
  - cbn [go_ops go_strings]. generalize 0 as i.
    induction IH as [|c l Hc Hl IH]; intros i; simpl; [apply shows_nil|].
    apply (shows_app (under (Index i) (go_ops c))); [apply shows_under; auto|apply IH].
  - apply shows_nil.
Qed.

Lemma shows_strings : forall ops l, shows ops l -> strings_of ops = Some l.
Proof.
  intros ops l H. unfold strings_of. rewrite <- (app_nil_r ops), H. simpl.
  rewrite app_nil_r. unfold shown. simpl. f_equal. rewrite <- map_id. apply map_ext.
  intros []; reflexivity.
Qed.

Lemma balanced_app : forall a b, balanced a -> balanced b -> balanced (a ++ b).
Proof.
  intros a b Ha Hb. induction Ha; simpl; auto; [constructor; auto|].
  rewrite <- app_assoc. simpl. constructor; auto.
Qed.
Lemma balanced_under : forall s o, balanced o -> balanced (under s o).
Proof. intros. unfold under. change [OpPop] with (OpPop :: []). constructor; auto. constructor. Qed.

Lemma go_balanced : forall v, balanced (go_ops v).
Proof.
  induction v as [s|m IH|l IH|] using go_ind'.
  - repeat constructor.
  - cbn [go_ops]. induction IH as [|[k c] m Hc Hm IH]; simpl; [constructor|].
    apply (balanced_app (under _ _)); [apply balanced_under; auto|apply IH].
  - cbn [go_ops]. generalize 0 as i. induction IH as [|c l Hc Hl IH]; intros i; simpl; [constructor|].
    apply (balanced_app (under _ _)); [apply balanced_under; auto|apply IH].
  - constructor.
Qed.

Lemma in_entries_strs : forall strs m p c,
  In (p, c) (entries_strs strs m) <->
  exists k d q, In (k, d) m /\ p = Field (from_utf8_lossy k) :: q /\ In (q, c) (strs d).
Proof.
  intros strs. induction m as [|[k d] m IH]; intros p c; simpl.
  - split; [intros []|]. intros (k & d & q & [] & _).
  - rewrite in_app_iff, in_pre, IH. split.
    + intros [(q & -> & H)|(k' & d' & q & H1 & H2)].
      * exists k, d, q. auto.
      * exists k', d', q. auto.
    + intros (k' & d' & q & [H1|H1] & H2 & H3).
      * injection H1 as <- <-. left. eauto.
      * right. exists k', d', q. auto.
Qed.
Lemma in_items_strs : forall strs l i p c,
  In (p, c) (items_strs strs i l) <->
  exists j d q, nth_error l j = Some d /\ p = Index (i + j) :: q /\ In (q, c) (strs d).
Proof.
  intros strs. induction l as [|d l IH]; intros i p c; simpl.
  - split; [intros []|]. intros (j & d & q & H & _). destruct j; discriminate.
  - rewrite in_app_iff, in_pre, IH. split.
    + intros [(q & -> & H)|(j & d' & q & H1 & -> & H2)].
      * exists 0, d, q. rewrite Nat.add_0_r. auto.
      * exists (S j), d', q. split; [exact H1|]. rewrite Nat.add_succ_r. auto.
    + intros ([|j] & d' & q & H1 & -> & H2); simpl in H1.
      * inversion H1; subst. left. rewrite Nat.add_0_r. eauto.
      * right. exists j, d', q. rewrite Nat.add_succ_r. auto.
Qed.

(* segments and strings as Rust reads them *)
Definition lossy_segment (s : go_segment) : segment :=
  match s with GKey k => Field (from_utf8_lossy k) | GIdx i => Index i end.

Lemma go_strings_holds : forall v p c, In (p, c) (go_strings v) <->
  exists q b, go_holds v q b /\ p = map lossy_segment q /\ c = from_utf8_lossy b.
Proof.
  induction v as [s|m IH|l IH|] using go_ind'; intros p c.
  - simpl. split.
    + intros [H|[]]. injection H as <- <-. exists [], s. repeat split. constructor.
    + intros (q & b & H & -> & ->). inversion H; subst. auto.
  - cbn [go_strings]. rewrite in_entries_strs. rewrite Forall_forall in IH. split.
    + intros (k & d & q & H1 & -> & H2). apply (IH (k, d) H1) in H2 as (q' & b & H3 & -> & ->).
      exists (GKey k :: q'), b. repeat split. econstructor; eauto.
    + intros (q & b & H & -> & ->). inversion H; subst.
      exists k, v, (map lossy_segment p). repeat split; auto. apply (IH (k, v)); eauto.
  - cbn [go_strings]. rewrite in_items_strs. rewrite Forall_forall in IH. split.
    + intros (j & d & q & H1 & -> & H2). pose proof (nth_error_In _ _ H1) as Hin.
      apply (IH d Hin) in H2 as (q' & b & H3 & -> & ->).
      exists (GIdx j :: q'), b. repeat split. econstructor; eauto.
    + intros (q & b & H & -> & ->). inversion H; subst.
      exists i, v, (map lossy_segment p). repeat split; auto.
      eapply IH; [eapply nth_error_In; eauto|eauto].
  - simpl. split; [intros []|]. intros (q & b & H & _). inversion H.
Qed.

(* ---- images ---- *)
Scheme go_image_ind3 := Minimality for go_image Sort Prop
  with go_images_ind3 := Minimality for go_images Sort Prop
  with go_entries_ind3 := Minimality for go_entries Sort Prop.
Combined Scheme go_image_mut from go_image_ind3, go_images_ind3, go_entries_ind3.

(* the strings of an event, maps in the order given *)
Fixpoint ordered_strings (e : simple_event) : list (path * str) :=
  match e with
  | SString s => [([], s)]
  | SList l => list_strs ordered_strings 0 l
  | SMap m =>
      (fix go (m : list (str * simple_event)) : list (path * str) :=
         match m with
         | [] => []
         | (k, c) :: m' => pre (Field k) (ordered_strings c) ++ go m'
         end) m
  end.
Definition map_strs := fun (strs : simple_event -> list (path * str)) => fix go (m : list (str * simple_event)) : list (path * str) :=
  match m with
  | [] => []
  | (k, c) :: m' => pre (Field k) (strs c) ++ go m'
  end.
Lemma ordered_map : forall m, ordered_strings (SMap m) = map_strs ordered_strings m.
Proof. reflexivity. Qed.

Lemma image_strings : 
  (forall e v, go_image e v -> go_strings v = ordered_strings e) /\
  (forall l l', go_images l l' -> forall i, items_strs go_strings i l' = list_strs ordered_strings i l) /\
  (forall m m', go_entries m m' -> entries_strs go_strings m' = map_strs ordered_strings m).
Proof.
  apply go_image_mut; intros; simpl.
  - rewrite (lossy_utf8 s b) by auto. reflexivity.
  - apply H0.
  - apply H0.
  - reflexivity.
  - f_equal; [rewrite H0; reflexivity|apply H2].
  - reflexivity.
  - rewrite (lossy_utf8 k k') by auto. f_equal; [rewrite H1; reflexivity|apply H3].
Qed.

Lemma image_known :
  (forall e v, go_image e v -> ~ has_unknown v) /\
  (forall l l', go_images l l' -> forall v, In v l' -> ~ has_unknown v) /\
  (forall m m', go_entries m m' -> forall k v, In (k, v) m' -> ~ has_unknown v).
Proof.
  apply go_image_mut.
  - intros s b _ H. inversion H.
  - intros l l' _ IH H. inversion H; subst. eapply IH; eauto.
  - intros m m' _ IH H. inversion H; subst. eapply IH; eauto.
  - intros v [].
  - intros c v l l' _ H1 _ H2 v' [<-|H]; auto.
  - intros k v [].
  - intros k k' c v m m' _ _ H1 _ H2 k'' v' [H|H]; [injection H as <- <-; auto|eauto].
Qed.

Lemma image_encodes : forall e v, go_image e v -> exists b, go_encode v = Ok b.
Proof.
  intros e v H. destruct (go_encode v) as [b|x] eqn:E; [eauto|].
  exfalso. apply (proj1 image_known e v H). apply go_encode_fails. eauto.
Qed.

Lemma ordered_in : forall e p c, In (p, c) (ordered_strings e) <-> In (p, c) (simple_strings e).
Proof.
  induction e as [s|l IH|m IH] using simple_ind'; intros p c.
  - reflexivity.
  - cbn [ordered_strings simple_strings]. rewrite !in_list_strs. rewrite Forall_forall in IH.
    split; intros (j & d & q & H1 & H2 & H3); exists j, d, q; (split; [exact H1|split; [exact H2|]]);
      apply (IH d (nth_error_In _ _ H1)); auto.
  - rewrite in_map_strs, ordered_map. rewrite Forall_forall in IH.
    transitivity (exists k d q, In (k, d) m /\ p = Field k :: q /\ In (q, c) (ordered_strings d)).
    + clear IH. induction m as [|[k d] m IHm]; cbn [map_strs].
      * split; [intros []|]. intros (k & d & q & [] & _).
      * rewrite in_app_iff, in_pre. fold map_strs. rewrite IHm. split.
        -- intros [(q & -> & H)|(k' & d' & q & H1 & H2)].
           ++ exists k, d, q. simpl. auto.
           ++ exists k', d', q. simpl. tauto.
        -- intros (k' & d' & q & [H1|H1] & H2 & H3).
           ++ injection H1 as <- <-. left. eauto.
           ++ right. exists k', d', q. auto.
    + split; intros (k & d & q & H1 & H2 & H3); exists k, d, q; (split; [exact H1|split; [exact H2|]]);
        apply (IH (k, d) H1); auto.
Qed.

Lemma ordered_distinct : forall e, distinct_keys e -> NoDup (map fst (ordered_strings e)).
Proof.
  induction e as [s|l IH|m IH] using simple_ind'; intros Hd; inversion Hd; subst.
  - simpl. constructor; [intros []|constructor].
  - cbn [ordered_strings]. clear Hd. generalize 0 as i.
    induction IH as [|c l Hc Hl IH]; intros i; simpl; [constructor|].
    rewrite map_app. apply NoDup_app2.
    + apply NoDup_pre, Hc. apply H0. left; auto.
    + apply IH; intros; apply H0; right; auto.
    + intros p H1 H2. apply map_fst_in in H1 as (x & H1). apply map_fst_in in H2 as (y & H2).
      apply in_pre in H1 as (q & -> & _).
      apply in_list_strs in H2 as (j & d & q' & _ & E & _). inversion E. lia.
  - rewrite ordered_map. clear Hd. induction IH as [|[k c] m Hc Hm IH]; cbn [map_strs]; [constructor|].
    simpl in H0. inversion H0; subst. rewrite map_app. apply NoDup_app2.
    + apply NoDup_pre, Hc. apply (H1 k). left; auto.
    + apply IH; auto. intros k' c' Hin. apply (H1 k'). right; auto.
    + intros p A B. apply map_fst_in in A as (x & A). apply map_fst_in in B as (y & B).
      apply in_pre in A as (q & -> & _). fold map_strs in B. rewrite <- ordered_map in B.
      apply ordered_in in B. apply in_map_strs in B as (k' & d & q' & B1 & B2 & _).
      injection B2 as <- <-. apply H3. apply in_map_iff. exists (k, d). auto.
Qed.

(* ---- the size of the response as a 32-bit number ---- *)
Lemma c_int_spec : forall n, exists q k, (N.of_nat n = q * two32 + k)%N /\ (k < two32)%N /\
  c_int (Z.of_nat n) = if (k <? 2147483648)%N then Z.of_N k else (Z.of_N k - 4294967296)%Z.
Proof.
  intros n. unfold c_int, two32. exists (N.of_nat n / 4294967296)%N, (N.of_nat n mod 4294967296)%N.
  assert (E : (Z.of_nat n mod 4294967296)%Z = Z.of_N (N.of_nat n mod 4294967296)%N).
  { rewrite N2Z.inj_mod. rewrite nat_N_Z. reflexivity. }
  rewrite E. split; [pose proof (N.div_mod (N.of_nat n) 4294967296); lia|]. split; [apply N.mod_lt; discriminate|].
  destruct (Z.ltb_spec (Z.of_N (N.of_nat n mod 4294967296)) 2147483648); destruct (N.ltb_spec (N.of_nat n mod 4294967296) 2147483648); lia || reflexivity.
Qed.

Lemma received_spec : forall b, received b (go_bytes_of b (c_int (Z.of_nat (length b)))).
Proof.
  intros b. destruct (c_int_spec (length b)) as (q & k & E & L & C). rewrite C. clear C. unfold go_bytes_of.
  destruct (N.ltb_spec k 2147483648) as [K|K].
  - destruct (Z.ltb_spec (Z.of_N k) 0); [lia|]. replace (Z.to_nat (Z.of_N k)) with (N.to_nat k) by lia.
    assert (F : length (firstn (N.to_nat k) b) = N.to_nat k) by (rewrite firstn_length; unfold two32 in *; lia).
    apply (rc_prefix b q _ (skipn (N.to_nat k) b)); [symmetry; apply firstn_skipn| |]; rewrite F, N2Nat.id; assumption.
  - unfold two32 in L. destruct (Z.ltb_spec (Z.of_N k - 4294967296) 0); [|lia]. apply (rc_panic b q k E). unfold two32. lia.
Qed.

Lemma received_whole : forall b r, (N.of_nat (length b) < 2147483648)%N -> received b r -> r = Ret b.
Proof.
  intros b r L H. inversion H as [q x y E1 E2 E3|q k E1 E2]; subst.
  - unfold two32 in *. assert (q = 0%N) by lia. subst q. rewrite app_length in E2.
    destruct y as [|z y]; [rewrite app_nil_r; reflexivity|]. cbn [length] in E2. lia.
  - unfold two32 in *. lia.
Qed.

Lemma received_det : forall b r r', received b r -> received b r' -> r = r'.
Proof.
  intros b r r' H H'. inversion H as [q x y E1 E2 E3|q k E1 E2]; inversion H' as [q' x' y' F1 F2 F3|q' k' F1 F2]; subst; unfold two32 in *; try lia; [|reflexivity].
  assert (length x = length x') by lia. 
  assert (x = x') as -> by (clear -F1 H0; revert x' H0 F1; induction x as [|a x IH]; destruct x' as [|a' x']; intros L E; try discriminate; [reflexivity|]; injection E as -> E; injection L as L; f_equal; apply IH; assumption).
  reflexivity.
Qed.

Lemma whole_response : forall scan encoded, response_fits scan encoded ->
  low_level_scan scan encoded =
  match scan encoded with Ret (Some b) => Ret (Ok b) | Ret None => Ret (Ok []) | Panic => Ret (Err tt) | Diverge => Diverge end.
Proof.
  intros scan encoded H. unfold low_level_scan. destruct (scan encoded) as [[b|]| |] eqn:E; try reflexivity.
  rewrite (received_whole b _ (H b E) (received_spec b)). reflexivity.
Qed.
