(* Laws of the String and SimpleEvent events and of the UTF-8 encoding *)
From Coq Require Import Lia.
From Verif Require Import Proofs.Text Proofs.Scopes.
From Verif Require Export Spec.Events.

(* ---- UTF-8 encoding ---- *)
Lemma utf8_shifts : shifts_additive utf8_encoding clen.
Proof.
  intros edits. simpl. unfold edit_delta. f_equal. apply map_ext. intros [a b]. simpl.
  rewrite !nbytes_blen, !weight_clen. reflexivity.
Qed.

Lemma utf8_indices : indices_additive utf8_encoding clen.
Proof.
  intros content ranges _ _ k a b _. simpl.
  split; intros p q _ H; rewrite weight_clen, <- nbytes_blen; auto.
Qed.

(* ---- String ---- *)
Lemma string_laws : forall s,
  event_laws string_event s [([], s)] (fun e l => exists b, l = [([], e, b)]).
Proof.
  intros s. constructor.
  - reflexivity.
  - simpl. constructor; [intros []|constructor].
  - intros [|[[p c] b] [|y log]] H; simpl in H; inversion H; subst. exists b. reflexivity.
  - intros e l p c (b & ->) [H|[]]. inversion H; subst. reflexivity.
  - intros e l1 p c l2 c' mutated (b & H) _ _. destruct l1 as [|y l1].
    + simpl in H. inversion H; subst. exists false. reflexivity.
    + simpl in H. inversion H. destruct l1; discriminate.
Qed.

(* ---- SimpleEvent ---- *)
Section Ind.
Variable P : simple_event -> Prop.
Hypothesis HS : forall s, P (SString s).
Hypothesis HL : forall l, Forall P l -> P (SList l).
Hypothesis HM : forall m, Forall (fun kc => P (snd kc)) m -> P (SMap m).
Fixpoint simple_ind' (e : simple_event) : P e :=
  match e with
  | SString s => HS s
  | SList l => HL l ((fix go (l : list simple_event) : Forall P l :=
      match l with
      | [] => Forall_nil _
      | c :: l' => Forall_cons c (simple_ind' c) (go l')
      end) l)
  | SMap m => HM m ((fix go (m : list (str * simple_event)) : Forall (fun kc => P (snd kc)) m :=
      match m with
      | [] => Forall_nil _
      | kc :: m' => Forall_cons kc (simple_ind' (snd kc)) (go m')
      end) m)
  end.
End Ind.

(* the loops of the model, named *)
Section Loops.
Variable ops : simple_event -> list visit_op.
Definition list_ops := fix go (i : nat) (l : list simple_event) : list visit_op :=
  match l with
  | [] => []
  | c :: l' => under (Index i) (ops c) ++ go (S i) l'
  end.
Definition first_ops := fix first (m : list (str * simple_event)) : list visit_op :=
  match m with
  | [] => []
  | (k, c) :: m' =>
      (if str_eqb k first_visit_key then under (Field k) (ops c) else []) ++ first m'
  end.
Definition others_ops := fix others (m : list (str * simple_event)) : list visit_op :=
  match m with
  | [] => []
  | (k, c) :: m' =>
      (if str_eqb k first_visit_key then [] else under (Field k) (ops c)) ++ others m'
  end.
End Loops.
Lemma simple_ops_list : forall l, simple_ops (SList l) = list_ops simple_ops 0 l.
Proof. reflexivity. Qed.
Lemma simple_ops_map : forall m, simple_ops (SMap m) = first_ops simple_ops m ++ others_ops simple_ops m.
Proof. reflexivity. Qed.

Section MapLoops.
Variable mp : (path -> str -> str) -> simple_event -> simple_event.
Variable f : path -> str -> str.
Definition list_map_at := fix go (i : nat) (l : list simple_event) : list simple_event :=
  match l with
  | [] => []
  | c :: l' => mp (fun p => f (Index i :: p)) c :: go (S i) l'
  end.
Definition map_map_at := fix go (m : list (str * simple_event)) : list (str * simple_event) :=
  match m with
  | [] => []
  | (k, c) :: m' => (k, mp (fun p => f (Field k :: p)) c) :: go m'
  end.
End MapLoops.
Lemma simple_map_list : forall f l, simple_map f (SList l) = SList (list_map_at simple_map f 0 l).
Proof. reflexivity. Qed.
Lemma simple_map_map : forall f m, simple_map f (SMap m) = SMap (map_map_at simple_map f m).
Proof. reflexivity. Qed.

Definition shown (stack : path) (l : list (path * str)) : list (path * str) :=
  map (fun pc => (stack ++ fst pc, snd pc)) l.

Lemma shown_pre : forall stack s l, shown (stack ++ [s]) l = shown stack (pre s l).
Proof.
  intros. unfold shown, pre. rewrite map_map. apply map_ext. intros [p c]. simpl.
  rewrite <- app_assoc. reflexivity.
Qed.
Lemma shown_app : forall stack a b, shown stack (a ++ b) = shown stack a ++ shown stack b.
Proof. intros. apply map_app. Qed.

(* [ops] shows exactly the strings [l] *)
Definition shows (ops : list visit_op) (l : list (path * str)) : Prop :=
  forall stack rest, strings_at stack (ops ++ rest) =
    option_map (app (shown stack l)) (strings_at stack rest).

Lemma shows_nil : shows [] [].
Proof. intros stack rest. simpl. destruct (strings_at stack rest); reflexivity. Qed.

Lemma shows_app : forall o1 l1 o2 l2, shows o1 l1 -> shows o2 l2 -> shows (o1 ++ o2) (l1 ++ l2).
Proof.
  intros o1 l1 o2 l2 H1 H2 stack rest. rewrite <- app_assoc, H1, H2.
  destruct (strings_at stack rest); simpl; auto. rewrite shown_app, <- app_assoc. reflexivity.
Qed.

Lemma shows_under : forall s o l, shows o l -> shows (under s o) (pre s l).
Proof.
  intros s o l H stack rest. unfold under. simpl. rewrite <- app_assoc, H. simpl.
  destruct (stack ++ [s]) eqn:E; [destruct stack; discriminate|]. rewrite <- E.
  rewrite removelast_last, shown_pre. reflexivity.
Qed.

Lemma simple_shows : forall e, shows (simple_ops e) (simple_strings e).
Proof.
  induction e as [s|l IH|m IH] using simple_ind'.
  - intros stack rest. simpl. rewrite app_nil_r. destruct (strings_at stack rest); reflexivity.
  - rewrite simple_ops_list. cbn [simple_strings]. generalize 0 as i.
    induction IH as [|c l Hc Hl IH]; intros i; simpl; [apply shows_nil|].
    apply (shows_app (under (Index i) (simple_ops c))); [apply shows_under; auto|apply IH].
  - rewrite simple_ops_map. cbn [simple_strings]. apply shows_app.
    + induction IH as [|[k c] m Hc Hm IH]; simpl; [apply shows_nil|].
      apply shows_app; [|apply IH]. destruct (str_eqb k first_visit_key); [|apply shows_nil].
      apply shows_under; auto.
    + induction IH as [|[k c] m Hc Hm IH]; simpl; [apply shows_nil|].
      apply shows_app; [|apply IH]. destruct (str_eqb k first_visit_key); [apply shows_nil|].
      apply shows_under; auto.
Qed.

Lemma simple_strings_of : forall e, strings_of (simple_ops e) = Some (simple_strings e).
Proof.
  intros e. unfold strings_of. rewrite <- (app_nil_r (simple_ops e)), simple_shows. simpl.
  rewrite app_nil_r. unfold shown. simpl. f_equal. rewrite <- map_id. apply map_ext.
  intros []; reflexivity.
Qed.

(* membership *)
Lemma in_pre : forall s l p c, In (p, c) (pre s l) <-> exists q, p = s :: q /\ In (q, c) l.
Proof.
  intros. unfold pre. rewrite in_map_iff. split.
  - intros ([q d] & E & H). simpl in E. inversion E; subst. eauto.
  - intros (q & -> & H). exists (q, c). auto.
Qed.

Lemma in_list_strs : forall strs l i p c,
  In (p, c) (list_strs strs i l) <->
  exists j d q, nth_error l j = Some d /\ p = Index (i + j) :: q /\ In (q, c) (strs d).
Proof.
  intros strs. induction l as [|d l IH]; intros i p c; simpl.
  - split; [intros []|]. intros (j & d & q & H & _). destruct j; discriminate.
  - rewrite in_app_iff, in_pre, IH. split.
    + intros [(q & -> & H)|(j & d' & q & H1 & -> & H2)].
      * exists 0, d, q. rewrite Nat.add_0_r. auto.
      * exists (S j), d', q. split; [exact H1|]. rewrite Nat.add_succ_r. auto.
    + intros ([|j] & d' & q & H1 & -> & H2); simpl in H1.
      * inversion H1; subst. left. rewrite Nat.add_0_r. eauto.
      * right. exists j, d', q. rewrite Nat.add_succ_r. auto.
Qed.

Lemma in_first_strs : forall strs m p c,
  In (p, c) (first_strs strs m) <->
  exists k d q, In (k, d) m /\ k = first_visit_key /\ p = Field k :: q /\ In (q, c) (strs d).
Proof.
  intros strs. induction m as [|[k d] m IH]; intros p c; simpl.
  - split; [intros []|]. intros (k & d & q & [] & _).
  - rewrite in_app_iff, IH. split.
    + intros [H|(k' & d' & q & H1 & H2)].
      * destruct (str_eqb k first_visit_key) eqn:E; [|contradiction]. apply str_eqb_eq in E.
        apply in_pre in H as (q & -> & H). exists k, d, q. auto.
      * exists k', d', q. auto.
    + intros (k' & d' & q & [H1|H1] & H2 & H3 & H4).
      * injection H1 as <- <-. left. apply str_eqb_eq in H2. rewrite H2. apply in_pre. eauto.
      * right. exists k', d', q. auto.
Qed.
Lemma in_others_strs : forall strs m p c,
  In (p, c) (others_strs strs m) <->
  exists k d q, In (k, d) m /\ k <> first_visit_key /\ p = Field k :: q /\ In (q, c) (strs d).
Proof.
  intros strs. induction m as [|[k d] m IH]; intros p c; simpl.
  - split; [intros []|]. intros (k & d & q & [] & _).
  - rewrite in_app_iff, IH. split.
    + intros [H|(k' & d' & q & H1 & H2)].
      * destruct (str_eqb k first_visit_key) eqn:E; [contradiction|]. apply str_eqb_neq in E.
        apply in_pre in H as (q & -> & H). exists k, d, q. auto.
      * exists k', d', q. auto.
    + intros (k' & d' & q & [H1|H1] & H2 & H3 & H4).
      * injection H1 as <- <-. left. apply str_eqb_neq in H2. rewrite H2. apply in_pre. eauto.
      * right. exists k', d', q. auto.
Qed.

Lemma in_map_strs : forall m p c,
  In (p, c) (simple_strings (SMap m)) <->
  exists k d q, In (k, d) m /\ p = Field k :: q /\ In (q, c) (simple_strings d).
Proof.
  intros m p c. cbn [simple_strings]. rewrite in_app_iff, in_first_strs, in_others_strs. split.
  - intros [(k & d & q & H1 & _ & H2)|(k & d & q & H1 & _ & H2)]; eauto.
  - intros (k & d & q & H1 & H2 & H3).
    destruct (str_eqb k first_visit_key) eqn:E; [apply str_eqb_eq in E|apply str_eqb_neq in E].
    + left. exists k, d, q. auto.
    + right. exists k, d, q. auto.
Qed.

Lemma simple_strings_holds : forall e p c, In (p, c) (simple_strings e) <-> holds_at e p c.
Proof.
  induction e as [s|l IH|m IH] using simple_ind'; intros p c.
  - simpl. split.
    + intros [H|[]]. inversion H; subst. constructor.
    + intros H. inversion H; subst. auto.
  - cbn [simple_strings]. rewrite in_list_strs. rewrite Forall_forall in IH. split.
    + intros (j & d & q & H1 & -> & H2). simpl. econstructor; eauto.
      apply IH; auto. eapply nth_error_In; eauto.
    + intros H. inversion H; subst. exists i, c0, p0. repeat split; auto.
      apply IH; auto. eapply nth_error_In; eauto.
  - rewrite in_map_strs. rewrite Forall_forall in IH. split.
    + intros (k & d & q & H1 & -> & H2). econstructor; eauto. apply (IH (k, d)); auto.
    + intros H. inversion H; subst. exists k, c0, p0. repeat split; auto. apply (IH (k, c0)); auto.
Qed.

(* distinct paths *)
Lemma pre_paths : forall s l, map fst (pre s l) = map (cons s) (map fst l).
Proof. intros. unfold pre. rewrite !map_map. apply map_ext. reflexivity. Qed.

Lemma NoDup_app2 : forall A (l1 l2 : list A), NoDup l1 -> NoDup l2 ->
  (forall x, In x l1 -> ~ In x l2) -> NoDup (l1 ++ l2).
Proof.
  induction l1 as [|x l1 IH]; intros l2 H1 H2 H; simpl; [auto|].
  inversion H1; subst. constructor.
  - rewrite in_app_iff. intros [Hx|Hx]; [contradiction|]. apply (H x); simpl; auto.
  - apply IH; auto. intros y Hy. apply H. right; auto.
Qed.

Lemma NoDup_pre : forall s l, NoDup (map fst l) -> NoDup (map fst (pre s l)).
Proof.
  intros s l H. rewrite pre_paths. apply FinFun.Injective_map_NoDup; auto.
  intros x y E; congruence.
Qed.

Lemma map_fst_in : forall (l : list (path * str)) p, In p (map fst l) <-> exists c, In (p, c) l.
Proof.
  intros. rewrite in_map_iff. split.
  - intros ([q c] & E & H). simpl in E. subst. eauto.
  - intros (c & H). exists (p, c). auto.
Qed.

Lemma simple_distinct : forall e, distinct_keys e -> NoDup (map fst (simple_strings e)).
Proof.
  induction e as [s|l IH|m IH] using simple_ind'; intros Hd; inversion Hd; subst.
  - simpl. constructor; [intros []|constructor].
  - cbn [simple_strings]. generalize 0 as i.
    induction IH as [|c l Hc Hl IH]; intros i; simpl; [constructor|].
    rewrite map_app. apply NoDup_app2.
    + apply NoDup_pre, Hc. apply H0. left; auto.
    + apply IH; [constructor|]; intros; apply H0; right; auto.
    + intros p H1 H2. apply map_fst_in in H1 as (x & H1). apply map_fst_in in H2 as (y & H2).
      apply in_pre in H1 as (q & -> & _).
      apply in_list_strs in H2 as (j & d & q' & _ & E & _). inversion E. lia.
  - cbn [simple_strings]. rewrite map_app. rewrite Forall_forall in IH.
    assert (Hone : forall (sel : str -> bool) (loop : list (str * simple_event) -> list (path * str)),
      (loop [] = []) ->
      (forall k c m', loop ((k, c) :: m') =
         (if sel k then pre (Field k) (simple_strings c) else []) ++ loop m') ->
      (forall m' p c, In (p, c) (loop m') -> exists k d q, In (k, d) m' /\ p = Field k :: q) ->
      forall m', NoDup (map fst m') -> (forall k c, In (k, c) m' -> NoDup (map fst (simple_strings c))) ->
      NoDup (map fst (loop m'))).
    { intros sel loop L0 L1 L2. induction m' as [|[k c] m' IHm]; intros Hn Hc.
      - rewrite L0. constructor.
      - rewrite L1, map_app. simpl in Hn. inversion Hn; subst. apply NoDup_app2.
        + destruct (sel k); [|constructor]. apply NoDup_pre. apply (Hc k). left; reflexivity.
        + apply IHm; auto. intros k' c' H'. apply (Hc k'). right; auto.
        + intros p A B. apply map_fst_in in B as (y & B). apply L2 in B as (k' & d & q & B1 & ->).
          destruct (sel k); [|contradiction]. apply map_fst_in in A as (x & A).
          apply in_pre in A as (q' & A & _). inversion A; subst. apply H3.
          apply in_map_iff. exists (k, d). auto. }
    assert (Hc : forall k c, In (k, c) m -> NoDup (map fst (simple_strings c))).
    { intros k c Hin. apply (IH (k, c) Hin). eapply H1; eauto. }
    apply NoDup_app2.
    + apply (Hone (fun k => str_eqb k first_visit_key) (first_strs simple_strings)); auto.
      intros m' p c Hin. apply in_first_strs in Hin as (k & d & q & A & _ & B & _). eauto.
    + apply (Hone (fun k => negb (str_eqb k first_visit_key)) (others_strs simple_strings)); auto.
      * intros k c m'. simpl. destruct (str_eqb k first_visit_key); reflexivity.
      * intros m' p c Hin. apply in_others_strs in Hin as (k & d & q & A & _ & B & _). eauto.
    + intros p A B. apply map_fst_in in A as (x & A). apply map_fst_in in B as (y & B).
      apply in_first_strs in A as (k & d & q & _ & A1 & A2 & _).
      apply in_others_strs in B as (k' & d' & q' & _ & B1 & B2 & _).
      rewrite A2 in B2. inversion B2; subst. contradiction.
Qed.

(* reading and writing *)
Lemma map_get_in : forall A (m : list (str * A)) k v, NoDup (map fst m) ->
  In (k, v) m -> map_get m k = Some v.
Proof.
  intros A. induction m as [|[k' v'] m IH]; intros k v Hn Hin; [destruct Hin|]; simpl in *; destruct Hin as [E|H]; inversion Hn; subst.
  - inversion E; subst. rewrite str_eqb_refl. reflexivity.
  - destruct (str_eqb k' k) eqn:Ek; [|auto]. apply str_eqb_eq in Ek. subst.
    exfalso. apply H2. apply in_map_iff. exists (k, v). auto.
Qed.

Lemma map_map_at_get : forall mp f m k,
  map_get (map_map_at mp f m) k = option_map (mp (fun p => f (Field k :: p))) (map_get m k).
Proof.
  intros mp f. induction m as [|[k' c] m IH]; intros k; simpl; [reflexivity|].
  destruct (str_eqb k' k) eqn:E; [|apply IH]. apply str_eqb_eq in E. subst. reflexivity.
Qed.

Lemma list_map_at_nth : forall mp f l i j,
  nth_error (list_map_at mp f i l) j =
  option_map (mp (fun p => f (Index (i + j) :: p))) (nth_error l j).
Proof.
  intros mp f. induction l as [|c l IH]; intros i [|j]; simpl; auto.
  - rewrite Nat.add_0_r. reflexivity.
  - rewrite IH, Nat.add_succ_r. reflexivity.
Qed.

Lemma simple_get_map : forall e, distinct_keys e -> forall p c f, In (p, c) (simple_strings e) ->
  simple_get (simple_map f e) p = Ret (f p c).
Proof.
  induction e as [s|l IH|m IH] using simple_ind'; intros Hd p c f H; inversion Hd; subst.
  - destruct H as [H|[]]. inversion H; subst. reflexivity.
  - cbn [simple_strings] in H. apply in_list_strs in H as (j & d & q & H2 & -> & H3).
    simpl plus. rewrite simple_map_list. cbn [simple_get]. rewrite list_map_at_nth, H2.
    cbn [option_map]. simpl plus. rewrite Forall_forall in IH.
    pose proof (nth_error_In _ _ H2) as Hin.
    rewrite (IH d Hin (H1 d Hin) q c _ H3). reflexivity.
  - apply in_map_strs in H as (k & d & q & H3 & -> & H4). rewrite simple_map_map.
    cbn [simple_get]. rewrite map_map_at_get, (map_get_in _ _ _ _ H1 H3). cbn [option_map].
    rewrite Forall_forall in IH. specialize (IH (k, d) H3). simpl in IH.
    rewrite (IH (H2 k d H3) q c _ H4). reflexivity.
Qed.

Lemma simple_map_ext : forall e f g, (forall p c, f p c = g p c) -> simple_map f e = simple_map g e.
Proof.
  induction e as [s|l IH|m IH] using simple_ind'; intros f g H.
  - simpl. rewrite H. reflexivity.
  - rewrite !simple_map_list. f_equal. generalize 0 as i.
    induction IH as [|c l Hc Hl IH]; intros i; simpl; [reflexivity|]. f_equal; [|apply IH].
    apply Hc. intros; apply H.
  - rewrite !simple_map_map. f_equal.
    induction IH as [|[k c] m Hc Hm IH]; simpl; [reflexivity|]. f_equal; [|apply IH].
    f_equal. apply Hc. intros; apply H.
Qed.

Lemma simple_map_id : forall e f, (forall p c, In (p, c) (simple_strings e) -> f p c = c) -> simple_map f e = e.
Proof.
  induction e as [s|l IH|m IH] using simple_ind'; intros f H.
  - simpl. rewrite H; [reflexivity|]. left; reflexivity.
  - rewrite simple_map_list. f_equal. cbn [simple_strings] in H.
    assert (K : forall i, (forall p c, In (p, c) (list_strs simple_strings i l) -> f p c = c) ->
                list_map_at simple_map f i l = l); [|apply K, H].
    clear H. induction IH as [|c l Hc Hl IH]; intros i K; simpl; [reflexivity|]. f_equal.
    + apply Hc. intros p d Hin. apply K. simpl. apply in_or_app. left. apply in_pre. eauto.
    + apply IH. intros p d Hin. apply K. simpl. apply in_or_app. right. exact Hin.
  - rewrite simple_map_map. f_equal.
    assert (K : forall k d q c, In (k, d) m -> In (q, c) (simple_strings d) -> f (Field k :: q) c = c).
    { intros k d q c H1 H2. apply H. apply in_map_strs. eauto 6. }
    clear H. induction IH as [|[k c] m Hc Hm IH]; simpl; [reflexivity|]. f_equal.
    + f_equal. apply Hc. intros p d Hin. apply (K k c); auto. left; reflexivity.
    + apply IH. intros k' d' q' c' H1 H2. apply (K k' d'); auto. right; auto.
Qed.

Definition upd (f : path -> str -> str) (p : path) (c' : str) : path -> str -> str :=
  fun q c => if path_eqb q p then c' else f q c.

Lemma upd_other_ext : forall e f p c', (forall q c, In (q, c) (simple_strings e) -> q <> p) ->
  simple_map (upd f p c') e = simple_map f e.
Proof.
  induction e as [s|l IH|m IH] using simple_ind'; intros f p c' H.
  - simpl. unfold upd. destruct (path_eqb [] p) eqn:E; [|reflexivity].
    apply path_eqb_eq in E. subst. exfalso. apply (H [] s); auto. left; reflexivity.
  - rewrite !simple_map_list. f_equal. cbn [simple_strings] in H.
    assert (K : forall i, (forall q c, In (q, c) (list_strs simple_strings i l) -> q <> p) ->
                list_map_at simple_map (upd f p c') i l = list_map_at simple_map f i l); [|apply K, H].
    clear H. induction IH as [|c l Hc Hl IH]; intros i K; simpl; [reflexivity|]. f_equal.
    + destruct p as [|s p].
      * apply simple_map_ext. intros; reflexivity.
      * destruct (segment_eqb (Index i) s) eqn:Es.
        -- apply segment_eqb_eq in Es. subst s.
           transitivity (simple_map (upd (fun q => f (Index i :: q)) p c') c).
           ++ apply simple_map_ext. intros q d. unfold upd. simpl. rewrite Nat.eqb_refl. reflexivity.
           ++ apply Hc. intros q d Hin E. subst q. apply (K (Index i :: p) d); auto.
              simpl. apply in_or_app. left. apply in_pre. eauto.
        -- apply simple_map_ext. intros q d. unfold upd. simpl in *. rewrite Es. reflexivity.
    + apply IH. intros q d Hin. apply (K q d). simpl. apply in_or_app. right. exact Hin.
  - rewrite !simple_map_map. f_equal.
    assert (K : forall k d q c, In (k, d) m -> In (q, c) (simple_strings d) -> Field k :: q <> p).
    { intros k d q c H1 H2. apply (H _ c). apply in_map_strs. eauto 6. }
    clear H. induction IH as [|[k c] m Hc Hm IH]; simpl; [reflexivity|]. f_equal.
    + f_equal. destruct p as [|s p].
      * apply simple_map_ext. intros; reflexivity.
      * destruct (segment_eqb (Field k) s) eqn:Es.
        -- apply segment_eqb_eq in Es. subst s.
           transitivity (simple_map (upd (fun q => f (Field k :: q)) p c') c).
           ++ apply simple_map_ext. intros q d. unfold upd. simpl. rewrite str_eqb_refl. reflexivity.
           ++ apply Hc. intros q d Hin E. subst q. apply (K k c p d); auto. left; reflexivity.
        -- apply simple_map_ext. intros q d. unfold upd. simpl in *. rewrite Es. reflexivity.
    + apply IH. intros k' d' q' c'' H1 H2. apply (K k' d' q' c''); auto. right; auto.
Qed.

Lemma upd_diff : forall s t f p c' e, segment_eqb s t = false ->
  simple_map (fun q => upd f (t :: p) c' (s :: q)) e = simple_map (fun q => f (s :: q)) e.
Proof.
  intros. apply simple_map_ext. intros q d. unfold upd. cbn [path_eqb]. rewrite H. reflexivity.
Qed.
Lemma upd_same : forall s f p c' e,
  simple_map (fun q => upd f (s :: p) c' (s :: q)) e = simple_map (upd (fun q => f (s :: q)) p c') e.
Proof.
  intros. apply simple_map_ext. intros q d. unfold upd. cbn [path_eqb].
  assert (segment_eqb s s = true) as -> by (apply segment_eqb_eq; reflexivity). reflexivity.
Qed.

Lemma list_upd : forall mpf l i j d f p c', nth_error l j = Some d ->
  mpf = simple_map ->
  list_map_at mpf (upd f (Index (i + j) :: p) c') i l =
  list_set (list_map_at mpf f i l) j (mpf (upd (fun q => f (Index (i + j) :: q)) p c') d).
Proof.
  intros mpf l i j d f p c' H ->. revert i j H.
  induction l as [|c l IH]; intros i [|j] H; simpl in H; try discriminate.
  - inversion H; subst. simpl. rewrite Nat.add_0_r. f_equal; [apply upd_same|].
    assert (K : forall l k, k > i -> list_map_at simple_map (upd f (Index i :: p) c') k l = list_map_at simple_map f k l).
    { clear. induction l as [|x l IH]; intros k Hk; simpl; [reflexivity|]. f_equal; [|apply IH; lia].
      apply upd_diff. simpl. apply Nat.eqb_neq. lia. }
    apply K. lia.
  - simpl. f_equal.
    + apply upd_diff. simpl. apply Nat.eqb_neq. lia.
    + replace (i + S j) with (S i + j) by lia. apply IH. exact H.
Qed.

Lemma map_upd : forall m k d f p c', NoDup (map fst m) -> In (k, d) m ->
  map_map_at simple_map (upd f (Field k :: p) c') m =
  map_set (map_map_at simple_map f m) k (simple_map (upd (fun q => f (Field k :: q)) p c') d).
Proof.
  induction m as [|[k' c] m IH]; intros k d f p c' Hn Hin; [contradiction|].
  simpl in Hn. inversion Hn; subst. simpl. destruct (str_eqb k' k) eqn:E.
  - apply str_eqb_eq in E. subst k'. destruct Hin as [Hin|Hin].
    + inversion Hin; subst. f_equal; [f_equal; apply upd_same|].
      assert (K : forall l, ~ In k (map fst l) -> map_map_at simple_map (upd f (Field k :: p) c') l = map_map_at simple_map f l).
      { clear. induction l as [|[x y] l IH]; intros Hk; simpl in *; [reflexivity|]. f_equal; [|apply IH; tauto].
        f_equal. apply upd_diff. simpl. apply str_eqb_neq. tauto. }
      apply K; auto.
    + exfalso. apply H1. apply in_map_iff. exists (k, d). auto.
  - destruct Hin as [Hin|Hin].
    + inversion Hin; subst. rewrite str_eqb_refl in E. discriminate.
    + f_equal; [f_equal; apply upd_diff; exact E|]. apply IH; auto.
Qed.

Lemma simple_set_map : forall e, distinct_keys e -> forall p c f c', In (p, c) (simple_strings e) ->
  simple_set (simple_map f e) p c' = simple_map (upd f p c') e.
Proof.
  induction e as [s|l IH|m IH] using simple_ind'; intros Hd p c f c' H; inversion Hd; subst.
  - destruct H as [H|[]]. inversion H; subst. reflexivity.
  - cbn [simple_strings] in H. apply in_list_strs in H as (j & d & q & H2 & -> & H3).
    rewrite !simple_map_list. cbn [simple_set]. rewrite list_map_at_nth. simpl plus. rewrite H2.
    cbn [option_map]. f_equal.
    pose proof (list_upd simple_map l 0 j d f q c' H2 eq_refl) as K. simpl plus in K.
    rewrite K. f_equal.
    rewrite Forall_forall in IH. pose proof (nth_error_In _ _ H2) as Hin.
    apply (IH d Hin (H1 d Hin) q c _ _ H3).
  - apply in_map_strs in H as (k & d & q & H3 & -> & H4). rewrite !simple_map_map.
    cbn [simple_set]. rewrite map_map_at_get, (map_get_in _ _ _ _ H1 H3). cbn [option_map]. f_equal.
    rewrite (map_upd m k d f q c' H1 H3). f_equal.
    rewrite Forall_forall in IH. specialize (IH (k, d) H3). simpl in IH.
    apply (IH (H2 k d H3) q c _ _ H4).
Qed.

Lemma simple_laws : forall e0, distinct_keys e0 ->
  event_laws simple_event_impl e0 (simple_strings e0) (simple_holds e0).
Proof.
  intros e0 Hd. constructor.
  - apply simple_strings_of.
  - apply simple_distinct; auto.
  - intros log Hlog. exists (fun _ c => c). split.
    + simpl. symmetry. apply simple_map_id. auto.
    + rewrite Hlog. rewrite <- map_id at 1. apply map_ext. intros []; reflexivity.
  - intros e l p c (f & -> & Hl) Hin. simpl.
    assert (H : In (p, c) (map fst l)). { apply in_map_iff. exists (p, c, true). auto. }
    rewrite Hl in H. apply in_map_iff in H as ([q d] & E & H). simpl in E. inversion E; subst.
    apply simple_get_map; auto.
  - intros e l1 p c l2 c' mutated (f & -> & Hl) _ Hn. exists (upd f p c'). simpl.
    assert (H : In (p, c) (map fst (l1 ++ (p, c, true) :: l2))).
    { apply in_map_iff. exists (p, c, true). split; auto. apply in_or_app. right. left; reflexivity. }
    rewrite Hl in H. apply in_map_iff in H as ([q d] & E & H). simpl in E. inversion E; subst.
    split; [apply (simple_set_map e0 Hd p d); auto|].
    assert (Hupd : map (fun pc : path * str => (fst pc, upd f p c' (fst pc) (snd pc))) (simple_strings e0) =
       map (fun pc => (fst pc, if path_eqb (fst pc) p then c' else snd pc))
         (map (fun pc : path * str => (fst pc, f (fst pc) (snd pc))) (simple_strings e0))).
    { rewrite map_map. apply map_ext. intros [x y]. reflexivity. }
    rewrite Hupd, <- Hl, !map_map, !map_app. rewrite map_app in Hn. simpl in *.
    assert (path_eqb p p = true) as -> by (apply path_eqb_eq; reflexivity).
    assert (K : forall l, ~ In p (map (fun x : path * str * bool => fst (fst x)) l) ->
       map fst l = map (fun x : path * str * bool => (fst (fst x), if path_eqb (fst (fst x)) p then c' else snd (fst x))) l).
    { clear. induction l as [|[[a b] z] l IH]; intros Hn; simpl in *; [reflexivity|].
      rewrite IH by tauto. destruct (path_eqb a p) eqn:Ea; [|reflexivity].
      apply path_eqb_eq in Ea. tauto. }
    apply NoDup_remove in Hn as [_ Hn]. rewrite in_app_iff in Hn.
    rewrite <- !K by tauto. reflexivity.
Qed.
