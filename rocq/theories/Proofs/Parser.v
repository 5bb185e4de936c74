(* Facts about the pattern parser *)
From Coq Require Import Lia ZifyN.
From Verif Require Import Proofs.Text.
From Verif Require Export Spec.Pattern.

(* ---- running a parser ---- *)
Lemma pbind_ok : forall A B (r : presult A) (f : A -> str -> presult B) b rest,
  pbind r f = POk b rest -> exists a s1, r = POk a s1 /\ f a s1 = POk b rest.
Proof. intros A B [a s1| |e|] f b rest H; simpl in H; try discriminate. eauto. Qed.

Lemma pbind_stuck : forall A B (r : presult A) (f : A -> str -> presult B),
  r <> PStuck -> (forall a s1, r = POk a s1 -> f a s1 <> PStuck) -> pbind r f <> PStuck.
Proof. intros A B [a s1| |e|] f H1 H2; simpl; try discriminate; auto. Qed.

Lemma pbind_fail : forall A B (r : presult A) (f : A -> str -> presult B) e,
  pbind r f = PFail e -> r = PFail e \/ exists a s1, r = POk a s1 /\ f a s1 = PFail e.
Proof. intros A B [a s1| |e'|] f e H; simpl in H; try discriminate; [right; eauto|left; congruence]. Qed.

Lemma tag_ok : forall t s u rest, tag t s = POk u rest -> s = t ++ rest.
Proof.
  induction t as [|c t IH]; intros s u rest H; simpl in H.
  - injection H as _ ->. reflexivity.
  - destruct s as [|d s]; [discriminate|]. destruct (N.eqb_spec c d) as [->|]; [|discriminate].
    simpl. f_equal. eauto.
Qed.
Lemma tag_app : forall t rest, tag t (t ++ rest) = POk tt rest.
Proof. induction t as [|c t IH]; intros rest; simpl; auto. rewrite N.eqb_refl. apply IH. Qed.
Lemma tag_stuck : forall t s, tag t s <> PStuck.
Proof.
  induction t as [|c t IH]; intros [|d s]; simpl; try discriminate. destruct (c =? d)%N; auto. discriminate.
Qed.
Lemma tag_fail : forall t s e, tag t s <> PFail e.
Proof.
  induction t as [|c t IH]; intros [|d s] e; simpl; try discriminate. destruct (c =? d)%N; auto. discriminate.
Qed.

Lemma pmap_ok : forall A B (f : A -> B) p s b rest, pmap f p s = POk b rest ->
  exists a, p s = POk a rest /\ b = f a.
Proof. intros A B f p s b rest H. apply pbind_ok in H as (a & s1 & H1 & H2). injection H2 as <- <-. eauto. Qed.

Lemma alt_ok : forall A (ps : list (str -> presult A)) s a rest, alt ps s = POk a rest ->
  exists l1 p l2, ps = l1 ++ p :: l2 /\ p s = POk a rest /\ forall q, In q l1 -> q s = PErr.
Proof.
  induction ps as [|p ps IH]; intros s a rest H; simpl in H; [discriminate|].
  destruct (p s) eqn:E; try discriminate.
  - exists [], p, ps. split; [reflexivity|]. split; [congruence|]. intros q [].
  - destruct (IH _ _ _ H) as (l1 & q & l2 & -> & H1 & H2). exists (p :: l1), q, l2.
    split; [reflexivity|]. split; auto. intros q' [<-|Hq]; auto.
Qed.
Lemma alt_in : forall A (ps : list (str -> presult A)) s a rest, alt ps s = POk a rest ->
  exists p, In p ps /\ p s = POk a rest.
Proof.
  intros A ps s a rest H. apply alt_ok in H as (l1 & p & l2 & -> & H & _). exists p.
  split; auto. apply in_or_app. right. left. reflexivity.
Qed.
Lemma alt_stuck : forall A (ps : list (str -> presult A)) s, (forall p, In p ps -> p s <> PStuck) ->
  alt ps s <> PStuck.
Proof.
  induction ps as [|p ps IH]; intros s H; simpl; [discriminate|].
  pose proof (H p (or_introl eq_refl)). destruct (p s); try discriminate; auto. apply IH. intros; apply H; right; auto.
Qed.
Lemma alt_fail : forall A (ps : list (str -> presult A)) s e, alt ps s = PFail e ->
  exists p, In p ps /\ p s = PFail e.
Proof.
  induction ps as [|p ps IH]; intros s e H; simpl in H; [discriminate|].
  destruct (p s) eqn:E; try discriminate.
  - destruct (IH _ _ H) as (q & Hq & E'). exists q. split; [right|]; auto.
  - exists p. split; [left; reflexivity|congruence].
Qed.

Lemma opt_ok : forall A (p : str -> presult A) s o rest, opt p s = POk o rest ->
  match o with Some a => p s = POk a rest | None => p s = PErr /\ rest = s end.
Proof. intros A p s o rest H. unfold opt in H. destruct (p s); try discriminate; injection H as <- <-; auto. Qed.
Lemma opt_stuck : forall A (p : str -> presult A) s, p s <> PStuck -> opt p s <> PStuck.
Proof. intros A p s H. unfold opt. destruct (p s); try discriminate. congruence. Qed.
Lemma opt_fail : forall A (p : str -> presult A) s e, opt p s = PFail e -> p s = PFail e.
Proof. intros A p s e H. unfold opt in H. destruct (p s); try discriminate. congruence. Qed.

(* ---- consuming a part of the input ---- *)
Definition psound {A} (R : A -> str -> Prop) (p : str -> presult A) : Prop :=
  forall s a rest, p s = POk a rest -> exists t, s = t ++ rest /\ R a t.
Definition shrinks {A} (p : str -> presult A) : Prop :=
  forall s a rest, p s = POk a rest -> exists t, s = t ++ rest.
Definition total {A} (p : str -> presult A) : Prop := forall s, p s <> PStuck.
Lemma sound_shrinks : forall A (R : A -> str -> Prop) p, psound R p -> shrinks p.
Proof. intros A R p H s a rest E. destruct (H _ _ _ E) as (t & Ht & _). eauto. Qed.

Lemma psound_weaken : forall A (R Q : A -> str -> Prop) p, psound R p -> (forall a t, R a t -> Q a t) -> psound Q p.
Proof. intros A R Q p H HQ s a rest E. destruct (H _ _ _ E) as (t & Ht & Hr). eauto. Qed.

Lemma psound_tag : forall t, psound (fun _ u => u = t) (tag t).
Proof. intros t s a rest H. exists t. split; auto. eapply tag_ok; eauto. Qed.

Lemma psound_pmap : forall A B (f : A -> B) R (Q : B -> str -> Prop) p, psound R p ->
  (forall a t, R a t -> Q (f a) t) -> psound Q (pmap f p).
Proof.
  intros A B f R Q p H HQ s b rest E. apply pmap_ok in E as (a & E & ->). destruct (H _ _ _ E) as (t & Ht & Hr). eauto.
Qed.
Lemma psound_map_tag : forall A (a : A) (Q : A -> str -> Prop) t, Q a t -> psound Q (pmap (fun _ => a) (tag t)).
Proof. intros A a Q t H. eapply psound_pmap; [apply psound_tag|]. intros _ u ->. exact H. Qed.

Lemma psound_alt : forall A (R : A -> str -> Prop) ps, Forall (psound R) ps -> psound R (alt ps).
Proof.
  intros A R ps H s a rest E. apply alt_in in E as (p & Hp & E). rewrite Forall_forall in H. exact (H p Hp _ _ _ E).
Qed.
Lemma psound_opt : forall A (R : A -> str -> Prop) p, psound R p ->
  psound (fun o t => match o with Some a => R a t | None => t = [] end) (opt p).
Proof.
  intros A R p H s o rest E. apply opt_ok in E. destruct o as [a|].
  - destruct (H _ _ _ E) as (t & Ht & Hr). eauto.
  - destruct E as [_ ->]. exists []. auto.
Qed.

Lemma psound_bind : forall A B (R : A -> str -> Prop) (Q : A -> B -> str -> Prop) (T : B -> str -> Prop) p q,
  psound R p -> (forall a, psound (Q a) (q a)) ->
  (forall a b t u, R a t -> Q a b u -> T b (t ++ u)) ->
  psound T (fun s => pbind (p s) q).
Proof.
  intros A B R Q T p q Hp Hq HT s b rest E. apply pbind_ok in E as (a & s1 & E1 & E2).
  destruct (Hp _ _ _ E1) as (t & Ht & Hr). destruct (Hq a _ _ _ E2) as (u & Hu & Hq'). subst.
  exists (t ++ u). split; [rewrite app_assoc; reflexivity|]. eauto.
Qed.
Lemma psound_ret : forall A (R : A -> str -> Prop) a, R a [] -> psound R (fun s => POk a s).
Proof. intros A R a H s b rest E. injection E as <- <-. exists []. auto. Qed.

Lemma many0_loop_ok : forall A (R : A -> str -> Prop) p, psound R p ->
  forall fuel s l rest, many0_loop fuel p s = POk l rest ->
  exists ts, Forall2 R l ts /\ s = concat ts ++ rest.
Proof.
  intros A R p Hp. induction fuel as [|fuel IH]; intros s l rest E; simpl in E; [discriminate|].
  destruct (p s) as [a s1| |e|] eqn:E1; try discriminate.
  - destruct (length s1 =? length s); [discriminate|]. apply pbind_ok in E as (l' & s2 & E2 & E3). injection E3 as <- <-.
    destruct (Hp _ _ _ E1) as (t & -> & Hr). destruct (IH _ _ _ E2) as (ts & Hts & ->).
    exists (t :: ts). split; [constructor; auto|]. simpl. rewrite app_assoc. reflexivity.
  - injection E as <- <-. exists []. split; [constructor|reflexivity].
Qed.
Lemma psound_many0 : forall A (R : A -> str -> Prop) p, psound R p ->
  psound (fun l t => exists ts, Forall2 R l ts /\ t = concat ts) (many0 p).
Proof.
  intros A R p Hp s l rest E. destruct (many0_loop_ok A R p Hp _ _ _ _ E) as (ts & H1 & H2). eauto.
Qed.
Lemma many_upto_ok : forall A (R : A -> str -> Prop) p, psound R p ->
  forall n, psound (fun l t => length l <= n /\ exists ts, Forall2 R l ts /\ t = concat ts) (many_upto n p).
Proof.
  intros A R p Hp. induction n as [|n IH]; intros s l rest E; simpl in E.
  - injection E as <- <-. exists []. split; auto. split; auto. exists []. split; [constructor|reflexivity].
  - destruct (p s) as [a s1| |e|] eqn:E1; try discriminate.
    + destruct (length s1 =? length s); [discriminate|]. apply pbind_ok in E as (l' & s2 & E2 & E3). injection E3 as <- <-.
      destruct (Hp _ _ _ E1) as (t & -> & Hr). destruct (IH _ _ _ E2) as (u & -> & Hl & ts & Hts & ->).
      exists (t ++ concat ts). split; [rewrite app_assoc; reflexivity|]. simpl. split; [lia|].
      exists (t :: ts). split; [constructor; auto|reflexivity].
    + injection E as <- <-. exists []. split; auto. simpl. split; [lia|]. exists []. split; [constructor|reflexivity].
Qed.

Lemma many0_loop_total : forall A (p : str -> presult A), total p -> shrinks p ->
  forall fuel s, length s < fuel -> many0_loop fuel p s <> PStuck.
Proof.
  intros A p Ht Hs. induction fuel as [|fuel IH]; intros s Hl; [lia|]. simpl.
  pose proof (Ht s). destruct (p s) as [a s1| |e|] eqn:E1; try discriminate; auto.
  destruct (Nat.eqb_spec (length s1) (length s)) as [|Hne]; [discriminate|].
  destruct (Hs _ _ _ E1) as (t & ->). rewrite app_length in *. apply pbind_stuck; [apply IH; lia|]. discriminate.
Qed.
Lemma many0_total : forall A (p : str -> presult A), total p -> shrinks p -> total (many0 p).
Proof. intros A p Ht Hs s. apply many0_loop_total; auto. Qed.

(* a failure of a repeated parser is a failure at some suffix *)
Lemma many0_loop_fail : forall A (p : str -> presult A), shrinks p ->
  forall fuel s e, many0_loop fuel p s = PFail e -> exists t s', s = t ++ s' /\ p s' = PFail e.
Proof.
  intros A p Hs. induction fuel as [|fuel IH]; intros s e E; simpl in E; [discriminate|].
  destruct (p s) as [a s1| |e'|] eqn:E1; try discriminate.
  - destruct (length s1 =? length s); [discriminate|]. apply pbind_fail in E as [E|(? & ? & _ & E)]; [|discriminate].
    destruct (IH _ _ E) as (t & s' & -> & E'). destruct (Hs _ _ _ E1) as (u & ->).
    exists (u ++ t), s'. split; auto. rewrite app_assoc. reflexivity.
  - injection E as ->. exists [], s. auto.
Qed.

(* ---- single characters ---- *)
Lemma one_of_ok : forall cs s c rest, one_of cs s = POk c rest -> s = c :: rest /\ In c cs.
Proof.
  intros cs [|d s] c rest H; simpl in H; [discriminate|]. destruct (existsb (N.eqb d) cs) eqn:E; [|discriminate].
  injection H as -> ->. split; auto. apply existsb_exists in E as (x & Hx & E). apply N.eqb_eq in E. subst. auto.
Qed.
Lemma none_of_ok : forall cs s c rest, none_of cs s = POk c rest -> s = c :: rest /\ ~ In c cs.
Proof.
  intros cs [|d s] c rest H; simpl in H; [discriminate|]. destruct (existsb (N.eqb d) cs) eqn:E; [discriminate|].
  injection H as -> ->. split; auto. intros Hin. assert (existsb (N.eqb c) cs = true); [|congruence].
  apply existsb_exists. exists c. split; auto. apply N.eqb_refl.
Qed.
Lemma psound_one_of : forall cs, psound (fun c t => t = [c] /\ In c cs) (one_of cs).
Proof. intros cs s c rest E. apply one_of_ok in E as [-> H]. exists [c]. auto. Qed.
Lemma psound_none_of : forall cs, psound (fun c t => t = [c] /\ ~ In c cs) (none_of cs).
Proof. intros cs s c rest E. apply none_of_ok in E as [-> H]. exists [c]. auto. Qed.

(* ---- digits ---- *)
Lemma digit0_app : forall s, fst (digit0 s) ++ snd (digit0 s) = s.
Proof.
  induction s as [|c s IH]; simpl; auto. destruct (is_ascii_digit c); auto. destruct (digit0 s). simpl in *. congruence.
Qed.
Lemma digit0_digits : forall s c, In c (fst (digit0 s)) -> is_digit c.
Proof.
  induction s as [|d s IH]; simpl; [tauto|]. destruct (is_ascii_digit d) eqn:E; [|simpl; tauto].
  destruct (digit0 s) as [a b]. simpl in *. intros c [<-|H]; auto. unfold is_ascii_digit, in_range in E.
  apply andb_true_iff in E as [E1 E2]. apply N.leb_le in E1, E2. split; auto.
Qed.
Lemma psound_digit1 : psound (fun d t => t = d /\ d <> [] /\ forall c, In c d -> is_digit c) digit1.
Proof.
  intros s d rest E. unfold digit1 in E. destruct (digit0 s) as [[|c a] b] eqn:Ed; [discriminate|]. injection E as <- <-.
  exists (c :: a). pose proof (digit0_app s) as H1. pose proof (digit0_digits s) as H2. rewrite Ed in H1, H2. simpl in *.
  split; auto. split; auto. split; auto. discriminate.
Qed.
Lemma psound_integer : psound (fun n t => number_text t n) integer.
Proof.
  intros s n rest E. unfold integer in E. apply pbind_ok in E as (d & s1 & E1 & E2).
  destruct (psound_digit1 _ _ _ E1) as (t & -> & -> & Hne & Hd). unfold u32_from_str in E2.
  destruct (N.leb_spec (fold_left (fun n c => (n * 10 + (c - 48))%N) d 0%N) u32_max) as [Hle|]; [|discriminate].
  injection E2 as <- <-. exists d. split; auto. split; auto. split; auto. split; [reflexivity|].
  unfold decimal_value, u32_max, two32 in *. lia.
Qed.

(* ---- taking until a text ---- *)
Lemma take_until_ok : forall t, t <> [] -> psound (fun a u => u = a) (take_until t).
Proof.
  intros t Ht s. induction s as [|c s IH]; intros a rest E; simpl in E.
  - destruct (tag t []); try discriminate; injection E as <- <-; exists []; auto.
  - destruct (tag t (c :: s)) as [u r| |e|];
      [injection E as <- <-; exists []; auto| | |]; apply pbind_ok in E as (l & s1 & E1 & E2);
      injection E2 as <- <-; destruct (IH _ _ E1) as (x & -> & ->); exists (c :: l); split; reflexivity.
Qed.
(* the text taken does not contain [t] before its end *)
Lemma take_until_first : forall t, t <> [] -> forall s a rest, take_until t s = POk a rest ->
  (exists r, rest = t ++ r) /\ forall x y, a ++ rest = x ++ t ++ y -> length a <= length x.
Proof.
  intros t Ht. induction s as [|c s IH]; intros a rest E; simpl in E.
  - destruct (tag t []) as [u r| |e|] eqn:Et; try discriminate. injection E as <- <-.
    apply tag_ok in Et. split; [eauto|]. intros x y _. simpl. lia.
  - destruct (tag t (c :: s)) as [u r| |e|] eqn:Et.
    + injection E as <- <-. apply tag_ok in Et. split; [eauto|]. intros; simpl; lia.
    + apply pbind_ok in E as (l & s1 & E1 & E2). injection E2 as <- <-. destruct (IH _ _ E1) as [H1 H2].
      split; auto. intros [|d x] y Hx.
      * simpl in Hx. destruct (take_until_ok t Ht _ _ _ E1) as (w & Hw & ->). exfalso.
        rewrite Hw, Hx in Et. rewrite tag_app in Et. discriminate.
      * simpl in Hx. injection Hx as _ Hx. apply H2 in Hx. simpl. lia.
    + exfalso. eapply tag_fail; eauto.
    + exfalso. eapply tag_stuck; eauto.
Qed.

(* ---- parsers that neither run out of fuel nor fail with anything but a syntax error ---- *)
Definition calm_result {A} (r : presult A) : Prop :=
  match r with PStuck => False | PFail e => e = PInvalidSyntax | _ => True end.
Definition calm {A} (p : str -> presult A) : Prop := forall s, calm_result (p s).

Lemma calm_total : forall A (p : str -> presult A), calm p -> total p.
Proof. intros A p H s E. specialize (H s). rewrite E in H. exact H. Qed.
Lemma calm_fail : forall A (p : str -> presult A), calm p -> forall s e, p s = PFail e -> e = PInvalidSyntax.
Proof. intros A p H s e E. specialize (H s). rewrite E in H. exact H. Qed.

Lemma calm_tag : forall t, calm (tag t).
Proof. induction t as [|c t IH]; intros [|d s]; simpl; auto. destruct (c =? d)%N; [apply IH|exact I]. Qed.
Lemma calm_result_bind : forall A B (r : presult A) (f : A -> str -> presult B),
  calm_result r -> (forall a, calm (f a)) -> calm_result (pbind r f).
Proof. intros A B [a s1| |e|] f H1 H2; simpl in *; auto. apply H2. Qed.
Lemma calm_bind : forall A B (p : str -> presult A) (q : A -> str -> presult B),
  calm p -> (forall a, calm (q a)) -> calm (fun s => pbind (p s) q).
Proof. intros A B p q H1 H2 s. apply calm_result_bind; auto. Qed.
Lemma calm_ret : forall A (a : A), calm (fun s => POk a s).
Proof. intros A a s. exact I. Qed.
Lemma calm_err : forall A, calm (fun _ : str => @PErr A).
Proof. intros A s. exact I. Qed.
Lemma calm_pmap : forall A B (f : A -> B) p, calm p -> calm (pmap f p).
Proof. intros A B f p H. apply calm_bind; auto. intros a. apply calm_ret. Qed.
Lemma calm_alt : forall A (ps : list (str -> presult A)), Forall calm ps -> calm (alt ps).
Proof.
  intros A ps H s. induction H as [|p ps Hp _ IH]; simpl; auto. specialize (Hp s).
  destruct (p s); simpl in *; auto.
Qed.
Lemma calm_opt : forall A (p : str -> presult A), calm p -> calm (opt p).
Proof. intros A p H s. specialize (H s). unfold opt. destruct (p s); simpl in *; auto. Qed.
Lemma calm_many0 : forall A (p : str -> presult A), calm p -> shrinks p -> calm (many0 p).
Proof.
  intros A p Hc Hs s. unfold many0. assert (Hl : length s < S (length s)) by lia. revert Hl.
  generalize (S (length s)) as fuel. intros fuel. revert s.
  induction fuel as [|fuel IH]; intros s Hl; [lia|]. simpl.
  pose proof (Hc s) as H. destruct (p s) as [a s1| |e|] eqn:E1; simpl in *; auto.
  destruct (Nat.eqb_spec (length s1) (length s)) as [|Hne]; [exact I|].
  destruct (Hs _ _ _ E1) as (t & ->). rewrite app_length in *.
  apply calm_result_bind; [apply IH; lia|]. intros l. apply calm_ret.
Qed.
Lemma calm_many_upto : forall A (p : str -> presult A), calm p -> forall n, calm (many_upto n p).
Proof.
  intros A p Hc. induction n as [|n IH]; intros s; simpl; auto. pose proof (Hc s) as H.
  destruct (p s) as [a s1| |e|]; simpl in *; auto. destruct (length s1 =? length s); [exact I|].
  apply calm_result_bind; [apply IH|]. intros l. apply calm_ret.
Qed.
Lemma calm_one_of : forall cs, calm (one_of cs).
Proof. intros cs [|c s]; simpl; auto. destruct (existsb _ cs); exact I. Qed.
Lemma calm_none_of : forall cs, calm (none_of cs).
Proof. intros cs [|c s]; simpl; auto. destruct (existsb _ cs); exact I. Qed.
Lemma calm_take_until : forall t, calm (take_until t).
Proof.
  intros t s. induction s as [|c s IH]; simpl.
  - destruct (tag t []); exact I.
  - destruct (tag t (c :: s)); try exact I; (apply calm_result_bind; [exact IH|intros l; apply calm_ret]).
Qed.
Lemma calm_integer : calm integer.
Proof.
  apply calm_bind; [|intros d s; destruct (u32_from_str d); exact I].
  intros s. unfold digit1. destruct (digit0 s) as [[|] ?]; exact I.
Qed.

Lemma one_of_shrinks : forall cs, shrinks (one_of cs).
Proof. intros cs. eapply sound_shrinks, psound_one_of. Qed.

Ltac calm := repeat first
  [ assumption | apply calm_ret | apply calm_err | apply calm_tag | apply calm_one_of | apply calm_none_of
  | apply calm_take_until | apply calm_integer
  | apply calm_bind; [|intros ?] | apply calm_pmap | apply calm_alt; repeat apply Forall_cons; try apply Forall_nil
  | apply calm_opt ].

(* ---- numbers, names and escapes ---- *)
Lemma hex_value_is : forall c d, hex_value c = Some d -> hex_digit_is c d.
Proof.
  intros c d H. unfold hex_value, is_ascii_digit, in_range in H.
  destruct (_ && _) eqn:E1 in H.
  - apply andb_true_iff in E1 as [A B]. apply N.leb_le in A, B. injection H as <-. apply hd_digit. lia.
  - destruct (_ && _) eqn:E2 in H.
    + apply andb_true_iff in E2 as [A B]. apply N.leb_le in A, B. injection H as <-.
      replace (c - 87)%N with (c - 97 + 10)%N by lia. apply hd_lower. lia.
    + destruct (_ && _) eqn:E3 in H; [|discriminate].
      apply andb_true_iff in E3 as [A B]. apply N.leb_le in A, B. injection H as <-.
      replace (c - 55)%N with (c - 65 + 10)%N by lia. apply hd_upper. lia.
Qed.
Lemma hex_digits_are : forall c, In c hex_digits -> exists d, hex_value c = Some d /\ hex_digit_is c d.
Proof.
  intros c H. cbv [hex_digits chars] in H. simpl in H.
  repeat (destruct H as [<-|H]; [eexists; split; [reflexivity|apply hex_value_is; reflexivity]|]).
  destruct H.
Qed.
Lemma hex_number_is : forall s p acc n, hex_is p acc -> hex_number acc s = Some n -> hex_is (p ++ s) n.
Proof.
  induction s as [|c s IH]; intros p acc n Hp H; simpl in H.
  - injection H as <-. rewrite app_nil_r. exact Hp.
  - destruct (hex_value c) as [d|] eqn:Ec; [|discriminate]. destruct (_ <=? _)%N; [|discriminate].
    change (c :: s) with ([c] ++ s). rewrite app_assoc. eapply IH; [|exact H].
    constructor; auto. apply hex_value_is. exact Ec.
Qed.
Lemma from_str_radix16_is : forall h n, from_str_radix16 h = Some n ->
  (h <> [] /\ hex_is h n) \/ exists h', h = 43%N :: h' /\ h' <> [] /\ hex_is h' n.
Proof.
  intros [|c [|d h]] n H; simpl in H; [discriminate| |].
  - left. split; [discriminate|]. destruct (c =? 43)%N; [discriminate|].
    apply (hex_number_is [c] [] 0%N n); [constructor|exact H].
  - destruct (N.eqb_spec c 43) as [->|].
    + right. exists (d :: h). split; [reflexivity|]. split; [discriminate|].
      apply (hex_number_is (d :: h) [] 0%N n); [constructor|exact H].
    + left. split; [discriminate|]. apply (hex_number_is (c :: d :: h) [] 0%N n); [constructor|exact H].
Qed.
Lemma hex_all : forall h, (forall c, In c h -> In c hex_digits) -> length h <= 2 ->
  exists n, hex_is h n /\ (n < 256)%N /\ (h <> [] -> from_str_radix16 h = Some n).
Proof.
  intros [|a [|b [|]]] H Hl; simpl in Hl; try lia.
  - exists 0%N. split; [constructor|]. split; [lia|]. congruence.
  - destruct (hex_digits_are a (H a (or_introl eq_refl))) as (x & Hx & Dx).
    exists (0 * 16 + x)%N. split; [apply (hx_snoc []); [constructor|exact Dx]|].
    assert (x < 16)%N by (inversion Dx; lia). split; [lia|]. intros _. unfold from_str_radix16.
    assert (a <> 43)%N by (inversion Dx; lia). destruct (N.eqb_spec a 43); [contradiction|].
    cbn [hex_number]. rewrite Hx. destruct (N.leb_spec (0 * 16 + x) u32_max); [reflexivity|]. unfold u32_max in *. lia.
  - destruct (hex_digits_are a (H a (or_introl eq_refl))) as (x & Hx & Dx).
    destruct (hex_digits_are b (H b (or_intror (or_introl eq_refl)))) as (y & Hy & Dy).
    assert (x < 16)%N by (inversion Dx; lia). assert (y < 16)%N by (inversion Dy; lia).
    exists ((0 * 16 + x) * 16 + y)%N. split.
    { apply (hx_snoc [a]); [|exact Dy]. apply (hx_snoc []); [constructor|exact Dx]. }
    split; [lia|]. intros _. unfold from_str_radix16.
    assert (a <> 43)%N by (inversion Dx; lia). destruct (N.eqb_spec a 43); [contradiction|].
    cbn [hex_number]. rewrite Hx, Hy. unfold u32_max.
    destruct (N.leb_spec (0 * 16 + x) 4294967295); [|lia].
    destruct (N.leb_spec ((0 * 16 + x) * 16 + y) 4294967295); [reflexivity|lia].
Qed.

Definition after_backslash (c : char) (t : str) : Prop := forall b, literal_text b c true (92%N :: t).

Lemma Forall2_chars : forall (l : str) ts, Forall2 (fun c t => t = [c] /\ In c hex_digits) l ts ->
  concat ts = l /\ forall c, In c l -> In c hex_digits.
Proof.
  induction 1 as [|c t l ts [-> Hc] _ [IH1 IH2]].
  - split; [reflexivity|]. intros ? [].
  - split; [cbn [concat app]; congruence|]. intros d [<-|Hd]; auto.
Qed.

Lemma psound_hex_escaped : psound after_backslash hex_escaped_literal.
Proof.
  intros s c rest E. unfold hex_escaped_literal in E. apply pbind_ok in E as ([brace h] & s1 & E1 & E2).
  apply alt_in in E1 as (p & [<-|[<-|[]]] & E1).
  - apply pbind_ok in E1 as ([] & r1 & T1 & E1). apply pbind_ok in E1 as (h' & r2 & T2 & E1).
    apply pbind_ok in E1 as ([] & r3 & T3 & E1). injection E1 as <- <- <-.
    apply tag_ok in T1, T3. destruct (take_until_ok (chars "}") ltac:(discriminate) _ _ _ T2) as (w & -> & ->).
    subst s r2. destruct (from_str_radix16 h') as [n|] eqn:Ef; [|discriminate].
    unfold char_from_u32 in E2. destruct (_ || _) eqn:Ev in E2; [|discriminate]. injection E2 as <- <-.
    assert (Hs : scalar_value n).
    { apply orb_true_iff in Ev as [Ev|Ev]; [apply N.ltb_lt in Ev; left; lia|].
      apply andb_true_iff in Ev as [A B]. apply N.leb_le in A. apply N.ltb_lt in B. right. lia. }
    exists (chars "x{" ++ h' ++ chars "}"). split; [rewrite <- !app_assoc; reflexivity|].
    intros b. destruct (from_str_radix16_is _ _ Ef) as [[H1 H2]|(h2 & -> & H1 & H2)].
    + apply (lt_brace b h' n); auto.
    + apply (lt_brace_plus b h2 n); auto.
  - apply pbind_ok in E1 as ([] & r1 & T1 & E1). apply pbind_ok in E1 as (h' & r2 & T2 & E1).
    injection E1 as <- <- <-. apply tag_ok in T1.
    destruct (many_upto_ok _ _ _ (psound_one_of hex_digits) 2 _ _ _ T2) as (w & -> & Hl & ts & Hts & ->).
    destruct (Forall2_chars _ _ Hts) as [Hc Hin]. destruct (hex_all h' Hin Hl) as (n & Hn & Hn2 & Hf).
    assert (Hv : match from_str_radix16 h' with Some m => m | None => 0%N end = n).
    { destruct h' as [|x h']; [|rewrite Hf by discriminate; reflexivity]. simpl. inversion Hn; auto.
      destruct h; discriminate. }
    assert (Hc2 : match (match from_str_radix16 h' with Some m => Some m | None => Some 0%N end) with
                  | None => @PFail char PInvalidSyntax
                  | Some m => match char_from_u32 m with Some c => POk c r2 | None => PFail PInvalidSyntax end
                  end = POk n r2).
    { destruct (from_str_radix16 h') as [m|]; subst n; unfold char_from_u32;
        (destruct (_ || _) eqn:Ev; [reflexivity|]); apply orb_false_iff in Ev as [Ev _];
        apply N.ltb_ge in Ev; lia. }
    rewrite Hc2 in E2. injection E2 as <- <-. subst s. rewrite Hc.
    exists (chars "x" ++ h'). split; [rewrite <- app_assoc; reflexivity|].
    intros b. apply (lt_hex b h' n); auto.
Qed.
Lemma calm_hex_escaped : calm hex_escaped_literal.
Proof.
  unfold hex_escaped_literal. apply calm_bind.
  - calm. apply calm_many_upto. apply calm_one_of.
  - intros [brace h] s. destruct (from_str_radix16 h) as [n|].
    + destruct (char_from_u32 n); reflexivity || exact I.
    + destruct brace; [reflexivity|]. destruct (char_from_u32 0); reflexivity || exact I.
Qed.

Lemma psound_control : psound after_backslash escaped_control_sequence.
Proof.
  intros s c rest E. apply pbind_ok in E as ([] & s1 & E1 & E2). apply pbind_ok in E2 as (l & s2 & E2 & E3).
  injection E3 as <- <-. apply tag_ok in E1. apply one_of_ok in E2 as [-> Hl]. subst s.
  exists (chars "c" ++ [l]). split; [reflexivity|]. intros b.
  cbv [ascii_letters chars] in Hl. simpl in Hl.
  repeat (destruct Hl as [<-|Hl]; [match goal with |- literal_text _ _ _ (_ :: _ ++ [?x]) =>
    first [exact (lt_lower b x ltac:(lia)) | exact (lt_upper b x ltac:(lia))] end|]). destruct Hl.
Qed.

Lemma psound_escaped_literal :
  psound (fun l t => lit_escaped l = true /\ after_backslash (lit_c l) t) escaped_literal.
Proof.
  apply (psound_bind _ _ after_backslash (fun c l t => l = {| lit_c := c; lit_escaped := true |} /\ t = [])).
  - apply psound_alt.
    repeat (apply Forall_cons; [first [exact psound_control | exact psound_hex_escaped |
      apply psound_map_tag; intros b; apply lt_named; constructor]|]). apply Forall_nil.
  - intros a. apply psound_ret. auto.
  - intros a l t u H [-> ->]. rewrite app_nil_r. auto.
Qed.
Lemma calm_escaped_literal : calm escaped_literal.
Proof. pose proof calm_hex_escaped. unfold escaped_literal, escaped_control_sequence. calm. Qed.

(* the characters that are refused after a backslash, once the escapes with a meaning failed *)
Lemma escapable : forall c s, ~ In c escaped_literal_deny_list -> escaped_literal (c :: s) = PErr ->
  ~ In c not_escapable.
Proof.
  intros c s H1 H2 Hin. cbv [not_escapable chars] in Hin. simpl in Hin.
  repeat (destruct Hin as [<-|Hin]; [first [discriminate H2 | apply H1; vm_compute; tauto]|]). destruct Hin.
Qed.

Definition bracketed (k : literal_kind) : bool := match k with LBracketed => true | LNormal => false end.

Lemma psound_literal : forall k,
  psound (fun l t => literal_text (bracketed k) (lit_c l) (lit_escaped l) t) (parse_literal k).
Proof.
  intros k s l rest E. apply pbind_ok in E as (o & s1 & E1 & E2). apply opt_ok in E1. destruct o as [[]|].
  - apply tag_ok in E1. subst s. simpl in E2.
    destruct (escaped_literal s1) as [l' r'| |e|] eqn:Ee; try discriminate.
    + injection E2 as <- <-. destruct (psound_escaped_literal _ _ _ Ee) as (t & -> & Hl & Ha).
      exists (92%N :: t). split; [reflexivity|]. rewrite Hl. apply Ha.
    + destruct (pmap _ _ s1) as [l' r'| |e|] eqn:Ep in E2; try discriminate. injection E2 as <- <-.
      apply pmap_ok in Ep as (c & Ec & ->).
      apply none_of_ok in Ec as [-> Hc]. exists [92%N; c]. split; [reflexivity|]. simpl.
      apply lt_self. eapply escapable; eauto.
  - destruct E1 as [E1 ->]. apply pmap_ok in E2 as (c & Ec & ->). apply none_of_ok in Ec as [-> Hc].
    exists [c]. split; [reflexivity|]. simpl. apply lt_plain. intros Hin.
    assert (Hb : c <> 92%N). { intros ->. simpl in E1. discriminate. }
    apply not_eq_sym in Hb. destruct k; simpl in Hc, Hin; tauto.
Qed.
Lemma calm_literal : forall k, calm (parse_literal k).
Proof.
  intros k. pose proof calm_escaped_literal. unfold parse_literal. apply calm_bind; [calm|]. intros [u|]; calm.
Qed.
