(* Events in the memory of Go *)
From Coq Require Import Lia.
From Verif Require Import Proofs.Text Proofs.Codec.
From Verif Require Export Spec.GoHeap.

Section Loops.
Variable enc : go_ref -> outcome (result octets go_error).
Definition ref_entries := fix entries (m : list (octets * go_ref)) : outcome (result octets go_error) :=
  match m with
  | [] => Ret (Ok [])
  | (k, c) :: m' =>
    let* r := enc c in
    match r with
    | Err e => Ret (Err e)
    | Ok b =>
      let* r := entries m' in
      match r with
      | Err e => Ret (Err e)
      | Ok rest => Ret (Ok (0%N :: be32 (as_u32 (N.of_nat (length k))) ++ k ++ b ++ 2%N :: rest))
      end
    end
  end.
Definition ref_items := fix items (idx : nat) (l : list go_ref) : outcome (result octets go_error) :=
  match l with
  | [] => Ret (Ok [])
  | c :: l' =>
    let* r := enc c in
    match r with
    | Err e => Ret (Err e)
    | Ok b =>
      let* r := items (S idx) l' in
      match r with
      | Err e => Ret (Err e)
      | Ok rest => Ret (Ok (1%N :: be32 (as_u32 (N.of_nat idx)) ++ b ++ 2%N :: rest))
      end
    end
  end.
End Loops.

Lemma heap_encode_map : forall fuel H a, heap_encode (S fuel) H (GrMap a) =
  match H a with Some (GcMap m) => ref_entries (heap_encode fuel H) m | _ => Panic end.
Proof. reflexivity. Qed.
Lemma heap_encode_list : forall fuel H a, heap_encode (S fuel) H (GrList a) =
  match H a with Some (GcList l) => ref_items (heap_encode fuel H) 0 l | _ => Panic end.
Proof. reflexivity. Qed.

Lemma encoded : forall t H v, unfolds H v t -> exists d, forall fuel, d <= fuel -> heap_encode fuel H v = Ret (go_encode t).
Proof.
  induction t as [b|m IH|l IH|] using go_ind'; intros H v U; inversion U; subst.
  - exists 1. intros [|fuel] L; [lia|]. reflexivity.
  - match goal with K : H a = _ |- _ => rename K into E end.
    match goal with K : Forall2 _ _ _ |- _ => rename K into F end.
    assert (K : exists d, forall fuel, d <= fuel -> ref_entries (heap_encode fuel H) m0 = Ret (enc_entries go_encode m)).
    { clear E U. induction F as [|[k x] [k' y] m0 m [F1 F2] F IHF]; [exists 0; reflexivity|]. simpl in F1, F2. subst k'.
      inversion IH as [|z1 z2 I1 I2]; subst. simpl in I1. destruct (I1 H x F2) as (d1 & D1). destruct (IHF I2) as (d2 & D2).
      exists (max d1 d2). intros fuel L. cbn [ref_entries enc_entries]. rewrite D1 by lia. cbn [bind].
      destruct (go_encode y) as [b|[]]; [|reflexivity]. fold (ref_entries (heap_encode fuel H)). rewrite D2 by lia. cbn [bind].
      fold (enc_entries go_encode). destruct (enc_entries go_encode m); reflexivity. }
    destruct K as (d & K). exists (S d). intros [|fuel] L; [lia|]. rewrite heap_encode_map, E, go_encode_map. apply K. lia.
  - match goal with K : H a = _ |- _ => rename K into E end.
    match goal with K : Forall2 _ _ _ |- _ => rename K into F end.
    assert (K : exists d, forall fuel i, d <= fuel -> ref_items (heap_encode fuel H) i l0 = Ret (enc_items go_encode i l)).
    { clear E U. induction F as [|x y l0 l F2 F IHF]; [exists 0; reflexivity|].
      inversion IH as [|z1 z2 I1 I2]; subst. destruct (I1 H x F2) as (d1 & D1). destruct (IHF I2) as (d2 & D2).
      exists (max d1 d2). intros fuel i L. cbn [ref_items enc_items]. rewrite D1 by lia. cbn [bind].
      destruct (go_encode y) as [b|[]]; [|reflexivity]. fold (ref_items (heap_encode fuel H)). rewrite D2 by lia. cbn [bind].
      fold (enc_items go_encode). destruct (enc_items go_encode (S i) l); reflexivity. }
    destruct K as (d & K). exists (S d). intros [|fuel] L; [lia|]. rewrite heap_encode_list, E, go_encode_list. apply K. lia.
  - exists 1. intros [|fuel] L; [lia|]. reflexivity.
Qed.

Lemma encoded_only : forall fuel H v b, heap_encode fuel H v = Ret (Ok b) -> exists t, unfolds H v t /\ go_encode t = Ok b.
Proof.
  induction fuel as [|fuel IH]; intros H v b E; [discriminate E|]. destruct v as [s|a|a|].
  - injection E as <-. exists (GString s). split; [constructor|reflexivity].
  - rewrite heap_encode_map in E. destruct (H a) as [[m|l]|] eqn:Ha; try discriminate E.
    assert (K : exists m', Forall2 (fun x y => fst x = fst y /\ unfolds H (snd x) (snd y)) m m' /\ enc_entries go_encode m' = Ok b).
    { clear Ha. revert b E. induction m as [|[k x] m IHm]; intros b E; [injection E as <-; exists []; split; [constructor|reflexivity]|].
      cbn [ref_entries] in E. destruct (heap_encode fuel H x) as [[bx|]| |] eqn:Ex; try discriminate E. cbn [bind] in E.
      fold (ref_entries (heap_encode fuel H)) in E. destruct (ref_entries (heap_encode fuel H) m) as [[rest|]| |] eqn:Em; try discriminate E.
      injection E as <-. destruct (IH _ _ _ Ex) as (t & U & G). destruct (IHm rest eq_refl) as (m' & F & G').
      exists ((k, t) :: m'). split; [constructor; [split; [reflexivity|exact U]|exact F]|].
      cbn [enc_entries]. rewrite G. fold (enc_entries go_encode). rewrite G'. reflexivity. }
    destruct K as (m' & F & G). exists (GMap m'). split; [econstructor; eassumption|]. rewrite go_encode_map. exact G.
  - rewrite heap_encode_list in E. destruct (H a) as [[m|l]|] eqn:Ha; try discriminate E.
    assert (K : forall i, ref_items (heap_encode fuel H) i l = Ret (Ok b) -> exists l', Forall2 (unfolds H) l l' /\ enc_items go_encode i l' = Ok b).
    { clear Ha E. revert b. induction l as [|x l IHl]; intros b i E; [injection E as <-; exists []; split; [constructor|reflexivity]|].
      cbn [ref_items] in E. destruct (heap_encode fuel H x) as [[bx|]| |] eqn:Ex; try discriminate E. cbn [bind] in E.
      fold (ref_items (heap_encode fuel H)) in E. destruct (ref_items (heap_encode fuel H) (S i) l) as [[rest|]| |] eqn:Em; try discriminate E.
      injection E as <-. destruct (IH _ _ _ Ex) as (t & U & G). destruct (IHl rest (S i) Em) as (l' & F & G').
      exists (t :: l'). split; [constructor; assumption|]. cbn [enc_items]. rewrite G. fold (enc_items go_encode). rewrite G'. reflexivity. }
    destruct (K 0 E) as (l' & F & G). exists (GList l'). split; [econstructor; eassumption|]. rewrite go_encode_list. exact G.
  - discriminate E.
Qed.

(* ---- nothing shared ---- *)
Scheme owns_mut := Induction for owns Sort Prop
  with own_entries_mut := Induction for own_entries Sort Prop
  with own_items_mut := Induction for own_items Sort Prop.
Combined Scheme owns_all from owns_mut, own_entries_mut, own_items_mut.

Lemma owned_unfolds : forall H,
  (forall v t A, owns H v t A -> unfolds H v t) /\
  (forall m m' A, own_entries H m m' A -> Forall2 (fun x y => fst x = fst y /\ unfolds H (snd x) (snd y)) m m') /\
  (forall l l' A, own_items H l l' A -> Forall2 (unfolds H) l l').
Proof. intros H. apply owns_all; intros; try (econstructor; eassumption || (split; [reflexivity|assumption])); try constructor; auto. Qed.

(* writing elsewhere changes nothing *)
Lemma owned_elsewhere : forall H H',
  (forall v t A, owns H v t A -> (forall a, In a A -> H' a = H a) -> owns H' v t A) /\
  (forall m m' A, own_entries H m m' A -> (forall a, In a A -> H' a = H a) -> own_entries H' m m' A) /\
  (forall l l' A, own_items H l l' A -> (forall a, In a A -> H' a = H a) -> own_items H' l l' A).
Proof.
  intros H H'. apply owns_all.
  - constructor.
  - intros a m m' A E O IH N K. econstructor; [rewrite K by (left; reflexivity); exact E| |exact N]. apply IH. intros b B. apply K. right. exact B.
  - intros a m m' A E O IH N K. econstructor; [rewrite K by (left; reflexivity); exact E| |exact N]. apply IH. intros b B. apply K. right. exact B.
  - constructor.
  - constructor.
  - intros k v t A m m' B O1 I1 O2 I2 D K. constructor; [apply I1|apply I2|exact D]; intros a Ha; apply K, in_or_app; auto.
  - constructor.
  - intros v t A l l' B O1 I1 O2 I2 D K. constructor; [apply I1|apply I2|exact D]; intros a Ha; apply K, in_or_app; auto.
Qed.

(* the entry of a map: what it owns, and what happens when it alone changes *)
Lemma entry_owned : forall H m m' A field, own_entries H m m' A ->
  match map_get m' field with
  | None => map_get m field = None
  | Some t => exists v B, map_get m field = Some v /\ owns H v t B /\ incl B A /\
      forall H' t' B', owns H' v t' B' -> incl B' B -> (forall b, ~ In b B -> H' b = H b) ->
        exists A', own_entries H' m (go_map_set m' field t') A' /\ incl A' A
  end.
Proof.
  intros H m m' A field O. induction O as [|k v t A m m' B O1 O2 IH D]; [reflexivity|]. cbn [map_get go_map_set].
  destruct (str_eqb k field).
  - exists v, A. split; [reflexivity|]. split; [exact O1|]. split; [intros b Hb; apply in_or_app; auto|].
    intros H' t' B' O' I K. exists (B' ++ B). split.
    + constructor; [exact O'| |intros a Ha; exact (D a (I a Ha))].
      apply (owned_elsewhere H H'); [exact O2|]. intros a Ha. apply K. intros Q. exact (D a Q Ha).
    + apply incl_app_app; [exact I|apply incl_refl].
  - destruct (map_get m' field) as [t0|]; [|exact IH]. destruct IH as (v0 & B0 & I1 & I2 & I3 & I4).
    exists v0, B0. split; [exact I1|]. split; [exact I2|]. split; [intros b Hb; apply in_or_app; auto|].
    intros H' t' B' O' I K. destruct (I4 H' t' B' O' I K) as (A' & J1 & J2). exists (A ++ A'). split.
    + constructor; [|exact J1|intros a Ha Q; exact (D a Ha (J2 a Q))].
      apply (owned_elsewhere H H'); [exact O1|]. intros a Ha. apply K. intros Q. exact (D a Ha (I3 a Q)).
    + apply incl_app_app; [apply incl_refl|exact J2].
Qed.
Lemma item_owned : forall H l l' A i, own_items H l l' A ->
  match nth_error l' i with
  | None => nth_error l i = None
  | Some t => exists v B, nth_error l i = Some v /\ owns H v t B /\ incl B A /\
      forall H' t' B', owns H' v t' B' -> incl B' B -> (forall b, ~ In b B -> H' b = H b) ->
        exists A', own_items H' l (list_set l' i t') A' /\ incl A' A
  end.
Proof.
  intros H l l' A i O. revert i. induction O as [|v t A l l' B O1 O2 IH D]; intros i; [destruct i; reflexivity|].
  destruct i as [|i]; cbn [nth_error list_set].
  - exists v, A. split; [reflexivity|]. split; [exact O1|]. split; [intros b Hb; apply in_or_app; auto|].
    intros H' t' B' O' I K. exists (B' ++ B). split.
    + constructor; [exact O'| |intros a Ha; exact (D a (I a Ha))].
      apply (owned_elsewhere H H'); [exact O2|]. intros a Ha. apply K. intros Q. exact (D a Q Ha).
    + apply incl_app_app; [exact I|apply incl_refl].
  - specialize (IH i). destruct (nth_error l' i) as [t0|]; [|exact IH]. destruct IH as (v0 & B0 & I1 & I2 & I3 & I4).
    exists v0, B0. split; [exact I1|]. split; [exact I2|]. split; [intros b Hb; apply in_or_app; auto|].
    intros H' t' B' O' I K. destruct (I4 H' t' B' O' I K) as (A' & J1 & J2). exists (A ++ A'). split.
    + constructor; [|exact J1|intros a Ha Q; exact (D a Ha (J2 a Q))].
      apply (owned_elsewhere H H'); [exact O1|]. intros a Ha. apply K. intros Q. exact (D a Ha (I3 a Q)).
    + apply incl_app_app; [apply incl_refl|exact J2].
Qed.
Lemma ref_set_owned : forall H m m' A k b, own_entries H m m' A ->
  exists B, own_entries H (ref_map_set m k (GrString b)) (go_map_set m' k (GString b)) B /\ forall a, In a B -> In a A.
Proof.
  intros H m m' A k b O. induction O as [|k' v t A m m' B O1 O2 IH D]; cbn [ref_map_set go_map_set].
  - exists ([] ++ []). split; [constructor; [constructor|constructor|intros a []]|intros a []].
  - destruct (str_eqb k' k).
    + exists ([] ++ B). split; [constructor; [constructor|exact O2|intros a []]|]. intros a Ha. apply in_or_app. right. exact Ha.
    + destruct IH as (C & I1 & I2). exists (A ++ C). split; [constructor; [exact O1|exact I1|]|].
      * intros a Ha Hc. exact (D a Ha (I2 a Hc)).
      * intros a Ha. apply in_app_or in Ha as [Ha|Ha]; apply in_or_app; auto.
Qed.
Lemma ref_list_owned : forall H l l' A i b, own_items H l l' A ->
  exists B, own_items H (list_set l i (GrString b)) (list_set l' i (GString b)) B /\ forall a, In a B -> In a A.
Proof.
  intros H l l' A i b O. revert i. induction O as [|v t A l l' B O1 O2 IH D]; intros i.
  - exists []. split; [destruct i; constructor|auto].
  - destruct i as [|i]; cbn [list_set].
    + exists ([] ++ B). split; [constructor; [constructor|exact O2|intros a []]|]. intros a Ha. apply in_or_app. right. exact Ha.
    + destruct (IH i) as (C & I1 & I2). exists (A ++ C). split; [constructor; [exact O1|exact I1|]|].
      * intros a Ha Hc. exact (D a Ha (I2 a Hc)).
      * intros a Ha. apply in_app_or in Ha as [Ha|Ha]; apply in_or_app; auto.
Qed.

Definition applied (H : go_heap) (v : go_ref) (A : list N) (r : outcome (result (octets * go_value * octets) go_error))
    (r' : outcome (result (octets * go_heap * octets) go_error)) : Prop :=
  match r with
  | Ret (Ok (res, t', buf')) => exists H' B, r' = Ret (Ok (res, H', buf')) /\ owns H' v t' B /\ incl B A /\ forall a, ~ In a A -> H' a = H a
  | Ret (Err e) => r' = Ret (Err e)
  | Panic => r' = Panic
  | Diverge => r' = Diverge
  end.
Lemma set_here : forall H a c, heap_set H a c a = Some c.
Proof. intros. unfold heap_set. rewrite N.eqb_refl. reflexivity. Qed.
Lemma set_there : forall H a c b, b <> a -> heap_set H a c b = H b.
Proof. intros H a c b N. unfold heap_set. destruct (N.eqb_spec b a); [contradiction|reflexivity]. Qed.

Lemma heap_applied : forall fuel t v H A tag buf, owns H v t A ->
  applied H v A (apply_string_mutation fuel t tag buf) (heap_apply fuel H v tag buf).
Proof.
  induction fuel as [|fuel IH]; intros t v H A tag buf O; [reflexivity|]. inversion O; subst; cbn [apply_string_mutation heap_apply].
  - reflexivity.
  - rewrite H0. destruct (negb (tag =? 0)%N); [reflexivity|].
    destruct (next_string buf) as [[field buf']| |]; try reflexivity. cbn [bind].
    destruct buf' as [|next_tag buf']; [reflexivity|]. destruct (next_tag =? 3)%N.
    + destruct (next_string buf') as [[res buf'']| |]; try reflexivity. cbn [bind applied].
      destruct (ref_set_owned H m m' A0 field res H1) as (B & B1 & B2).
      eexists. exists (a :: B). split; [reflexivity|]. split; [|split].
      * econstructor; [apply set_here| |intros Q; exact (H2 (B2 a Q))].
        apply (owned_elsewhere H _); [exact B1|]. intros b Hb. apply set_there. intros ->. exact (H2 (B2 a Hb)).
      * intros b [<-|Hb]; [left; reflexivity|right; apply B2; exact Hb].
      * intros b Hb. apply set_there. intros ->. apply Hb. left. reflexivity.
    + pose proof (entry_owned H m m' A0 field H1) as E. destruct (map_get m' field) as [t0|]; [|rewrite E; reflexivity].
      destruct E as (v0 & B & E1 & E2 & E3 & E4). rewrite E1. specialize (IH t0 v0 H B next_tag buf' E2). unfold applied in IH.
      destruct (apply_string_mutation fuel t0 next_tag buf') as [[[[res t'] buf'']|e]| |]; cbn [bind applied]; try exact IH.
      destruct IH as (H' & B' & I1 & I2 & I3 & I4). exists H'. destruct (E4 H' t' B' I2 I3 I4) as (A' & J1 & J2).
      exists (a :: A'). split; [exact I1|]. split; [|split].
      * apply ow_map with (m := m); [|exact J1|intros Q; exact (H2 (J2 a Q))]. rewrite I4; [exact H0|]. intros Q. exact (H2 (E3 a Q)).
      * intros b [<-|Hb]; [left; reflexivity|right; apply J2; exact Hb].
      * intros b Hb. apply I4. intros Q. apply Hb. right. apply E3, Q.
  - rewrite H0. destruct (negb (tag =? 1)%N); [reflexivity|].
    destruct (buf_u32 buf) as [[i buf']| |]; try reflexivity. cbn [bind].
    destruct buf' as [|next_tag buf']; [reflexivity|]. pose proof (item_owned H l l' A0 (N.to_nat i) H1) as E.
    destruct (next_tag =? 3)%N.
    + destruct (next_string buf') as [[res buf'']| |]; try reflexivity. cbn [bind].
      destruct (nth_error l' (N.to_nat i)) as [t0|]; [|rewrite E; reflexivity]. destruct E as (v0 & _ & E1 & _). rewrite E1. cbn [applied].
      destruct (ref_list_owned H l l' A0 (N.to_nat i) res H1) as (B & B1 & B2).
      eexists. exists (a :: B). split; [reflexivity|]. split; [|split].
      * econstructor; [apply set_here| |intros Q; exact (H2 (B2 a Q))].
        apply (owned_elsewhere H _); [exact B1|]. intros b Hb. apply set_there. intros ->. exact (H2 (B2 a Hb)).
      * intros b [<-|Hb]; [left; reflexivity|right; apply B2; exact Hb].
      * intros b Hb. apply set_there. intros ->. apply Hb. left. reflexivity.
    + destruct (nth_error l' (N.to_nat i)) as [t0|]; [|rewrite E; reflexivity].
      destruct E as (v0 & B & E1 & E2 & E3 & E4). rewrite E1. specialize (IH t0 v0 H B next_tag buf' E2). unfold applied in IH.
      destruct (apply_string_mutation fuel t0 next_tag buf') as [[[[res t'] buf'']|e]| |]; cbn [bind applied]; try exact IH.
      destruct IH as (H' & B' & I1 & I2 & I3 & I4). exists H'. destruct (E4 H' t' B' I2 I3 I4) as (A' & J1 & J2).
      exists (a :: A'). split; [exact I1|]. split; [|split].
      * apply ow_list with (l := l); [|exact J1|intros Q; exact (H2 (J2 a Q))]. rewrite I4; [exact H0|]. intros Q. exact (H2 (E3 a Q)).
      * intros b [<-|Hb]; [left; reflexivity|right; apply J2; exact Hb].
      * intros b Hb. apply I4. intros Q. apply Hb. right. apply E3, Q.
  - reflexivity.
Qed.

(* the result of a scan in memory agrees with the one on trees *)
Definition agrees (H : go_heap) (v : go_ref) (A : list N) (r : outcome (result scan_outcome go_error * go_value))
    (r' : outcome (result scan_outcome go_error * go_heap)) : Prop :=
  match r with
  | Ret (x, t') => exists H' B, r' = Ret (x, H') /\ owns H' v t' B /\ incl B A /\ forall a, ~ In a A -> H' a = H a
  | Panic => r' = Panic
  | Diverge => r' = Diverge
  end.
Lemma heap_decoded : forall fuel buf t v H A acc, owns H v t A ->
  agrees H v A (decode_event_map_response fuel buf t acc) (heap_decode_response fuel buf H v acc).
Proof.
  induction fuel as [|fuel IH]; intros buf t v H A acc O.
  - destruct buf as [|typ buf]; [|reflexivity]. exists H, A. repeat split; auto. apply incl_refl.
  - destruct buf as [|typ buf]; [exists H, A; repeat split; auto; apply incl_refl|].
    cbn [decode_event_map_response heap_decode_response]. destruct (typ =? 4)%N; [|destruct (typ =? 5)%N].
    + destruct buf as [|tag buf]; [exists H, A; repeat split; auto; apply incl_refl|].
      pose proof (heap_applied (S (length buf)) t v H A tag buf O) as K. unfold applied in K.
      destruct (apply_string_mutation (S (length buf)) t tag buf) as [[[[res t'] buf']|e]| |]; try (rewrite K; cbn [bind agrees]; reflexivity).
      * destruct K as (H' & B & K1 & K2 & K3 & K4). rewrite K1. cbn [bind].
        specialize (IH buf' t' v H' B {| so_event := res; so_mutated := true; so_matches := so_matches acc |} K2). unfold agrees in *.
        destruct (decode_event_map_response fuel buf' t' _) as [[x t'']| |]; try exact IH.
        destruct IH as (H'' & B' & I1 & I2 & I3 & I4). exists H'', B'. split; [exact I1|]. split; [exact I2|]. split; [eapply incl_tran; eassumption|].
        intros a Ha. rewrite I4 by (intros Q; apply Ha, K3, Q). apply K4, Ha.
      * rewrite K. cbn [bind agrees]. exists H, A. repeat split; auto. apply incl_refl.
    + destruct (decode_match_response buf) as [[x buf']| |]; try reflexivity. cbn [bind]. apply IH, O.
    + exists H, A. repeat split; auto. apply incl_refl.
Qed.

Lemma unfolds_fun : forall H t v t', unfolds H v t -> unfolds H v t' -> t = t'.
Proof.
  intros H t. induction t as [b|m IH|l IH|] using go_ind'; intros v t' U U'.
  - inversion U; subst. inversion U'; subst. reflexivity.
  - inversion U as [|a m0 m1 E F| |]; subst. inversion U' as [|a' m2 m3 E' F'| |]; subst. rewrite E in E'. injection E' as <-. f_equal.
    clear -IH F F'. revert m3 F'. induction F as [|[k x] [k' y] m0 m [F1 F2] F IHF]; intros m3 F'.
    + inversion F'. reflexivity.
    + inversion F' as [|? [k'' y'] ? m'' [G1 G2] G]; subst. simpl in *. subst. inversion IH as [|z1 z2 I1 I2]; subst. simpl in I1.
      rewrite (I1 _ _ F2 G2), (IHF I2 _ G). reflexivity.
  - inversion U as [| |a m0 m1 E F|]; subst. inversion U' as [| |a' m2 m3 E' F'|]; subst. rewrite E in E'. injection E' as <-. f_equal.
    clear -IH F F'. revert m3 F'. induction F as [|x y m0 m F2 F IHF]; intros m3 F'.
    + inversion F'. reflexivity.
    + inversion F' as [|? y' ? m'' G2 G]; subst. inversion IH as [|z1 z2 I1 I2]; subst.
      rewrite (I1 _ _ F2 G2), (IHF I2 _ G). reflexivity.
  - inversion U; subst. inversion U'; subst. reflexivity.
Qed.
