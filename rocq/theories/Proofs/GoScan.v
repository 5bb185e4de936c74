(* A scan through the Go binding *)
From Coq Require Import Lia ZifyN Permutation.
From Verif Require Import Proofs.Text Proofs.Scopes Proofs.Events Proofs.Claims Proofs.Scan Proofs.Codec Proofs.Binary.
From Verif Require Export Spec.Codec.

Lemma encode_path_length : forall p, length p <= length (encode_path p).
Proof.
  induction p as [|[f|i] p IH]; cbn [encode_path]; simpl; repeat (rewrite ?app_length; simpl); lia.
Qed.

Lemma encode_match_cons : forall o, encode_match o = 5%N :: tl (encode_match o).
Proof. reflexivity. Qed.

Definition with_matches (acc : scan_outcome) (gs : list go_match) : scan_outcome :=
  {| so_event := so_event acc; so_mutated := so_mutated acc; so_matches := so_matches acc ++ gs |}.

Lemma decode_matches_map : forall ms event acc fuel,
  (forall o, In o ms -> path_fits (rm_path o)) -> length (flat_map encode_match ms) <= fuel ->
  exists gs, decode_event_map_response fuel (flat_map encode_match ms) event acc
             = Ret (Ok (with_matches acc gs), event) /\
    Forall2 (match_as wrap32 signed32) ms gs.
Proof.
  induction ms as [|o ms IH]; intros event acc fuel Hp Hf.
  - exists []. split; [|constructor]. destruct acc, fuel; simpl; unfold with_matches; simpl; rewrite app_nil_r; reflexivity.
  - cbn [flat_map] in *. rewrite encode_match_cons in *. cbn [app] in *.
    destruct fuel as [|fuel]; [simpl in Hf; lia|].
    destruct (decode_match o (flat_map encode_match ms)) as (g & Hg & Hgo); [apply Hp; left; auto|].
    destruct (IH event (with_matches acc [g]) fuel) as (gs & H1 & H2).
    { intros x Hx. apply Hp. right; auto. }
    { simpl in Hf. rewrite app_length in Hf. simpl. lia. }
    exists (g :: gs). split; [|constructor; auto].
    cbn [decode_event_map_response]. change (5 =? 4)%N with false. change (5 =? 5)%N with true. cbv iota.
    rewrite Hg. cbn [bind]. unfold with_matches in *. cbn [so_event so_mutated so_matches] in *.
    rewrite H1, <- app_assoc. reflexivity.
Qed.

Lemma decode_matches : forall ms acc fuel,
  (forall o, In o ms -> path_fits (rm_path o)) -> length (flat_map encode_match ms) <= fuel ->
  exists gs, decode_response fuel (flat_map encode_match ms) acc = Ret (Ok (with_matches acc gs)) /\
    Forall2 (match_as wrap32 signed32) ms gs.
Proof.
  induction ms as [|o ms IH]; intros acc fuel Hp Hf.
  - exists []. split; [|constructor]. destruct acc, fuel; simpl; unfold with_matches; simpl; rewrite app_nil_r; reflexivity.
  - cbn [flat_map] in *. rewrite encode_match_cons in *. cbn [app] in *.
    destruct fuel as [|fuel]; [simpl in Hf; lia|].
    destruct (decode_match o (flat_map encode_match ms)) as (g & Hg & Hgo); [apply Hp; left; auto|].
    destruct (IH (with_matches acc [g]) fuel) as (gs & H1 & H2).
    { intros x Hx. apply Hp. right; auto. }
    { simpl in Hf. rewrite app_length in Hf. simpl. lia. }
    exists (g :: gs). split; [|constructor; auto].
    cbn [decode_response]. change (5 =? 4)%N with false. change (5 =? 5)%N with true. cbv iota.
    rewrite Hg. cbn [bind]. unfold with_matches in *. cbn [so_event so_mutated so_matches] in *.
    rewrite H1, <- app_assoc. reflexivity.
Qed.

(* ---- mutations, string event ---- *)
Lemma decode_mutations : forall st rest acc fuel r,
  (forall e, In e st -> fst (snd e) = true -> entry_fits e) -> last_mutated st r ->
  length (encode_mutations st ++ rest) <= fuel ->
  exists fuel', length rest <= fuel' /\
  match r with
  | None => decode_response fuel (encode_mutations st ++ rest) acc = decode_response fuel' rest acc
  | Some s => exists b, utf8_of s b /\
      decode_response fuel (encode_mutations st ++ rest) acc =
      decode_response fuel' rest {| so_event := b; so_mutated := true; so_matches := so_matches acc |}
  end.
Proof.
  induction st as [|[p [m s]] st IH]; intros rest acc fuel r Hst Hr Hf.
  - inversion Hr; subst. exists fuel. split; [exact Hf|reflexivity].
  - cbn [encode_mutations] in *. rewrite <- app_assoc in *.
    assert (Hst' : forall e, In e st -> fst (snd e) = true -> entry_fits e) by (intros; apply Hst; [right; auto|auto]).
    destruct m.
    + destruct (Hst _ (or_introl eq_refl) eq_refl) as (Hp & b & Hb & Hl). simpl in Hp, Hb.
      assert (E : encode_mutation p s ++ encode_mutations st ++ rest =
        4%N :: encode_path p ++ 3%N :: encode_bytes (as_bytes s) ++ encode_mutations st ++ rest).
      { unfold encode_mutation. rewrite <- app_comm_cons, <- app_assoc. reflexivity. }
      rewrite E in *.
      assert (Hlen : length (encode_mutations st ++ rest) < length (4%N :: encode_path p ++ 3%N :: encode_bytes (as_bytes s) ++ encode_mutations st ++ rest)).
      { cbn [length]. rewrite (app_length (encode_path p)). cbn [length]. rewrite (app_length (encode_bytes _)). lia. }
      destruct fuel as [|fuel]; [simpl in Hf; lia|].
      assert (Hstep : decode_response (S fuel) (4%N :: encode_path p ++ 3%N :: encode_bytes (as_bytes s) ++ encode_mutations st ++ rest) acc
        = decode_response fuel (encode_mutations st ++ rest) {| so_event := b; so_mutated := true; so_matches := so_matches acc |}).
      { cbn [decode_response]. change (4 =? 4)%N with true. cbv iota.
        rewrite (decode_mutation_ok p s b); auto.
        rewrite app_length. cbn [length]. pose proof (encode_path_length p). lia. }
      rewrite Hstep.
      inversion Hr; subst.
      * destruct (IH rest {| so_event := b; so_mutated := true; so_matches := so_matches acc |} fuel (Some s0) Hst' ltac:(assumption)) as (fuel' & K3 & b' & K4 & K5); [lia|].
        exists fuel'. split; auto. exists b'. split; auto.
      * destruct (IH rest {| so_event := b; so_mutated := true; so_matches := so_matches acc |} fuel None Hst' ltac:(assumption)) as (fuel' & K3 & K5); [lia|].
        exists fuel'. split; auto. exists b. split; auto.
    + cbn [app] in *. apply (IH rest acc fuel r); auto. inversion Hr; subst; auto.
Qed.

Lemma last_mutated_exists : forall st, exists r, last_mutated st r.
Proof.
  induction st as [|[p [m s]] st (r & IH)]; [exists None; constructor|].
  destruct r as [x|]; [exists (Some x); constructor; auto|].
  destruct m; [exists (Some s); apply lm_here|exists None; apply lm_not]; auto.
Qed.

(* ---- mutations, map event ---- *)
Lemma decode_mutations_map : forall e0 st rest fuel g v acc,
  distinct_keys e0 -> (forall s, e0 <> SString s) -> NoDup (map fst st) ->
  (forall e, In e st -> fst (snd e) = true -> entry_fits e) ->
  (forall p, In p (map fst st) -> exists c, In (p, c) (simple_strings e0)) ->
  go_image (simple_map g e0) v ->
  length (encode_mutations st ++ rest) <= fuel ->
  exists fuel' v' acc', length rest <= fuel' /\
    decode_event_map_response fuel (encode_mutations st ++ rest) v acc =
    decode_event_map_response fuel' rest v' acc' /\
    go_image (simple_map (fun p c => match storage_get st p with Some (true, x) => x | _ => g p c end) e0) v' /\
    so_matches acc' = so_matches acc /\
    so_mutated acc' = (so_mutated acc || existsb (fun e => fst (snd e)) st).
Proof.
  intros e0. induction st as [|[p [m s]] st IH]; intros rest fuel g v acc Hd Ht Hn Hst Hin Hi Hf.
  - exists fuel, v, acc. split; [exact Hf|]. split; [reflexivity|]. split; [exact Hi|]. split; auto.
    simpl. rewrite orb_false_r. reflexivity.
  - cbn [encode_mutations] in *. rewrite <- app_assoc in *. simpl in Hn. inversion Hn; subst.
    assert (Hst' : forall e, In e st -> fst (snd e) = true -> entry_fits e) by (intros; apply Hst; [right; auto|auto]).
    assert (Hin' : forall q, In q (map fst st) -> exists c, In (q, c) (simple_strings e0)) by (intros; apply Hin; right; auto).
    pose proof (proj2 (get_none st p) H1) as Hnone.
    destruct m.
    + destruct (Hst _ (or_introl eq_refl) eq_refl) as (Hp & b & Hb & Hl). simpl in Hp, Hb.
      destruct (Hin p (or_introl eq_refl)) as (c & Hc).
      pose proof (simple_get_map e0 Hd p c g Hc) as Hget.
      assert (Hpn : p <> []).
      { intros ->. destruct e0 as [x|l|mm]; [apply (Ht x); auto| |].
        - cbn [simple_strings] in Hc. apply in_list_strs in Hc as (? & ? & ? & _ & E & _). discriminate.
        - apply in_map_strs in Hc as (? & ? & ? & _ & E & _). discriminate. }
      destruct fuel as [|fuel].
      { unfold encode_mutation in Hf. simpl in Hf. lia. }
      assert (E : encode_mutation p s ++ encode_mutations st ++ rest =
        4%N :: encode_path p ++ 3%N :: encode_bytes (as_bytes s) ++ encode_mutations st ++ rest).
      { unfold encode_mutation. rewrite <- app_comm_cons, <- app_assoc. reflexivity. }
      rewrite E in *.
      destruct (apply_ok p (simple_map g e0) v s b (encode_mutations st ++ rest)
                  (length (encode_path p ++ 3%N :: encode_bytes (as_bytes s) ++ encode_mutations st ++ rest)) (g p c) Hi Hget Hpn Hp Hb Hl)
        as (tag & buf & v1 & E1 & A1 & I1).
      { rewrite app_length. pose proof (encode_path_length p). lia. }
      rewrite (simple_set_map e0 Hd p c g s Hc) in I1.
      destruct (IH rest fuel (upd g p s) v1 {| so_event := b; so_mutated := true; so_matches := so_matches acc |})
        as (fuel' & v' & acc' & K1 & K2 & K3 & K4 & K5); auto.
      { cbn [length] in Hf. rewrite (app_length (encode_path p)) in Hf. cbn [length] in Hf. rewrite (app_length (encode_bytes _)) in Hf. lia. }
      exists fuel', v', acc'. split; auto. split.
      { cbn [decode_event_map_response]. change (4 =? 4)%N with true. cbv iota. rewrite E1 in *.
        cbn [length] in A1. rewrite A1. cbn [bind]. exact K2. }
      split; [|split; [exact K4|simpl; rewrite K5; simpl; rewrite orb_true_r; reflexivity]].
      erewrite simple_map_ext; [exact K3|]. intros q d. cbn beta. cbn [storage_get]. unfold upd.
      destruct (path_eqb p q) eqn:Eq.
      * apply path_eqb_eq in Eq. subst q. rewrite Hnone, path_eqb_refl. reflexivity.
      * destruct (path_eqb q p) eqn:Eq'; [apply path_eqb_eq in Eq'; subst q; rewrite path_eqb_refl in Eq; discriminate|].
        reflexivity.
    + cbn [app] in *.
      destruct (IH rest fuel g v acc) as (fuel' & v' & acc' & K1 & K2 & K3 & K4 & K5); auto.
      exists fuel', v', acc'. split; auto. split; auto. split; [|split; auto].
      erewrite simple_map_ext; [exact K3|]. intros q d. cbn beta. cbn [storage_get].
      destruct (path_eqb p q) eqn:Eq; [|reflexivity]. apply path_eqb_eq in Eq. subst q. rewrite Hnone. reflexivity.
Qed.

(* ---- what fits ---- *)
Lemma image_get_fits : forall p e v s, go_image e v -> go_fits v -> simple_get e p = Ret s ->
  (forall x, In x p -> segment_fits x) /\ exists b, utf8_of s b /\ (N.of_nat (length b) < two32)%N.
Proof.
  induction p as [|x p IH]; intros e v s Hi Hf Hg.
  - simpl in Hg. destruct e; try discriminate. injection Hg as <-.
    inversion Hi; subst. inversion Hf; subst. split; [intros x []|]. eauto.
  - destruct x as [k|i]; cbn [simple_get] in Hg; destruct e as [s0|l|m]; try discriminate.
    + destruct (map_get m k) as [c|] eqn:Hc; [|discriminate]. inversion Hi as [| |? m' Hm]; subst.
      inversion Hf as [| |? Hall|]; subst.
      assert (Hk : exists k' v', In (k', v') m' /\ utf8_of k k' /\ go_image c v').
      { clear -Hm Hc. induction Hm as [|q q' d w m m' Hq Hd Hm IHm]; simpl in Hc; [discriminate|].
        destruct (str_eqb q k) eqn:E.
        - apply str_eqb_eq in E. subst q. injection Hc as ->. exists q', w. simpl. auto.
        - destruct (IHm Hc) as (k' & v' & A & B & C). exists k', v'. simpl. auto. }
      destruct Hk as (k' & v' & A & B & C). destruct (Hall k' v' A) as [Hl Hv].
      destruct (IH c v' s C Hv Hg) as [I1 I2]. split; auto. intros y [<-|Hy]; auto. simpl. eauto.
    + destruct (nth_error l i) as [c|] eqn:Hc; [|discriminate]. inversion Hi as [|? l' Hm|]; subst.
      inversion Hf as [|? Hl Hall| |]; subst.
      destruct (images_get l l' Hm i c Hc) as (vd & Hvd & Hid & _).
      destruct (IH c vd s Hid (Hall vd (nth_error_In _ _ Hvd)) Hg) as [I1 I2]. split; auto.
      intros y [<-|Hy]; auto. simpl. assert (i < length l') by (apply nth_error_Some; congruence). lia.
Qed.

Lemma simple_map_ext_in : forall e f g,
  (forall p c, In (p, c) (simple_strings e) -> f p c = g p c) -> simple_map f e = simple_map g e.
Proof.
  induction e as [s|l IH|m IH] using simple_ind'; intros f g H.
  - simpl. rewrite H; [reflexivity|]. left; reflexivity.
  - rewrite !simple_map_list. f_equal. cbn [simple_strings] in H. revert H. generalize 0 as i.
    induction IH as [|c l Hc Hl IH]; intros i K; simpl; [reflexivity|]. f_equal.
    + apply Hc. intros p d Hin. apply K. simpl. apply in_or_app. left. apply in_pre. eauto.
    + apply IH. intros p d Hin. apply K. simpl. apply in_or_app. right. exact Hin.
  - rewrite !simple_map_map. f_equal.
    assert (K : forall k d q c, In (k, d) m -> In (q, c) (simple_strings d) -> f (Field k :: q) c = g (Field k :: q) c).
    { intros k d q c H1 H2. apply H. apply in_map_strs. eauto 6. }
    clear H. induction IH as [|[k c] m Hc Hm IH]; simpl; [reflexivity|]. f_equal.
    + f_equal. apply Hc. intros p d Hin. apply (K k c); auto. left; reflexivity.
    + apply IH. intros k' d' q' c' H1 H2. apply (K k' d'); auto. right; auto.
Qed.

Lemma in_combine_fst : forall A B (l : list A) (r : list B) x, length r = length l -> In x l ->
  exists y, In (x, y) (combine l r).
Proof.
  induction l as [|a l IH]; intros [|b r] x Hl Hx; simpl in *; try contradiction; try discriminate.
  destruct Hx as [->|Hx]; [eauto|]. destruct (IH r x) as (y & Hy); eauto.
Qed.

Lemma NoDup_combine : forall A B (l : list A) (r : list B), NoDup l -> NoDup (combine l r).
Proof.
  induction l as [|a l IH]; intros [|b r] Hn; simpl; try constructor; inversion Hn; subst; auto.
  intros H. apply in_combine_l in H. contradiction.
Qed.

Lemma NoDup_fst : forall A B (l : list (A * B)), NoDup (map fst l) -> NoDup l.
Proof.
  induction l as [|x l IH]; intros H; simpl in *; constructor; inversion H; subst; auto.
  intros Hx. apply H2. apply in_map. exact Hx.
Qed.

Lemma fst_functional : forall A B (l : list (A * B)) a b1 b2, NoDup (map fst l) ->
  In (a, b1) l -> In (a, b2) l -> b1 = b2.
Proof.
  induction l as [|[a b] l IH]; intros x b1 b2 Hn H1 H2; simpl in *; [contradiction|].
  inversion Hn; subst. destruct H1 as [E1|H1], H2 as [E2|H2]; try congruence; eauto.
  - injection E1 as -> ->. exfalso. apply H3. apply (in_map fst) in H2. exact H2.
  - injection E2 as -> ->. exfalso. apply H3. apply (in_map fst) in H1. exact H1.
Qed.

Lemma simple_get_in : forall e p c, distinct_keys e -> In (p, c) (simple_strings e) -> simple_get e p = Ret c.
Proof.
  intros e p c Hd H. rewrite <- (simple_map_id e (fun _ x => x)) by auto.
  apply (simple_get_map e Hd p c (fun _ x => x) H).
Qed.
