(* Where the regexes of the store come from *)
From Coq Require Import Lia.
From Verif Require Import Proofs.Text.
From Verif Require Export Proofs.RegexVersions.

Record provenance {R} (P : str -> R -> Prop) (p : process R) : Prop := {
  pv_calls : forall q x, In (q, x) (p_calls p) -> P q x;
  pv_lock : forall l, p_lock p = Some l -> P (lk_pattern l) (lk_regex l);
  pv_stored : forall q k w x, indexed p q k -> stored p k w -> nth_error (p_heap p) (wr_regex w) = Some x -> P q x
}.
Lemma provenance_step : forall R (cs : R -> N) P a p p', consistent cs p -> provenance P p ->
  (forall q f x, a = ALookup q f -> f q = Some x -> P q x) -> perform cs a p = Some (Ret p') -> provenance P p'.
Proof.
  intros R cs P a p p' H [C L S] Ha E. destruct a as [q f|n|n| | |n| |n m]; cbn [perform] in E.
  - destruct (p_lock p) eqn:El; [discriminate|]. destruct (store_get _ _ _) as [[r k]|].
    + injection E as <-. constructor; cbn [with_handles p_calls p_lock p_store p_heap]; [exact C|congruence|exact S].
    + destruct (f q) as [x|] eqn:Ef; injection E as <-; constructor; cbn [with_calls p_calls p_lock p_store p_heap]; try exact C; try exact S; try congruence.
      intros q' x' [K|K]; [|exact (C _ _ K)]. injection K as <- <-. exact (Ha _ _ _ eq_refl Ef).
  - destruct (p_lock p) eqn:El; [discriminate|]. destruct (nth_error (p_calls p) n) as [[q x]|] eqn:En; [|discriminate]. injection E as <-.
    constructor; cbn [with_calls with_store p_calls p_lock p_store p_heap].
    + intros q' x' K. exact (C _ _ (remove_nth_in _ _ _ _ K)).
    + intros l K. injection K as <-. cbn. exact (C _ _ (nth_error_In _ _ En)).
    + exact S.
  - destruct (p_lock p) as [[q x [todo|]]|] eqn:El; try discriminate. destruct (nth_error todo n) as [v|]; [|discriminate].
    unfold gc_visit in E.
    assert (forall todo', provenance P (with_stats (with_store p (p_store p) (Some {| lk_pattern := q; lk_regex := x; lk_phase := Collecting todo' |}))
      (p_total_regexes p) (p_cache_size p + 0)%Z)) as Hsame.
    { intros todo'. constructor; cbn [with_stats with_store p_calls p_lock p_store p_heap]; [exact C| |exact S]. intros l K. injection K as <-. exact (L _ eq_refl). }
    destruct (assoc str_eqb v (rs_index (p_store p))) as [k|] eqn:Ea; [|injection E as <-; apply Hsame].
    destruct (slot_get k (rs_keys (p_store p))) as [w|] eqn:Eg; [|discriminate]. cbn [unwrap bind] in E.
    destruct (alive_in _ _); [injection E as <-; apply Hsame|]. apply slot_get_holds in Eg.
    destruct (slot_remove_spec _ _ _ _ (co_free _ _ H) Eg) as (m' & Er & _ & _ & _ & Hst & _). rewrite Er in E. cbn [bind] in E. injection E as <-.
    constructor; cbn [with_stats with_store p_calls p_lock p_store p_heap]; [exact C| |].
    + intros l K. injection K as <-. exact (L _ eq_refl).
    + intros q' k' w' x' Hi Hs. apply remove_entry_in in Hi as (Hi & _). apply Hst in Hs as (Hs & _). exact (S _ _ _ _ Hi Hs).
  - destruct (p_lock p) as [[q x [[|? ?]|]]|] eqn:El; try discriminate. injection E as <-.
    constructor; cbn [with_stats with_store p_calls p_lock p_store p_heap]; [exact C| |exact S]. intros l K. injection K as <-. exact (L _ eq_refl).
  - destruct (p_lock p) as [[q x [todo|]]|] eqn:El; try discriminate. unfold store_insert in E.
    pose proof (L _ eq_refl) as Hx. cbn in Hx.
    destruct (store_get _ _ _) as [[r k]|] eqn:Eg.
    + injection E as <-. constructor; cbn [p_calls p_lock p_store p_heap]; [exact C|discriminate|exact S].
    + destruct (slot_insert {| wr_regex := length (p_heap p); wr_cache_size := cs x |} (rs_keys (p_store p))) as [k keys] eqn:Ei.
      unfold index_insert in E. destruct (slot_insert_spec _ _ _ _ _ (co_free _ _ H) Ei) as (F & _ & Hk & Hf & Ho).
      assert (exists keys', (forall k' w', holds keys' k' w' -> holds keys k' w') /\
        p_store p' = {| rs_index := (q, k) :: remove_entry q (rs_index (p_store p)); rs_keys := keys'; rs_gc_counter := rs_gc_counter (p_store p) |} /\
        p_heap p' = p_heap p ++ [x] /\ p_calls p' = p_calls p /\ p_lock p' = None) as (keys' & Hsub & Es & Eh & Ec & El').
      { destruct (assoc str_eqb q (rs_index (p_store p))) as [old|] eqn:Ea.
        - destruct (co_stored _ _ H _ _ (assoc_in _ _ _ Ea)) as (w & Hw).
          assert (holds keys old w) as Hw' by (apply Ho; [intros E0; exact (Hf _ _ E0 Hw)|exact Hw]).
          destruct (slot_remove_spec _ _ _ _ F Hw') as (m' & Er & _ & _ & _ & Hst & _). rewrite Er in E.
          destruct (alive_in _ _); [discriminate|]. cbn [bind] in E. injection E as <-. exists m'. split; [|repeat split].
          intros k' w' K. apply Hst in K as (K & _). exact K.
        - cbn [bind] in E. injection E as <-. exists keys. split; [auto|repeat split]. }
      constructor.
      * rewrite Ec. exact C.
      * rewrite El'. discriminate.
      * intros q' k' w' x' Hi Hs Hn. unfold indexed, stored in *. rewrite Es in *. cbn [rs_index rs_keys] in *. rewrite Eh in Hn. apply Hsub in Hs.
        destruct Hi as [Hi|Hi].
        -- injection Hi as <- <-. destruct (holds_same_slot _ _ _ _ _ _ Hs Hk eq_refl) as (_ & ->). cbn [wr_regex] in Hn.
           rewrite nth_error_app2, Nat.sub_diag in Hn by apply le_n. injection Hn as <-. exact Hx.
        -- apply remove_entry_in in Hi as (Hi & _). destruct (co_stored _ _ H _ _ Hi) as (w0 & Hw0).
           assert (sk_index k' <> sk_index k) as Hne by (intros E0; exact (Hf _ _ E0 Hw0)).
           apply (Ho k' w' Hne) in Hs. destruct (co_heap _ _ H _ _ Hs) as (x0 & Hx0 & _).
           rewrite nth_error_app1 in Hn by (apply nth_error_Some; congruence). exact (S _ _ _ _ Hi Hs Hn).
  - destruct (nth_error (p_handles p) n); [|discriminate]. injection E as <-. constructor; assumption.
  - injection E as <-. constructor; assumption.
  - destruct (nth_error (p_handles p) n) as [h|]; [|discriminate]. destruct (nth_error (p_caches p) m) as [c|]; [|discriminate].
    destruct (entry_or_insert _ _ _) as [[y c']| |]; try discriminate. injection E as <-. constructor; assumption.
Qed.
Lemma provenance_run : forall R (cs : R -> N) P acts p p', consistent cs p -> provenance P p ->
  (forall q f x, In (ALookup q f) acts -> f q = Some x -> P q x) -> run cs acts p = Some (Ret p') -> provenance P p'.
Proof.
  intros R cs P acts. induction acts as [|a acts IH]; intros p p' H Hp Ha E; cbn [run] in E; [injection E as <-; exact Hp|].
  destruct (perform cs a p) as [[p1| |]|] eqn:Ep; try discriminate.
  refine (IH p1 p' (step_consistent _ _ _ _ _ H Ep) _ _ E).
  - refine (provenance_step _ cs P a p p1 H Hp _ Ep). intros q f x -> Hf. exact (Ha q f x (or_introl eq_refl) Hf).
  - intros q f x Hi. exact (Ha q f x (or_intror Hi)).
Qed.
Lemma provenance_new : forall R (P : str -> R -> Prop), provenance P process_new.
Proof. intros R P. constructor; [intros q x []|discriminate|intros q k w x []]. Qed.

Lemma handle_provenance : forall R (cs : R -> N) (P : str -> R -> Prop) acts p h x, (forall q f x, In (ALookup q f) acts -> f q = Some x -> P q x) ->
  run cs acts process_new = Some (Ret p) -> In h (p_handles p) -> gives p h x -> P (h_pattern h) x.
Proof.
  intros R cs P acts p h x Ha E Hh Hx. pose proof (run_consistent _ _ _ _ _ (consistent_new _ cs) E) as Hc.
  pose proof (provenance_run _ cs P acts _ _ (consistent_new _ cs) (provenance_new _ P) Ha E) as Hp.
  destruct (co_handles _ _ Hc h Hh) as (Hi & w & Hs & Hr). unfold gives in Hx. rewrite <- Hr in Hx. exact (pv_stored _ _ Hp _ _ _ _ Hi Hs Hx).
Qed.
