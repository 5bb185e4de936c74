(* The binary encoding, the Go binding and event implementations (C38-C42): proofs of the statements of Thm/Codec.v *)
From Coq Require Import Lia ZifyN Permutation.
From Verif Require Import Proofs.Text Proofs.Scopes Proofs.Events Proofs.Claims Proofs.Scan Proofs.Codec Proofs.Binary Proofs.GoScan Proofs.Json Proofs.Lossy.
From Verif Require Import Examples.Setting Examples.Codec Examples.LongResponse.
From Verif Require Export Spec.Codec Spec.Wire Spec.Json.

Lemma response_wrapped : forall st ms, ms <> [] ->
  (forall e, In e st -> fst (snd e) = true -> entry_fits e) ->
  (forall o, In o ms -> path_fits (rm_path o)) ->
  exists data o r,
    encode_response st ms = Some data /\
    decode_response (length data) data no_outcome = Ret (Ok o) /\
    last_mutated st r /\ Forall2 (match_as wrap32 signed32) ms (so_matches o) /\
    match r with
    | None => so_mutated o = false
    | Some s => so_mutated o = true /\ utf8_of s (so_event o)
    end.
Proof.
  intros st ms Hne Hst Hp. destruct (last_mutated_exists st) as (r & Hr).
  set (data := encode_mutations st ++ flat_map encode_match ms).
  destruct (decode_mutations st (flat_map encode_match ms) no_outcome (length data) r Hst Hr (le_n _))
    as (fuel' & Hf & Hd).
  destruct r as [s|].
  - destruct Hd as (b & Hb & Hd).
    destruct (decode_matches ms {| so_event := b; so_mutated := true; so_matches := so_matches no_outcome |} fuel' Hp Hf)
      as (gs & H1 & H2).
    exists data, (with_matches {| so_event := b; so_mutated := true; so_matches := so_matches no_outcome |} gs), (Some s).
    split; [destruct ms; [congruence|reflexivity]|]. split; [rewrite <- H1; exact Hd|]. split; [exact Hr|]. split; [exact H2|]. split; [reflexivity|exact Hb].
  - destruct (decode_matches ms no_outcome fuel' Hp Hf) as (gs & H1 & H2).
    exists data, (with_matches no_outcome gs), None.
    split; [destruct ms; [congruence|reflexivity]|]. split; [rewrite <- H1; exact Hd|]. split; [exact Hr|]. split; [exact H2|reflexivity].
Qed.

Lemma matches_image : forall ms gs, (forall o, In o ms -> match_fits o) ->
  Forall2 (match_as wrap32 signed32) ms gs -> Forall2 match_image ms gs.
Proof.
  intros ms gs Hf H. induction H; constructor; auto.
  - apply as_image; auto. apply Hf. left; auto.
  - apply IHForall2. intros; apply Hf; right; auto.
Qed.

Lemma quiet_string : forall sc fs blocked E w h strs p c c',
  string_scanned sc fs blocked E w h strs p c c' [] -> c' = c.
Proof.
  intros sc fs blocked E w h strs p c c' (cands & kept & g0 & cs & _ & _ & H1 & H2 & H3 & H4 & _).
  simpl in H4. rewrite <- H4 in H3. destruct cs; [|discriminate]. subst. reflexivity.
Qed.

Lemma scanned_path : forall sc fs blocked E w h strs p c c' outs o,
  string_scanned sc fs blocked E w h strs p c c' outs -> In o outs -> rm_path o = p.
Proof.
  intros sc fs blocked E w h strs p c c' outs o (cands & kept & g0 & cs & _ & _ & _ & _ & H3 & H4 & H5) Ho.
  apply In_nth_error in Ho as (k & Hk).
  destruct (nth_error kept k) as [m|] eqn:Em.
  - destruct (H5 k m o Em Hk) as (u & r & _ & _ & _ & _ & _ & _ & H & _). exact H.
  - apply nth_error_None in Em. assert (k < length outs) by (apply nth_error_Some; congruence). lia.
Qed.

Lemma candidate_lt : forall sc fs strs, scanner_meets sc fs strs ->
  forall blocked p c i a b, In (p, c) strs -> candidate sc fs blocked p c (i, a, b) -> a < b.
Proof.
  intros sc fs strs Hm blocked p c i a b Hin (r & Hr & _ & _ & _ & H).
  destruct (Hm i r Hr) as [_ _ HG _]. destruct (HG c p false (sc_kw_paths sc)) with (a := a) (b := b); eauto.
Qed.

Lemma found_excluded_perm : forall sc fs blocked strs1 strs2,
  (forall p c, In (p, c) strs1 <-> In (p, c) strs2) ->
  forall t, found_excluded sc fs blocked strs1 t <-> found_excluded sc fs blocked strs2 t.
Proof.
  intros sc fs blocked strs1 strs2 H t.
  split; intros (i & r & p & c & H1 & H2); exists i, r, p, c; split; auto; apply H; auto.
Qed.

Lemma similar_refl : forall sc, similar sc sc.
Proof.
  intros sc. split; auto. unfold same_rules. induction (sc_rules sc); constructor; auto.
Qed.

(* the same strings in another order are scanned alike *)
Lemma scanned_perm : forall sc fs blocked E w h strs1 strs2 p c c1 c2 o1 o2,
  (forall i a b, candidate sc fs blocked p c (i, a, b) -> a < b) ->
  (forall p c, In (p, c) strs1 <-> In (p, c) strs2) ->
  string_scanned sc fs blocked E w h strs1 p c c1 o1 ->
  string_scanned sc fs blocked E w h strs2 p c c2 o2 -> c1 = c2 /\ o1 = o2.
Proof.
  intros sc fs blocked E w h strs1 strs2 p c c1 c2 o1 o2 Hm Hp H1 H2.
  eapply (string_scanned_unique sc sc fs fs blocked blocked (similar_refl sc)); [| |exact H1|exact H2].
  - intros [[i a] b]. unfold suppressed.
    pose proof (found_excluded_perm sc fs blocked strs1 strs2 Hp) as Hf.
    split; intros [A B]; (split; [exact A|]); intros (C & D & t & F & G); apply B; (split; [exact C|]; split; [exact D|]);
      exists t; (split; [exact F|]); apply Hf; exact G.
  - exact Hm.
Qed.
(* The scans of all events with the strings [strs], in any order, return and are as they should be. *)
Record scans_evenly (srt : sorter) (sc : scanner) (fs : nat -> finder) (fuel : nat) (h : hashers) (strs : list (path * str)) : Prop := {
  se_range : forall p c i a b, In (p, c) strs -> candidate sc fs [] p c (i, a, b) -> a < b;
  se_scan : forall I e strs' holds, (forall p c, In (p, c) strs <-> In (p, c) strs') ->
    shifts_additive (ev_enc I) clen -> indices_additive (ev_enc I) clen -> event_laws I e strs' holds ->
    exists e' (res : list (str * list rule_match)), scan I fuel h srt sc [] e = Ret (e', flat_map snd res) /\
      length res = length strs' /\ holds e' (map (fun tr => (fst (fst tr), fst (snd tr), false)) (combine strs' res)) /\
      forall p c c' outs, In ((p, c), (c', outs)) (combine strs' res) -> string_scanned sc fs [] (ev_enc I) clen h strs' p c c' outs
}.
Lemma setting_evenly : forall I w srt sc fs e strs holds fuel h, scan_setting I w srt sc fs e strs holds fuel -> scans_evenly srt sc fs fuel h strs.
Proof.
  intros I w srt sc fs e strs holds fuel h [Hsh Hix Hso Hru Hev Hfu]. split.
  - intros p c i a b Hp Hc. eapply candidate_lt; eauto.
  - intros I' e' strs' holds' Hin Hsh' Hix' Hev'. apply scan_spec; try assumption.
    + intros i r Hr. destruct (Hru i r Hr) as [A B C D].
      assert (K : forall c, (exists p, In (p, c) strs') -> exists p, In (p, c) strs).
      { intros c (p & Hp). exists p. apply Hin, Hp. }
      split; eauto.
    + intros p c Hp. apply (Hfu p c). apply Hin, Hp.
Qed.
(* the direct scan and the scan of the encoded event, side by side *)
Definition stored (st : storage) (p : path) (c : str) : str := match storage_get st p with Some (true, x) => x | _ => c end.
Lemma map_scans : forall srt sc fs m gm fuel h,
  scans_evenly srt sc fs fuel h (simple_strings (SMap m)) ->
  distinct_keys (SMap m) -> go_image (SMap m) (GMap gm) -> go_fits (GMap gm) ->
  exists data st outsb res, go_encode (GMap gm) = Ok data /\ native_scan fuel h srt sc data = Ret (encode_response st outsb) /\
    NoDup (map fst st) /\ (forall p, In p (map fst st) -> exists c, In (p, c) (simple_strings (SMap m))) /\
    scan simple_event_impl fuel h srt sc [] (SMap m) = Ret (simple_map (stored st) (SMap m), flat_map snd res) /\
    length res = length (simple_strings (SMap m)) /\ Permutation (flat_map snd res) outsb /\
    (forall p c, In (p, c) (simple_strings (SMap m)) -> exists os, In ((p, c), (stored st p c, os)) (combine (simple_strings (SMap m)) res)) /\
    forall p c c' os, In ((p, c), (c', os)) (combine (simple_strings (SMap m)) res) ->
      string_scanned sc fs [] utf8_encoding clen h (simple_strings (SMap m)) p c c' os.
Proof.
  intros srt sc fs m gm fuel h [Hra Hsc] Hdk Hi Hf.
  destruct (image_encodes _ _ Hi) as (data & Hd).
  pose proof (go_decode_all _ _ Hf Hd) as Hdec.
  set (e := SMap m) in *. set (strs := ordered_strings e).
  assert (Hstrs : strings_of (go_ops (GMap gm)) = Some strs).
  { unfold strs. rewrite <- (proj1 image_strings _ _ Hi). apply shows_strings, go_shows. }
  assert (Hin : forall p c, In (p, c) (simple_strings e) <-> In (p, c) strs).
  { intros. symmetry. apply ordered_in. }
  pose proof (binary_laws utf8_encoding (go_ops (GMap gm)) strs Hstrs (ordered_distinct e Hdk)) as Hlaws.
  destruct (Hsc (binary_event_impl utf8_encoding) {| be_ops := go_ops (GMap gm); be_storage := [] |} strs (binary_holds strs)
              Hin utf8_shifts utf8_indices Hlaws) as (eb & resb & Hsb & Hlb & Hhb & Hcb).
  destruct (Hsc simple_event_impl e (simple_strings e) (simple_holds e)
              (fun p c => iff_refl _) utf8_shifts utf8_indices (simple_laws e Hdk)) as (e' & res & Hs & Hl & Hh & Hc).
  assert (Hnd : NoDup (map fst (simple_strings e))) by (apply simple_distinct; auto).
  assert (Hndb : NoDup (map fst strs)) by (apply ordered_distinct; auto).
  (* the same answers *)
  assert (Hsame : forall x y, In (x, y) (combine (simple_strings e) res) <-> In (x, y) (combine strs resb)).
  { intros [p c] [c1 o1]. split; intros H.
    - pose proof (in_combine_l _ _ _ _ H) as Hp. pose proof (proj1 (Hin p c) Hp) as Hp'.
      destruct (in_combine_fst _ _ strs resb (p, c) Hlb Hp') as ([c2 o2] & H2).
      destruct (scanned_perm sc fs [] utf8_encoding clen h _ _ p c c1 c2 o1 o2 (fun i a b => Hra p c i a b Hp) Hin (Hc _ _ _ _ H) (Hcb _ _ _ _ H2)) as [-> ->].
      exact H2.
    - pose proof (in_combine_l _ _ _ _ H) as Hp'. pose proof (proj2 (Hin p c) Hp') as Hp.
      destruct (in_combine_fst _ _ (simple_strings e) res (p, c) Hl Hp) as ([c2 o2] & H2).
      destruct (scanned_perm sc fs [] utf8_encoding clen h _ _ p c c2 c1 o2 o1 (fun i a b => Hra p c i a b Hp) Hin (Hc _ _ _ _ H2) (Hcb _ _ _ _ H)) as [-> ->].
      exact H2. }
  assert (Hperm : Permutation (flat_map snd res) (flat_map snd resb)).
  { assert (Hsnd : forall A B C (l : list A) (r : list (B * list C)), length r = length l ->
      flat_map snd r = flat_map (fun x => snd (snd x)) (combine l r)).
    { induction l as [|a l IH]; intros [|b r] Hlen; simpl in *; try discriminate; auto.
      rewrite (IH r) by auto. reflexivity. }
    rewrite (Hsnd _ _ _ (simple_strings e) res Hl), (Hsnd _ _ _ strs resb Hlb).
    apply Permutation_flat_map. apply NoDup_Permutation.
    - apply NoDup_combine, NoDup_fst, Hnd.
    - apply NoDup_combine, NoDup_fst, Hndb.
    - intros [x y]. apply Hsame. }
  set (st := be_storage eb) in *.
  (* the new event *)
  destruct Hh as (f & He' & Hfm).
  assert (Hf1 : forall p c, In (p, c) (simple_strings e) -> exists os, In ((p, c), (f p c, os)) (combine (simple_strings e) res)).
  { intros p c Hp. destruct (in_combine_fst _ _ (simple_strings e) res (p, c) Hl Hp) as ([c2 o2] & H2).
    assert (E : In (p, c2) (map (fun pc : path * str => (fst pc, f (fst pc) (snd pc))) (simple_strings e))).
    { rewrite <- Hfm, map_map. apply in_map_iff. exists ((p, c), (c2, o2)). auto. }
    apply in_map_iff in E as ([q d] & E & Hq). simpl in E. injection E as -> <-.
    assert (d = c) by exact (fst_functional _ _ _ _ _ _ Hnd Hq Hp). subst d. exists o2. exact H2. }
  assert (Heff : forall p c, In (p, c) (simple_strings e) -> f p c = effective st p c).
  { intros p c Hp. destruct (Hf1 p c Hp) as (os & H2). apply Hsame in H2.
    destruct Hhb as (_ & _ & Hhb). destruct (Hhb p (f p c) false) as [(c0 & A & B) _].
    { apply in_map_iff. exists ((p, c), (f p c, os)). auto. }
    assert (c0 = c) by (eapply fst_functional; [exact Hndb|exact A|apply Hin, Hp]). subst c0. exact B. }
  assert (Hstp : forall p, In p (map fst st) -> exists c, In (p, c) (simple_strings e)).
  { intros p Hp. destruct Hhb as (_ & Hk & _). apply Hk in Hp. apply map_fst_in in Hp as (c & Hp). exists c. apply Hin, Hp. }
  assert (Hstn : NoDup (map fst st)) by (destruct Hhb as (H & _); exact H).
  assert (He'' : e' = simple_map (fun p c => match storage_get st p with Some (true, x) => x | _ => c end) e).
  { rewrite He'. apply simple_map_ext_in. intros p c Hp. apply Heff, Hp. }
  exists data, st, (flat_map snd resb), res. split; [exact Hd|]. split.
  { unfold native_scan. rewrite Hdec. cbn [bind]. rewrite Hsb. reflexivity. }
  split; [exact Hstn|]. split; [exact Hstp|]. split; [rewrite Hs, He''; reflexivity|]. split; [exact Hl|]. split; [exact Hperm|].
  split; [|exact Hc]. intros p c Hp. destruct (Hf1 p c Hp) as (os & H2). exists os. rewrite (Heff p c Hp) in H2. exact H2.
Qed.

(* ---- what fits in a response fits ---- *)
Lemma text_iff : forall s, is_text s <-> Forall scalar s.
Proof.
  intros s. split; [intros (b & H); apply utf8_of_iff in H; tauto|intros H]. exists (as_bytes s). apply utf8_of_iff. auto.
Qed.
Lemma text_app : forall s t, is_text (s ++ t) <-> is_text s /\ is_text t.
Proof. intros s t. rewrite !text_iff. apply Forall_app. Qed.
Lemma mutation_long : forall st p c, In (p, (true, c)) st -> length (as_bytes c) <= length (encode_mutations st).
Proof.
  induction st as [|[q [b d]] st IH]; intros p c H; [destruct H|]. cbn [encode_mutations]. rewrite app_length. destruct H as [E|H].
  - injection E as -> -> ->. unfold encode_mutation, encode_bytes. cbn [length]. rewrite app_length. cbn [length]. rewrite app_length. lia.
  - apply IH in H. lia.
Qed.
Lemma match_long : forall o ms, In o ms -> length (as_bytes (display (rm_path o))) <= length (flat_map encode_match ms).
Proof.
  intros o. induction ms as [|x ms IH]; intros H; [destruct H|]. cbn [flat_map]. rewrite app_length. destruct H as [->|H]; [|apply IH in H; lia].
  unfold encode_match, encode_bytes. cbn [length]. rewrite !app_length. lia.
Qed.
Lemma clen_bytes : forall c b, char_utf8 c b -> clen c = length b.
Proof.
  intros c b H. inversion H; subst; cbn [length]; unfold clen;
    repeat match goal with |- context [(?a <? ?b)%N] => destruct (N.ltb_spec a b) end; lia.
Qed.
Lemma weight_bytes : forall s b, utf8_of s b -> weight clen s = length b.
Proof.
  intros s b H. induction H as [|c b s bs Hc Hs IH]; [reflexivity|]. unfold weight in *. cbn [map list_sum fold_right]. rewrite app_length, <- IH, (clen_bytes c b Hc). reflexivity.
Qed.
Lemma weight_app_le : forall w a b, weight w a <= weight w (a ++ b).
Proof. intros w a b. unfold weight. rewrite map_app, list_sum_app. lia. Qed.
Lemma text_shorter : forall s, is_text s -> weight clen s = length (as_bytes s).
Proof. intros s (b & H). rewrite (weight_bytes s b H), (utf8_of_bytes s b H). reflexivity. Qed.

(* the event with its strings replaced *)
Lemma image_map : forall e v g, go_image e v -> go_fits v ->
  (forall p c, In (p, c) (simple_strings e) -> is_text c -> exists b, utf8_of (g p c) b /\ (N.of_nat (length b) < two32)%N) ->
  exists v', go_image (simple_map g e) v' /\ go_fits v'.
Proof.
  induction e as [s|l IH|m IH] using simple_ind'; intros v g Hi Hf Hg.
  - inversion Hi as [? b0 Hs| |]; subst. destruct (Hg [] s (or_introl eq_refl)) as (b & Hb & Hl); [exists b0; exact Hs|].
    exists (GString b). split; [constructor; exact Hb|constructor; exact Hl].
  - inversion Hi as [|? l' Hl|]; subst. inversion Hf as [|? Hn Hall| |]; subst. rewrite simple_map_list. cbn [simple_strings] in Hg.
    assert (K : exists l2, go_images (list_map_at simple_map g 0 l) l2 /\ length l2 = length l' /\ forall v, In v l2 -> go_fits v).
    { clear Hn Hi Hf. revert l' Hl Hall Hg. generalize 0 as i. induction IH as [|c l Hc Hl' IHl]; intros i l' Hl Hall Hg; inversion Hl as [|? v0 ? l0 Hc0 Hl0]; subst.
      - exists []. split; [constructor|]. split; [reflexivity|]. intros v [].
      - destruct (Hc v0 (fun p => g (Index i :: p)) Hc0) as (v1 & A & B).
        { apply Hall. left. reflexivity. }
        { intros p d Hp. apply Hg. cbn [list_strs]. apply in_or_app. left. apply in_pre. eauto. }
        destruct (IHl (S i) l0 Hl0) as (l2 & C & D & E).
        { intros v Hv. apply Hall. right. exact Hv. }
        { intros p d Hp. apply Hg. cbn [list_strs]. apply in_or_app. right. exact Hp. }
        exists (v1 :: l2). split; [constructor; assumption|]. split; [cbn; congruence|]. intros v [<-|Hv]; auto. }
    destruct K as (l2 & A & B & C). exists (GList l2). split; [constructor; exact A|]. constructor; [congruence|exact C].
  - inversion Hi as [| |? m' Hm]; subst. inversion Hf as [| |? Hall|]; subst. rewrite simple_map_map.
    assert (Hg' : forall k d q c, In (k, d) m -> In (q, c) (simple_strings d) -> is_text c -> exists b, utf8_of (g (Field k :: q) c) b /\ (N.of_nat (length b) < two32)%N).
    { intros k d q c H1 H2. apply Hg. apply in_map_strs. eauto 6. }
    assert (K : exists m2, go_entries (map_map_at simple_map g m) m2 /\ forall k v, In (k, v) m2 -> (N.of_nat (length k) < two32)%N /\ go_fits v).
    { clear Hg Hi Hf. revert m' Hm Hall. induction IH as [|[k c] m Hc Hm' IHm]; intros m' Hm Hall; inversion Hm as [|? k' ? v0 ? m0 Hk0 Hc0 Hm0]; subst.
      - exists []. split; [constructor|]. intros k v [].
      - destruct (Hall k' v0 (or_introl eq_refl)) as (Lk & Fv). cbn [snd] in Hc.
        destruct (Hc v0 (fun p => g (Field k :: p)) Hc0 Fv) as (v1 & A & B).
        { intros p d Hp. apply (Hg' k c); [left; reflexivity|exact Hp]. }
        destruct (IHm) with (m' := m0) as (m2 & C & D); [intros k1 d1 q1 c1 H1; apply (Hg' k1 d1 q1 c1); right; exact H1|exact Hm0|intros k1 v2 H1; apply Hall; right; exact H1|].
        exists ((k', v1) :: m2). split; [constructor; assumption|]. intros k1 v2 [E|H1]; [injection E as <- <-; auto|auto]. }
    destruct K as (m2 & A & B). exists (GMap m2). split; [constructor; exact A|constructor; exact B].
Qed.
Lemma image_holds : forall p e v s, go_image e v -> simple_get e p = Ret s -> exists q b, go_holds v q b /\ utf8_of s b.
Proof.
  induction p as [|x p IH]; intros e v s Hi Hg.
  - simpl in Hg. destruct e; try discriminate. injection Hg as <-. inversion Hi; subst. eexists _, _. split; [constructor|eassumption].
  - destruct x as [k|i]; cbn [simple_get] in Hg; destruct e as [s0|l|m]; try discriminate.
    + destruct (map_get m k) as [c|] eqn:Hc; [|discriminate]. inversion Hi as [| |? m' Hm]; subst.
      assert (Hk : exists k' v', In (k', v') m' /\ go_image c v').
      { clear -Hm Hc. induction Hm as [|q q' d w m m' Hq Hd Hm IHm]; simpl in Hc; [discriminate|].
        destruct (str_eqb q k) eqn:E.
        - injection Hc as ->. exists q', w. simpl. auto.
        - destruct (IHm Hc) as (k' & v' & A & C). exists k', v'. simpl. auto. }
      destruct Hk as (k' & v' & A & C). destruct (IH c v' s C Hg) as (q & b & H1 & H2). exists (GKey k' :: q), b. split; [econstructor; eassumption|exact H2].
    + destruct (nth_error l i) as [c|] eqn:Hc; [|discriminate]. inversion Hi as [|? l' Hm|]; subst.
      destruct (images_get l l' Hm i c Hc) as (vd & Hvd & Hid & _). destruct (IH c vd s Hid Hg) as (q & b & H1 & H2).
      exists (GIdx i :: q), b. split; [econstructor; eassumption|exact H2].
Qed.
Lemma path_text_unique : forall first p t, path_text first p t -> forall t', path_text first p t' -> t = t'.
Proof.
  intros first p t H. induction H; intros t' H'; inversion H'; subst; auto.
  - f_equal. auto.
  - do 2 f_equal. auto.
  - f_equal. erewrite (reads_as_unique d d0) by eassumption. do 2 f_equal. auto.
Qed.
Lemma digits_text : forall d, (forall c, In c d -> is_digit c) -> is_text d.
Proof. intros d H. apply text_iff, Forall_forall. intros c Hc. apply H in Hc. unfold is_digit in Hc. unfold scalar. lia. Qed.
Lemma path_is_text : forall first p t, path_text first p t -> (forall x, In x p -> segment_fits x) -> is_text t.
Proof.
  assert (D : forall c t, (c < 128)%N -> is_text t -> is_text (c :: t)).
  { intros c t Hc Ht. rewrite text_iff in *. constructor; [unfold scalar; lia|exact Ht]. }
  intros first p t H. induction H; intros Hs; try (assert (IHs := IHpath_text (fun x Hx => Hs x (or_intror Hx)))).
  - exists []. constructor.
  - apply text_app. split; [|exact IHs]. destruct (Hs _ (or_introl eq_refl)) as (b & Hb & _). exists b. exact Hb.
  - apply D; [lia|]. apply text_app. split; [|exact IHs]. destruct (Hs _ (or_introl eq_refl)) as (b & Hb & _). exists b. exact Hb.
  - apply D; [lia|]. apply text_app. split; [|apply D; [lia|exact IHs]]. apply digits_text. apply H.
Qed.
Lemma flat_text : forall (f : cut -> str) cs, is_text (flat_map f cs) <-> forall u, In u cs -> is_text (f u).
Proof.
  intros f. induction cs as [|u cs IH]; cbn [flat_map].
  - split; [intros _ u []|intros _]. exists []. constructor.
  - rewrite text_app, IH. split; [intros (A & B) v [<-|Hv]; auto|]. intros A. split; [apply A; left; reflexivity|intros v Hv; apply A; right; exact Hv].
Qed.
Lemma scanned_text : forall sc fs blocked E w h strs p c c' os, text_stays h sc ->
  string_scanned sc fs blocked E w h strs p c c' os -> is_text c -> is_text c'.
Proof.
  intros sc fs blocked E w h strs p c c' os Ht (cands & kept & g0 & cs & _ & _ & -> & -> & L1 & L2 & Hk) Hc.
  unfold original, rewritten in *. apply text_app in Hc as (A & B). apply text_app. split; [exact A|].
  rewrite flat_text in *. intros u Hu. specialize (B u Hu). cbn beta in *. apply text_app in B as (B1 & B2). apply text_app. split; [|exact B2].
  apply In_nth_error in Hu as (k & Hu). assert (k < length cs) by (apply nth_error_Some; congruence).
  destruct (nth_error kept k) as [m|] eqn:Em; [|apply nth_error_None in Em; lia].
  destruct (nth_error os k) as [o|] eqn:Eo; [|apply nth_error_None in Eo; lia].
  destruct (Hk k m o Em Eo) as (v & r & Hv & Hr & _ & _ & Hn & _). assert (v = u) by congruence. subst v.
  rewrite Hn. apply (Ht r); [eapply nth_error_In; exact Hr|exact B1].
Qed.
Lemma scanned_numbers : forall sc fs blocked E w h strs p c c' os o, string_scanned sc fs blocked E w h strs p c c' os -> In o os ->
  rm_rule o < length (sc_rules sc) /\ rm_path o = p /\ rm_start o <= weight w c' /\ rm_end o <= weight w c' /\
  (- Z.of_nat (weight w c) <= rm_shift o <= Z.of_nat (weight w c'))%Z.
Proof.
  intros sc fs blocked E w h strs p c c' os o (cands & kept & g0 & cs & _ & _ & -> & -> & L1 & L2 & Hk) Ho.
  apply In_nth_error in Ho as (k & Ho). assert (k < length os) by (apply nth_error_Some; congruence).
  destruct (nth_error kept k) as [m|] eqn:Em; [|apply nth_error_None in Em; lia].
  destruct (Hk k m o Em Ho) as (u & r & Hu & Hr & _ & _ & _ & E1 & E2 & _ & E3 & E4 & E5 & _).
  destruct (original_nth g0 cs k u Hu) as (q & Q). destruct (rewritten_nth g0 cs k u Hu) as (q' & Q').
  assert (W1 : weight w (rewritten g0 (firstn k cs)) <= weight w (rewritten g0 (firstn k cs) ++ cut_new u)) by apply weight_app_le.
  assert (W2 : weight w (rewritten g0 (firstn k cs) ++ cut_new u) <= weight w (rewritten g0 cs)) by (rewrite Q', app_assoc; apply weight_app_le).
  assert (W3 : weight w (original g0 (firstn k cs) ++ cut_old u) <= weight w (original g0 cs)) by (rewrite Q, app_assoc; apply weight_app_le).
  split; [rewrite E1; apply nth_error_Some; congruence|]. split; [exact E2|]. lia.
Qed.
Lemma stars_text : forall n, is_text (repeat 42%N n).
Proof. intros n. apply text_iff, Forall_forall. intros c Hc. apply repeat_spec in Hc. subst c. unfold scalar. lia. Qed.
Lemma redacted_text : forall h a t, (forall s, is_text (hash_utf8 h s)) -> (forall s, is_text (hash_utf16 h s)) ->
  (forall r, a = ActRedact r -> is_text r) -> is_text t -> is_text (redacted h a t).
Proof.
  intros h a t H8 H16 Ha Ht. destruct a as [|r| | |[] n]; cbn [redacted]; auto.
  - apply text_app. split; [apply stars_text|]. rewrite <- (firstn_skipn n t) in Ht. apply text_app in Ht. tauto.
  - apply text_app. split; [|apply stars_text]. rewrite <- (firstn_skipn (length t - n) t) in Ht. apply text_app in Ht. tauto.
Qed.

Lemma c38_round_trip_lemma :
  forall e v, go_image e v -> go_fits v ->
  exists data ops strs,
    go_encode v = Ok data /\ decode_event data = Ret ops /\ balanced ops /\
    strings_of ops = Some strs /\ (forall p s, In (p, s) strs <-> holds_at e p s) /\
    (distinct_keys e -> NoDup (map fst strs)).
Proof.
  intros e v Hi Hf. destruct (image_encodes e v Hi) as (data & Hd).
  exists data, (go_ops v), (go_strings v). split; [exact Hd|]. split; [apply go_decode_all; auto|].
  split; [apply go_balanced|]. split; [apply shows_strings, go_shows|].
  rewrite (proj1 image_strings e v Hi). split.
  - intros p s. rewrite ordered_in. apply simple_strings_holds.
  - apply ordered_distinct.
Qed.

Lemma c38_any_bytes_lemma :
  forall v, go_fits v -> ~ has_unknown v ->
  exists data ops strs,
    go_encode v = Ok data /\ decode_event data = Ret ops /\ strings_of ops = Some strs /\
    forall p s, In (p, s) strs <->
      exists q b, go_holds v q b /\ s = from_utf8_lossy b /\
        p = map (fun x => match x with GKey k => Field (from_utf8_lossy k) | GIdx i => Index i end) q.
Proof.
  intros v Hf Hu. destruct (go_encode v) as [data|x] eqn:Hd.
  2:{ exfalso. apply Hu. apply go_encode_fails. eauto. }
  exists data, (go_ops v), (go_strings v). split; [reflexivity|]. split; [apply go_decode_all; auto|].
  split; [apply shows_strings, go_shows|]. intros p s. rewrite go_strings_holds.
  split; intros (q & b & H1 & H2 & H3); exists q, b; auto.
Qed.

Lemma c38_utf8_lemma :
  forall s b, utf8_of s b -> from_utf8_lossy b = s /\ as_bytes s = b.
Proof.
  intros s b H. split; [apply lossy_utf8; auto|apply utf8_of_bytes; auto].
Qed.

Lemma c38_lossy_lemma :
  forall b s, read_lossily b s <-> s = from_utf8_lossy b.
Proof.
  exact lossy_iff.
Qed.

Lemma c38_rejected_events_lemma :
  forall v, (exists x, go_encode v = Err x) <-> has_unknown v.
Proof.
  exact go_encode_fails.
Qed.

Lemma c38_ill_formed_keys_refuted_lemma :
  exists k1 k2 b data ops, k1 <> k2 /\
  go_encode (GMap [(k1, GString b); (k2, GString b)]) = Ok data /\
  decode_event data = Ret ops /\
  exists p s, strings_of ops = Some [(p, s); (p, s)].
Proof.
  exists [255%N], [254%N], [97%N]. eexists. eexists. split; [discriminate|].
  split; [vm_compute; reflexivity|]. split; [vm_compute; reflexivity|].
  eexists. eexists. vm_compute. reflexivity.
Qed.

Lemma c39_response_lemma :
  forall st ms, ms <> [] ->
  (forall e, In e st -> fst (snd e) = true -> entry_fits e) ->
  (forall o, In o ms -> match_fits o /\ path_fits (rm_path o)) ->
  exists data o r,
    encode_response st ms = Some data /\
    decode_response (length data) data no_outcome = Ret (Ok o) /\
    last_mutated st r /\ Forall2 match_image ms (so_matches o) /\
    match r with
    | None => so_mutated o = false
    | Some s => so_mutated o = true /\ utf8_of s (so_event o)
    end.
Proof.
  intros st ms Hne Hst Hm.
  destruct (response_wrapped st ms Hne Hst (fun o Ho => proj2 (Hm o Ho))) as (data & o & r & H1 & H2 & H3 & H4 & H5).
  exists data, o, r. repeat split; auto. apply matches_image; auto. intros x Hx. apply Hm; auto.
Qed.

Lemma wire_be32 : forall n, four_bytes n (be32 (as_u32 n)).
Proof.
  intros n. unfold four_bytes, be32, as_u32, two32. do 4 eexists. split; [reflexivity|].
  pose proof (N.mod_upper_bound n 4294967296 ltac:(discriminate)) as H. revert H.
  generalize (n mod 4294967296)%N as m. intros m H.
  assert (M : forall k, (k mod 256 < 256)%N) by (intros k; apply N.mod_upper_bound; discriminate).
  split; [auto|].
  assert (D : forall k, (k = 256 * (k / 256) + k mod 256)%N) by (intros k; apply N.div_mod; discriminate).
  replace (m / 16777216)%N with (m / 256 / 256 / 256)%N
    by (rewrite !N.div_div by discriminate; reflexivity).
  replace (m / 65536)%N with (m / 256 / 256)%N by (rewrite !N.div_div by discriminate; reflexivity).
  assert (m / 256 / 256 / 256 < 256)%N.
  { rewrite !N.div_div by discriminate. apply N.div_lt_upper_bound; [discriminate|exact H]. }
  rewrite (N.mod_small (m / 256 / 256 / 256)) by assumption.
  pose proof (D m) as D0. pose proof (D (m / 256))%N as D1. pose proof (D (m / 256 / 256))%N as D2. lia.
Qed.
Lemma wire_counted : forall t, counted t (encode_bytes t).
Proof. intros t. eexists. split; [apply wire_be32|reflexivity]. Qed.
Lemma wire_kind : forall k, kind_name k (kind_text k).
Proof. intros []; constructor. Qed.
Lemma wire_shift : forall z, four_bytes (Z.to_N (z mod 4294967296)) (be32 (isize_as_u32 z)).
Proof.
  intros z. pose proof (wire_be32 (isize_as_u32 z)) as H. pose proof (isize_lt z) as L.
  unfold as_u32 in H. rewrite N.mod_small in H by exact L. exact H.
Qed.
Lemma wire_match_ok : forall o, (forall t, path_text true (rm_path o) t -> is_text t) -> wire_match o (encode_match o).
Proof.
  intros o H. unfold encode_match. pose proof (display_text (rm_path o) 0) as D. cbn [Nat.eqb] in D.
  destruct (H _ D) as (tb & Ht). apply utf8_of_bytes in Ht as E.
  do 9 eexists. split; [reflexivity|]. repeat split; try apply wire_be32.
  - exact D.
  - rewrite <- E in Ht. exact Ht.
  - apply wire_counted.
  - apply wire_kind.
  - apply wire_counted.
  - apply wire_shift.
Qed.
Lemma wire_path_ok : forall p, (forall f, In (Field f) p -> is_text f) -> wire_path p (encode_path p).
Proof.
  induction p as [|[f|i] p IH]; intros H; cbn [encode_path].
  - constructor.
  - destruct (H f (or_introl eq_refl)) as (b & Hb). apply utf8_of_bytes in Hb as E. rewrite E.
    econstructor; [exact Hb|apply wire_counted|]. apply IH. intros f' Hf. apply H. right. exact Hf.
  - constructor; [apply wire_be32|]. apply IH. intros f' Hf. apply H. right. exact Hf.
Qed.

Lemma c39_format_lemma :
  forall st ms data,
  (forall p s, In (p, (true, s)) st -> is_text s /\ forall f, In (Field f) p -> is_text f) ->
  (forall o t, In o ms -> path_text true (rm_path o) t -> is_text t) ->
  encode_response st ms = Some data ->
  exists x y, data = x ++ y /\ wire_mutations st x /\ wire_matches ms y.
Proof.
  intros st ms data Hst Hms H. unfold encode_response in H. destruct ms as [|o0 ms0] eqn:Em; [discriminate|].
  rewrite <- Em in *. injection H as <-. exists (encode_mutations st), (flat_map encode_match ms).
  split; [rewrite Em; reflexivity|]. split.
  - clear - Hst. induction st as [|[p [[|] s]] st IH]; cbn [encode_mutations].
    + constructor.
    + destruct (Hst p s (or_introl eq_refl)) as ((sb & Hs) & Hp). unfold encode_mutation.
      apply utf8_of_bytes in Hs as E. rewrite E. cbn [app]. rewrite <- app_assoc. cbn [app].
      econstructor; [apply wire_path_ok; exact Hp|exact Hs|apply wire_counted|].
      apply IH. intros q t Hin. apply Hst. right. exact Hin.
    + cbn [app]. constructor. apply IH. intros q t Hin. apply Hst. right. exact Hin.
  - clear - Hms. induction ms as [|o ms IH]; cbn [flat_map]; constructor.
    + apply wire_match_ok. intros t. apply Hms. left. reflexivity.
    + apply IH. intros o' t Hin. apply Hms. right. exact Hin.
Qed.

Lemma c39_wrapping_lemma :
  forall st ms, ms <> [] ->
  (forall e, In e st -> fst (snd e) = true -> entry_fits e) ->
  (forall o, In o ms -> path_fits (rm_path o)) ->
  exists data o,
    encode_response st ms = Some data /\
    decode_response (length data) data no_outcome = Ret (Ok o) /\
    Forall2 (match_as wrap32 signed32) ms (so_matches o).
Proof.
  intros st ms Hne Hst Hm.
  destruct (response_wrapped st ms Hne Hst Hm) as (data & o & r & H1 & H2 & H3 & H4 & H5).
  exists data, o. auto.
Qed.

Lemma c39_nothing_matched_lemma :
  forall st, encode_response st [] = None /\
  decode_response 0 [] no_outcome = Ret (Ok no_outcome) /\
  forall m scan data, go_encode (GMap m) = Ok data -> scan data = Ret (encode_response st []) ->
    go_scan_events_map scan m = Ret (Ok no_outcome, GMap m).
Proof.
  intros st. split; [reflexivity|]. split; [reflexivity|].
  intros m scan data Hd Hs. unfold go_scan_events_map. rewrite Hd. unfold low_level_scan. rewrite Hs. reflexivity.
Qed.

Lemma map_events_evenly : forall srt sc fs m gm fuel h e' outs v',
  scans_evenly srt sc fs fuel h (simple_strings (SMap m)) ->
  distinct_keys (SMap m) -> go_image (SMap m) (GMap gm) -> go_fits (GMap gm) ->
  scan simple_event_impl fuel h srt sc [] (SMap m) = Ret (e', outs) ->
  go_image e' v' -> go_fits v' ->
  (forall o, In o outs -> match_fits o /\ path_fits (rm_path o)) ->
  (forall data, go_encode (GMap gm) = Ok data -> response_fits (native_scan fuel h srt sc) data) ->
  exists o outs',
    go_scan_events_map (native_scan fuel h srt sc) gm = Ret (Ok o, v') /\
    Permutation outs outs' /\ Forall2 match_image outs' (so_matches o) /\
    (so_mutated o = false -> v' = GMap gm).
Proof.
  intros srt sc fs m gm fuel h e' outs v' Hset Hdk Hi Hf Hscan Hi' Hf' Hm Hshort.
  destruct (map_scans srt sc fs m gm fuel h Hset Hdk Hi Hf) as (data & st & outsb & res & Hd & Hn & Hstn & Hstp & Hs & Hl & Hperm & Hf1 & Hc).
  rewrite Hscan in Hs. injection Hs as He'' ->. set (e := SMap m) in *.
  change (e' = simple_map (fun p c => match storage_get st p with Some (true, x) => x | _ => c end) e) in He''.
  assert (Hst : forall x, In x st -> fst (snd x) = true -> entry_fits x).
  { intros [p [b s]] Hx Hb. simpl in Hb. subst b. split; simpl.
    - destruct (Hstp p) as (c & Hp); [apply (in_map fst) in Hx; exact Hx|].
      destruct (image_get_fits p e (GMap gm) c Hi Hf (simple_get_in e p c Hdk Hp)) as [A _]. exact A.
    - destruct (Hstp p) as (c & Hp); [apply (in_map fst) in Hx; exact Hx|].
      assert (Hg : simple_get e' p = Ret s).
      { rewrite He''. rewrite (simple_get_map e Hdk p c _ Hp). apply get_in in Hx; auto. rewrite Hx. reflexivity. }
      destruct (image_get_fits p e' v' s Hi' Hf' Hg) as [_ A]. exact A. }
  unfold go_scan_events_map. rewrite Hd. rewrite (whole_response _ _ (Hshort data Hd)). rewrite Hn. cbn [bind fst snd].
  assert (Hi0 : go_image (simple_map (fun _ c => c) e) (GMap gm)).
  { rewrite simple_map_id; auto. }
  destruct outsb as [|o0 os0] eqn:Eb.
  - (* no match *)
    cbn [encode_response bind]. exists no_outcome, [].
    assert (E : e' = e).
    { rewrite He''. apply simple_map_id. intros p c Hp. destruct (Hf1 p c Hp) as (os & H2).
      pose proof (Hc _ _ _ _ H2) as Hsc.
      assert (os = []).
      { apply Permutation_sym, Permutation_nil in Hperm. apply in_combine_r in H2.
        clear -Hperm H2. induction res as [|[a b] res IH]; [destruct H2|]. simpl in Hperm. apply app_eq_nil in Hperm as [-> Hp].
        destruct H2 as [E|H2]; [injection E as _ <-; auto|]. apply IH; auto. }
      subst os. eapply quiet_string; eauto. }
    assert (v' = GMap gm) as -> by (rewrite E in Hi'; eapply (proj1 image_fun); [exact Hi'|exact Hi]).
    split; [reflexivity|]. split; [exact Hperm|]. split; [constructor|auto].
  - rewrite <- Eb in *.
    assert (Hresp : encode_response st outsb = Some (encode_mutations st ++ flat_map encode_match outsb)).
    { rewrite Eb. reflexivity. }
    rewrite Hresp. cbn [bind]. set (data' := encode_mutations st ++ flat_map encode_match outsb).
    assert (Hmb : forall o, In o outsb -> match_fits o /\ path_fits (rm_path o)).
    { intros o Ho. apply Hm. apply (Permutation_in _ (Permutation_sym Hperm) Ho). }
    destruct (decode_mutations_map e st (flat_map encode_match outsb) (length data') (fun _ c => c) (GMap gm) no_outcome)
      as (fuel' & v1 & acc & K1 & K2 & K3 & K4 & K5); auto.
    { intros s E. discriminate E. }
    destruct (decode_matches_map outsb v1 acc fuel' (fun o Ho => proj2 (Hmb o Ho)) K1) as (gs & G1 & G2).
    assert (v1 = v') as -> by (eapply (proj1 image_fun); [exact K3|]; rewrite <- He''; exact Hi').
    exists (with_matches acc gs), outsb. split; [rewrite <- G1; exact K2|]. split; [exact Hperm|]. split.
    + cbn [with_matches so_matches]. rewrite K4. apply matches_image; auto. intros o Ho. apply Hmb, Ho.
    + cbn [with_matches so_mutated]. intros Hmu. rewrite Hmu in K5. symmetry in K5. simpl in K5.
      assert (E : e' = e).
      { rewrite He''. apply simple_map_id. intros p c Hp.
        destruct (storage_get st p) as [[[|] x]|] eqn:G; auto. apply get_in in G; auto.
        assert (existsb (fun e : path * (bool * list N) => fst (snd e)) st = true) by (apply existsb_exists; exists (p, (true, x)); auto).
        congruence. }
      rewrite E in Hi'. eapply (proj1 image_fun); [exact Hi'|exact Hi].
Qed.

Lemma c40_map_events_lemma :
  forall srt sc fs m gm fuel h e' outs v',
  scan_setting simple_event_impl clen srt sc fs (SMap m) (simple_strings (SMap m))
    (simple_holds (SMap m)) fuel ->
  distinct_keys (SMap m) -> go_image (SMap m) (GMap gm) -> go_fits (GMap gm) ->
  scan simple_event_impl fuel h srt sc [] (SMap m) = Ret (e', outs) ->
  go_image e' v' -> go_fits v' ->
  (forall o, In o outs -> match_fits o /\ path_fits (rm_path o)) ->
  (forall data, go_encode (GMap gm) = Ok data -> response_fits (native_scan fuel h srt sc) data) ->
  exists o outs',
    go_scan_events_map (native_scan fuel h srt sc) gm = Ret (Ok o, v') /\
    Permutation outs outs' /\ Forall2 match_image outs' (so_matches o) /\
    (so_mutated o = false -> v' = GMap gm).
Proof.
  intros srt sc fs m gm fuel h e' outs v' Hset. exact (map_events_evenly srt sc fs m gm fuel h e' outs v' (setting_evenly _ _ _ _ _ _ _ _ _ h Hset)).
Qed.

Lemma whole_evenly : forall srt sc fs m gm fuel h,
  scans_evenly srt sc fs fuel h (simple_strings (SMap m)) ->
  distinct_keys (SMap m) -> go_image (SMap m) (GMap gm) -> go_fits (GMap gm) -> go_short (GMap gm) ->
  text_stays h sc -> (N.of_nat (length (sc_rules sc)) <= two32)%N ->
  (forall data, go_encode (GMap gm) = Ok data -> response_fits (native_scan fuel h srt sc) data) ->
  exists e' outs v' o outs',
    scan simple_event_impl fuel h srt sc [] (SMap m) = Ret (e', outs) /\ go_image e' v' /\ go_fits v' /\
    go_scan_events_map (native_scan fuel h srt sc) gm = Ret (Ok o, v') /\
    Permutation outs outs' /\ Forall2 match_image outs' (so_matches o) /\
    (so_mutated o = false -> v' = GMap gm).
Proof.
  intros srt sc fs m gm fuel h Hset Hdk Hi Hf Hsh Ht Hr Hresp.
  destruct (map_scans srt sc fs m gm fuel h Hset Hdk Hi Hf) as (data & st & outsb & res & Hd & Hn & Hstn & Hstp & Hs & Hl & Hperm & Hf1 & Hc).
  specialize (Hresp data Hd) as Hsmall. unfold response_fits in Hsmall. rewrite Hn in Hsmall.
  assert (B : forall p c, In (p, c) (simple_strings (SMap m)) -> (forall x, In x p -> segment_fits x) /\ is_text c /\ (N.of_nat (weight clen c) < 2147483648)%N).
  { intros p c Hp. pose proof (simple_get_in (SMap m) p c Hdk Hp) as G. destruct (image_get_fits p _ _ c Hi Hf G) as (A & _).
    destruct (image_holds p _ _ c Hi G) as (q & b & H1 & H2). split; [exact A|]. split; [exists b; exact H2|].
    rewrite (weight_bytes c b H2). apply (Hsh q b H1). }
  assert (Hnew : forall p c, In (p, c) (simple_strings (SMap m)) -> is_text (stored st p c) /\
    (outsb <> [] \/ stored st p c = c -> N.of_nat (weight clen (stored st p c)) < 2147483648)%N).
  { intros p c Hp. destruct (Hf1 p c Hp) as (os & Ho). specialize (Hc _ _ _ _ Ho). destruct (B p c Hp) as (_ & Tc & Lc).
    assert (T : is_text (stored st p c)) by (eapply scanned_text; eassumption). split; [exact T|]. intros [K|K]; [|rewrite K; exact Lc].
    rewrite (text_shorter _ T). unfold stored in *. destruct (storage_get st p) as [[[|] x]|] eqn:G; try (rewrite <- (text_shorter _ T); exact Lc).
    apply get_in in G; [|exact Hstn]. apply mutation_long in G. destruct outsb as [|o0 os0]; [congruence|]. specialize (Hsmall _ eq_refl). rewrite app_length in Hsmall. lia. }
  assert (Same : outsb = [] -> forall p c, In (p, c) (simple_strings (SMap m)) -> stored st p c = c).
  { intros -> p c Hp. destruct (Hf1 p c Hp) as (os & H2). pose proof (Hc _ _ _ _ H2) as Hsc. assert (os = []); [|subst os; eapply quiet_string; eauto].
    apply Permutation_sym, Permutation_nil in Hperm. apply in_combine_r in H2.
    clear -Hperm H2. induction res as [|[a b] res IH]; [destruct H2|]. simpl in Hperm. apply app_eq_nil in Hperm as [-> Hp].
    destruct H2 as [E|H2]; [injection E as _ <-; auto|]. apply IH; auto. }
  assert (Hlen : forall p c, In (p, c) (simple_strings (SMap m)) -> (N.of_nat (weight clen (stored st p c)) < 2147483648)%N).
  { intros p c Hp. apply Hnew; [exact Hp|]. destruct outsb as [|o0 os0]; [right; apply Same; auto|left; discriminate]. }
  destruct (image_map (SMap m) (GMap gm) (stored st) Hi Hf) as (v' & Hi' & Hf').
  { intros p c Hp _. destruct (Hnew p c Hp) as ((b & Hb) & _). exists b. split; [exact Hb|]. specialize (Hlen p c Hp). rewrite (weight_bytes _ _ Hb) in Hlen. unfold two32. lia. }
  destruct (map_events_evenly srt sc fs m gm fuel h _ _ v' Hset Hdk Hi Hf Hs Hi' Hf') as (o & outs' & R1 & R2 & R3 & R4).
  - intros o Ho. assert (Ho' : exists p c c' os, In ((p, c), (c', os)) (combine (simple_strings (SMap m)) res) /\ In o os).
    { apply in_flat_map in Ho as ([c' os] & H1 & H2). apply In_nth_error in H1 as (k & H1). destruct (nth_error (simple_strings (SMap m)) k) as [[p c]|] eqn:E.
      2:{ apply nth_error_None in E. assert (k < length res) by (apply nth_error_Some; congruence). lia. }
      exists p, c, c', os. split; [|exact H2]. apply nth_error_In with (n := k). clear -H1 E. revert k res H1 E. generalize (simple_strings (SMap m)) as l.
      induction l as [|a l IH]; intros [|k] [|b res] H1 E; try discriminate; cbn in *; [congruence|apply IH; assumption]. }
    destruct Ho' as (p & c & c' & os & H1 & H2). pose proof (in_combine_l _ _ _ _ H1) as Hp.
    destruct (scanned_numbers _ _ _ _ _ _ _ _ _ _ _ _ (Hc _ _ _ _ H1) H2) as (N1 & N2 & N3 & N4 & N5).
    assert (Ec : c' = stored st p c).
    { destruct (Hf1 p c Hp) as (os' & H3).
      assert (Hnd : NoDup (map fst (simple_strings (SMap m)))) by (apply simple_distinct; exact Hdk).
      clear -H1 H3 Hnd. revert res H1 H3 Hnd. generalize (simple_strings (SMap m)) as l.
      induction l as [|[q d] l IH]; intros [|[x y] res] H1 H3 Hnd; try (destruct H1; fail). inversion Hnd as [|? ? K Hnd']; subst. cbn in *.
      destruct H1 as [E1|H1], H3 as [E3|H3].
      - congruence.
      - injection E1 as -> -> -> ->. apply in_combine_l in H3. exfalso. apply K. apply (in_map fst) in H3. exact H3.
      - injection E3 as -> -> -> ->. apply in_combine_l in H1. exfalso. apply K. apply (in_map fst) in H1. exact H1.
      - eapply IH; eassumption. }
    specialize (Hlen p c Hp). rewrite <- Ec in Hlen. destruct (B p c Hp) as (Sg & _ & Lc). split.
    + constructor; unfold two32 in *; lia.
    + rewrite N2. intros t Hpt. pose proof (path_is_text _ _ _ Hpt Sg) as (b & Hb). exists b. split; [exact Hb|].
      assert (t = display p) as -> by (apply (path_text_unique _ _ _ Hpt); apply (display_text p 0)).
      assert (Hin : In o outsb). { apply (Permutation_in _ Hperm). apply in_flat_map. exists (c', os). split; [apply in_combine_r in H1; exact H1|exact H2]. }
      apply match_long in Hin as Hlong. rewrite N2, (utf8_of_bytes _ _ Hb) in Hlong. destruct outsb as [|o0 os0]; [destruct Hin|].
      specialize (Hsmall _ eq_refl). rewrite app_length in Hsmall. unfold two32. lia.
  - exact Hresp.
  - exists (simple_map (stored st) (SMap m)), (flat_map snd res), v', o, outs'. auto 8.
Qed.

Lemma c40_whole_lemma :
  forall srt sc fs m gm fuel h,
  scan_setting simple_event_impl clen srt sc fs (SMap m) (simple_strings (SMap m))
    (simple_holds (SMap m)) fuel ->
  distinct_keys (SMap m) -> go_image (SMap m) (GMap gm) -> go_fits (GMap gm) -> go_short (GMap gm) ->
  text_stays h sc -> (N.of_nat (length (sc_rules sc)) <= two32)%N ->
  (forall data, go_encode (GMap gm) = Ok data -> response_fits (native_scan fuel h srt sc) data) ->
  exists e' outs v' o outs',
    scan simple_event_impl fuel h srt sc [] (SMap m) = Ret (e', outs) /\ go_image e' v' /\ go_fits v' /\
    go_scan_events_map (native_scan fuel h srt sc) gm = Ret (Ok o, v') /\
    Permutation outs outs' /\ Forall2 match_image outs' (so_matches o) /\
    (so_mutated o = false -> v' = GMap gm).
Proof.
  intros srt sc fs m gm fuel h Hset. exact (whole_evenly srt sc fs m gm fuel h (setting_evenly _ _ _ _ _ _ _ _ _ h Hset)).
Qed.

Lemma string_events_evenly : forall srt sc fs s b fuel h s' outs b',
  scans_evenly srt sc fs fuel h [([], s)] ->
  utf8_of s b -> (N.of_nat (length b) < two32)%N ->
  scan string_event fuel h srt sc [] s = Ret (s', outs) ->
  utf8_of s' b' -> (N.of_nat (length b') < two32)%N ->
  (forall o, In o outs -> match_fits o) -> response_fits (native_scan fuel h srt sc) (go_encode_string b) ->
  exists o, go_scan (native_scan fuel h srt sc) b = Ret (Ok o) /\ so_event o = b' /\
    Forall2 match_image outs (so_matches o) /\ (so_mutated o = false -> b' = b).
Proof.
  intros srt sc fs s b fuel h s' outs b' [Hra Hsc] Hb Hl Hscan Hb' Hl' Hm Hshort.
  assert (Hdec : decode_event (go_encode_string b) = Ret [OpString s]).
  { pose proof (go_decode_all (GString b) _ (gf_string b Hl) eq_refl) as H. simpl in H.
    rewrite (lossy_utf8 s b Hb) in H. exact H. }
  pose proof (binary_laws utf8_encoding [OpString s] [([], s)] eq_refl (el_distinct _ _ _ _ (string_laws s))) as Hlaws.
  destruct (Hsc (binary_event_impl utf8_encoding) {| be_ops := [OpString s]; be_storage := [] |} [([], s)] (binary_holds [([], s)])
              (fun p c => iff_refl _) utf8_shifts utf8_indices Hlaws) as (eb & resb & Hsb & Hlb & Hhb & Hcb).
  destruct (Hsc string_event s [([], s)] _ (fun p c => iff_refl _) utf8_shifts utf8_indices (string_laws s)) as (e1 & res & Hs & Hlen & Hh & Hc).
  rewrite Hscan in Hs. injection Hs as <- ->.
  destruct res as [|[c1 o1] [|]]; try discriminate. destruct resb as [|[c2 o2] [|]]; try discriminate.
  specialize (Hc [] s c1 o1 (or_introl eq_refl)). specialize (Hcb [] s c2 o2 (or_introl eq_refl)).
  destruct (scanned_perm sc fs [] utf8_encoding clen h _ _ [] s c1 c2 o1 o2 (fun i a b => Hra [] s i a b (or_introl eq_refl)) (fun p c => iff_refl _) Hc Hcb) as [<- <-].
  destruct Hh as (x & Hh). simpl in Hh. injection Hh as -> _.
  cbn [flat_map snd app] in *. rewrite app_nil_r in *.
  unfold go_scan. rewrite (whole_response _ _ Hshort). unfold native_scan. rewrite Hdec. cbn [bind]. rewrite Hsb. cbn [bind fst snd].
  destruct Hhb as (Hn & Hk & Hhb). set (st := be_storage eb) in *.
  destruct (Hhb [] s' false (or_introl eq_refl)) as [(c0 & Hc0 & Heff) _].
  destruct Hc0 as [Hc0|[]]. injection Hc0 as <-.
  assert (Hst : forall y, In y st -> fst (snd y) = true -> y = ([], (true, s'))).
  { intros [p [m y]] Hy Hm1. simpl in Hm1. subst m. pose proof (in_map fst _ _ Hy) as Hp. apply Hk in Hp.
    destruct Hp as [Hp|[]]. simpl in Hp. subst p. apply get_in in Hy; auto. unfold effective in Heff.
    rewrite Hy in Heff. subst y. reflexivity. }
  destruct o1 as [|o0 os].
  - cbn [encode_response bind decode_response length so_mutated no_outcome so_matches].
    assert (Es : s' = s) by (eapply quiet_string; eauto).
    exists {| so_event := b; so_mutated := false; so_matches := [] |}. split; [reflexivity|].
    assert (b' = b) by (apply (utf8_fun s); [rewrite <- Es; exact Hb'|exact Hb]). subst b'. split; [reflexivity|]. split; [constructor|auto].
  - set (ms := o0 :: os) in *.
    destruct (response_wrapped st ms) as (data & o & r & H1 & H2 & H3 & H4 & H5).
    { discriminate. }
    { intros y Hy Hy1. rewrite (Hst y Hy Hy1). split; simpl; [intros ? []|eauto]. }
    { intros y Hy. rewrite (scanned_path _ _ _ _ _ _ _ _ _ _ _ _ Hc Hy). intros t Ht. inversion Ht; subst.
      exists []. split; [constructor|reflexivity]. }
    rewrite H1. cbn [bind]. rewrite H2. cbn [bind].
    destruct r as [y|].
    + destruct H5 as [H5 H6]. rewrite H5. exists o. split; [reflexivity|].
      assert (y = s').
      { clear -H3 Hst. assert (K : exists p, In (p, (true, y)) st).
        { remember (Some y) as z eqn:Ez. induction H3; try discriminate.
          - injection Ez as <-. destruct IHlast_mutated as (p & Hp); auto. { intros w Hw. apply Hst. right; auto. } exists p. right; auto.
          - injection Ez as <-. exists p. left; auto. }
        destruct K as (p & K). apply Hst in K; [|reflexivity]. injection K as _ <-. reflexivity. }
      subst y. split; [eapply utf8_fun; [exact H6|exact Hb']|]. split; [|congruence]. apply matches_image; auto.
    + rewrite H5. eexists. split; [reflexivity|].
      assert (Es : s' = s).
      { rewrite Heff. unfold effective. destruct (storage_get st []) as [[[|] y]|] eqn:G; auto.
        exfalso. apply get_in in G; auto. clear -H3 G. remember None as z eqn:Ez.
        induction H3; try discriminate; [destruct G|]. destruct G as [G|G]; [discriminate|auto]. }
      assert (b' = b) by (apply (utf8_fun s); [rewrite <- Es; exact Hb'|exact Hb]). subst b'. cbn. repeat split; auto.
      apply matches_image; auto.
Qed.

Lemma c40_string_events_lemma :
  forall srt sc fs s b fuel h s' outs b',
  scan_setting string_event clen srt sc fs s [([], s)] (fun e l => exists x, l = [([], e, x)]) fuel ->
  utf8_of s b -> (N.of_nat (length b) < two32)%N ->
  scan string_event fuel h srt sc [] s = Ret (s', outs) ->
  utf8_of s' b' -> (N.of_nat (length b') < two32)%N ->
  (forall o, In o outs -> match_fits o) -> response_fits (native_scan fuel h srt sc) (go_encode_string b) ->
  exists o, go_scan (native_scan fuel h srt sc) b = Ret (Ok o) /\ so_event o = b' /\
    Forall2 match_image outs (so_matches o) /\ (so_mutated o = false -> b' = b).
Proof.
  intros srt sc fs s b fuel h s' outs b' Hset. exact (string_events_evenly srt sc fs s b fuel h s' outs b' (setting_evenly _ _ _ _ _ _ _ _ _ h Hset)).
Qed.

Lemma whole_string_evenly : forall srt sc fs s b fuel h,
  scans_evenly srt sc fs fuel h [([], s)] ->
  utf8_of s b -> (N.of_nat (length b) < 2147483648)%N -> text_stays h sc -> (N.of_nat (length (sc_rules sc)) <= two32)%N ->
  response_fits (native_scan fuel h srt sc) (go_encode_string b) ->
  exists s' outs b' o, scan string_event fuel h srt sc [] s = Ret (s', outs) /\ utf8_of s' b' /\
    go_scan (native_scan fuel h srt sc) b = Ret (Ok o) /\ so_event o = b' /\
    Forall2 match_image outs (so_matches o) /\ (so_mutated o = false -> b' = b).
Proof.
  intros srt sc fs s b fuel h Hset Hb Hl Ht Hr Hresp. pose proof Hset as [Hra Hsc].
  assert (Hl32 : (N.of_nat (length b) < two32)%N) by (unfold two32; lia).
  assert (Hdec : decode_event (go_encode_string b) = Ret [OpString s]).
  { pose proof (go_decode_all (GString b) _ (gf_string b Hl32) eq_refl) as H. simpl in H.
    rewrite (lossy_utf8 s b Hb) in H. exact H. }
  pose proof (binary_laws utf8_encoding [OpString s] [([], s)] eq_refl (el_distinct _ _ _ _ (string_laws s))) as Hlaws.
  destruct (Hsc (binary_event_impl utf8_encoding) {| be_ops := [OpString s]; be_storage := [] |} [([], s)] (binary_holds [([], s)])
              (fun p c => iff_refl _) utf8_shifts utf8_indices Hlaws) as (eb & resb & Hsb & Hlb & Hhb & Hcb).
  destruct (Hsc string_event s [([], s)] _ (fun p c => iff_refl _) utf8_shifts utf8_indices (string_laws s)) as (s' & res & Hs & Hlen & Hh & Hc).
  destruct res as [|[c1 o1] [|]]; try discriminate. destruct resb as [|[c2 o2] [|]]; try discriminate.
  specialize (Hc [] s c1 o1 (or_introl eq_refl)). specialize (Hcb [] s c2 o2 (or_introl eq_refl)).
  destruct (scanned_perm sc fs [] utf8_encoding clen h _ _ [] s c1 c2 o1 o2 (fun i a b => Hra [] s i a b (or_introl eq_refl)) (fun p c => iff_refl _) Hc Hcb) as [<- <-].
  destruct Hh as (x & Hh). simpl in Hh. injection Hh as -> _.
  cbn [flat_map snd app] in *. rewrite app_nil_r in *.
  assert (Hn : native_scan fuel h srt sc (go_encode_string b) = Ret (encode_response (be_storage eb) o1)).
  { unfold native_scan. rewrite Hdec. cbn [bind]. rewrite Hsb. reflexivity. }
  destruct Hhb as (Hnd & Hk & Hhb). set (st := be_storage eb) in *.
  destruct (Hhb [] s' false (or_introl eq_refl)) as [(c0 & Hc0 & Heff) _].
  destruct Hc0 as [Hc0|[]]. injection Hc0 as <-. change (s' = stored st [] s) in Heff.
  assert (Ts : is_text s) by (exists b; exact Hb). pose proof (scanned_text _ _ _ _ _ _ _ _ _ _ _ Ht Hc Ts) as (b' & Hb').
  assert (Hsmall : (N.of_nat (length b') < 2147483648)%N).
  { destruct o1 as [|o0 os].
    - assert (K : s' = s) by (eapply quiet_string; exact Hc). rewrite K in Hb'. rewrite (utf8_fun s b' b Hb' Hb). exact Hl.
    - unfold stored in Heff. destruct (storage_get st []) as [[[|] y]|] eqn:G; subst; try (rewrite (utf8_fun _ b' b Hb' Hb); exact Hl).
      apply get_in in G; [|exact Hnd]. apply mutation_long in G. rewrite (utf8_of_bytes _ _ Hb') in G. specialize (Hresp _ Hn). rewrite app_length in Hresp. lia. }
  destruct (string_events_evenly srt sc fs s b fuel h s' o1 b' Hset Hb Hl32 Hs Hb') as (o & R1 & R2 & R3 & R4); auto.
  - unfold two32. lia.
  - intros o Ho. destruct (scanned_numbers _ _ _ _ _ _ _ _ _ _ _ _ Hc Ho) as (N1 & N2 & N3 & N4 & N5).
    rewrite (weight_bytes _ _ Hb') in *. rewrite (weight_bytes _ _ Hb) in *. constructor; unfold two32 in *; lia.
  - exists s', o1, b', o. auto 8.
Qed.

Lemma c40_whole_string_lemma :
  forall srt sc fs s b fuel h,
  scan_setting string_event clen srt sc fs s [([], s)] (fun e l => exists x, l = [([], e, x)]) fuel ->
  utf8_of s b -> (N.of_nat (length b) < 2147483648)%N -> text_stays h sc -> (N.of_nat (length (sc_rules sc)) <= two32)%N ->
  response_fits (native_scan fuel h srt sc) (go_encode_string b) ->
  exists s' outs b' o, scan string_event fuel h srt sc [] s = Ret (s', outs) /\ utf8_of s' b' /\
    go_scan (native_scan fuel h srt sc) b = Ret (Ok o) /\ so_event o = b' /\
    Forall2 match_image outs (so_matches o) /\ (so_mutated o = false -> b' = b).
Proof.
  intros srt sc fs s b fuel h Hset. exact (whole_string_evenly srt sc fs s b fuel h (setting_evenly _ _ _ _ _ _ _ _ _ h Hset)).
Qed.

Lemma c40_ill_formed_key_refuted_lemma :
  exists sc k secret redacted o,
  go_scan_events_map (native_scan 100 ex_hash isort sc) [(k, GString secret)]
  = Ret (Ok o, GMap [(k, GString secret); ([239; 191; 189]%N, GString redacted)]) /\
  so_mutated o = true /\ secret <> redacted /\ so_matches o <> [].
Proof.
  exists ex_scanner, [255%N], (text "12"), (text "[R]"). eexists.
  split; [vm_compute; reflexivity|]. split; [reflexivity|]. split; discriminate.
Qed.

Lemma c40_nested_ill_formed_key_refuted_lemma :
  exists sc k secret,
  go_scan_events_map (native_scan 100 ex_hash isort sc) [(k, GMap [([97%N], GString secret)])] = Panic.
Proof.
  exists ex_scanner, [255%N], (text "12"). vm_compute. reflexivity.
Qed.

Lemma c89_lost_refuted_lemma :
  exists sc secret data, (N.of_nat (length data) = two32)%N /\
  native_scan 100 ex_hash isort sc (go_encode_string secret) = Ret (Some data) /\
  go_scan (native_scan 100 ex_hash isort sc) secret
  = Ret (Ok {| so_event := secret; so_mutated := false; so_matches := [] |}) /\
  exists s' o, scan string_event 100 ex_hash isort sc [] secret = Ret (s', [o]) /\ s' <> secret.
Proof.
  destruct (long_length (N.to_nat 4294967254)) as (p & data & H & L & E).
  exists (long_scanner p), (text "12"), data.
  assert (L' : (N.of_nat (length data) = two32)%N) by (unfold two32; lia).
  split; [exact L'|]. split; [exact H|]. split.
  - unfold go_scan, low_level_scan. rewrite H.
    assert (R : received data (Ret [])).
    { apply (rc_prefix data 1 [] data); [reflexivity|rewrite L'; reflexivity|reflexivity]. }
    rewrite (received_det _ _ _ (received_spec data) R). reflexivity.
  - destruct (long_direct p) as (o & D). exists p, o. split; [exact D|]. intros K. apply (f_equal (@length N)) in K.
    rewrite E, repeat_length in K. change (length (text "12")) with 2 in K. lia.
Qed.

Lemma c89_panics_refuted_lemma :
  forall sc secret data, native_scan 100 ex_hash isort sc (go_encode_string secret) = Ret (Some data) ->
  (2147483648 <= N.of_nat (length data) < two32)%N ->
  go_scan (native_scan 100 ex_hash isort sc) secret = Panic.
Proof.
  intros sc secret data H L. unfold go_scan, low_level_scan. rewrite H.
  assert (R : received data Panic) by (apply (rc_panic data 0 (N.of_nat (length data))); [lia|exact L]).
  rewrite (received_det _ _ _ (received_spec data) R). reflexivity.
Qed.

Lemma c89_received_lemma :
  forall scan encoded data, scan encoded = Ret (Some data) ->
  exists r, received data r /\
    (low_level_scan scan encoded = match r with Ret x => Ret (Ok x) | Panic => Panic | Diverge => Diverge end) /\
    (low_level_scan scan encoded = Ret (Ok data) <-> (N.of_nat (length data) < 2147483648)%N).
Proof.
  intros scan encoded data H. exists (go_bytes_of data (c_int (Z.of_nat (length data)))).
  split; [apply received_spec|]. unfold low_level_scan. rewrite H. split.
  - destruct (go_bytes_of _ _); reflexivity.
  - pose proof (received_spec data) as R. split.
    + intros K. destruct (go_bytes_of data _) as [x| |]; try discriminate K. injection K as ->.
      inversion R; subst; assumption.
    + intros L. rewrite (received_whole data _ L R). reflexivity.
Qed.

Lemma c41_lost_redaction_refuted_lemma :
  exists sc e1 e2 o1 m1 o2 o12,
  go_scan (native_scan 100 ex_hash isort sc) e1 = Ret (Ok o1) /\ so_mutated o1 = true /\
  so_matches o1 = [m1] /\ gm_kind m1 = RKPlaceholder /\
  go_scan (native_scan 100 ex_hash isort sc) e2 = Ret (Ok o2) /\ so_mutated o2 = false /\
  exists data, native_scan 100 ex_hash isort sc (go_encode_string e1 ++ go_encode_string e2) = Ret (Some data) /\
    decode_response (length data) data no_outcome = Ret (Ok o12) /\
    In m1 (so_matches o12) /\ so_mutated o12 = false.
Proof.
  exists ex_scanner, (text "12"), (text "7"). do 4 eexists.
  split; [vm_compute; reflexivity|]. split; [reflexivity|]. split; [reflexivity|]. split; [reflexivity|].
  split; [vm_compute; reflexivity|]. split; [reflexivity|].
  eexists. split; [vm_compute; reflexivity|]. split; [vm_compute; reflexivity|].
  split; [left; reflexivity|reflexivity].
Qed.

Lemma c41_panic_refuted_lemma :
  exists sc e1 e2 o1 o2,
  go_scan (native_scan 100 ex_hash isort sc) e1 = Ret (Ok o1) /\
  go_scan (native_scan 100 ex_hash isort sc) e2 = Ret (Ok o2) /\
  native_scan 100 ex_hash isort sc (go_encode_string e1 ++ go_encode_string e2) = Panic.
Proof.
  exists ex_scanner, (text "7"), (text "longer 12"). do 2 eexists.
  split; [vm_compute; reflexivity|]. split; [vm_compute; reflexivity|]. vm_compute. reflexivity.
Qed.

Lemma c41_distinct_paths_lemma :
  forall E ops strs, strings_of ops = Some strs -> NoDup (map fst strs) ->
  forall log, map fst log = strs ->
  let e := ev_visited (binary_event_impl E) {| be_ops := ops; be_storage := [] |} log in
  forall p c, In (p, c, true) log ->
    ev_get (binary_event_impl E) e p = Ret c /\
    forall q d s mutated, In (q, d, true) log -> q <> p ->
      ev_get (binary_event_impl E) (ev_set (binary_event_impl E) e q s mutated) p = Ret c /\
      storage_get (be_storage (ev_set (binary_event_impl E) e q s mutated)) p = Some (false, c) /\
      storage_get (be_storage (ev_set (binary_event_impl E) e q s mutated)) q = Some (mutated, s).
Proof.
  intros E ops strs Hs Hn log Hl e p c Hp.
  pose proof (el_visited _ _ _ _ (binary_laws E ops strs Hs Hn) log Hl) as (_ & _ & H). fold e in H.
  destruct (H p c true Hp) as [_ Hg]. specialize (Hg eq_refl).
  split; [cbn [ev_get binary_event_impl]; rewrite Hg; reflexivity|].
  intros q d s mutated Hq Hne. destruct (H q d true Hq) as [_ Hgq]. specialize (Hgq eq_refl).
  cbn [ev_get ev_set binary_event_impl be_storage]. rewrite !get_set, path_eqb_refl, Hgq.
  rewrite (proj2 (path_eqb_neq q p)) by auto. rewrite Hg. auto.
Qed.

Lemma c42_simple_event_lemma :
  forall e p s, distinct_keys e -> holds_at e p s ->
  simple_get e p = Ret s /\
  forall s', simple_get (simple_set e p s') p = Ret s' /\
    forall q t, holds_at e q t -> q <> p -> simple_get (simple_set e p s') q = Ret t.
Proof.
  intros e p s Hd H. apply simple_strings_holds in H. split; [apply simple_get_in; auto|].
  intros s'. pose proof (simple_set_map e Hd p s (fun _ x => x) s' H) as K.
  rewrite simple_map_id in K by auto. rewrite K. split.
  - rewrite (simple_get_map e Hd p s _ H). unfold upd. rewrite path_eqb_refl. reflexivity.
  - intros q t Hq Hne. apply simple_strings_holds in Hq. rewrite (simple_get_map e Hd q t _ Hq).
    unfold upd. rewrite (proj2 (path_eqb_neq q p)) by auto. reflexivity.
Qed.

Lemma c42_json_strings_lemma :
  forall e p s, json_distinct e -> json_shown e p s true ->
  json_get e p = Ret s /\
  forall s', json_shape (json_set e p s') = json_shape e /\ json_get (json_set e p s') p = Ret s' /\
    forall q t, json_shown e q t true -> q <> p -> json_get (json_set e p s') q = Ret t.
Proof.
  intros e p s Hd H. split; [apply json_get_shown; auto|]. intros s'.
  pose proof (json_set_shape p e s s' Hd H) as Hs.
  assert (Hd' : json_distinct (json_set e p s')) by (apply shape_distinct with e; auto).
  split; auto. split.
  - apply json_get_shown; auto. pose proof (json_set_shown p e s s' p s true Hd H H) as K. rewrite path_eqb_refl in K. exact K.
  - intros q t Hq Hne. apply json_get_shown; auto. pose proof (json_set_shown p e s s' q t true Hd H Hq) as K.
    rewrite (proj2 (path_eqb_neq p q)) in K by auto. exact K.
Qed.

Lemma c42_json_laws_lemma :
  forall e, json_distinct e -> (forall p s b, json_shown e p s b -> b = true) ->
  exists strs, event_laws json_event_impl e strs (json_holds e) /\
    forall p s, In (p, s) strs <-> json_shown e p s true.
Proof.
  intros e Hd Hp. exists (json_strings e). split; [apply json_laws; auto|].
  intros p s. rewrite json_strings_shown. split; [|eauto]. intros (b & H). pose proof (Hp _ _ _ H). subst b. exact H.
Qed.

Lemma c42_json_scalars_refuted_lemma :
  exists sc e p s, json_distinct e /\ json_shown e p s false /\ json_get e p = Panic /\
  scan json_event_impl 100 ex_hash isort sc [] e = Panic.
Proof.
  exists ex_scanner, (JArray [JNumber (text "12")]), [Index 0], (text "12"). split; [|split; [|split]].
  - constructor. intros c [<-|[]]. constructor.
  - econstructor; [reflexivity|constructor].
  - reflexivity.
  - vm_compute. reflexivity.
Qed.

