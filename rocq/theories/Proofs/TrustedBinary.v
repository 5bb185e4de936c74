(* The format of binary events *)
From Coq Require Import Lia ZifyN.
From Verif Require Import Proofs.Codec Proofs.Lossy Proofs.Jwt Proofs.Visitor Proofs.Scan.
From Verif Require Export Spec.TrustedBinary.

Lemma number_iff : forall q l' n, number q n <-> read_u32 (q ++ l') = Ret (n, l') /\ length q = 4.
Proof.
  intros q l' n. split.
  - intros [x y z t]. split; [|reflexivity]. cbn [app read_u32]. unfold of_be32. do 2 f_equal. lia.
  - intros (E & L). destruct q as [|x [|y [|z [|t [|u q]]]]]; try discriminate L. cbn [app read_u32] in E. injection E as <-.
    unfold of_be32. replace (x * 16777216 + y * 65536 + z * 256 + t)%N with (x * 256 * 256 * 256 + y * 256 * 256 + z * 256 + t)%N by lia. constructor.
Qed.
Lemma u32_read : forall l n l', read_u32 l = Ret (n, l') -> exists q, l = q ++ l' /\ number q n.
Proof.
  intros [|x [|y [|z [|t l]]]] n l' E; try discriminate E. injection E as <- <-. exists [x; y; z; t]. split; [reflexivity|].
  apply (number_iff _ []). split; reflexivity.
Qed.
Lemma bytes_read : forall n l b l', read_bytes n l = Ret (b, l') -> l = b ++ l' /\ N.of_nat (length b) = n.
Proof.
  intros n l b l' E. unfold read_bytes in E. destruct (N.leb_spec n (N.of_nat (length l))) as [L|]; [|discriminate E]. injection E as <- <-.
  rewrite firstn_skipn, firstn_length. split; [reflexivity|lia].
Qed.
Definition text_as (trusted : bool) : octets -> str -> Prop := if trusted then (fun b s => utf8_of s b) else read_lossily.
Lemma text_read : forall trusted b s, read_text trusted b = Some s <-> text_as trusted b s.
Proof.
  intros [|] b s; cbn [read_text text_as].
  - apply from_utf8_spec.
  - rewrite lossy_iff. split; [intro E; injection E as <-; reflexivity|intros ->; reflexivity].
Qed.

Lemma decoded_written : forall trusted fuel l ops, decode_ops_as trusted fuel l = Ret (Some ops) -> written (text_as trusted) l ops.
Proof.
  intros trusted. induction fuel as [|fuel IH]; intros l ops E.
  - destruct l; [injection E as <-; constructor|discriminate E].
  - destruct l as [|tag l0]; [injection E as <-; constructor|]. cbn [decode_ops_as] in E.
    destruct (N.eqb_spec tag 0) as [->|_].
    { destruct (read_u32 l0) as [[n l1]| |] eqn:E1; cbn [bind] in E; try discriminate E.
      destruct (read_bytes n l1) as [[b l2]| |] eqn:E2; cbn [bind] in E; try discriminate E.
      destruct (read_text trusted b) as [s|] eqn:E3; [|discriminate E].
      destruct (decode_ops_as trusted fuel l2) as [[ops'|]| |] eqn:E4; cbn [bind option_map] in E; try discriminate E. injection E as <-.
      destruct (u32_read _ _ _ E1) as (q & -> & Q). destruct (bytes_read _ _ _ _ E2) as (-> & <-). apply text_read in E3.
      constructor; auto. }
    destruct (N.eqb_spec tag 1) as [->|_].
    { destruct (read_u32 l0) as [[n l1]| |] eqn:E1; cbn [bind] in E; try discriminate E.
      destruct (decode_ops_as trusted fuel l1) as [[ops'|]| |] eqn:E4; cbn [bind option_map] in E; try discriminate E. injection E as <-.
      destruct (u32_read _ _ _ E1) as (q & -> & Q). constructor; auto. rewrite N2Nat.id. exact Q. }
    destruct (N.eqb_spec tag 2) as [->|_].
    { destruct (decode_ops_as trusted fuel l0) as [[ops'|]| |] eqn:E4; cbn [bind option_map] in E; try discriminate E. injection E as <-.
      constructor; auto. }
    destruct (N.eqb_spec tag 3) as [->|_]; [|discriminate E].
    destruct (read_u32 l0) as [[n l1]| |] eqn:E1; cbn [bind] in E; try discriminate E.
    destruct (read_bytes n l1) as [[b l2]| |] eqn:E2; cbn [bind] in E; try discriminate E.
    destruct (read_text trusted b) as [s|] eqn:E3; [|discriminate E].
    destruct (decode_ops_as trusted fuel l2) as [[ops'|]| |] eqn:E4; cbn [bind option_map] in E; try discriminate E. injection E as <-.
    destruct (u32_read _ _ _ E1) as (q & -> & Q). destruct (bytes_read _ _ _ _ E2) as (-> & <-). apply text_read in E3.
    constructor; auto.
Qed.
Lemma written_decoded : forall trusted l ops, written (text_as trusted) l ops ->
  forall fuel, length l <= fuel -> decode_ops_as trusted fuel l = Ret (Some ops).
Proof.
  intros trusted l ops W. induction W as [|n b s l ops Q T W IH|n i l ops Q W IH|l ops W IH|n b s l ops Q T W IH]; intros fuel L.
  - destruct fuel; reflexivity.
  - destruct fuel as [|fuel]; [cbn in L; lia|]. cbn [decode_ops_as N.eqb].
    rewrite (proj1 (proj1 (number_iff _ _ _) Q)). cbn [bind]. rewrite read_bytes_app. cbn [bind].
    rewrite (proj2 (text_read _ _ _) T), IH; [reflexivity|]. cbn [length] in L. rewrite !app_length in L. lia.
  - destruct fuel as [|fuel]; [cbn in L; lia|]. cbn [decode_ops_as N.eqb].
    rewrite (proj1 (proj1 (number_iff _ _ _) Q)). cbn [bind]. rewrite IH; [cbn; rewrite Nnat.Nat2N.id; reflexivity|]. cbn [length] in L. rewrite !app_length in L. lia.
  - destruct fuel as [|fuel]; [cbn in L; lia|]. cbn [decode_ops_as N.eqb]. rewrite IH; [reflexivity|]. cbn [length] in L. lia.
  - destruct fuel as [|fuel]; [cbn in L; lia|]. cbn [decode_ops_as N.eqb].
    rewrite (proj1 (proj1 (number_iff _ _ _) Q)). cbn [bind]. rewrite read_bytes_app. cbn [bind].
    rewrite (proj2 (text_read _ _ _) T), IH; [reflexivity|]. cbn [length] in L. rewrite !app_length in L. lia.
Qed.
Lemma decode_ends : forall trusted fuel l, length l <= fuel -> decode_ops_as trusted fuel l <> Diverge.
Proof.
  intros trusted. induction fuel as [|fuel IH]; intros l L.
  - destruct l; [discriminate|cbn in L; lia].
  - destruct l as [|tag l0]; [discriminate|]. cbn [length] in L. cbn [decode_ops_as].
    assert (K : forall l2 (f : option (list visit_op) -> option (list visit_op)), length l2 <= length l0 ->
      (let* ops := decode_ops_as trusted fuel l2 in Ret (f ops)) <> Diverge).
    { intros l2 f L2 E. specialize (IH l2 ltac:(lia)). destruct (decode_ops_as trusted fuel l2); try discriminate E. apply IH; reflexivity. }
    assert (R : forall (k : N -> octets -> outcome (option (list visit_op))), (forall n l1, length l1 <= length l0 -> k n l1 <> Diverge) ->
      (let* r := read_u32 l0 in let '(n, l1) := r in k n l1) <> Diverge).
    { intros k Kk. destruct (read_u32 l0) as [[n l1]| |] eqn:E1; cbn [bind]; try discriminate.
      - apply Kk. destruct (u32_read _ _ _ E1) as (q & -> & _). rewrite app_length. lia.
      - destruct l0 as [|x [|y [|z [|t l0]]]]; discriminate E1. }
    assert (T : forall n l1 (g : str -> option (list visit_op) -> option (list visit_op)), length l1 <= length l0 ->
      (let* r := read_bytes n l1 in let '(b, l2) := r in
       match read_text trusted b with None => Ret None | Some s => let* ops := decode_ops_as trusted fuel l2 in Ret (g s ops) end) <> Diverge).
    { intros n l1 g L1. destruct (read_bytes n l1) as [[b l2]| |] eqn:E2; cbn [bind]; try discriminate.
      - destruct (read_text trusted b) as [s|]; [|discriminate]. apply K. destruct (bytes_read _ _ _ _ E2) as (-> & _). rewrite app_length in L1. lia.
      - unfold read_bytes in E2. destruct (_ <=? _)%N; discriminate E2. }
    destruct (tag =? 0)%N. { apply (R (fun n l1 => _)). intros n l1 L1. apply (T n l1 (fun s => option_map (cons (OpPush (Field s)))) L1). }
    destruct (tag =? 1)%N. { apply (R (fun n l1 => _)). intros n l1 L1. apply K. exact L1. }
    destruct (tag =? 2)%N. { apply K. lia. }
    destruct (tag =? 3)%N; [|discriminate].
    apply (R (fun n l1 => _)). intros n l1 L1. apply (T n l1 (fun s => option_map (cons (OpString s))) L1).
Qed.
Lemma decode_setting : forall fuel l, decode_ops_as false fuel l = let* ops := decode_ops fuel l in Ret (Some ops).
Proof.
  induction fuel as [|fuel IH]; intros [|tag l0]; try reflexivity. cbn [decode_ops_as decode_ops].
  destruct (tag =? 0)%N.
  { destruct (read_u32 l0) as [[n l1]| |]; cbn [bind]; try reflexivity. destruct (read_bytes n l1) as [[b l2]| |]; cbn [bind read_text]; try reflexivity.
    rewrite IH. destruct (decode_ops fuel l2); reflexivity. }
  destruct (tag =? 1)%N.
  { destruct (read_u32 l0) as [[n l1]| |]; cbn [bind]; try reflexivity. rewrite IH. destruct (decode_ops fuel l1); reflexivity. }
  destruct (tag =? 2)%N. { rewrite IH. destruct (decode_ops fuel l0); reflexivity. }
  destruct (tag =? 3)%N; [|reflexivity].
  destruct (read_u32 l0) as [[n l1]| |]; cbn [bind]; try reflexivity. destruct (read_bytes n l1) as [[b l2]| |]; cbn [bind read_text]; try reflexivity.
  rewrite IH. destruct (decode_ops fuel l2); reflexivity.
Qed.

Lemma event_format : forall l ops, decode_event l = Ret ops <-> written read_lossily l ops.
Proof.
  intros l ops. pose proof (decode_setting (length l) l) as S. unfold decode_event. split.
  - intro E. rewrite E in S. exact (decoded_written false _ _ _ S).
  - intro W. rewrite (written_decoded false l ops W (length l) (le_n _)) in S.
    destruct (decode_ops (length l) l) as [ops'| |]; cbn [bind] in S; congruence.
Qed.
Lemma event_rejected : forall l, decode_event l = Panic <-> forall ops, ~ written read_lossily l ops.
Proof.
  intro l. split.
  - intros E ops W. apply event_format in W. congruence.
  - intro N. unfold decode_event. pose proof (decode_setting (length l) l) as S. pose proof (decode_ends false (length l) l (le_n _)) as D.
    destruct (decode_ops (length l) l) as [ops| |] eqn:E; cbn [bind] in S; [|reflexivity|congruence].
    exfalso. apply (N ops). apply event_format. exact E.
Qed.
Lemma written_app : forall text l1 ops1, written text l1 ops1 -> forall l2 ops2, written text l2 ops2 -> written text (l1 ++ l2) (ops1 ++ ops2).
Proof.
  intros text l1 ops1 W. induction W as [|n b s l ops Q T W IH|n i l ops Q W IH|l ops W IH|n b s l ops Q T W IH]; intros l2 ops2 W2; cbn [app];
    rewrite <- ?app_assoc; try (constructor; auto). exact W2.
Qed.

(* ---- one pop too many ---- *)
Definition nowhere (b : option bool_set) : vstate := {| vs_nodes := []; vs_counts := []; vs_path := []; vs_bools := b |}.
Section Pops.
Variables (wild : bool) (root : rule_tree) (n : nat).
Hypothesis Hn : nodup_tree root.
Hypothesis Hc : forall i, exists L, carries root (ScopedRuleset.Add i) L /\ (n <= i -> L = []).
Lemma balanced_stays : forall S (cv : content_visitor S) ops, balanced ops -> forall p s log v' s' log',
  foldM (run_op wild cv) ops (state_at wild root n p, s, log) = Ret (v', s', log') -> v' = state_at wild root n p.
Proof.
  intros S cv ops B. induction B as [|c ops B IH|g inner ops B1 IH1 B2 IH2]; intros p s log v' s' log' E.
  - injection E as <- _ _. reflexivity.
  - cbn [foldM] in E. unfold run_op at 1, visit_string in E. cbn [vs_nodes vs_bools vs_path vs_counts state_at] in E.
    destruct (visit_rules_spec wild root n p Hn Hc) as (rules & b & Er & Eb & _). rewrite Er in E. cbn [bind] in E.
    destruct (cv p c rules (is_excluded (nodes wild root (rev p))) s) as [[s1 mm]| |]; cbn [bind] in E; try discriminate E.
    rewrite Eb in E. exact (IH p s1 _ v' s' log' E).
  - cbn [foldM] in E. unfold run_op at 1 in E. rewrite push_state in E. cbn [bind] in E. rewrite foldM_app in E.
    destruct (foldM (run_op wild cv) inner (state_at wild root n (p ++ [g]), s, log)) as [[[v1 s1] log1]| |] eqn:E1; cbn [bind] in E; try discriminate E.
    rewrite (IH1 _ _ _ _ _ _ E1) in E. cbn [foldM] in E. unfold run_op at 1 in E. rewrite pop_state in E. cbn [bind] in E.
    exact (IH2 p s1 log1 v' s' log' E).
Qed.
Lemma popped : exists b, pop_segment (state_at wild root n []) = Ret (nowhere b).
Proof. eexists. reflexivity. Qed.
End Pops.

Section Nowhere.
Variables (E : encoding) (fuel : nat) (srt : sorter) (sc : scanner) (wild : bool).
Hypothesis Hs : sorter_ok srt.
Lemma nothing_found : forall p c excl (st : scan_state E), visit_content fuel srt sc [] p c [] excl st = Ret (st, false).
Proof.
  intros p c excl [l x]. unfold visit_content. cbn [foldM bind fst snd].
  assert (K : srt _ (fun a b : nat * nat * nat => snd (fst a) ?= snd (fst b)) [] = []).
  { destruct (Hs (nat * nat * nat)%type (fun a b => snd (fst a) ?= snd (fst b)) [] (start_cmp_preorder sc)) as (P & _). apply Permutation.Permutation_nil. exact P. }
  rewrite K. reflexivity.
Qed.
Lemma nowhere_strings : forall ops, strings_only ops -> forall b (s : scan_state E) log,
  exists b' log', foldM (run_op wild (visit_content fuel srt sc [])) ops (nowhere b, s, log) = Ret (nowhere b', s, log ++ log') /\
    Forall (fun e => snd e = false) log'.
Proof.
  intros ops O. induction O as [|c ops O IH]; intros b s log.
  - exists b, []. rewrite app_nil_r. split; [reflexivity|constructor].
  - cbn [foldM]. unfold run_op at 1, visit_string. cbn [nowhere vs_nodes vs_bools vs_path vs_counts visit_rule_indices foldM bind].
    rewrite nothing_found. cbn [bind].
    destruct (IH (option_map bool_set_reset b) s (log ++ [([], c, false)])) as (b' & log' & X & F).
    exists b', (([], c, false) :: log'). split; [etransitivity; [exact X|rewrite <- app_assoc; reflexivity]|]. constructor; [reflexivity|exact F].
Qed.
Lemma nowhere_other : forall ops, ~ strings_only ops -> forall b (s : scan_state E) log,
  foldM (run_op wild (visit_content fuel srt sc [])) ops (nowhere b, s, log) = Panic.
Proof.
  induction ops as [|[g| |c] ops IH]; intros O b s log.
  - destruct O. constructor.
  - reflexivity.
  - reflexivity.
  - cbn [foldM]. unfold run_op at 1, visit_string. cbn [nowhere vs_nodes vs_bools vs_path vs_counts visit_rule_indices foldM bind].
    rewrite nothing_found. cbn [bind]. apply (IH (fun H => O (so_string c ops H)) (option_map bool_set_reset b)).
Qed.
End Nowhere.

Lemma unstored : forall log st, Forall (fun e : path * str * bool => snd e = false) log -> store_visited st log = st.
Proof. induction log as [|[[p c] m] log IH]; intros st F; [reflexivity|]. inversion F as [|? ? M F']. cbn in M. subst m. cbn [store_visited]. exact (IH st F'). Qed.
Lemma store_visited_app : forall log log' st, store_visited st (log ++ log') = store_visited (store_visited st log) log'.
Proof. induction log as [|[[p c] m] log IH]; intros log' st; [reflexivity|]. cbn [app store_visited]. apply IH. Qed.
Lemma other_ops : forall E h srt sc x l o o' st,
  (let* res := process_all (binary_event_impl E) h srt sc x {| be_ops := o; be_storage := st |} l in Ret (be_storage (fst res), snd res)) =
  (let* res := process_all (binary_event_impl E) h srt sc x {| be_ops := o'; be_storage := st |} l in Ret (be_storage (fst res), snd res)).
Proof.
  intros E h srt sc x. induction l as [|(p, ms) l IH]; intros o o' st; [reflexivity|]. cbn [process_all ev_get ev_set binary_event_impl be_storage be_ops].
  destruct (storage_get st p) as [v|]; cbn [unwrap bind]; [|reflexivity].
  destruct (process_string h srt sc x p ms (snd v)) as [[[c m] out]| |]; cbn [bind]; try reflexivity.
  specialize (IH o o' (storage_set st p (m, c))).
  destruct (process_all (binary_event_impl E) h srt sc x {| be_ops := o; be_storage := storage_set st p (m, c) |} l) as [[e1 r1]| |],
    (process_all (binary_event_impl E) h srt sc x {| be_ops := o'; be_storage := storage_set st p (m, c) |} l) as [[e2 r2]| |];
    cbn [bind fst snd] in *; try discriminate IH; try reflexivity. injection IH as -> ->. reflexivity.
Qed.

Lemma extra_pop : forall fuel h srt sc data ops more rest, sorter_ok srt -> written read_lossily data ops -> balanced ops ->
  written read_lossily more rest -> strings_only rest ->
  native_scan fuel h srt sc (data ++ 2%N :: more) = native_scan fuel h srt sc data.
Proof.
  intros fuel h srt sc data ops more rest Hs W B W2 O. unfold native_scan.
  rewrite (proj2 (event_format _ _) W), (proj2 (event_format _ _) (written_app _ _ _ W _ _ (wr_pop _ _ _ W2))). cbn [bind].
  unfold scan. cbn [ev_ops binary_event_impl be_ops ev_enc]. unfold visit_string_rule_combinations. rewrite state_init, foldM_app.
  match goal with |- context [foldM ?f ops ?st] => destruct (foldM f ops st) as [[[v s] log]| |] eqn:E1 end; cbn [bind]; try reflexivity.
  pose proof (scopes_carry (map rule_scope (sc_rules sc))) as Hc. rewrite map_length in Hc.
  rewrite (balanced_stays (sc_wild sc) (sc_tree sc) (length (sc_rules sc)) (proj2 (proj2 (build_tree_spec (map rule_scope (sc_rules sc))))) Hc _ _ _ B _ _ _ _ _ _ E1).
  cbn [foldM]. unfold run_op at 1. destruct (popped (sc_wild sc) (sc_tree sc) (length (sc_rules sc))) as (b & ->). cbn [bind].
  destruct (nowhere_strings utf8_encoding fuel srt sc (sc_wild sc) Hs rest O b s log) as (b' & log' & -> & F). cbn [bind].
  destruct s as [found x]. cbn [ev_visited binary_event_impl be_ops be_storage]. rewrite store_visited_app, (unstored log' _ F).
  pose proof (other_ops utf8_encoding h srt sc x found (ops ++ OpPop :: rest) ops (store_visited [] log)) as K.
  destruct (process_all (binary_event_impl utf8_encoding) h srt sc x {| be_ops := ops ++ OpPop :: rest; be_storage := store_visited [] log |} found) as [[e1 r1]| |],
    (process_all (binary_event_impl utf8_encoding) h srt sc x {| be_ops := ops; be_storage := store_visited [] log |} found) as [[e2 r2]| |];
    cbn [bind fst snd] in *; try discriminate K; try reflexivity. injection K as -> ->. reflexivity.
Qed.
Lemma extra_pop_panics : forall fuel h srt sc data ops more rest, sorter_ok srt -> written read_lossily data ops -> balanced ops ->
  written read_lossily more rest -> ~ strings_only rest -> native_scan fuel h srt sc data <> Diverge ->
  native_scan fuel h srt sc (data ++ 2%N :: more) = Panic.
Proof.
  intros fuel h srt sc data ops more rest Hs W B W2 O. unfold native_scan.
  rewrite (proj2 (event_format _ _) W), (proj2 (event_format _ _) (written_app _ _ _ W _ _ (wr_pop _ _ _ W2))). cbn [bind].
  unfold scan. cbn [ev_ops binary_event_impl be_ops ev_enc]. unfold visit_string_rule_combinations. rewrite state_init, foldM_app.
  match goal with |- context [foldM ?f ops ?st] => destruct (foldM f ops st) as [[[v s] log]| |] eqn:E1 end; cbn [bind]; [|reflexivity|intro D; destruct (D eq_refl)].
  intros _. pose proof (scopes_carry (map rule_scope (sc_rules sc))) as Hc. rewrite map_length in Hc.
  rewrite (balanced_stays (sc_wild sc) (sc_tree sc) (length (sc_rules sc)) (proj2 (proj2 (build_tree_spec (map rule_scope (sc_rules sc))))) Hc _ _ _ B _ _ _ _ _ _ E1).
  cbn [foldM]. unfold run_op at 1. destruct (popped (sc_wild sc) (sc_tree sc) (length (sc_rules sc))) as (b & ->). cbn [bind].
  rewrite (nowhere_other utf8_encoding fuel srt sc (sc_wild sc) Hs rest O b s log). reflexivity.
Qed.
