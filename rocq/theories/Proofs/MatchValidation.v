(* What the validators do to a list of matches *)
From Coq Require Import Lia.
From Verif Require Import Proofs.Text Proofs.Binary.
From Verif Require Export Proofs.MatchStatus.

(* ---- loops ---- *)
Lemma try_map_ret : forall A B (f : A -> outcome B) (g : A -> B) l,
  (forall x, In x l -> f x = Ret (g x)) -> try_map f l = Ret (map g l).
Proof.
  intros A B f g. induction l as [|x l IH]; intros H; [reflexivity|]. cbn [try_map map].
  rewrite (H x (or_introl eq_refl)). cbn [bind]. rewrite IH by (intros y Hy; apply H; right; exact Hy). reflexivity.
Qed.
Lemma try_map_inv : forall A B (f : A -> outcome B) l ys, try_map f l = Ret ys ->
  Forall2 (fun x y => f x = Ret y) l ys.
Proof.
  intros A B f. induction l as [|x l IH]; intros ys H; cbn [try_map] in H.
  - injection H as <-. constructor.
  - destruct (f x) as [y| |] eqn:E; try discriminate. cbn [bind] in H.
    destruct (try_map f l) as [ys'| |] eqn:E2; try discriminate. injection H as <-. constructor; auto.
Qed.
Lemma try_map_cases : forall A B (f : A -> outcome B) l, (forall x, In x l -> f x <> Diverge) ->
  try_map f l <> Diverge.
Proof.
  intros A B f. induction l as [|x l IH]; intros H; [discriminate|]. cbn [try_map].
  destruct (f x) eqn:E; try discriminate; [|exfalso; exact (H x (or_introl eq_refl) E)].
  cbn [bind]. destruct (try_map f l) eqn:E2; try discriminate.
  exfalso. apply IH; [intros y Hy; apply H; right; exact Hy|reflexivity].
Qed.
Lemma foldM_app : forall A S (f : S -> A -> outcome S) l1 l2 s,
  foldM f (l1 ++ l2) s = let* s' := foldM f l1 s in foldM f l2 s'.
Proof.
  intros A S f. induction l1 as [|x l1 IH]; intros l2 s; [reflexivity|]. cbn [app foldM].
  destruct (f s x); [|reflexivity|reflexivity]. cbn [bind]. apply IH.
Qed.

(* ---- updates of statuses ---- *)
Definition applied (us : list (nat * match_status)) (ms : list rule_match) : outcome (list rule_match) :=
  foldM (fun acc u => merge_at (fst u) (snd u) acc) us ms.
Definition updates_of (i : nat) (us : list (nat * match_status)) : list match_status :=
  map snd (filter (fun u => fst u =? i) us).
Definition updated (us : list (nat * match_status)) (i : nat) (m : rule_match) : rule_match :=
  with_status m (fold_left status_merge (updates_of i us) (rm_status m)).

Lemma with_status_same : forall m, with_status m (rm_status m) = m.
Proof. intros []. reflexivity. Qed.

Lemma merge_at_ret : forall i s ms, i < length ms -> exists out, merge_at i s ms = Ret out /\
  length out = length ms /\
  forall k m, nth_error ms k = Some m ->
    nth_error out k = Some (if k =? i then with_status m (status_merge (rm_status m) s) else m).
Proof.
  induction i as [|i IH]; intros s [|m0 ms] H; simpl in H; try lia.
  - eexists. split; [reflexivity|]. split; [reflexivity|]. intros [|k] m Hk; simpl in *; [injection Hk as ->|]; auto.
  - destruct (IH s ms) as (out & E & El & H1); [lia|]. cbn [merge_at]. rewrite E. eexists. split; [reflexivity|].
    split; [simpl; congruence|]. intros [|k] m Hk; simpl in *; [exact Hk|]. apply H1. exact Hk.
Qed.

Lemma applied_ret : forall us ms, (forall u, In u us -> fst u < length ms) -> exists out,
  applied us ms = Ret out /\ length out = length ms /\
  forall i m, nth_error ms i = Some m -> nth_error out i = Some (updated us i m).
Proof.
  induction us as [|[j s] us IH]; intros ms H.
  - exists ms. split; [reflexivity|]. split; [reflexivity|]. intros i m Hi. unfold updated. cbn.
    rewrite with_status_same. exact Hi.
  - destruct (merge_at_ret j s ms) as (ms1 & E1 & L1 & H1); [apply (H (j, s)); left; reflexivity|].
    destruct (IH ms1) as (out & E2 & L2 & H2); [intros u Hu; rewrite L1; apply H; right; exact Hu|].
    exists out. split; [unfold applied; cbn [foldM fst snd]; rewrite E1; exact E2|]. split; [congruence|].
    intros i m Hi. rewrite (H2 _ _ (H1 _ _ Hi)). f_equal. unfold updated, updates_of. cbn [filter fst].
    rewrite (Nat.eqb_sym j i). destruct (i =? j); reflexivity.
Qed.

Lemma applied_eq : forall us1 us2 ms, (forall u, In u us1 -> fst u < length ms) ->
  (forall u, In u us1 <-> In u us2) -> applied us1 ms = applied us2 ms.
Proof.
  intros us1 us2 ms H1 H.
  destruct (applied_ret us1 ms H1) as (o1 & E1 & L1 & U1).
  destruct (applied_ret us2 ms) as (o2 & E2 & L2 & U2); [intros u Hu; apply H1, H; exact Hu|].
  rewrite E1, E2. f_equal.
  assert (forall i, nth_error o1 i = nth_error o2 i) as K.
  { intros i. destruct (nth_error ms i) as [m|] eqn:Em.
    - rewrite (U1 _ _ Em), (U2 _ _ Em). unfold updated. do 2 f_equal. apply merge_same_elements.
      intros t. unfold updates_of. rewrite !in_map_iff. split; intros (u & Eu & Hu); exists u; (split; [exact Eu|]);
        apply filter_In in Hu as (Hu & Hi); apply filter_In; (split; [apply H; exact Hu|exact Hi]).
    - apply nth_error_None in Em. transitivity (@None rule_match); [|symmetry]; apply nth_error_None; lia. }
  clear - K. revert o2 K. induction o1 as [|x o1 IH]; intros [|y o2] K; [reflexivity|discriminate (K 0)|discriminate (K 0)|].
  f_equal; [specialize (K 0); injection K as ->; reflexivity|]. apply IH. intros i. exact (K (S i)).
Qed.

Lemma same_match_with : forall m s, same_match m (with_status m s).
Proof. intros m s. constructor; reflexivity. Qed.

(* ---- HTTP ---- *)
Lemma dedup_in : forall l e, In e (dedup l) <-> In e l.
Proof.
  induction l as [|x l IH]; intros e; [reflexivity|]. cbn [dedup].
  destruct (existsb (str_eqb x) (dedup l)) eqn:E.
  - rewrite IH. simpl. split; [auto|]. intros [<-|H]; [|exact H]. apply existsb_exists in E as (y & Hy & E).
    apply str_eqb_eq in E. subst y. apply IH. exact Hy.
  - simpl. rewrite IH. reflexivity.
Qed.
Lemma http_keys_in : forall c ms i e, In (i, e) (http_keys c ms) <-> i < length ms /\ In e (hc_endpoints c).
Proof.
  intros c ms i e. unfold http_keys. rewrite in_flat_map. split.
  - intros (j & Hj & H). apply in_map_iff in H as (e' & E & He). injection E as -> ->.
    apply in_seq in Hj. split; [lia|]. apply dedup_in. exact He.
  - intros (H1 & H2). exists i. split; [apply in_seq; lia|]. apply in_map_iff. exists e. split; [reflexivity|].
    apply dedup_in. exact H2.
Qed.

Lemma foldM_fst : forall K (i : K -> nat) es ms,
  foldM (fun acc e => merge_at (i (fst e)) (snd e) acc) es ms =
  applied (map (fun e : K * match_status => (i (fst e), snd e)) es) ms.
Proof.
  intros K i. induction es as [|e es IH]; intros ms; [reflexivity|].
  unfold applied. cbn [map foldM fst snd]. destruct (merge_at (i (fst e)) (snd e) ms); [|reflexivity|reflexivity].
  apply IH.
Qed.

Lemma range_contains_spec : forall code rs, existsb (range_contains code) rs = true <-> in_some_range code rs.
Proof.
  intros code rs. rewrite existsb_exists. unfold in_some_range, range_contains. split.
  - intros ([lo hi] & H & E). rewrite andb_true_iff, N.leb_le, N.ltb_lt in E. eauto.
  - intros (lo & hi & H & E). exists (lo, hi). split; [exact H|]. rewrite andb_true_iff, N.leb_le, N.ltb_lt. exact E.
Qed.
Lemma http_result_spec : forall c r,
  http_result c r match r with Ok code => http_response_status c code | Err e => request_error e end.
Proof.
  intros c [code|e]; [|constructor]. unfold http_response_status.
  destruct (existsb (range_contains code) (hc_valid c)) eqn:E1.
  - apply range_contains_spec in E1. constructor. exact E1.
  - assert (~ in_some_range code (hc_valid c)) as N1 by (intros K; apply range_contains_spec in K; congruence).
    destruct (existsb (range_contains code) (hc_invalid c)) eqn:E2.
    + apply range_contains_spec in E2. constructor; assumption.
    + assert (~ in_some_range code (hc_invalid c)) as N2 by (intros K; apply range_contains_spec in K; congruence).
      unfold unexpected_code, code_text. constructor; [assumption|assumption|]. apply decimal_reads.
Qed.
Lemma http_result_unique : forall c r s, http_result c r s -> forall t, http_result c r t -> s = t.
Proof.
  intros c r s H t H'.
  destruct H as [code V|code V I|code d V I R|e]; inversion H'; subst; try reflexivity; try contradiction.
  f_equal. f_equal. eapply reads_as_unique; eauto.
Qed.

Lemma request_for_is : forall c e v, request_is c e v (http_request_for c e v).
Proof.
  intros c e v. constructor; try reflexivity. cbn [rq_headers http_request_for].
  induction (hc_headers c) as [|h hs IH]; [constructor|]. cbn [map]. constructor; [|exact IH].
  split; [reflexivity|]. apply replace_spec. discriminate.
Qed.
Lemma request_is_unique : forall c e v r r', request_is c e v r -> request_is c e v r' -> r = r'.
Proof.
  intros c e v [m1 e1 t1 h1] [m2 e2 t2 h2] [A1 A2 A3 A4] [B1 B2 B3 B4]. cbn in *. subst. f_equal; try congruence.
  revert h2 B4. induction A4 as [|x h xs hs (K1 & K2) _ IH]; intros h2 B4; inversion B4 as [|x' h' xs' hs' (L1 & L2) L3]; subst; [reflexivity|].
  f_equal; [|apply IH; exact L3]. destruct h, h'. cbn in *. f_equal; [congruence|]. eapply replaced_unique; eauto.
Qed.

Definition http_status_for (c : http_config) (reply : nat -> http_request -> http_reply)
  (ms : list rule_match) (k : nat * str) : match_status :=
  match nth_error ms (fst k) with
  | Some m =>
    match rm_value m with
    | Some v => match reply (fst k) (http_request_for c (snd k) v) with
                | Ok code => http_response_status c code
                | Err e => request_error e
                end
    | None => NotChecked
    end
  | None => NotChecked
  end.
Lemma http_entry_ret : forall c reply ms k y, http_entry c reply ms k = Ret y ->
  y = (k, http_status_for c reply ms k) /\
  exists m v, nth_error ms (fst k) = Some m /\ rm_value m = Some v.
Proof.
  intros c reply ms k y H. unfold http_entry, http_status_for in *.
  destruct (nth_error ms (fst k)) as [m|] eqn:Em; [|discriminate]. cbn [unwrap bind] in H.
  destruct (rm_value m) as [v|] eqn:Ev; [|discriminate]. cbn [unwrap bind] in H. injection H as <-. split; eauto.
Qed.
Lemma http_entries : forall c reply ms es, try_map (http_entry c reply ms) (http_keys c ms) = Ret es ->
  es = map (fun k => (k, http_status_for c reply ms k)) (http_keys c ms) /\
  (forall k, In k (http_keys c ms) -> exists m v, nth_error ms (fst k) = Some m /\ rm_value m = Some v).
Proof.
  intros c reply ms es H. apply try_map_inv in H. induction H as [|k y ks ys Hk _ (IH1 & IH2)].
  - split; [reflexivity|intros k []].
  - apply http_entry_ret in Hk as (-> & Hk). split; [cbn [map]; congruence|].
    intros k' [<-|Hk']; [exact Hk|apply IH2; exact Hk'].
Qed.

Lemma permutes_in : forall A (ord : list A -> list A), permutes ord -> forall l x, In x (ord l) <-> In x l.
Proof.
  intros A ord H l x. split; intros K; [|exact (Permutation_in _ (H l) K)].
  exact (Permutation_in _ (Permutation_sym (H l)) K).
Qed.

Lemma http_validate_order : forall c reply ord1 ord2 ms, permutes ord1 -> permutes ord2 ->
  http_validate c reply ord1 ms = http_validate c reply ord2 ms.
Proof.
  intros c reply ord1 ord2 ms H1 H2. unfold http_validate.
  destruct (try_map (http_entry c reply ms) (http_keys c ms)) as [es| |] eqn:E; try reflexivity. cbn [bind].
  apply http_entries in E as (Ee & E).
  rewrite !(foldM_fst _ fst). apply applied_eq.
  - intros u Hu. apply in_map_iff in Hu as (e & <- & He). apply permutes_in in He; [|exact H1].
    rewrite Ee in He. apply in_map_iff in He as ([k i] & <- & Hk). apply http_keys_in in Hk. exact (proj1 Hk).
  - intros u. rewrite !in_map_iff. split; intros (e & E' & He); exists e; (split; [exact E'|]);
      apply permutes_in; try assumption; apply permutes_in in He; assumption.
Qed.

Lemma http_validate_spec : forall c reply ord ms out, permutes ord -> http_validate c reply ord ms = Ret out ->
  length out = length ms /\
  forall i m, nth_error ms i = Some m -> exists m', nth_error out i = Some m' /\ same_match m m' /\
    highest (http_candidate c (reply i) m) (rm_status m').
Proof.
  intros c reply ord ms out Ho H. unfold http_validate in H.
  destruct (try_map (http_entry c reply ms) (http_keys c ms)) as [es| |] eqn:E; try discriminate. cbn [bind] in H.
  apply http_entries in E as (Ee & E). rewrite (foldM_fst _ fst) in H.
  assert (forall u, In u (map (fun e : nat * str * match_status => (fst (fst e), snd e)) (ord es)) <->
            exists e, In (fst u, e) (http_keys c ms) /\ snd u = http_status_for c reply ms (fst u, e)) as Hu.
  { intros [i s]. rewrite in_map_iff. split.
    - intros (e & E' & He). apply permutes_in in He; [|exact Ho]. rewrite Ee in He.
      apply in_map_iff in He as ([j x] & <- & Hk). cbn in *. injection E' as -> <-. eauto.
    - cbn. intros (e & Hk & ->). exists ((i, e), http_status_for c reply ms (i, e)). split; [reflexivity|].
      apply permutes_in; [exact Ho|]. rewrite Ee. apply in_map_iff. exists (i, e). auto. }
  match type of H with applied ?us _ = _ => destruct (applied_ret us ms) as (out' & E' & L & U) end.
  { intros u K. apply Hu in K as (e & K & _). apply http_keys_in in K. exact (proj1 K). }
  rewrite H in E'. injection E' as <-. split; [exact L|]. intros i m Hi. eexists. split; [exact (U _ _ Hi)|].
  split; [apply same_match_with|]. cbn [rm_status updated with_status].
  eapply highest_iff; [|apply merge_list]. intros t. cbv beta. unfold http_candidate, updates_of. rewrite in_map_iff.
  split; (intros [->|K]; [left; reflexivity|right]).
  - destruct K as (u & <- & K). apply filter_In in K as (K & Ei). apply Nat.eqb_eq in Ei. apply Hu in K as (e & K & ->).
    destruct (E _ K) as (m1 & v & Hm & Hv). cbn [fst] in Hm. rewrite Ei in *. rewrite Hi in Hm. injection Hm as <-.
    exists e, v, (http_request_for c e v). split; [apply http_keys_in in K; exact (proj2 K)|]. split; [exact Hv|].
    split; [apply request_for_is|]. unfold http_status_for. cbn [fst snd]. rewrite Hi, Hv. apply http_result_spec.
  - destruct K as (e & v & r & He & Hv & Hr & Hs). exists (i, t). split; [reflexivity|]. apply filter_In.
    split; [|cbn; apply Nat.eqb_refl]. apply Hu. exists e. cbn [fst snd].
    split; [apply http_keys_in; split; [apply nth_error_Some; congruence|exact He]|].
    unfold http_status_for. cbn [fst snd]. rewrite Hi, Hv. eapply http_result_unique; [exact Hs|].
    rewrite (request_is_unique _ _ _ _ _ Hr (request_for_is c e v)). apply http_result_spec.
Qed.

Lemma http_validate_total : forall c reply ord ms, permutes ord -> (forall m, In m ms -> rm_value m <> None) ->
  exists out, http_validate c reply ord ms = Ret out.
Proof.
  intros c reply ord ms Ho Hv. unfold http_validate.
  rewrite (try_map_ret _ _ _ (fun k => (k, http_status_for c reply ms k))).
  - cbn [bind]. rewrite (foldM_fst _ fst).
    match goal with |- context [applied ?us ms] => destruct (applied_ret us ms) as (out & E & _) end; [|eauto].
    intros u Hu. apply in_map_iff in Hu as (e & <- & He). apply permutes_in in He; [|exact Ho].
    apply in_map_iff in He as ([i x] & <- & Hk). apply http_keys_in in Hk. exact (proj1 Hk).
  - intros [i e] Hk. apply http_keys_in in Hk as (Hi & _). unfold http_entry, http_status_for. cbn [fst snd].
    destruct (nth_error ms i) as [m|] eqn:Em; [|apply nth_error_None in Em; lia]. cbn [unwrap bind].
    destruct (rm_value m) as [v|] eqn:Ev; [reflexivity|]. exfalso. exact (Hv m (nth_error_In _ _ Em) Ev).
Qed.

(* ---- AWS: the secret ---- *)
Lemma is_word_spec : forall word c, is_word word c = true <-> word_character word c.
Proof.
  intros word c. unfold is_word, word_character, is_ascii_alnum, is_ascii_alpha, is_ascii_upper, is_ascii_lower, is_ascii_digit, in_range.
  destruct (N.ltb_spec c 128).
  - rewrite !orb_true_iff, !andb_true_iff, !N.leb_le, N.eqb_eq. split; [intros; left; lia|intros [K|K]; lia].
  - split; [intros; right; auto|intros [K|K]; [lia|exact (proj2 K)]].
Qed.
Lemma key_char_spec : forall c, key_char c = true <-> key_character c.
Proof.
  intros c. unfold key_char, key_character, is_ascii_alnum, is_ascii_alpha, is_ascii_upper, is_ascii_lower, is_ascii_digit, in_range.
  rewrite !orb_true_iff, !andb_true_iff, !N.leb_le, !N.eqb_eq. lia.
Qed.
Lemma rev_hd_word : forall word k,
  match hd_error (rev k) with Some c => is_word word c | None => false end = true <-> ends_in_word word k.
Proof.
  intros word k. unfold ends_in_word. destruct k as [|c a _] using rev_ind.
  - simpl. split; [discriminate|]. intros (a & c & E & _). destruct a; discriminate.
  - rewrite rev_app_distr. simpl. rewrite is_word_spec. split; [eauto|].
    intros (a' & c' & E & H). apply app_inj_tail in E as (_ & ->). exact H.
Qed.
Lemma hd_word : forall word b,
  match hd_error b with Some c => is_word word c | None => false end = true <-> starts_with_word word b.
Proof.
  intros word [|c b]; unfold starts_with_word; simpl.
  - split; [discriminate|]. intros (c & b & E & _). discriminate.
  - rewrite is_word_spec. split; [eauto|]. intros (c' & b' & E & H). injection E as -> _. exact H.
Qed.
Lemma key_test : forall word s,
  (length (firstn 40 s) =? 40) && forallb key_char (firstn 40 s) &&
     word_boundary word (hd_error (rev (firstn 40 s))) (hd_error (skipn 40 s)) = true <->
  key_before word (firstn 40 s) (skipn 40 s).
Proof.
  intros word s. unfold key_before, word_boundary. rewrite !andb_true_iff, Nat.eqb_eq, forallb_forall.
  rewrite <- rev_hd_word, <- hd_word.
  set (x := match hd_error (rev (firstn 40 s)) with Some c => is_word word c | None => false end).
  set (y := match hd_error (skipn 40 s) with Some c => is_word word c | None => false end).
  assert (xorb x y = true <-> x = true /\ y <> true \/ x <> true /\ y = true) as K
    by (destruct x, y; cbn; split; intros; intuition congruence).
  rewrite K. split.
  - intros ((H1 & H2) & H3). split; [exact H1|]. split; [|exact H3]. intros c Hc. apply key_char_spec. auto.
  - intros (H1 & H2 & H3). split; [|exact H3]. split; [exact H1|]. intros c Hc. apply key_char_spec. auto.
Qed.
Lemma key_before_firstn : forall word k b, key_before word k b ->
  firstn 40 (k ++ b) = k /\ skipn 40 (k ++ b) = b.
Proof.
  intros word k b (H & _). rewrite <- H. split.
  - rewrite firstn_app, Nat.sub_diag, firstn_all. simpl. apply app_nil_r.
  - rewrite skipn_app, Nat.sub_diag, skipn_all. reflexivity.
Qed.
Lemma extract_spec : forall word s, secret_of word s (extract_aws_secret word s).
Proof.
  intros word. induction s as [|c s IH].
  - right. split; [reflexivity|]. intros a k b E (H & _). symmetry in E. apply app_eq_nil in E as (_ & E).
    apply app_eq_nil in E as (-> & _). discriminate.
  - cbn [extract_aws_secret].
    match goal with |- context [if ?t then _ else _] => destruct t eqn:E end.
    + apply key_test in E. left. exists [], (skipn 40 (c :: s)).
      split; [symmetry; apply firstn_skipn|]. split; [exact E|]. intros; simpl; lia.
    + assert (~ key_before word (firstn 40 (c :: s)) (skipn 40 (c :: s))) as N
        by (intros K; apply key_test in K; congruence).
      assert (forall a k b, c :: s = a ++ k ++ b -> key_before word k b -> exists a', a = c :: a' /\ s = a' ++ k ++ b) as S.
      { intros [|x a] k b Ek K; [|injection Ek as -> Ek; eauto]. exfalso. cbn [app] in Ek. apply N. rewrite Ek.
        destruct (key_before_firstn _ _ _ K) as (-> & ->). exact K. }
      destruct IH as [(a & b & Es & K & F)|(-> & F)].
      * left. exists (c :: a), b. split; [cbn; congruence|]. split; [exact K|].
        intros a' k' b' E' K'. destruct (S _ _ _ E' K') as (a'' & -> & E''). cbn [length]. apply le_n_S. eauto.
      * right. split; [reflexivity|]. intros a' k' b' E' K'. destruct (S _ _ _ E' K') as (a'' & -> & E''). eapply F; eauto.
Qed.
Lemma secret_of_unique : forall word v k k', secret_of word v k -> secret_of word v k' -> k = k'.
Proof.
  intros word v k k' [(a & b & E & K & F)|(-> & F)] [(a' & b' & E' & K' & F')|(-> & F')]; [| | |reflexivity].
  - assert (length a = length a') as El by (apply Nat.le_antisymm; [eapply F; eauto|eapply F'; eauto]).
    assert (k ++ b = k' ++ b') as Ek.
    { subst v. clear - El E'. revert a' El E'. induction a as [|x a IH]; intros [|y a'] El E'; simpl in El; try discriminate; [exact E'|].
      injection E' as -> E'. apply (IH a'); [lia|exact E']. }
    destruct (key_before_firstn _ _ _ K) as (<- & _). destruct (key_before_firstn _ _ _ K') as (<- & _). congruence.
  - destruct (F' _ _ _ E K).
  - destruct (F _ _ _ E' K').
Qed.

(* ---- AWS: the pairs ---- *)
Lemma aws_result_spec : forall r,
  aws_result r match r with Ok code => aws_response_status NotChecked code | Err e => request_error e end.
Proof.
  intros [code|e]; [|constructor]. unfold aws_response_status, in_range.
  destruct ((200 <=? code) && (code <=? 299))%N eqn:E1; [apply andb_true_iff in E1; rewrite !N.leb_le in E1; constructor; lia|].
  destruct ((400 <=? code) && (code <=? 499))%N eqn:E2; [apply andb_true_iff in E2; rewrite !N.leb_le in E2; constructor; lia|].
  destruct ((500 <=? code) && (code <=? 599))%N eqn:E3.
  - apply andb_true_iff in E3; rewrite !N.leb_le in E3. unfold unexpected_code, code_text. constructor; [lia|]. apply decimal_reads.
  - rewrite andb_false_iff, !N.leb_gt in E1, E2, E3. constructor. lia.
Qed.
Lemma aws_result_unique : forall r s t, aws_result r s -> aws_result r t -> s = t.
Proof.
  intros r s t H H'. destruct H; inversion H'; subst; try reflexivity; try lia.
  f_equal. f_equal. eapply reads_as_unique; eauto.
Qed.

Lemma aws_kind_spec : forall rules m k, aws_kind rules m = Ret k ->
  (k = Some AwsId <-> id_match rules m) /\ ((exists c, k = Some (AwsSecret c)) <-> secret_match rules m).
Proof.
  intros rules m k H. unfold aws_kind in H. unfold id_match, secret_match, rule_type.
  destruct (nth_error rules (rm_rule m)) as [r|]; [|discriminate]. cbn [unwrap bind] in H. injection H as <-.
  assert (forall t, (exists r0, Some r = Some r0 /\ rule_validation r0 = Some t) <-> rule_validation r = Some t) as K.
  { intros t. split; [intros (r0 & E & H); injection E as <-; exact H|eauto]. }
  split.
  - rewrite K. destruct (rule_validation r) as [[[]|]|]; split; intros H; congruence.
  - setoid_rewrite K. destruct (rule_validation r) as [[[]|]|]; split; intros (c0 & H); try discriminate; injection H as H; subst; eauto.
Qed.
Lemma aws_indices_spec : forall rules ms n ids secrets, aws_indices rules n ms = Ret (ids, secrets) ->
  (forall i, In i ids <-> exists k m, i = n + k /\ nth_error ms k = Some m /\ id_match rules m) /\
  (forall i, In i secrets <-> exists k m, i = n + k /\ nth_error ms k = Some m /\ secret_match rules m).
Proof.
  intros rules. induction ms as [|m ms IH]; intros n ids secrets H; cbn [aws_indices] in H.
  - injection H as <- <-. split; intros i; (split; [intros []|intros ([|k] & m & _ & E & _); discriminate]).
  - destruct (aws_kind rules m) as [k| |] eqn:Ek; try discriminate. cbn [bind] in H.
    destruct (aws_indices rules (S n) ms) as [[ids' secrets']| |] eqn:E; try discriminate. cbn [bind] in H.
    apply IH in E as (I1 & I2). apply aws_kind_spec in Ek as (K1 & K2).
    assert (forall (P : rule_match -> Prop) i, (exists k0 m0, i = n + k0 /\ nth_error (m :: ms) k0 = Some m0 /\ P m0) <->
             (i = n /\ P m) \/ exists k0 m0, i = S n + k0 /\ nth_error ms k0 = Some m0 /\ P m0) as S.
    { intros P i. split.
      - intros ([|k0] & m0 & -> & E0 & P0); [injection E0 as <-; left; split; [lia|exact P0]|right; exists k0, m0].
        split; [lia|]. auto.
      - intros [(-> & P0)|(k0 & m0 & -> & E0 & P0)]; [exists 0, m; split; [lia|auto]|exists (S k0), m0; split; [lia|auto]]. }
    assert (id_match rules m /\ ids = n :: ids' \/ ~ id_match rules m /\ ids = ids') as D1.
    { destruct k as [[]|]; injection H as <- <-; (left; split; [apply K1; reflexivity|reflexivity]) || (right; split; [|reflexivity]; intros K; apply K1 in K; discriminate). }
    assert (secret_match rules m /\ secrets = n :: secrets' \/ ~ secret_match rules m /\ secrets = secrets') as D2.
    { destruct k as [[]|]; injection H as <- <-; (left; split; [apply K2; eauto|reflexivity]) || (right; split; [|reflexivity]; intros K; apply K2 in K as (c0 & K); discriminate). }
    split; intros i; rewrite S.
    + rewrite <- I1. destruct D1 as [(P & ->)|(P & ->)]; cbn [In]; intuition.
    + rewrite <- I2. destruct D2 as [(P & ->)|(P & ->)]; cbn [In]; intuition.
Qed.

Lemma foldM_pairs : forall es ms,
  foldM (fun acc (e : nat * nat * match_status) =>
           let* acc' := merge_at (fst (fst e)) (snd e) acc in
           merge_at (snd (fst e)) (snd e) acc') es ms =
  applied (flat_map (fun e => [(fst (fst e), snd e); (snd (fst e), snd e)]) es) ms.
Proof.
  induction es as [|e es IH]; intros ms; [reflexivity|]. unfold applied. cbn [flat_map app foldM fst snd].
  destruct (merge_at (fst (fst e)) (snd e) ms) as [ms1| |]; [|reflexivity|reflexivity]. cbn [bind].
  destruct (merge_at (snd (fst e)) (snd e) ms1); [|reflexivity|reflexivity]. apply IH.
Qed.

Lemma header_char_spec : forall c, header_char c = true <-> (32 <= c <= 126)%N \/ c = 9%N.
Proof. intros c. unfold header_char, in_range. rewrite orb_true_iff, andb_true_iff, !N.leb_le, N.eqb_eq. reflexivity. Qed.

Lemma aws_entry_spec : forall c w ms k y, aws_entry c w ms k = Ret y -> exists id secret s,
  y = (k, s) /\ nth_error ms (fst k) = Some id /\ nth_error ms (snd k) = Some secret /\
  pair_result c w (fst k) (snd k) id secret s.
Proof.
  intros c w ms k y H. unfold aws_entry in H.
  destruct (nth_error ms (fst k)) as [id|]; [|discriminate]. destruct (nth_error ms (snd k)) as [secret|]; [|discriminate].
  cbn [unwrap bind] in H. destruct (rm_value secret) as [s|] eqn:Es.
  - destruct (rm_value id) as [v|] eqn:Ev.
    + unfold aws_headers in H. destruct (aw_sign w (aws_sts_endpoint c) v (extract_aws_secret (aw_word w) s)) as [auth|] eqn:Ea; [|discriminate].
      cbn [unwrap bind] in H. destruct (forallb header_char auth); [|discriminate]. cbn [bind] in H. injection H as <-.
      eexists _, _, _. split; [reflexivity|]. split; [reflexivity|]. split; [reflexivity|].
      eapply pr_answer; [|apply aws_result_spec]. exists v, s, (extract_aws_secret (aw_word w) s), auth.
      split; [exact Ev|]. split; [exact Es|]. split; [apply extract_spec|]. split; [exact Ea|]. reflexivity.
    + injection H as <-. eexists _, _, _. split; [reflexivity|]. split; [reflexivity|]. split; [reflexivity|].
      apply pr_no_id; [congruence|exact Ev].
  - assert (y = (k, StError (chars "Missing match value for aws_secret"))) as -> by (destruct (rm_value id); injection H as <-; reflexivity).
    eexists _, _, _. split; [reflexivity|]. split; [reflexivity|]. split; [reflexivity|]. apply pr_no_secret. exact Es.
Qed.
Lemma pair_answer_unique : forall c w i j id secret a b,
  pair_answer c w i j id secret a -> pair_answer c w i j id secret b -> a = b.
Proof.
  intros c w i j id secret a b (v & s & k & auth & A1 & A2 & A3 & A4 & A5) (v' & s' & k' & auth' & B1 & B2 & B3 & B4 & B5).
  assert (v = v') as <- by congruence. assert (s = s') as <- by congruence.
  rewrite (secret_of_unique _ _ _ _ A3 B3) in A4. assert (auth = auth') as <- by congruence. congruence.
Qed.
Lemma pair_result_unique : forall c w i j id secret s t,
  pair_result c w i j id secret s -> pair_result c w i j id secret t -> s = t.
Proof.
  intros c w i j id secret s t H H'.
  assert (forall a, pair_answer c w i j id secret a -> rm_value id <> None /\ rm_value secret <> None) as K.
  { intros a (v & x & k & auth & A1 & A2 & _). split; congruence. }
  destruct H as [N|N1 N2|a s A R]; destruct H' as [N'|N1' N2'|a' t A' R']; try reflexivity; try congruence;
    try (exfalso; destruct (K _ A); congruence); try (exfalso; destruct (K _ A'); congruence).
  rewrite (pair_answer_unique _ _ _ _ _ _ _ _ A' A) in R'. eapply aws_result_unique; eauto.
Qed.

(* the updates made by the AWS validator *)
Lemma aws_updates : forall c w ord rules ms out, permutes ord -> aws_validate c w ord rules ms = Ret out ->
  exists us, applied us ms = Ret out /\ (forall u, In u us -> fst u < length ms) /\
  forall n s, In (n, s) us <-> exists i j id secret, in_pair rules ms n i j id secret /\ pair_result c w i j id secret s.
Proof.
  intros c w ord rules ms out Ho H. unfold aws_validate in H.
  destruct (aws_indices rules 0 ms) as [[ids secrets]| |] eqn:Ei; try discriminate. cbn [bind] in H.
  destruct (try_map (aws_entry c w ms) (list_prod ids secrets)) as [es| |] eqn:Ee; try discriminate. cbn [bind] in H.
  rewrite foldM_pairs in H. apply aws_indices_spec in Ei as (I1 & I2). apply try_map_inv in Ee.
  assert (forall k s, In (k, s) es -> In k (list_prod ids secrets) /\ aws_entry c w ms k = Ret (k, s)) as E1.
  { clear - Ee. induction Ee as [|k y ks ys Hk _ IH]; intros k0 s Hin; [destruct Hin|destruct Hin as [->|Hin]].
    - destruct (aws_entry_spec _ _ _ _ _ Hk) as (id & secret & s' & E & _). injection E as <- <-. split; [left; reflexivity|exact Hk].
    - destruct (IH _ _ Hin). split; [right|]; assumption. }
  assert (forall k, In k (list_prod ids secrets) -> exists s, In (k, s) es) as E2.
  { clear - Ee. induction Ee as [|k y ks ys Hk _ IH]; intros k0 H; [destruct H|destruct H as [<-|H]].
    - destruct (aws_entry_spec _ _ _ _ _ Hk) as (id & secret & s' & -> & _). exists s'. left. reflexivity.
    - destruct (IH _ H) as (s & K). exists s. right. exact K. }
  assert (forall i j, In (i, j) (list_prod ids secrets) <-> exists id secret, nth_error ms i = Some id /\ id_match rules id /\
            nth_error ms j = Some secret /\ secret_match rules secret) as E3.
  { intros i j. rewrite in_prod_iff, I1, I2. split.
    - intros ((k1 & id & -> & N1 & P1) & (k2 & secret & -> & N2 & P2)). exists id, secret. auto.
    - intros (id & secret & N1 & P1 & N2 & P2). split; [exists i, id|exists j, secret]; auto. }
  exists (flat_map (fun e => [(fst (fst e), snd e); (snd (fst e), snd e)]) (ord es)). split; [exact H|].
  assert (forall n s, In (n, s) (flat_map (fun e => [(fst (fst e), snd e); (snd (fst e), snd e)]) (ord es)) <->
     exists i j id secret, in_pair rules ms n i j id secret /\ pair_result c w i j id secret s) as U.
  { intros n s. rewrite in_flat_map. split.
    - intros ([[i j] s'] & Hin & Hu). apply permutes_in in Hin; [|exact Ho]. destruct (E1 _ _ Hin) as (Hp & He).
      apply E3 in Hp as (id & secret & N1 & P1 & N2 & P2).
      destruct (aws_entry_spec _ _ _ _ _ He) as (id' & secret' & s'' & Es & N1' & N2' & R). cbn [fst snd] in *.
      injection Es as <-. assert (id' = id) as -> by congruence. assert (secret' = secret) as -> by congruence.
      exists i, j, id, secret. destruct Hu as [Hu|[Hu|[]]]; injection Hu as <- <-; (split; [|exact R]); unfold in_pair; auto 6.
    - intros (i & j & id & secret & (N1 & P1 & N2 & P2 & Hn) & R).
      destruct (E2 (i, j)) as (s' & Hin); [apply E3; exists id, secret; auto|].
      destruct (E1 _ _ Hin) as (_ & He).
      destruct (aws_entry_spec _ _ _ _ _ He) as (id' & secret' & s'' & Es & N1' & N2' & R'). cbn [fst snd] in *.
      injection Es as <-. assert (id' = id) as -> by congruence. assert (secret' = secret) as -> by congruence.
      rewrite (pair_result_unique _ _ _ _ _ _ _ _ R R'). exists ((i, j), s'). split; [apply permutes_in; assumption|].
      cbn [fst snd]. destruct Hn as [->| ->]; [left|right; left]; reflexivity. }
  split; [|exact U]. intros [n s] Hu. apply U in Hu as (i & j & id & secret & (N1 & P1 & N2 & P2 & Hn) & R). cbn [fst].
  destruct Hn as [->| ->]; apply nth_error_Some; congruence.
Qed.

Lemma aws_validate_spec : forall c w ord rules ms out, permutes ord -> aws_validate c w ord rules ms = Ret out ->
  length out = length ms /\
  forall n m, nth_error ms n = Some m -> exists m', nth_error out n = Some m' /\ same_match m m' /\
    highest (aws_candidate c w rules ms n m) (rm_status m').
Proof.
  intros c w ord rules ms out Ho H. destruct (aws_updates _ _ _ _ _ _ Ho H) as (us & E & L & U).
  destruct (applied_ret us ms L) as (out' & E' & L' & U'). rewrite E in E'. injection E' as <-.
  split; [exact L'|]. intros n m Hn. eexists. split; [exact (U' _ _ Hn)|]. split; [apply same_match_with|].
  cbn [rm_status updated with_status]. eapply highest_iff; [|apply merge_list]. intros t. cbv beta.
  unfold aws_candidate, updates_of. rewrite in_map_iff. split; (intros [->|K]; [left; reflexivity|right]).
  - destruct K as ([n' s] & <- & K). apply filter_In in K as (K & En). cbn [fst snd] in *. apply Nat.eqb_eq in En. subst n'.
    apply U. exact K.
  - exists (n, t). split; [reflexivity|]. apply filter_In. split; [apply U; exact K|cbn; apply Nat.eqb_refl].
Qed.

Lemma aws_validate_order : forall c w ord1 ord2 rules ms, permutes ord1 -> permutes ord2 ->
  aws_validate c w ord1 rules ms = aws_validate c w ord2 rules ms.
Proof.
  intros c w ord1 ord2 rules ms H1 H2. unfold aws_validate.
  destruct (aws_indices rules 0 ms) as [[ids secrets]| |]; try reflexivity. cbn [bind].
  destruct (try_map (aws_entry c w ms) (list_prod ids secrets)) as [es| |] eqn:Ee; try reflexivity. cbn [bind].
  rewrite !foldM_pairs. apply try_map_inv in Ee. apply applied_eq.
  - intros u Hu. apply in_flat_map in Hu as ([[i j] s] & Hin & Hu). apply permutes_in in Hin; [|exact H1].
    apply In_nth_error in Hin as (p & Hp).
    assert (exists id secret, nth_error ms i = Some id /\ nth_error ms j = Some secret) as (id & secret & N1 & N2).
    { clear - Ee Hp. revert p Hp. induction Ee as [|k y ks ys Hk _ IH]; intros [|p] Hp; try discriminate; [|eauto].
      injection Hp as ->. destruct (aws_entry_spec _ _ _ _ _ Hk) as (id & secret & s' & E & N1 & N2 & _). injection E as <- ->.
      exists id, secret. auto. }
    destruct Hu as [<-|[<-|[]]]; cbn [fst snd]; apply nth_error_Some; congruence.
  - intros u. rewrite !in_flat_map. split; intros (e & He & Hu); exists e; (split; [|exact Hu]);
      apply permutes_in; try assumption; apply permutes_in in He; assumption.
Qed.
