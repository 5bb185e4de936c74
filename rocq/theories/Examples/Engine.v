(* Concrete engines and a concrete sorting function, used to show that the
   hypotheses of the theorems can be met.  Nothing here models code of /repo. *)
From Coq Require Import Lia.
From Verif Require Import Proofs.Text.
From Verif Require Export Spec.Regex Spec.Claims.

(* ---- insertion sort ---- *)
Fixpoint insert {A} (cmp : A -> A -> comparison) (x : A) (l : list A) : list A :=
  match l with
  | [] => [x]
  | y :: l' => match cmp x y with Gt => y :: insert cmp x l' | _ => x :: l end
  end.
Definition isort : sorter := fun A cmp l => fold_right (insert cmp) [] l.

Lemma insert_perm : forall A (cmp : A -> A -> comparison) x l, Permutation (x :: l) (insert cmp x l).
Proof.
  intros A cmp x. induction l as [|y l IH]; simpl; [constructor; constructor|].
  destruct (cmp x y); try reflexivity. rewrite perm_swap. constructor. exact IH.
Qed.

Lemma insert_sorted : forall A (cmp : A -> A -> comparison), total_preorder cmp ->
  forall x l, StronglySorted (fun a b => cmp a b <> Gt) l ->
  StronglySorted (fun a b => cmp a b <> Gt) (insert cmp x l).
Proof.
  intros A cmp Hp x l H. induction H as [|y l Hs IH Hall]; simpl; [repeat constructor|].
  destruct (cmp x y) eqn:E.
  - constructor; [constructor; auto|]. constructor; [congruence|]. eapply Forall_impl; [|exact Hall].
    intros a Ha. eapply (tp_trans _ Hp); [|exact Ha]. congruence.
  - constructor; [constructor; auto|]. constructor; [congruence|]. eapply Forall_impl; [|exact Hall].
    intros a Ha. eapply (tp_trans _ Hp); [|exact Ha]. congruence.
  - constructor; [exact IH|]. apply Forall_forall. intros a Ha.
    apply (Permutation_in _ (Permutation_sym (insert_perm A cmp x l))) in Ha as [<-|Ha].
    + rewrite (tp_opp _ Hp), E. discriminate.
    + rewrite Forall_forall in Hall. auto.
Qed.

Lemma isort_ok : sorter_ok isort.
Proof.
  intros A cmp l Hp. split.
  - induction l as [|x l IH]; simpl; [constructor|]. rewrite <- insert_perm. constructor. exact IH.
  - induction l as [|x l IH]; simpl; [constructor|]. apply insert_sorted; auto.
Qed.

(* ---- a regex engine from a matcher: [m before after] is the number of characters
   matched at the beginning of [after] ---- *)
Definition matcher := str -> str -> option nat.

Definition match_at (m : matcher) (s : str) (a : nat) : option nat :=
  match split_at s a with
  | Some (p, q) =>
    match m p q with
    | Some n => if (1 <=? n) && (n <=? length q) then Some (a + blen (firstn n q)) else None
    | None => None
    end
  | None => None
  end.

Fixpoint find_from (m : matcher) (s : str) (k : nat) (i : nat) : option (nat * nat) :=
  match match_at m s i with
  | Some b => Some (i, b)
  | None => match k with 0 => None | S k' => find_from m s k' (S i) end
  end.
Definition engine (m : matcher) (s : str) (i : nat) : option (nat * nat) :=
  find_from m s (blen s - i) i.

Lemma match_at_range : forall m s a b, match_at m s a = Some b -> a < b /\ boundary s a /\ boundary s b.
Proof.
  intros m s a b H. unfold match_at in H. destruct (split_at s a) as [[p q]|] eqn:E; [|discriminate].
  apply split_at_spec in E as [-> <-]. destruct (m p q) as [n|]; [|discriminate].
  destruct (1 <=? n) eqn:E1; [|discriminate]. destruct (n <=? length q) eqn:E2; [|discriminate].
  simpl in H. inversion H; subst b. apply Nat.leb_le in E1, E2. split; [|split].
  - destruct q as [|c q]; simpl in E2; [lia|]. destruct n; [lia|]. simpl. pose proof (clen_pos c). lia.
  - exists p, q. rewrite nbytes_blen. auto.
  - exists (p ++ firstn n q), (skipn n q). rewrite nbytes_blen, blen_app, <- app_assoc, firstn_skipn. auto.
Qed.

Lemma engine_leftmost : forall m, leftmost (engine m) (match_at m).
Proof.
  intros m.
  assert (Hff : forall s k i, match find_from m s k i with
            | Some (a, b) => i <= a /\ match_at m s a = Some b /\ forall j, i <= j < a -> match_at m s j = None
            | None => forall j, i <= j <= i + k -> match_at m s j = None
            end).
  { intros s. induction k as [|k IH]; intros i; simpl; destruct (match_at m s i) as [b|] eqn:E.
    - split; [lia|]. split; [exact E|]. intros j Hj. lia.
    - intros j Hj. replace j with i by lia. exact E.
    - split; [lia|]. split; [exact E|]. intros j Hj. lia.
    - specialize (IH (S i)). destruct (find_from m s k (S i)) as [[a b]|].
      + destruct IH as (H1 & H2 & H3). split; [lia|]. split; [exact H2|].
        intros j Hj. destruct (Nat.eq_dec j i) as [->|]; [exact E|]. apply H3. lia.
      + intros j Hj. destruct (Nat.eq_dec j i) as [->|]; [exact E|]. apply IH. lia. }
  split.
  - exact (match_at_range m).
  - intros s i a b _ H. unfold engine in H. specialize (Hff s (blen s - i) i). rewrite H in Hff. exact Hff.
  - intros s i Hi H j Hj. unfold engine in H. specialize (Hff s (blen s - i) i). rewrite H in Hff.
    destruct (le_lt_dec j (blen s)) as [Hle|Hgt]; [apply Hff; lia|].
    destruct (match_at m s j) as [b|] eqn:E; [|reflexivity].
    destruct (match_at_range _ _ _ _ E) as (_ & (p & q & -> & Hb) & _).
    rewrite nbytes_blen in Hb. rewrite blen_app in Hgt. lia.
Qed.

(* ---- a keyword engine for a decidable set of occurrences ---- *)
Definition occurs (words : list str) (s : str) (a b : nat) : bool :=
  (a <? b) && match slice s a b with Ret t => existsb (str_eqb t) words | _ => false end.

(* the starts in [i..e) of an occurrence ending at [e] *)
Definition ending_at (oc : str -> nat -> nat -> bool) (s : str) (i e : nat) : list nat :=
  filter (fun a => oc s a e) (seq i (e - i)).
Fixpoint earliest_from (oc : str -> nat -> nat -> bool) (s : str) (i k e : nat) : option (nat * nat) :=
  match ending_at oc s i e with
  | a :: _ => Some (a, e)
  | [] => match k with 0 => None | S k' => earliest_from oc s i k' (S e) end
  end.
Definition end_engine (oc : str -> nat -> nat -> bool) (s : str) (i : nat) : option (nat * nat) :=
  earliest_from oc s i (blen s - i) i.
Definition holds_at (oc : str -> nat -> nat -> bool) (s : str) (a b : nat) : Prop := oc s a b = true.

Lemma end_engine_earliest : forall oc,
  (forall s a b, oc s a b = true -> a < b /\ boundary s a /\ boundary s b) ->
  earliest (end_engine oc) (holds_at oc).
Proof.
  intros oc Hr0.
  assert (Hr : forall s a b, holds_at oc s a b -> a < b /\ boundary s a /\ boundary s b) by exact Hr0.
  assert (Hend : forall s i e a, In a (ending_at oc s i e) <-> i <= a < e /\ holds_at oc s a e).
  { intros s i e a. unfold ending_at. rewrite filter_In, in_seq. change (oc s a e = true) with (holds_at oc s a e).
    split; intros [H1 H2]; split; auto.
    - apply Hr in H2 as (H3 & _). lia.
    - lia. }
  assert (Hff : forall s i k e, match earliest_from oc s i k e with
            | Some (a, b) => i <= a /\ holds_at oc s a b /\
                forall a' b', holds_at oc s a' b' -> i <= a' -> e <= b' -> b <= b'
            | None => forall a' b', holds_at oc s a' b' -> i <= a' -> e <= b' <= e + k -> False
            end).
  { intros s i. induction k as [|k IH]; intros e; simpl;
      destruct (ending_at oc s i e) as [|a l] eqn:E.
    - intros a' b' Ho Hi Hb. assert (b' = e) by lia. subst b'.
      assert (In a' (ending_at oc s i e)) as Hin by (apply Hend; split; [apply Hr in Ho; lia|exact Ho]).
      rewrite E in Hin. destruct Hin.
    - assert (In a (ending_at oc s i e)) as Hin by (rewrite E; left; reflexivity).
      apply Hend in Hin as [H1 H2]. split; [lia|]. split; [exact H2|]. intros; lia.
    - specialize (IH (S e)). destruct (earliest_from oc s i k (S e)) as [[a b]|].
      + destruct IH as (H1 & H2 & H3). split; [exact H1|]. split; [exact H2|].
        intros a' b' Ho Hi Hb. destruct (Nat.eq_dec b' e) as [->|]; [|apply (H3 a' b'); auto; lia].
        assert (In a' (ending_at oc s i e)) as Hin by (apply Hend; split; [apply Hr in Ho; lia|exact Ho]).
        rewrite E in Hin. destruct Hin.
      + intros a' b' Ho Hi Hb. destruct (Nat.eq_dec b' e) as [->|]; [|apply (IH a' b'); auto; lia].
        assert (In a' (ending_at oc s i e)) as Hin by (apply Hend; split; [apply Hr in Ho; lia|exact Ho]).
        rewrite E in Hin. destruct Hin.
    - assert (In a (ending_at oc s i e)) as Hin by (rewrite E; left; reflexivity).
      apply Hend in Hin as [H1 H2]. split; [lia|]. split; [exact H2|]. intros; lia. }
  split.
  - exact Hr.
  - intros s i a b _ H. specialize (Hff s i (blen s - i) i). unfold end_engine in H. rewrite H in Hff.
    destruct Hff as (H1 & H2 & H3). split; [exact H1|]. split; [exact H2|].
    intros a' b' Ho Hi. apply (H3 a' b' Ho Hi). apply Hr in Ho. lia.
  - intros s i Hi H a b Ho. specialize (Hff s i (blen s - i) i). unfold end_engine in H. rewrite H in Hff.
    destruct (le_lt_dec i a) as [Hle|]; [|assumption]. exfalso. apply (Hff a b Ho Hle).
    apply Hr in Ho as (H1 & _ & (p & q & -> & Hb)). rewrite nbytes_blen in Hb. rewrite blen_app. lia.
Qed.

(* literal words *)
Definition keyword_engine (words : list str) := end_engine (occurs words).
Definition occurrence (words : list str) := holds_at (occurs words).
Lemma keyword_engine_earliest : forall words, earliest (keyword_engine words) (occurrence words).
Proof.
  intros words. apply end_engine_earliest. intros s a b H. unfold occurs in H. apply andb_prop in H as [H1 H2].
  apply Nat.ltb_lt in H1. split; [exact H1|].
  destruct (slice s a b) as [t| |] eqn:E; try discriminate.
  apply slice_part in E as (p & q & -> & Ha & Hb). split.
  - exists p, (t ++ q). auto.
  - exists (p ++ t), q. rewrite <- app_assoc. auto.
Qed.

(* ---- matchers used in the examples ---- *)
(* \d{n} *)
Definition digits (n : nat) : matcher := fun _ q =>
  if (n <=? length q) && forallb is_ascii_digit (firstn n q) then Some n else None.
(* a literal *)
Definition literal (l : str) : matcher := fun _ q =>
  if str_eqb l (firstn (length l) q) then Some (length l) else None.

(* a regex rule without keywords and validator *)
Definition plain_rule (i : nat) (m : matcher) : regex_rule := {|
  rr_index := i; rr_find := engine m; rr_included := None; rr_excluded := None; rr_validator := None
|}.
Lemma plain_ok : forall i m, regex_ok (plain_rule i m) (match_at m) (fun _ _ _ => False).
Proof. intros i m. split; [apply engine_leftmost|discriminate]. Qed.

(* a regex rule with included keywords *)
Definition keyword_rule (i : nat) (m : matcher) (words : list str) (look_ahead : nat) : regex_rule := {|
  rr_index := i; rr_find := engine m;
  rr_included := Some {| ik_look_ahead := look_ahead; ik_find := keyword_engine words;
                         ik_path_match := fun t => match keyword_engine words t 0 with Some _ => true | None => false end |};
  rr_excluded := None; rr_validator := None
|}.
Lemma keyword_ok : forall i m words n, 1 <= n ->
  regex_ok (keyword_rule i m words n) (match_at m) (occurrence words).
Proof.
  intros i m words n Hn. split; [apply engine_leftmost|]. intros ik E. inversion E; subst. simpl.
  split; [apply keyword_engine_earliest|exact Hn].
Qed.

(* ASCII text *)
From Coq Require Ascii String.
Export String.StringSyntax.
Definition text (s : String.string) : str :=
  map (fun c => N.of_nat (Ascii.nat_of_ascii c)) (String.list_ascii_of_string s).
Arguments text s%string_scope.
