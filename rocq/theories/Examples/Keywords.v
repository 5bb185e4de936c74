(* Engines for keyword patterns.  Nothing here models code of /repo. *)
From Coq Require Import Lia.
From Verif Require Import Proofs.Text.
From Verif Require Export Examples.Setting Spec.KeywordPattern.

Definition kw_occb (fold : char -> char) (pats : list kw_pattern) (s : str) (a b : nat) : bool :=
  (a <=? b) &&
  match split_at s a with
  | Some (before, q) =>
    match split_at q (b - a) with
    | Some (t, after) =>
        existsb (fun pat => kw_reads fold pat (hd_error (rev before)) t (hd_error after)) pats
    | None => false
    end
  | None => false
  end.

Lemma kw_occb_spec : forall fold pats s a b, kw_occb fold pats s a b = true <-> kw_occurs fold pats s a b.
Proof.
  intros fold pats s a b. unfold kw_occb, kw_occurs. split.
  - intros H. apply andb_prop in H as [H1 H]. apply Nat.leb_le in H1.
    destruct (split_at s a) as [[before q]|] eqn:E1; [|discriminate].
    destruct (split_at q (b - a)) as [[t after]|] eqn:E2; [|discriminate].
    apply split_at_spec in E1 as [-> <-]. apply split_at_spec in E2 as [-> H2].
    apply existsb_exists in H as (pat & Hin & Hr). exists pat, before, t, after.
    rewrite !nbytes_blen, blen_app. repeat split; auto. lia.
  - intros (pat & before & t & after & Hin & -> & Ha & Hb & Hr). rewrite nbytes_blen in Ha, Hb. rewrite blen_app in Hb.
    assert (E1 : split_at (before ++ t ++ after) a = Some (before, t ++ after)) by (apply split_at_spec; auto).
    assert (E2 : split_at (t ++ after) (b - a) = Some (t, after)) by (apply split_at_spec; split; [reflexivity|lia]).
    rewrite E1, E2. apply andb_true_intro. split; [apply Nat.leb_le; lia|].
    apply existsb_exists. eauto.
Qed.

(* a search in a span by trying everything *)
Definition span_engine (oc : str -> nat -> nat -> bool) (s : str) (a b : nat) : bool :=
  existsb (fun k => existsb (fun e => oc s k e) (seq 0 (S b))) (seq a (S (blen s))).

Lemma span_engine_spec : forall oc (occ : str -> nat -> nat -> Prop),
  (forall s a b, oc s a b = true <-> occ s a b) -> (forall s a b, occ s a b -> a <= blen s) ->
  span_search (span_engine oc) occ.
Proof.
  intros oc occ Hoc Hr s a b. unfold span_engine. rewrite existsb_exists. split.
  - intros (k & Hk & H). apply existsb_exists in H as (e & He & H). apply in_seq in Hk. apply in_seq in He.
    exists k, e. rewrite Hoc in H. repeat split; auto; lia.
  - intros (k & e & Hk & He & H). exists k. split.
    + apply in_seq. pose proof (Hr _ _ _ H). lia.
    + apply existsb_exists. exists e. split; [apply in_seq; lia|]. apply Hoc. exact H.
Qed.

Definition excluded_engine (look_ahead : nat) (pats : list kw_pattern) : excluded_keywords := {|
  xk_look_ahead := look_ahead; xk_match_in := span_engine (kw_occb (fun c => c) pats)
|}.
Lemma excluded_engine_ok : forall n pats,
  span_search (xk_match_in (excluded_engine n pats)) (kw_occurs (fun c => c) pats).
Proof.
  intros n pats. apply span_engine_spec; [apply kw_occb_spec|].
  intros s a b (pat & before & t & after & _ & -> & <- & _). rewrite nbytes_blen, blen_app. lia.
Qed.

(* the pattern of a word: \bword\b *)
Definition word_pattern (w : str) : kw_pattern := KwBoundary :: map KwLit w ++ [KwBoundary].

(* \b : empty matches at ASCII word boundaries *)
Definition boundary_at (s : str) (a : nat) : option nat :=
  match split_at s a with
  | Some (p, q) => if xorb (word_char (hd_error (rev p))) (word_char (hd_error q)) then Some a else None
  | None => None
  end.
Fixpoint boundary_from (s : str) (k i : nat) : option (nat * nat) :=
  match boundary_at s i with
  | Some b => Some (i, b)
  | None => match k with 0 => None | S k' => boundary_from s k' (S i) end
  end.
Definition boundary_engine (s : str) (i : nat) : option (nat * nat) := boundary_from s (blen s - i) i.

Lemma boundary_engine_leftmost : leftmost_any boundary_engine boundary_at.
Proof.
  assert (Hr : forall s a b, boundary_at s a = Some b -> a <= b /\ boundary s a /\ boundary s b).
  { intros s a b H. unfold boundary_at in H. destruct (split_at s a) as [[p q]|] eqn:E; [|discriminate].
    apply split_at_spec in E as [-> <-]. destruct (xorb _ _); [|discriminate]. injection H as <-.
    split; [lia|]. split; exists p, q; rewrite nbytes_blen; auto. }
  assert (Hff : forall s k i, match boundary_from s k i with
            | Some (a, b) => i <= a /\ boundary_at s a = Some b /\ forall j, i <= j < a -> boundary_at s j = None
            | None => forall j, i <= j <= i + k -> boundary_at s j = None
            end).
  { intros s. induction k as [|k IH]; intros i; simpl; destruct (boundary_at s i) as [b|] eqn:E.
    - split; [lia|]. split; [exact E|]. intros j Hj. lia.
    - intros j Hj. replace j with i by lia. exact E.
    - split; [lia|]. split; [exact E|]. intros j Hj. lia.
    - specialize (IH (S i)). destruct (boundary_from s k (S i)) as [[a b]|].
      + destruct IH as (H1 & H2 & H3). split; [lia|]. split; [exact H2|].
        intros j Hj. destruct (Nat.eq_dec j i) as [->|]; [exact E|]. apply H3. lia.
      + intros j Hj. destruct (Nat.eq_dec j i) as [->|]; [exact E|]. apply IH. lia. }
  split.
  - exact Hr.
  - intros s i a b _ H. unfold boundary_engine in H. specialize (Hff s (blen s - i) i). rewrite H in Hff. exact Hff.
  - intros s i Hi H j Hj. unfold boundary_engine in H. specialize (Hff s (blen s - i) i). rewrite H in Hff.
    destruct (le_lt_dec j (blen s)) as [Hle|Hgt]; [apply Hff; lia|].
    destruct (boundary_at s j) as [b|] eqn:E; [|reflexivity].
    destruct (Hr _ _ _ E) as (_ & (p & q & -> & Hb) & _).
    rewrite nbytes_blen in Hb. rewrite blen_app in Hgt. lia.
Qed.

(* a rule with excluded keywords, and one with both kinds of keywords *)
Definition excluding_rule (i : nat) (m : matcher) (look_ahead : nat) (words : list str) : regex_rule := {|
  rr_index := i; rr_find := engine m; rr_included := None;
  rr_excluded := Some (excluded_engine look_ahead (map word_pattern words)); rr_validator := None
|}.
Lemma excluding_ok : forall i m n words, regex_ok (excluding_rule i m n words) (match_at m) (fun _ _ _ => False).
Proof. intros. split; [apply engine_leftmost|discriminate]. Qed.

Definition both_rule (i : nat) (m : matcher) (look_ahead : nat) (words excluded : list str) : regex_rule := {|
  rr_index := i; rr_find := engine m;
  rr_included := rr_included (keyword_rule i m words look_ahead);
  rr_excluded := rr_excluded (excluding_rule i m look_ahead excluded); rr_validator := None
|}.
Lemma both_ok : forall i m n words excluded, 1 <= n ->
  regex_ok (both_rule i m n words excluded) (match_at m) (occurrence words).
Proof.
  intros i m words n ex Hn. split; [apply engine_leftmost|]. intros ik E. inversion E; subst. simpl.
  split; [apply keyword_engine_earliest|exact Hn].
Qed.
