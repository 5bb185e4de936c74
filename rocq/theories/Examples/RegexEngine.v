(* A regex engine that can be run, for the trees that the regex crate reads: all matches from
   a position are listed in order of preference.  It shows that what C79 assumes of the regex
   crate can be met.  Nothing here models code of /repo.  A tree is refused if a repetition
   without a bound could repeat the empty text. *)
From Coq Require Import Lia Sorted.
From Verif Require Import Proofs.Text Proofs.Meaning.
From Verif Require Import Proofs.AsWrittenClaims.
From Verif Require Export Spec.AsWritten Examples.Engine Examples.Keywords.

(* ---- letters, properties, words ---- *)
Definition lower (c : char) : char := (if (65 <=? c) && (c <=? 90) then c + 32 else c)%N.
Definition others (c : char) : list char :=
  ([c] ++ (if (65 <=? c) && (c <=? 90) then [c + 32] else []) ++ (if (97 <=? c) && (c <=? 122) then [c - 32] else []))%N.
Definition ascii_word_b (c : char) : bool :=
  ((97 <=? c) && (c <=? 122) || (65 <=? c) && (c <=? 90) || (48 <=? c) && (c <=? 57) || (c =? 95))%N.
(* one property, of the capital letters *)
Definition property_b (name : str) (c : char) : bool := str_eqb name (chars "Lu") && ((65 <=? c) && (c <=? 90))%N.
Definition unicode_word_b (c : char) : bool := (ascii_word_b c || (192 <=? c) && (c <=? 591))%N.
Definition ascii_env : env := {|
  same_letter := fun c d => lower c = lower d;
  has_property := fun name c => property_b name c = true;
  unicode_word := fun c => unicode_word_b c = true
|}.
Lemma lower_spec : forall c, (65 <= c <= 90 /\ lower c = c + 32 \/ ~ 65 <= c <= 90 /\ lower c = c)%N.
Proof. intros c. unfold lower. destruct (N.leb_spec 65 c), (N.leb_spec c 90); cbn; lia. Qed.
Lemma others_spec : forall c d, In d (others c) <-> lower c = lower d.
Proof.
  intros c d. pose proof (lower_spec c). pose proof (lower_spec d). unfold others.
  destruct (N.leb_spec 65 c), (N.leb_spec c 90), (N.leb_spec 97 c), (N.leb_spec c 122); cbn [andb app In]; split; intros K;
    repeat (destruct K as [K|K]; [lia|]); try contradiction K; try lia;
    (destruct (N.eq_dec c d) as [Q|Q]; [left; exact Q|]); try (exfalso; lia); right; left; lia.
Qed.
Lemma ascii_env_plain : plain_env ascii_env.
Proof.
  split; [|split; [|split]]; cbn [same_letter ascii_env]; try congruence; try reflexivity.
  intros c d H L. pose proof (lower_spec c). pose proof (lower_spec d). lia.
Qed.

(* ---- single characters ---- *)
Definition any_case_b (i : bool) (S : char -> bool) (c : char) : bool := S c || i && existsb S (others c).
Lemma any_case_spec : forall i S P, (forall c, S c = true <-> P c) -> forall c, any_case_b i S c = true <-> any_case ascii_env i P c.
Proof.
  intros i S P H c. unfold any_case_b, any_case. rewrite orb_true_iff, andb_true_iff, existsb_exists, H. split.
  - intros [K|[K (d & D & Q)]]; [left; exact K|right]. split; [exact K|]. exists d. split; [apply H; exact Q|apply others_spec; exact D].
  - intros [K|[K (d & D & Q)]]; [left; exact K|right]. split; [exact K|]. exists d. split; [apply others_spec; exact Q|apply H; exact D].
Qed.
Definition between (a c b : char) : bool := ((a <=? c) && (c <=? b))%N.
Definition ascii_class_b (k : ascii_kind) (c : char) : bool :=
  match k with
  | Alnum => between 48 c 57 || between 65 c 90 || between 97 c 122
  | Alpha => between 65 c 90 || between 97 c 122
  | AsciiAll => c <=? 127
  | Blank => (c =? 9) || (c =? 32)
  | Cntrl => (c <=? 31) || (c =? 127)
  | Digit => between 48 c 57
  | Graph => between 33 c 126
  | Lower => between 97 c 122
  | Print => between 32 c 126
  | Punct => between 33 c 47 || between 58 c 64 || between 91 c 96 || between 123 c 126
  | Space => between 9 c 13 || (c =? 32)
  | Upper => between 65 c 90
  | Word => between 48 c 57 || between 65 c 90 || (c =? 95) || between 97 c 122
  | Xdigit => between 48 c 57 || between 65 c 70 || between 97 c 102
  end%N.
Ltac truth := rewrite ?orb_true_iff, ?andb_true_iff, ?N.leb_le, ?N.eqb_eq.
Lemma ascii_class_spec : forall k c, ascii_class_b k c = true <-> in_ascii_class k c.
Proof. intros k c. destruct k; cbn [ascii_class_b in_ascii_class]; unfold between; truth; lia. Qed.
Lemma ascii_word_spec : forall c, ascii_word_b c = true <-> ascii_word c.
Proof. intros c. unfold ascii_word_b, ascii_word. truth. lia. Qed.
Lemma flip_spec : forall n (b : bool) P, (b = true <-> P) -> (xorb n b = true <-> flip_if n P).
Proof. intros [] [] P H; cbn [xorb flip_if]; split; intros K; try discriminate K; try reflexivity; try tauto; try (intros Q; apply H in Q; discriminate Q); exfalso; apply K, H; reflexivity. Qed.
Fixpoint item_b (i : bool) (it : class_item) (c : char) {struct it} : bool :=
  match it with
  | KLiteral l => any_case_b i (N.eqb (rl_c l)) c
  | KRange a b => any_case_b i (fun d => between (rl_c a) d (rl_c b)) c
  | KAscii n k => xorb n (any_case_b i (ascii_class_b k) c)
  | KUnicode n name => xorb n (any_case_b i (property_b name) c)
  | KBracketed n l =>
    xorb n (any_case_b i
      ((fix some (l : list class_item) (c : char) : bool :=
          match l with [] => false | it :: l' => item_b i it c || some l' c end) l) c)
  end.
Lemma item_spec : forall i it c, item_b i it c = true <-> in_class_item ascii_env i it c.
Proof.
  intros i. fix IH 1. intros it c. destruct it as [l|a b|n k|n name|n l]; cbn [item_b in_class_item].
  - apply any_case_spec. intros d. rewrite N.eqb_eq. reflexivity.
  - apply any_case_spec. intros d. unfold between. truth. reflexivity.
  - apply flip_spec, any_case_spec, ascii_class_spec.
  - apply flip_spec, any_case_spec. reflexivity.
  - apply flip_spec, any_case_spec. clear c. induction l as [|it l IHl]; intros c; [split; [discriminate|intros []]|].
    rewrite orb_true_iff, (IH it c), (IHl c). reflexivity.
Qed.

(* ---- all matches from a position ---- *)
Definition found := (list nat * nat)%type.
Definition before (x y : found) : Prop := earlier (fst x) (fst y).
Definition one_ends (text : str) (S : char -> bool) (i : nat) : list found :=
  match nth_error text i with Some c => if S c then [([], Datatypes.S i)] else [] | None => [] end.
Definition here_ends (b : bool) (i : nat) : list found := if b then [([], i)] else [].
Definition prefixed (t : list nat) (l : list found) : list found := map (fun y => (t ++ fst y, snd y)) l.
Definition then_ends (l : list found) (g : nat -> list found) : list found := flat_map (fun x => prefixed (fst x) (g (snd x))) l.
Definition rounds (greedy : bool) (again : list found) (i : nat) : list found :=
  if greedy then prefixed [0] again ++ [([1], i)] else ([0], i) :: prefixed [1] again.
Section Times.
Variable f : nat -> list found.
Variable greedy : bool.
Fixpoint up_to (n i : nat) : list found :=
  match n with
  | 0 => [([], i)]
  | S n' => rounds greedy (then_ends (f i) (up_to n')) i
  end.
(* as often as possible: [fuel] exceeds the number of characters that follow *)
Fixpoint as_many (fuel i : nat) : list found :=
  match fuel with
  | 0 => []
  | S fuel' => rounds greedy (then_ends (f i) (as_many fuel')) i
  end.
Fixpoint at_least (lo : nat) (hi : option nat) (fuel i : nat) : list found :=
  match lo with
  | S lo' => then_ends (f i) (at_least lo' (option_map pred hi) fuel)
  | 0 => match hi with Some n => up_to n i | None => as_many fuel i end
  end.
End Times.

Section Text.
Variable text : str.
Definition char_at_b (S : char -> bool) (i : nat) : bool := match nth_error text i with Some c => S c | None => false end.
Definition char_before_b (S : char -> bool) (i : nat) : bool := match i with 0 => false | Datatypes.S k => char_at_b S k end.
Definition boundary_b (S : char -> bool) (i : nat) : bool := xorb (char_before_b S i) (char_at_b S i).
Definition assertion_b (m : rmode) (a : rassertion) (i : nat) : bool :=
  match a with
  | RStartLine => (i =? 0) || rm m && char_before_b (N.eqb 10) i
  | REndLine => (i =? length text) || rm m && char_at_b (N.eqb 10) i
  | RStartText => 0 =? i
  | REndText => length text =? i
  | RWordBoundary => boundary_b (if ru m then unicode_word_b else ascii_word_b) i
  | RNotWordBoundary => negb (boundary_b (if ru m then unicode_word_b else ascii_word_b) i)
  end.
Fixpoint ends (m : rmode) (a : rast) (i : nat) {struct a} : list found :=
  match a with
  | REmpty | RFlags _ => [([], i)]
  | RLiteral l => one_ends text (any_case_b (ri m) (N.eqb (rl_c l))) i
  | RDot => one_ends text (fun c => rs m || negb (c =? 10)%N) i
  | RAssertion k => here_ends (assertion_b m k i) i
  | RClassUnicode n name => one_ends text (item_b (ri m) (KUnicode n name)) i
  | RClass n items => one_ends text (item_b (ri m) (KBracketed n items)) i
  | RRepetition k greedy b => at_least (ends m b) greedy (rleast k) (rmost k) (S (length text)) i
  | RCapture b | RNamed _ b => ends m b i
  | RGroup f b => ends (set_items true f m) b i
  | RConcat l =>
    (fix all (m : rmode) (l : list rast) (i : nat) : list found :=
       match l with
       | [] => [([], i)]
       | a :: l' => then_ends (ends m a i) (all (rafter m a) l')
       end) m l i
  | RAlternation l =>
    (fix any (m : rmode) (k : nat) (l : list rast) (i : nat) : list found :=
       match l with
       | [] => []
       | a :: l' => prefixed [k] (ends m a i) ++ any (rafter m a) (S k) l' i
       end) m 0 l i
  end.
End Text.
(* never the empty text *)
Fixpoint consumes (a : rast) : bool :=
  match a with
  | RLiteral _ | RDot | RClassUnicode _ _ | RClass _ _ => true
  | RRepetition k _ b => (1 <=? rleast k) && consumes b
  | RCapture b | RNamed _ b | RGroup _ b => consumes b
  | RConcat l => existsb consumes l
  | RAlternation l => forallb consumes l
  | _ => false
  end.
Fixpoint solid (a : rast) : bool :=
  match a with
  | RRepetition k _ b => solid b && match rmost k with None => consumes b | Some _ => true end
  | RCapture b | RNamed _ b | RGroup _ b => solid b
  | RConcat l | RAlternation l => forallb solid l
  | _ => true
  end.

(* ---- they are the matches ---- *)
Section Rast.
Variable P : rast -> Prop.
Hypothesis Hempty : P REmpty.
Hypothesis Hflags : forall f, P (RFlags f).
Hypothesis Hlit : forall l, P (RLiteral l).
Hypothesis Hdot : P RDot.
Hypothesis Hassert : forall k, P (RAssertion k).
Hypothesis Huni : forall n name, P (RClassUnicode n name).
Hypothesis Hclass : forall n l, P (RClass n l).
Hypothesis Hrep : forall k g a, P a -> P (RRepetition k g a).
Hypothesis Hcap : forall a, P a -> P (RCapture a).
Hypothesis Hnamed : forall n a, P a -> P (RNamed n a).
Hypothesis Hgroup : forall f a, P a -> P (RGroup f a).
Hypothesis Halt : forall l, Forall P l -> P (RAlternation l).
Hypothesis Hcat : forall l, Forall P l -> P (RConcat l).
Fixpoint rast_induction (a : rast) : P a :=
  match a with
  | REmpty => Hempty | RFlags f => Hflags f | RLiteral l => Hlit l | RDot => Hdot | RAssertion k => Hassert k
  | RClassUnicode n name => Huni n name | RClass n l => Hclass n l
  | RRepetition k g b => Hrep k g b (rast_induction b) | RCapture b => Hcap b (rast_induction b)
  | RNamed n b => Hnamed n b (rast_induction b) | RGroup f b => Hgroup f b (rast_induction b)
  | RAlternation l => Halt l ((fix all l : Forall P l := match l with [] => Forall_nil P | a :: l' => Forall_cons a (rast_induction a) (all l') end) l)
  | RConcat l => Hcat l ((fix all l : Forall P l := match l with [] => Forall_nil P | a :: l' => Forall_cons a (rast_induction a) (all l') end) l)
  end.
End Rast.

Definition lists (f : nat -> list found) (A : meaning) : Prop := forall i t j, In (t, j) (f i) <-> A i t j.
Definition ordered (f : nat -> list found) : Prop := forall i, StronglySorted before (f i).
Definition forward (A : meaning) : Prop := forall i t j, A i t j -> i <= j.
Lemma one_lists : forall text S P, (forall c, S c = true <-> P c) -> lists (one_ends text S) (one text P).
Proof.
  intros text S P H i t j. unfold one_ends, one. destruct (nth_error text i) as [c|] eqn:E.
  - destruct (S c) eqn:Q; cbn [In].
    + split; [intros [K|[]]; injection K as <- <-; split; [reflexivity|split; [reflexivity|]]; exists c; split; [reflexivity|apply H; exact Q]|].
      intros (-> & -> & _). left. reflexivity.
    + split; [intros []|]. intros (_ & _ & d & D & K). injection D as <-. apply H in K. congruence.
  - split; [intros []|]. intros (_ & _ & d & D & _). discriminate D.
Qed.
Lemma here_lists : forall (b : nat -> bool) P, (forall i, b i = true <-> P i) -> lists (fun i => here_ends (b i) i) (here P).
Proof.
  intros b P H i t j. unfold here_ends, here. destruct (b i) eqn:Q; cbn [In].
  - split; [intros [K|[]]; injection K as <- <-; split; [reflexivity|split; [reflexivity|apply H; exact Q]]|]. intros (-> & -> & _). left. reflexivity.
  - split; [intros []|]. intros (_ & _ & K). apply H in K. congruence.
Qed.
Lemma nothing_lists : lists (fun i => [([], i)]) nothing.
Proof. intros i t j. cbn [In]. unfold nothing, here. split; [intros [K|[]]; injection K as <- <-; auto|]. intros (-> & -> & _). left. reflexivity. Qed.
Lemma in_prefixed : forall p l t j, In (t, j) (prefixed p l) <-> exists u, t = p ++ u /\ In (u, j) l.
Proof.
  intros p l t j. unfold prefixed. rewrite in_map_iff. split.
  - intros ([u k] & K & I). cbn [fst snd] in K. injection K as <- <-. eauto.
  - intros (u & -> & I). exists (u, j). auto.
Qed.
Lemma in_then : forall l g t j, In (t, j) (then_ends l g) <-> exists k t1 t2, In (t1, k) l /\ In (t2, j) (g k) /\ t = t1 ++ t2.
Proof.
  intros l g t j. unfold then_ends. rewrite in_flat_map. split.
  - intros ([t1 k] & I & K). apply in_prefixed in K as (t2 & -> & K). cbn [fst snd] in *. exists k, t1, t2. auto.
  - intros (k & t1 & t2 & I & K & ->). exists (t1, k). split; [exact I|]. apply in_prefixed. exists t2. auto.
Qed.
Lemma then_lists : forall f g A B, lists f A -> lists g B -> lists (fun i => then_ends (f i) g) (andthen A B).
Proof.
  intros f g A B HA HB i t j. rewrite in_then. unfold andthen. split; intros (k & t1 & t2 & K1 & K2 & E); exists k, t1, t2; (split; [apply HA; exact K1|]); (split; [apply HB; exact K2|exact E]).
Qed.
Lemma in_rounds : forall greedy again i t j, In (t, j) (rounds greedy again i) <->
  (t = [if greedy then 1 else 0] /\ j = i) \/ exists u, t = (if greedy then 0 else 1) :: u /\ In (u, j) again.
Proof.
  intros [] again i t j; unfold rounds; cbn [In]; rewrite ?in_app_iff, ?in_prefixed; cbn [In app]; split.
  - intros [K|[K|[]]]; [right; exact K|injection K as <- <-; left; auto].
  - intros [[-> ->]|K]; [right; left; reflexivity|left; exact K].
  - intros [K|K]; [injection K as <- <-; left; auto|right; exact K].
  - intros [[-> ->]|K]; [left; reflexivity|right; exact K].
Qed.
Lemma up_to_lists : forall f A greedy n, lists f A -> lists (up_to f greedy n) (times A greedy 0 (Some n)).
Proof.
  intros f A greedy n HA. induction n as [|n IH]; intros i t j; cbn [up_to].
  - cbn [In]. split; [intros [K|[]]; injection K as <- <-; constructor|]. intros K. inversion K; subst; [left; reflexivity|congruence|congruence].
  - rewrite in_rounds. split.
    + intros [[-> ->]|(u & -> & K)]; [constructor; discriminate|]. apply in_then in K as (k & t1 & t2 & K1 & K2 & ->).
      eapply tm_again; [discriminate|apply HA; exact K1|apply IH; exact K2].
    + intros K. inversion K as [| |hi' i' N|hi' i' t1 k t2 j' N K1 K2]; subst; [left; auto|right]. eexists. split; [reflexivity|].
      apply in_then. exists k, t1, t2. split; [apply HA; exact K1|]. split; [apply IH; exact K2|reflexivity].
Qed.
Lemma as_many_lists : forall f A greedy n, lists f A -> (forall i t j, A i t j -> i < j <= n) ->
  forall fuel i t j, n - i < fuel -> In (t, j) (as_many f greedy fuel i) <-> times A greedy 0 None i t j.
Proof.
  intros f A greedy n HA HN. induction fuel as [|fuel IH]; intros i t j L; [lia|]. cbn [as_many]. rewrite in_rounds. split.
  - intros [[-> ->]|(u & -> & K)]; [constructor; discriminate|]. apply in_then in K as (k & t1 & t2 & K1 & K2 & ->).
    apply HA in K1. pose proof (HN _ _ _ K1). eapply tm_again; [discriminate|exact K1|apply IH; [lia|exact K2]].
  - intros K. inversion K as [| |hi' i' N|hi' i' t1 k t2 j' N K1 K2]; subst; [left; auto|right]. eexists. split; [reflexivity|].
    pose proof (HN _ _ _ K1). apply in_then. exists k, t1, t2. split; [apply HA; exact K1|]. split; [apply IH; [lia|exact K2]|reflexivity].
Qed.
Lemma at_least_lists : forall f A greedy n, lists f A -> forall lo hi, (hi = None -> forall i t j, A i t j -> i < j <= n) ->
  lists (at_least f greedy lo hi (S n)) (times A greedy lo hi).
Proof.
  intros f A greedy n HA. induction lo as [|lo IH]; intros hi HN; cbn [at_least].
  - destruct hi as [h|]; [apply up_to_lists; exact HA|]. intros i t j. apply (as_many_lists f A greedy n HA (HN eq_refl)). lia.
  - assert (IH' := IH (option_map pred hi)). intros i t j. rewrite in_then. split.
    + intros (k & t1 & t2 & K1 & K2 & ->). constructor 1 with (k := k); [apply HA; exact K1|]. apply IH'; [destruct hi; [discriminate|exact HN]|exact K2].
    + intros K. inversion K as [lo' hi' i' t1 k t2 j' K1 K2| | |]; subst. exists k, t1, t2. split; [apply HA; exact K1|]. split; [|reflexivity].
      apply IH'; [destruct hi; [discriminate|exact HN]|exact K2].
Qed.

(* positions *)
Lemma times_forward : forall A greedy lo hi i t j, forward A -> times A greedy lo hi i t j -> i <= j.
Proof. intros A greedy lo hi i t j HA H. induction H; try lia; match goal with K : A _ _ _ |- _ => apply HA in K end; lia. Qed.
Lemma times_inside : forall (A : meaning) greedy lo hi n i t j, (forall i t j, A i t j -> i <= n -> j <= n) -> times A greedy lo hi i t j -> i <= n -> j <= n.
Proof. intros A greedy lo hi n i t j HA H. induction H; intros L; try lia; apply IHtimes; eapply HA; eauto. Qed.
Section Positions.
Variable text : str.
Lemma rmeans_forward : forall a m, forward (rmeans ascii_env text m a).
Proof.
  induction a using rast_induction; intros m i t j K; cbn [rmeans] in K.
  1,2: destruct K as (_ & -> & _); lia.
  all: try (destruct K as (_ & -> & _); lia).
  - eapply times_forward; [|exact K]. intros i' t' j' K'. eapply IHa; exact K'.
  - eapply IHa; exact K.
  - eapply IHa; exact K.
  - eapply IHa; exact K.
  - change (rany ascii_env text m 0 l i t j) in K. revert K. generalize 0. revert m t. induction H as [|a l Ha Hl IHl]; intros m t k K; cbn [rany] in K; [destruct K|].
    destruct K as [(u & _ & K)|K]; [eapply Ha; exact K|eapply IHl; exact K].
  - change (rall ascii_env text m l i t j) in K. revert m i t j K. induction H as [|a l Ha Hl IHl]; intros m i t j K; cbn [rall] in K; [destruct K as (_ & -> & _); lia|].
    destruct K as (k & t1 & t2 & K1 & K2 & _). apply Ha in K1. apply IHl in K2. lia.
Qed.
Lemma rmeans_inside : forall a m i t j, rmeans ascii_env text m a i t j -> i <= length text -> j <= length text.
Proof.
  assert (One : forall P i t j, one text P i t j -> j <= length text).
  { intros P i t j (_ & -> & c & N & _). apply nth_error_Some. congruence. }
  induction a using rast_induction; intros m i t j K L; cbn [rmeans] in K; try (eapply One; exact K); try (destruct K as (_ & -> & _); exact L).
  - eapply times_inside; [|exact K|exact L]. intros i' t' j' K'. eapply IHa; exact K'.
  - eapply IHa; [exact K|exact L].
  - eapply IHa; [exact K|exact L].
  - eapply IHa; [exact K|exact L].
  - change (rany ascii_env text m 0 l i t j) in K. revert K. generalize 0. revert m t. induction H as [|a l Ha Hl IHl]; intros m t k K; cbn [rany] in K; [destruct K|].
    destruct K as [(u & _ & K)|K]; [eapply Ha; [exact K|exact L]|eapply IHl; exact K].
  - change (rall ascii_env text m l i t j) in K. revert m i t j K L. induction H as [|a l Ha Hl IHl]; intros m i t j K L; cbn [rall] in K; [destruct K as (_ & -> & _); lia|].
    destruct K as (k & t1 & t2 & K1 & K2 & _). apply Ha in K1; [|exact L]. apply IHl in K2; [exact K2|exact K1].
Qed.
Lemma times_consumes : forall (A : meaning) greedy lo hi i t j n, forward A -> (forall i t j, A i t j -> i < j <= n) -> 1 <= lo -> times A greedy lo hi i t j -> i < j <= n.
Proof.
  intros A greedy lo hi i t j n F HA L H. inversion H as [lo' hi' i' t1 k t2 j' K1 K2| | |]; subst; try lia.
  pose proof (times_forward _ _ _ _ _ _ _ F K2). pose proof (HA _ _ _ K1).
  assert (j <= n); [|lia]. eapply times_inside; [|exact K2|lia]. intros a b c Q _. apply HA in Q. lia.
Qed.
Lemma consumes_spec : forall a m, consumes a = true -> forall i t j, rmeans ascii_env text m a i t j -> i < j <= length text.
Proof.
  assert (One : forall P i t j, one text P i t j -> i < j <= length text).
  { intros P i t j (_ & -> & c & N & _). assert (i < length text) by (apply nth_error_Some; congruence). lia. }
  induction a using rast_induction; intros m C i t j K; cbn [consumes] in C; try discriminate C; cbn [rmeans] in K; try (eapply One; exact K).
  - apply andb_prop in C as [C1 C2]. apply Nat.leb_le in C1. eapply times_consumes; [| |exact C1|exact K].
    + apply rmeans_forward.
    + apply IHa. exact C2.
  - eapply IHa; [exact C|exact K].
  - eapply IHa; [exact C|exact K].
  - eapply IHa; [exact C|exact K].
  - change (rany ascii_env text m 0 l i t j) in K. revert K. generalize 0. revert m t. induction H as [|a l Ha Hl IHl]; intros m t k K; cbn [rany] in K; [destruct K|].
    cbn [forallb] in C. apply andb_prop in C as [C1 C2]. destruct K as [(u & _ & K)|K]; [eapply Ha; [exact C1|exact K]|eapply IHl; [exact C2|exact K]].
  - change (rall ascii_env text m l i t j) in K. revert m i t j C K. induction H as [|a l Ha Hl IHl]; intros m i t j C K; cbn [rall] in K; [discriminate C|].
    cbn [existsb] in C. destruct K as (k & t1 & t2 & K1 & K2 & _). apply orb_prop in C as [C|C].
    + apply (Ha m C) in K1. assert (k <= j) by (apply (rmeans_forward (RConcat l) (rafter m a) k t2 j K2)).
      pose proof (rmeans_inside (RConcat l) (rafter m a) k t2 j K2). lia.
    + apply (IHl _ _ _ _ C) in K2. apply rmeans_forward in K1. lia.
Qed.

Lemma at_char_spec : forall S P i, (forall c, S c = true <-> P c) -> char_at_b text S i = true <-> at_char text i P.
Proof.
  intros S P i H. unfold char_at_b, at_char. destruct (nth_error text i) as [c|].
  - rewrite H. split; [intros K; exists c; auto|intros (d & D & K); injection D as <-; exact K].
  - split; [discriminate|intros (d & D & _); discriminate D].
Qed.
Lemma char_before_spec : forall S P i, (forall c, S c = true <-> P c) -> char_before_b text S i = true <-> exists k, i = Datatypes.S k /\ at_char text k P.
Proof.
  intros S P [|k] H; cbn [char_before_b].
  - split; [discriminate|intros (k & K & _); discriminate K].
  - rewrite (at_char_spec S P k H). split; [intros K; exists k; auto|intros (k' & E & K); injection E as <-; exact K].
Qed.
Lemma boundary_spec : forall S P i, (forall c, S c = true <-> P c) -> boundary_b text S i = true <-> RegexMeaning.boundary text P i.
Proof.
  intros S P i H. unfold boundary_b, RegexMeaning.boundary. rewrite <- (at_char_spec S P i H), <- (char_before_spec S P i H).
  destruct (char_before_b text S i), (char_at_b text S i); cbn; split; intros K; try discriminate K; try reflexivity; try (intros Q; destruct Q as [Q1 Q2]; try (specialize (Q1 eq_refl); discriminate Q1); specialize (Q2 eq_refl); discriminate Q2); exfalso; apply K; tauto.
Qed.
Lemma assertion_spec : forall m k i, assertion_b text m k i = true <-> rasserted ascii_env text m k i.
Proof.
  intros m k i. assert (W : forall c, (if ru m then unicode_word_b else ascii_word_b) c = true <-> (if ru m then unicode_word ascii_env else ascii_word) c).
  { intros c. destruct (ru m); [reflexivity|apply ascii_word_spec]. }
  assert (T : forall c, N.eqb 10 c = true <-> 10%N = c) by (intros c; apply N.eqb_eq).
  destruct k; cbn [assertion_b rasserted].
  - unfold line_start. rewrite orb_true_iff, andb_true_iff, Nat.eqb_eq, (char_before_spec _ (eq 10%N) i T). reflexivity.
  - unfold line_end. rewrite orb_true_iff, andb_true_iff, Nat.eqb_eq, (at_char_spec _ (eq 10%N) i T). reflexivity.
  - apply Nat.eqb_eq.
  - apply Nat.eqb_eq.
  - apply boundary_spec. exact W.
  - rewrite negb_true_iff, <- (boundary_spec _ _ i W). destruct (boundary_b _ _ _); split; congruence.
Qed.
Fixpoint ends_all (m : rmode) (l : list rast) (i : nat) : list found :=
  match l with [] => [([], i)] | a :: l' => then_ends (ends text m a i) (ends_all (rafter m a) l') end.
Fixpoint ends_any (m : rmode) (k : nat) (l : list rast) (i : nat) : list found :=
  match l with [] => [] | a :: l' => prefixed [k] (ends text m a i) ++ ends_any (rafter m a) (S k) l' i end.
Lemma ends_spec : forall a m, solid a = true -> lists (ends text m a) (rmeans ascii_env text m a).
Proof.
  induction a using rast_induction; intros m C; cbn [solid] in C.
  - exact nothing_lists.
  - exact nothing_lists.
  - apply one_lists. apply any_case_spec. intros c. apply N.eqb_eq.
  - apply one_lists. intros c. rewrite orb_true_iff, negb_true_iff, N.eqb_neq. reflexivity.
  - apply here_lists. apply assertion_spec.
  - apply one_lists. intros c. apply item_spec.
  - apply one_lists. intros c. apply item_spec.
  - apply andb_prop in C as [C1 C2]. cbn [ends rmeans]. apply at_least_lists; [apply IHa; exact C1|]. intros E. rewrite E in C2. apply consumes_spec. exact C2.
  - apply IHa. exact C.
  - apply IHa. exact C.
  - apply IHa. exact C.
  - change (lists (ends_any m 0 l) (rany ascii_env text m 0 l)). generalize 0. revert m C. induction H as [|a l Ha Hl IHl]; intros m C k i t j; cbn [ends_any rany]; [reflexivity|].
    cbn [forallb] in C. apply andb_prop in C as [C1 C2]. rewrite in_app_iff, in_prefixed, (IHl _ C2 (S k) i t j). split.
    + intros [(u & -> & K)|K]; [left; exists u; split; [reflexivity|apply (Ha m C1); exact K]|right; exact K].
    + intros [(u & -> & K)|K]; [left; exists u; split; [reflexivity|apply (Ha m C1); exact K]|right; exact K].
  - change (lists (ends_all m l) (rall ascii_env text m l)). revert m C. induction H as [|a l Ha Hl IHl]; intros m C; cbn [ends_all rall]; [exact nothing_lists|].
    cbn [forallb] in C. apply andb_prop in C as [C1 C2]. apply then_lists; [apply Ha; exact C1|apply IHl; exact C2].
Qed.
End Positions.

(* ---- in order of preference ---- *)
Lemma earlier_prefix : forall t u v, earlier u v -> earlier (t ++ u) (t ++ v).
Proof. induction t as [|x t IH]; intros u v H; [exact H|]. cbn. apply ea_later. apply IH. exact H. Qed.
Lemma earlier_app : forall t u, earlier t u -> forall x y, earlier (t ++ x) (u ++ y).
Proof. intros t u H. induction H; intros x y; cbn; [apply ea_here; assumption|apply ea_later; auto]. Qed.
Lemma sorted_app : forall (l l' : list found), StronglySorted before l -> StronglySorted before l' ->
  (forall x y, In x l -> In y l' -> before x y) -> StronglySorted before (l ++ l').
Proof.
  intros l l' H H' K. induction H as [|x l Hs IH Hall]; [exact H'|]. cbn. constructor.
  - apply IH. intros a b A B. apply K; [right; exact A|exact B].
  - apply Forall_app. split; [exact Hall|]. apply Forall_forall. intros y Y. apply K; [left; reflexivity|exact Y].
Qed.
Lemma prefixed_sorted : forall p l, StronglySorted before l -> StronglySorted before (prefixed p l).
Proof.
  intros p l H. induction H as [|x l Hs IH Hall]; [constructor|]. cbn. constructor; [exact IH|]. apply Forall_forall. intros y Y.
  apply in_map_iff in Y as (z & <- & Z). rewrite Forall_forall in Hall. unfold before. cbn. apply earlier_prefix. apply Hall. exact Z.
Qed.
Lemma then_sorted : forall l g, StronglySorted before l -> (forall i, StronglySorted before (g i)) -> StronglySorted before (then_ends l g).
Proof.
  intros l g H G. induction H as [|x l Hs IH Hall]; [constructor|]. unfold then_ends. cbn [flat_map]. apply sorted_app; [apply prefixed_sorted, G|exact IH|].
  intros [t a] [u b] A B. apply in_prefixed in A as (t' & -> & _). apply in_then in B as (k & t1 & t2 & K & _ & ->). rewrite Forall_forall in Hall.
  unfold before. cbn. apply earlier_app. apply (Hall _ K).
Qed.
Lemma rounds_sorted : forall greedy again i, StronglySorted before again -> StronglySorted before (rounds greedy again i).
Proof.
  intros [] again i H; unfold rounds.
  - apply sorted_app; [apply prefixed_sorted; exact H|repeat constructor|]. intros [t a] y A [<-|[]]. apply in_prefixed in A as (u & -> & _). apply ea_here. lia.
  - constructor; [apply prefixed_sorted; exact H|]. apply Forall_forall. intros [t a] A. apply in_prefixed in A as (u & -> & _). apply ea_here. lia.
Qed.
Lemma at_least_sorted : forall f greedy, ordered f -> forall lo hi fuel, ordered (at_least f greedy lo hi fuel).
Proof.
  intros f greedy H. induction lo as [|lo IH]; intros hi fuel i; cbn [at_least].
  - destruct hi as [n|].
    + revert i. induction n as [|n IHn]; intros i; cbn [up_to]; [repeat constructor|]. apply rounds_sorted, then_sorted; [apply H|exact IHn].
    + revert i. induction fuel as [|n IHn]; intros i; cbn [as_many]; [constructor|]. apply rounds_sorted, then_sorted; [apply H|exact IHn].
  - apply then_sorted; [apply H|apply IH].
Qed.
Lemma ends_sorted : forall text a m, ordered (ends text m a).
Proof.
  intros text. assert (One : forall S, ordered (one_ends text S)).
  { intros S i. unfold one_ends. destruct (nth_error text i) as [c|]; [destruct (S c)|]; repeat constructor. }
  induction a using rast_induction; intros m i; cbn [ends]; try apply One; try (repeat constructor).
  - unfold here_ends. destruct (assertion_b _ _ _ _); repeat constructor.
  - apply at_least_sorted. apply IHa.
  - apply IHa.
  - apply IHa.
  - apply IHa.
  - change (StronglySorted before (ends_any text m 0 l i)). generalize 0. revert m. induction H as [|a l Ha Hl IHl]; intros m k; cbn [ends_any]; [constructor|].
    apply sorted_app; [apply prefixed_sorted, Ha|apply IHl|]. intros [t x] [u y] A B. apply in_prefixed in A as (t' & -> & _).
    assert (Q : exists n u', k < n /\ u = n :: u'); [|destruct Q as (n & u' & L & ->); apply ea_here; exact L].
    clear - B. assert (G : forall l m k u y, In (u, y) (ends_any text m k l i) -> exists n u', k <= n /\ u = n :: u').
    { clear. induction l as [|a l IH]; intros m k u y B; cbn [ends_any] in B; [destruct B|]. apply in_app_iff in B as [B|B].
      - apply in_prefixed in B as (u' & -> & _). exists k, u'. auto.
      - apply IH in B as (n & u' & L & ->). exists n, u'. split; [lia|reflexivity]. }
    apply G in B as (n & u' & L & ->). exists n, u'. split; [lia|reflexivity].
  - change (StronglySorted before (ends_all text m l i)). revert m i. induction H as [|a l Ha Hl IHl]; intros m i; cbn [ends_all]; [repeat constructor|].
    apply then_sorted; [apply Ha|apply IHl].
Qed.
Lemma earlier_not : forall t u, earlier t u -> ~ no_later u t.
Proof. intros t u H. induction H; cbn; [lia|]. intros [K|[_ K]]; [lia|]. apply IHearlier. exact K. Qed.
Lemma earlier_irr : forall t, ~ earlier t t.
Proof. induction t as [|x t IH]; intros H; inversion H; subst; [lia|apply IH; assumption]. Qed.
Lemma earlier_no_later : forall t u, earlier t u -> no_later t u.
Proof. intros t u H. induction H; cbn; [left; assumption|right; auto]. Qed.
Lemma no_later_refl : forall t, no_later t t.
Proof. induction t as [|x t IH]; cbn; auto. Qed.
Lemma first_preferred : forall A f i t j l, lists f A -> ordered f -> f i = (t, j) :: l -> preferred A i j /\ forall j', preferred A i j' -> j' = j.
Proof.
  intros A f i t j l HA HO E. pose proof (HO i) as S. rewrite E in S. inversion S as [|x l' Hs Hall]; subst. rewrite Forall_forall in Hall.
  assert (F : forall u k, A i u k -> (u, k) = (t, j) \/ earlier t u).
  { intros u k K. apply HA in K. rewrite E in K. destruct K as [<-|K]; [left; reflexivity|right; apply (Hall _ K)]. }
  assert (I : A i t j) by (apply HA; rewrite E; left; reflexivity). split.
  - exists t. split; [exact I|]. intros u k K. destruct (F u k K) as [Q|Q]; [injection Q as -> ->; apply no_later_refl|apply earlier_no_later; exact Q].
  - intros j' (u & K & P). destruct (F u j' K) as [Q|Q]; [injection Q as _ ->; reflexivity|]. exfalso. exact (earlier_not _ _ Q (P t j I)).
Qed.

(* ---- the search ---- *)
Fixpoint first_from (f : nat -> list found) (n i : nat) : option (nat * nat) :=
  match f i with
  | (_, j) :: _ => Some (i, j)
  | [] => match n with 0 => None | S n' => first_from f n' (S i) end
  end.
Definition search (r : rast) (s : str) (x : nat) : option (nat * nat) :=
  match split_at s x with
  | Some (before, after) =>
    match first_from (ends s rmode0 r) (length after) (length before) with
    | Some (i, j) => Some (off s i, off s j)
    | None => None
    end
  | None => None
  end.
Lemma first_from_spec : forall f n i,
  match first_from f n i with
  | Some (k, j) => i <= k <= i + n /\ (exists t l, f k = (t, j) :: l) /\ forall k', i <= k' < k -> f k' = []
  | None => forall k, i <= k <= i + n -> f k = []
  end.
Proof.
  intros f. induction n as [|n IH]; intros i; cbn [first_from]; destruct (f i) as [|[t j] l] eqn:E.
  - intros k K. replace k with i by lia. exact E.
  - split; [lia|]. split; [eauto|intros k' K; lia].
  - specialize (IH (S i)). destruct (first_from f n (S i)) as [[k j]|].
    + destruct IH as (H1 & H2 & H3). split; [lia|]. split; [exact H2|]. intros k' K. destruct (Nat.eq_dec k' i) as [->|]; [exact E|]. apply H3. lia.
    + intros k K. destruct (Nat.eq_dec k i) as [->|]; [exact E|]. apply IH. lia.
  - split; [lia|]. split; [eauto|intros k' K; lia].
Qed.
Lemma split_off : forall s k, k <= length s -> split_at s (off s k) = Some (firstn k s, skipn k s).
Proof. intros s k L. apply split_at_spec. split; [symmetry; apply firstn_skipn|unfold off; rewrite nbytes_blen; reflexivity]. Qed.
Lemma search_ok : forall r, solid r = true -> searches (fun s => rmeans ascii_env s rmode0 r) (search r).
Proof.
  intros r C. assert (HL : forall s, lists (ends s rmode0 r) (rmeans ascii_env s rmode0 r)) by (intros s; apply ends_spec; exact C).
  assert (Hno : forall s k, ends s rmode0 r k = [] -> forall j, ~ matched (rmeans ascii_env s rmode0 r) k j).
  { intros s k E j [t K]. apply (HL s) in K. rewrite E in K. exact K. }
  constructor.
  - intros s k x y L H. unfold search in H. rewrite (split_off s k L) in H. rewrite skipn_length, (firstn_length_le _ L) in H.
    pose proof (first_from_spec (ends s rmode0 r) (length s - k) k) as F. destruct (first_from _ _ _) as [[i j]|]; [|discriminate H]. injection H as <- <-.
    destruct F as (L1 & (t & l & E) & F).
    destruct (first_preferred _ _ i t j l (HL s) (ends_sorted s r rmode0) E) as [P U].
    assert (I : rmeans ascii_env s rmode0 r i t j) by (apply (HL s); rewrite E; left; reflexivity).
    exists i, j. split; [lia|]. split; [split; [apply (rmeans_forward _ _ _ _ _ _ I)|apply (rmeans_inside _ _ _ _ _ _ I); lia]|].
    split; [reflexivity|]. split; [reflexivity|]. split; [exists t; exact I|]. split; [exact U|].
    split; [intros i' j' K; apply Hno, F; exact K|]. unfold search. assert (Li : i <= length s) by lia. rewrite (split_off s i Li), skipn_length, (firstn_length_le _ Li).
    destruct (length s - i); cbn [first_from]; rewrite E; reflexivity.
  - intros s k L H i j K. unfold search in H. rewrite (split_off s k L) in H. rewrite skipn_length, (firstn_length_le _ L) in H.
    pose proof (first_from_spec (ends s rmode0 r) (length s - k) k) as F. destruct (first_from _ _ _) as [[i' j']|]; [discriminate H|].
    apply Hno, F. lia.
Qed.

(* ---- engines for a scanner ---- *)
Definition folded_search (pats : list kw_pattern) : str -> nat -> option (nat * nat) :=
  end_engine (fun s a b => (a <? b) && kw_occb lower pats s a b).
Definition regex_engines (V : validator_env) : engines := {|
  en_build := fun text limit => match reread text with Some r => if solid r then Ok (search r) else Err OtherBuildError | None => Err OtherBuildError end;
  en_earliest := folded_search;
  en_path := fun pats s => span_engine (kw_occb lower pats) s 0 (blen s);
  en_span := fun pats => span_engine (kw_occb lower pats);
  en_validators := V
|}.
Lemma occurs_inside : forall pats s a b, kw_occurs lower pats s a b -> Text.boundary s a /\ Text.boundary s b.
Proof.
  intros pats s a b (pat & before & t & after & _ & -> & Ha & Hb & _). split.
  - exists before, (t ++ after). auto.
  - exists (before ++ t), after. rewrite <- app_assoc. auto.
Qed.
Lemma span_ok : forall pats, span_search (span_engine (kw_occb lower pats)) (kw_occurs lower pats).
Proof.
  intros pats. apply span_engine_spec; [apply kw_occb_spec|].
  intros s a b (pat & before & t & after & _ & -> & <- & _). rewrite nbytes_blen, blen_app. lia.
Qed.
Lemma folded_search_earliest : forall pats, (forall s a b, kw_occurs lower pats s a b -> a < b) -> earliest (folded_search pats) (kw_occurs lower pats).
Proof.
  intros pats Hn.
  assert (E : forall s a b, (a <? b) && kw_occb lower pats s a b = true <-> kw_occurs lower pats s a b).
  { intros s a b. rewrite andb_true_iff, kw_occb_spec, Nat.ltb_lt. split; [intros [_ H]; exact H|].
    intros H. split; [exact (Hn _ _ _ H)|exact H]. }
  destruct (end_engine_earliest (fun s a b => (a <? b) && kw_occb lower pats s a b)) as [A B C].
  - intros s a b H. apply E in H. split; [exact (Hn _ _ _ H)|exact (occurs_inside _ _ _ _ H)].
  - unfold Engine.holds_at in *. constructor.
    + intros s a b H. split; [exact (Hn _ _ _ H)|exact (occurs_inside _ _ _ _ H)].
    + intros s i a b Hi Hf. destruct (B s i a b Hi Hf) as (B1 & B2 & B3). split; [exact B1|]. split; [apply E; exact B2|].
      intros a' b' K. apply B3. apply E. exact K.
    + intros s i Hi Hf a b K. apply (C s i Hi Hf a b). apply E. exact K.
Qed.
Lemma regex_engines_ok : forall V, crate_ok ascii_env (regex_engines V).
Proof.
  intros V. assert (HE : forall c d, same_letter ascii_env c d <-> lower c = lower d) by reflexivity. constructor.
  - intros pattern text limit re _ H. cbn [en_build regex_engines] in H. destruct (reread text) as [r|]; [|discriminate H].
    destruct (solid r) eqn:C; [|discriminate H]. injection H as <-. exists r. split; [reflexivity|]. apply search_ok. exact C.
  - intros k inc pinc exc H s i B. destruct (compiled_nonempty k _ H) as [N _]. destruct (N inc pinc eq_refl) as [N1 _].
    assert (Q := fun s x y => text_found_occurs ascii_env lower inc s x y HE N1).
    destruct (folded_search_earliest inc) as [_ F G]; [intros s' a b; eapply keyword_nonempty; exact H|]. cbn [en_earliest regex_engines].
    destruct (folded_search inc s i) as [[x y]|] eqn:R.
    + destruct (F s i x y B R) as (F1 & F2 & F3). split; [exact F1|]. split; [apply Q; exact F2|]. intros x' y' K. apply F3, Q. exact K.
    + intros x y K. apply (G s i B R x y), Q. exact K.
  - intros k inc pinc exc H s. destruct (compiled_nonempty k _ H) as [N _]. destruct (N inc pinc eq_refl) as [_ N1].
    cbn [en_path regex_engines]. rewrite (span_ok pinc s 0 (blen s)). split.
    + intros (x & y & _ & _ & K). exists x, y. apply (text_found_occurs ascii_env lower pinc s x y HE N1). exact K.
    + intros (x & y & K). apply (text_found_occurs ascii_env lower pinc s x y HE N1) in K. exists x, y. split; [lia|]. split; [|exact K].
      apply occurs_inside in K as [_ (u & v & -> & <-)]. rewrite nbytes_blen, blen_app. lia.
  - intros k inc exc pexc H s a b. destruct (compiled_nonempty k _ H) as [_ N]. destruct (N exc pexc eq_refl) as [N1 _].
    cbn [en_span regex_engines]. rewrite (span_ok exc s a b). split; intros (u & v & L1 & L2 & K); exists u, v; (split; [exact L1|]); (split; [exact L2|]);
      apply (text_found_occurs ascii_env lower exc s u v HE N1); exact K.
Qed.
