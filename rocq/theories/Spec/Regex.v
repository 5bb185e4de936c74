(* What a regex rule finds in a string, in terms of its regex, validator and keywords *)
From Verif Require Export Spec.Search Spec.Rules.

(* the engines of the rule behave: non-empty leftmost matches, earliest keyword
   occurrences, and a look-ahead of at least one character *)
Record regex_ok (r : regex_rule) (at_ : str -> nat -> option nat)
    (occ : str -> nat -> nat -> Prop) : Prop := {
  ro_find : leftmost (rr_find r) at_;
  ro_keywords : forall ik, rr_included r = Some ik ->
    earliest (ik_find ik) occ /\ 1 <= ik_look_ahead ik
}.

(* strings on which the rule can run: excluded keywords matter only without
   included ones *)
Definition scannable (r : regex_rule) (at_ : str -> nat -> option nat) (c : str) : Prop :=
  rr_included r = None -> checkable r at_ c.

(* the path of the string contains a keyword and paths are searched *)
Definition keyword_in_path (ik : included_keywords) (kw : bool) (p : path) : Prop :=
  kw = true /\ ik_path_match ik (sanitize p) = true.

Record regex_finds (r : regex_rule) (at_ : str -> nat -> option nat)
    (occ : str -> nat -> nat -> Prop) (f : finder) : Prop := {
  (* without included keywords: all true positives, leftmost first *)
  rf_plain : forall c p kw, rr_included r = None -> checkable r at_ c ->
    scan_chain r at_ true c 0 (fst (f c p false kw));
  rf_plain_excluded : forall c p kw, rr_included r = None -> checkable r at_ c ->
    exists ms, scan_chain r at_ true c 0 ms /\
      forall t, In t (snd (f c p true kw)) <-> exists a b, In (a, b) ms /\ part_at c a b t;
  (* with included keywords: true positives shortly after a keyword, or all of them
     if the path contains a keyword *)
  rf_sound : forall ik c p kw a b, rr_included r = Some ik -> In (a, b) (fst (f c p false kw)) ->
    true_positive r at_ false c a b /\
    ((exists k ke, occ c k ke /\ near_keyword (ik_look_ahead ik) c k a) \/ keyword_in_path ik kw p);
  rf_complete : forall ik c p kw a b k ke, rr_included r = Some ik ->
    true_positive r at_ false c a b -> occ c k ke -> ke <= a ->
    near_keyword (ik_look_ahead ik) c k a ->
    exists a' b', In (a', b') (fst (f c p false kw)) /\ a' <= a /\ (a < b' \/ k < a');
  rf_path : forall ik c p kw a b, rr_included r = Some ik -> keyword_in_path ik kw p ->
    true_positive r at_ false c a b ->
    exists a' b', In (a', b') (fst (f c p false kw)) /\ a' <= a < b';
  rf_no_path : forall ik c p q e kw, rr_included r = Some ik -> ~ keyword_in_path ik kw p ->
    f c p e kw = f c q e false;
  rf_excluded_sound : forall ik c p kw t, rr_included r = Some ik -> In t (snd (f c p true kw)) ->
    exists a b, true_positive r at_ false c a b /\ part_at c a b t /\
      ((exists k ke, occ c k ke /\ k <= a) \/ keyword_in_path ik kw p);
  (* the first keyword found enables everything behind it *)
  rf_excluded_complete : forall ik c p kw k ke a b,
    rr_included r = Some ik -> occ c k ke -> ke <= a -> true_positive r at_ false c a b ->
    exists a' b' t, a' <= a < b' /\ true_positive r at_ false c a' b' /\ part_at c a' b' t /\
      In t (snd (f c p true kw))
}.
