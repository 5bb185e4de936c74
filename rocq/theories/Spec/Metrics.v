(* Specification of the metrics of a scanner *)
From Verif Require Export Model.Metrics Spec.RegexScan.

(* [n] elements of the list have the property *)
Inductive tally {A} (P : A -> Prop) : list A -> nat -> Prop :=
| tally_nil : tally P [] 0
| tally_yes : forall x l n, P x -> tally P l n -> tally P (x :: l) (S n)
| tally_no : forall x l n, ~ P x -> tally P l n -> tally P (x :: l) n.

(* exactly [n] numbers have the property *)
Definition number_of (P : nat -> Prop) (n : nat) : Prop :=
  exists l, NoDup l /\ (forall a, In a l <-> P a) /\ length l = n.

(* the searches [cs] are those of the rules of the scanner *)
Definition searches_of (sc : scanner) (cs : list counted_search) : Prop :=
  Forall2 (fun r c => exists a s v rr, r = regex_compiled a s v rr /\ c = regex_counted rr) (sc_rules sc) cs.

(* and each rule [i] is the regex rule [rrs i], whose regex matches as [ats i] says *)
Definition counted_scanner (sc : scanner) (cs : list counted_search) (rrs : nat -> regex_rule)
    (ats : nat -> str -> nat -> option nat) (strs : list (path * str)) : Prop :=
  forall i r, nth_error (sc_rules sc) i = Some r ->
    exists a s v occ, r = regex_compiled a s v (rrs i) /\ rr_index (rrs i) = i /\ action_validate a = true /\
      nth_error cs i = Some (regex_counted (rrs i)) /\ regex_ok (rrs i) (ats i) occ /\
      forall p c, In (p, c) strs -> scannable (rrs i) (ats i) c.

(* rule [i] is run on the string at path [p] *)
Definition runs_at (sc : scanner) (blocked : list nat) (i : nat) (p : path) : Prop :=
  exists r, nth_error (sc_rules sc) i = Some r /\ ~ In i blocked /\ included (sc_wild sc) (rule_scope r) p.

(* and the path is not excluded for it *)
Definition in_scope (sc : scanner) (blocked : list nat) (i : nat) (p : path) : Prop :=
  exists r, nth_error (sc_rules sc) i = Some r /\ ~ In i blocked /\ included (sc_wild sc) (rule_scope r) p /\
    ~ excluded (sc_wild sc) (rule_scope r) p.

(* Excluded keywords in the string [c]: the offsets at which a match of the regex starts
   right after an excluded keyword, except inside the matches that count *)
Definition keyword_hits (rr : regex_rule) (at_ : str -> nat -> option nat) (c : str) (n : nat) : Prop :=
  match rr_included rr, rr_excluded rr with
  | None, Some xk =>
    exists ms, scan_chain rr at_ true c 0 ms /\
      number_of (fun a => at_ c a <> None /\ excluded_keyword_before xk c a /\
                          forall m, In m ms -> ~ (fst m <= a < snd m)) n
  | _, _ => n = 0
  end.

(* Multi-pass in the string [c] at [p]: the matches of rule [i] there, in scope, whose text
   was also found in an excluded path *)
Definition multipass_hits (sc : scanner) (fs : nat -> finder) (blocked : list nat) (strs : list (path * str))
    (i : nat) (p : path) (c : str) (n : nat) : Prop :=
  (in_scope sc blocked i p ->
   tally (fun ab => suppressed sc fs blocked strs c (i, fst ab, snd ab)) (fst (fs i c p false (sc_kw_paths sc))) n) /\
  (~ in_scope sc blocked i p -> n = 0).

(* Keywords in a string at a path: none unless the rule is run *)
Definition keyword_hits_at (sc : scanner) (blocked : list nat) (i : nat) (rr : regex_rule)
    (at_ : str -> nat -> option nat) (p : path) (c : str) (n : nat) : Prop :=
  (runs_at sc blocked i p -> keyword_hits rr at_ c n) /\ (~ runs_at sc blocked i p -> n = 0).

(* the value of a counter after the increments [em] *)
Fixpoint counter_value (scanner_labels : labels) (rule_labels : list labels) (k : metric_key)
    (em : list emission) (n : nat) : Prop :=
  match em with
  | [] => n = 0
  | e :: em' =>
    exists m, counter_value scanner_labels rule_labels k em' m /\
      ((emission_key scanner_labels rule_labels e = Some k /\ n = emission_amount e + m) \/
       (emission_key scanner_labels rule_labels e <> Some k /\ n = m))
  end.
