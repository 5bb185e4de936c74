(* Vocabulary for the statements on whole scans *)
From Verif Require Export Spec.Scan Spec.Events.

(* Everything a statement on [scan] supposes: an additive encoding, sorting functions
   that sort, rules that behave as [fs] on the strings of the event, an event that
   shows [strs] and obeys the laws of events, and enough fuel. *)
Record scan_setting (I : event_impl) (w : char -> nat) (srt : sorter) (sc : scanner)
    (fs : nat -> finder) (e : ev_t I) (strs : list (path * str))
    (holds : ev_t I -> list (path * str * bool) -> Prop) (fuel : nat) : Prop := {
  ss_shifts : shifts_additive (ev_enc I) w;
  ss_indices : indices_additive (ev_enc I) w;
  ss_sorter : sorter_ok srt;
  ss_rules : scanner_meets sc fs strs;
  ss_event : event_laws I e strs holds;
  ss_fuel : enough_fuel fuel strs
}.

(* The scan of an event with strings [strs] ended in [e'] with reports [outs]: every
   string at [p] with content [c] became [c'] with its own reports [os], such that
   [claim p c c' os]; [e'] holds the new strings and [outs] are all reports in order. *)
Definition scan_result (I : event_impl) (strs : list (path * str))
    (holds : ev_t I -> list (path * str * bool) -> Prop) (e' : ev_t I) (outs : list rule_match)
    (claim : path -> str -> str -> list rule_match -> Prop) : Prop :=
  exists res : list (str * list rule_match),
    length res = length strs /\ outs = flat_map snd res /\
    holds e' (map (fun x => (fst (fst x), fst (snd x), false)) (combine strs res)) /\
    forall p c c' os, In ((p, c), (c', os)) (combine strs res) -> claim p c c' os.

(* the original texts behind the reports of a string: report number [k] stands for a
   match of its rule at [a..b] in the original *)
Definition reports_from (sc : scanner) (fs : nat -> finder) (blocked : list nat) (p : path)
    (c : str) (os : list rule_match) (ranges : list (nat * nat)) : Prop :=
  Forall2 (fun o ab => candidate sc fs blocked p c (rm_rule o, fst ab, snd ab)) os ranges.

(* the rule of a report *)
Definition rule_of (sc : scanner) (o : rule_match) (r : rule) : Prop :=
  nth_error (sc_rules sc) (rm_rule o) = Some r.

(* two scanners that differ at most in how their rules search *)
Definition same_rules (r1 r2 : list rule) : Prop :=
  Forall2 (fun a b => rule_action a = rule_action b /\ rule_scope a = rule_scope b /\
             rule_validation a = rule_validation b /\ rule_multipass a = rule_multipass b) r1 r2.
Record similar (s1 s2 : scanner) : Prop := {
  sm_rules : same_rules (sc_rules s1) (sc_rules s2);
  sm_kw : sc_kw_paths s1 = sc_kw_paths s2;
  sm_wild : sc_wild s1 = sc_wild s2;
  sm_multipass : sc_multipass s1 = sc_multipass s2;
  sm_return : sc_return_matches s1 = sc_return_matches s2
}.

(* the two rules find the same ranges and remember the same texts, in any order *)
Definition same_finder (f1 f2 : finder) : Prop :=
  forall c p e kw,
    (forall ab, In ab (fst (f1 c p e kw)) <-> In ab (fst (f2 c p e kw))) /\
    (forall t, In t (snd (f1 c p e kw)) <-> In t (snd (f2 c p e kw))).

(* blocked rules replaced by rules that never find anything *)
Definition silent (r : rule) : rule := {|
  rule_action := rule_action r; rule_scope := rule_scope r; rule_validation := rule_validation r;
  rule_multipass := rule_multipass r;
  rule_string_matches := fun _ _ _ _ _ _ x => Ret ([], x)
|}.
Fixpoint silence_from (i : nat) (blocked : list nat) (rs : list rule) : list rule :=
  match rs with
  | [] => []
  | r :: rs' => (if existsb (Nat.eqb i) blocked then silent r else r) :: silence_from (S i) blocked rs'
  end.
Definition silence (blocked : list nat) (s : scanner) : scanner := {|
  sc_rules := silence_from 0 blocked (sc_rules s);
  sc_kw_paths := sc_kw_paths s; sc_wild := sc_wild s; sc_multipass := sc_multipass s;
  sc_return_matches := sc_return_matches s
|}.

(* the rules of the scanner, as functions: one run with just enough fuel *)
Definition finder_of (r : rule) : finder := fun c p e kw =>
  match rule_string_matches r (nbytes c + 2) c p (fun _ => e) [] kw [] with
  | Ret x => x
  | _ => ([], [])
  end.
Definition finders (sc : scanner) (i : nat) : finder :=
  match nth_error (sc_rules sc) i with
  | Some r => finder_of r
  | None => fun _ _ _ _ => ([], [])
  end.

(* The string [c] with reports [os] is cut at the reported matches into the pieces
   [cs]: each piece is a match of the reported rule, replaced as its action says. *)
Definition cut_by (sc : scanner) (fs : nat -> finder) (blocked : list nat) (h : hashers)
    (p : path) (c c' : str) (os : list rule_match) (g0 : str) (cs : list cut) : Prop :=
  c = original g0 cs /\ c' = rewritten g0 cs /\ length cs = length os /\
  forall k o u, nth_error os k = Some o -> nth_error cs k = Some u ->
    exists r, rule_of sc o r /\
      candidate sc fs blocked p c (rm_rule o, nbytes (original g0 (firstn k cs)),
                                   nbytes (original g0 (firstn k cs) ++ cut_old u)) /\
      cut_new u = redacted h (rule_action r) (cut_old u).

(* matches of a string as triples: rule index, start, end *)
Definition mutating_rule (sc : scanner) (i : nat) : Prop :=
  exists r, nth_error (sc_rules sc) i = Some r /\ rule_action r <> ActNone.
(* mutating first, then earlier, then longer, then lower rule index *)
Definition beats (sc : scanner) (x y : nat * nat * nat) : Prop :=
  let '(i, a, b) := x in let '(j, c, d) := y in
  (mutating_rule sc i /\ ~ mutating_rule sc j) \/
  ((mutating_rule sc i <-> mutating_rule sc j) /\
   (a < c \/ (a = c /\ (d < b \/ (b = d /\ i < j))))).
Definition share_byte (x y : nat * nat * nat) : Prop :=
  let '(_, a, b) := x in let '(_, c, d) := y in exists n, a <= n < b /\ c <= n < d.
(* the matches behind the reports [os] with original ranges [ranges] *)
Definition reported (os : list rule_match) (ranges : list (nat * nat)) : list (nat * nat * nat) :=
  map (fun x => (rm_rule (fst x), fst (snd x), snd (snd x))) (combine os ranges).

(* string number [n] of the event became [fst] of result number [n], with its reports
   in [snd]; the event [e'] holds the new strings and [outs] are all reports *)
Definition scan_results (I : event_impl) (strs : list (path * str))
    (holds : ev_t I -> list (path * str * bool) -> Prop) (e' : ev_t I) (outs : list rule_match)
    (res : list (str * list rule_match)) : Prop :=
  length res = length strs /\ outs = flat_map snd res /\
  holds e' (map (fun x => (fst (fst x), fst (snd x), false)) (combine strs res)).

(* the replacement type documented for an action *)
Inductive announced : match_action -> replacement_kind -> Prop :=
| an_none : announced ActNone RKNone
| an_redact : forall t, announced (ActRedact t) RKPlaceholder
| an_hash : announced ActHash RKHash
| an_utf16_hash : announced ActUtf16Hash RKHash
| an_partial_first : forall n, announced (ActPartialRedact FirstCharacters n) RKPartialStart
| an_partial_last : forall n, announced (ActPartialRedact LastCharacters n) RKPartialEnd.
