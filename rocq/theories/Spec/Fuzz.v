(* What the fuzz harness compares, and what it can reach *)
From Verif Require Export Spec.Rescan Spec.Codec Model.Fuzz.

(* rules that find by their pattern alone, whatever they do with it *)
Record pattern_rule (c : rule_config) : Prop := {
  pr_keywords : cf_keywords c = None;
  pr_check : cf_validator c = None
}.

(* the pattern matches somewhere in the string *)
Definition somewhere (M : meaning) (s : str) : Prop := exists i j, i <= length s /\ matched M i j.

(* Hyperscan reads patterns as PCRE does; with the flag dot_all, "." matches newlines too *)
Definition dot_all_mode : mode := {| mi := false; mm := false; ms := true; mx := false |}.
Definition pcre_dot_all (E : env) (pattern s : str) : meaning :=
  fun i t j => exists a, parse_regex_pattern 51 pattern = Ret (Ok a) /\ means E (end_before s) s dot_all_mode a i t j.
(* what is assumed of Hyperscan: it finds something exactly if there is a match *)
Definition hyperscan_ok (E : env) (hyperscan : str -> option (str -> list (nat * nat))) : Prop :=
  forall pattern find, hyperscan pattern = Some find -> forall s, find s <> [] <-> somewhere (pcre_dot_all E pattern s) s.

(* no "." in the pattern *)
Fixpoint no_dots (a : ast) : Prop :=
  match a with
  | AClass CDot => False
  | ARepetition _ b | ACapturing b | ANamed _ b | ANonCapturing _ b => no_dots b
  | AConcat l | AAlternation l =>
    (fix all (l : list ast) : Prop := match l with [] => True | a :: l' => no_dots a /\ all l' end) l
  | AEmpty | ALiteral _ | AClass _ | AFlags _ | AAssertion _ => True
  end.

(* the number that a text of bytes stands for, most significant byte first *)
Fixpoint big_endian (b : octets) : N :=
  match b with
  | [] => 0
  | x :: b' => x * 256 ^ N.of_nat (length b') + big_endian b'
  end%N.
Definition no_comma (t : list N) : Prop := ~ In 44%N t.
(* Unicode scalar values *)
Definition is_text (s : str) : Prop := exists b, utf8_of s b.
Definition all_bytes (b : octets) : Prop := Forall (fun x => (x < 256)%N) b.

(* numbers that the generator can draw *)
Definition drawable (d : draws) : Prop := (dr_kind d < 4)%N /\ 1 <= dr_count d < 20.
