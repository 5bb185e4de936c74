(* Model of the fuzz harness: sds/tools/fuzz/src/main.rs.  The two entry points (9-22), which
   pass bytes on, and the output of the feature manual_test (80-86, 97-101) are left out.
   StdRng is not modelled: the numbers it gives for a seed are a parameter. *)
From Verif Require Export Model.Builder Model.Jwt Model.Event.

(* sds/src/scanner/regex_rule/config.rs 33-44 *)
Definition regex_rule_config_new (pattern : str) : rule_config := {|
  cf_pattern := pattern; cf_action := ActNone; cf_scope := ScopeExclude []; cf_keywords := None;
  cf_validator := None; cf_labels := []; cf_validation := None
|}.
(* config.rs 50-52 *)
Definition with_match_action (a : match_action) (c : rule_config) : rule_config := {|
  cf_pattern := cf_pattern c; cf_action := a; cf_scope := cf_scope c; cf_keywords := cf_keywords c;
  cf_validator := cf_validator c; cf_labels := cf_labels c; cf_validation := cf_validation c
|}.
(* sds/src/scanner/mod.rs 632-635 *)
Definition with_keywords_should_match_event_paths (v : bool) (b : builder) : builder := {|
  bu_rules := bu_rules b; bu_labels := bu_labels b; bu_kw_paths := v; bu_wild := bu_wild b;
  bu_multipass := bu_multipass b
|}.

(* 24-30 *)
Fixpoint split_bytes_once (input : octets) : option (octets * octets) :=
  match input with
  | [] => None
  | b :: input' =>
    if (b =? 44)%N then Some ([], input')
    else let? p := split_bytes_once input' in Some (b :: fst p, snd p)
  end.

(* 39-45: the loop over the first eight bytes; a u64 loses the bits that are shifted out *)
Definition shift_in (seed b : N) : N := ((seed * 256) mod 2 ^ 64 + b)%N.
Definition read_seed (rand_seed : octets) : N := fold_left shift_in (firstn 8 rand_seed) 0%N.

(* 32-45: pattern, input and seed *)
Definition raw_parts (b : octets) : option (str * str * N) :=
  let? p := split_bytes_once b in
  let? q := split_bytes_once (snd p) in
  let? pattern := from_utf8 (fst p) in
  let? input := from_utf8 (fst q) in
  Some (pattern, input, read_seed (snd q)).

(* the numbers drawn: gen_range(0..4), gen_bool(0.5), gen_range(1..20); the last two are
   drawn only where they are used *)
Record draws := { dr_kind : N; dr_first : bool; dr_count : nat }.
(* 53-59 *)
Definition gen_direction (d : draws) : direction :=
  if dr_first d then FirstCharacters else LastCharacters.
(* 61-75 *)
Definition gen_match_action (d : draws) : match_action :=
  match dr_kind d with
  | 0 => ActNone
  | 1 => ActHash
  | 2 => ActRedact (chars "[REDACT]")
  | _ => ActPartialRedact (gen_direction d) (dr_count d)
  end%N.

(* 88-92 *)
Definition fuzz_builder (pattern : str) (a : match_action) : builder :=
  with_keywords_should_match_event_paths true
    (builder_new [with_match_action a (regex_rule_config_new pattern)]).

(* 77-116.  [hyperscan] gives the matches of a pattern that Hyperscan can compile, and
   nothing for the others; without the feature it gives nothing for any pattern. *)
Definition run_fuzz (en : engines) (fuel : nat) (h : hashers) (srt : sorter)
    (hyperscan : str -> option (str -> list (nat * nat))) (pattern input : str) (d : draws) : outcome unit :=
  let* r := build en (fuzz_builder pattern (gen_match_action d)) in
  match r with
  | Err _ => Ret tt
  | Ok t =>
    let* scanned := scan string_event fuel h srt (bt_scanner t) [] input in
    match hyperscan pattern with
    | None => Ret tt
    | Some find =>
      let is_empty {A} (l : list A) := match l with [] => true | _ => false end in
      if Bool.eqb (negb (is_empty (snd scanned))) (negb (is_empty (find input))) then Ret tt else Panic
    end
  end.

(* 32-51 *)
Definition run_raw_fuzz (run : str -> str -> N -> outcome unit) (b : octets) : outcome (option unit) :=
  match raw_parts b with
  | None => Ret None
  | Some (pattern, input, seed) => let* _ := run pattern input seed in Ret (Some tt)
  end.
