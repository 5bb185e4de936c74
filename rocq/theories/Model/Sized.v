(* Partial redaction with the limit on the size of strings: match_action.rs 150-195 builds
   the asterisks by [String::repeat], whose size may be too large for any string.  The
   functions around it are repeated from Model/MatchAction.v and Model/Scanner.v.
   Simplifications: allocating a string that is not too large succeeds (if memory runs out
   the process is aborted); other strings are taken to have room in memory. *)
From Verif Require Export Model.Scanner.

(* isize::MAX of a 64-bit target *)
Definition isize_max : Z := 9223372036854775807.

(* [str::repeat] of the standard library: no string and no vector is larger than
   isize::MAX bytes, "capacity overflow" *)
Definition string_repeat (s : str) (n : nat) : outcome str :=
  if (Z.of_nat (blen s) * Z.of_nat n <=? isize_max)%Z then Ret (concat (repeat s n)) else Panic.

(* match_action.rs 150-173, as [partial_redaction_first] *)
Definition partial_redaction_first_sized (n : nat) (m : str) : outcome replacement :=
  let match_len := length m in
  let* last_byte :=
    (if n <? match_len then
       let* p := unwrap (iter_nth (char_indices m) n) in Ret (fst p)
     else Ret (blen m)) in
  let* stars := string_repeat [partial_redact_character] n in
  Ret {| rep_start := 0; rep_end := last_byte; rep_text := stars |}.

(* match_action.rs 175-195, as [partial_redaction_last] *)
Definition partial_redaction_last_sized (n : nat) (m : str) : outcome replacement :=
  let match_len := length m in
  let* start_byte :=
    (if n <? match_len then
       match n with
       | 0 => Panic
       | S n' => let* p := unwrap (iter_nth_back (char_indices m) n') in Ret (fst p)
       end
     else Ret 0) in
  let* stars := string_repeat [partial_redact_character] n in
  Ret {| rep_start := start_byte; rep_end := blen m; rep_text := stars |}.

(* match_action.rs 99-133, as [get_replacement] *)
Definition get_replacement_sized (h : hashers) (a : match_action) (m : str)
  : outcome (option replacement) :=
  match a with
  | ActNone => Ret None
  | ActRedact r => Ret (Some {| rep_start := 0; rep_end := blen m; rep_text := r |})
  | ActHash => Ret (Some {| rep_start := 0; rep_end := blen m; rep_text := hash_utf8 h m |})
  | ActUtf16Hash => Ret (Some {| rep_start := 0; rep_end := blen m; rep_text := hash_utf16 h m |})
  | ActPartialRedact FirstCharacters n =>
      let* r := partial_redaction_first_sized n m in Ret (Some r)
  | ActPartialRedact LastCharacters n =>
      let* r := partial_redaction_last_sized n m in Ret (Some r)
  end.

(* scanner/mod.rs 456-539, as [apply_match_actions_for_string] *)
Definition apply_match_actions_for_string_sized {E} (h : hashers) (sc : scanner) (p : path)
    (content : str) (delta : Z) (cdelta : enc_shift E) (m : internal_match E)
  : outcome (str * Z * enc_shift E * rule_match) :=
  let* r := unwrap (nth_error (sc_rules sc) (im_rule m)) in
  let* custom_start :=
    as_usize (Z.of_nat (enc_get_index E (im_cstart m) (im_start m)) + enc_get_shift E cdelta delta) in
  let* value :=
    (if sc_return_matches sc then
       let* a := as_usize (Z.of_nat (im_start m) + delta) in
       let* b := as_usize (Z.of_nat (im_end m) + delta) in
       let* t := slice content a b in
       Ret (Some t)
     else Ret None) in
  let* st :=
    (if is_mutating (rule_action r) then
       let* a := as_usize (Z.of_nat (im_start m) + delta) in
       let* b := as_usize (Z.of_nat (im_end m) + delta) in
       let* t := slice content a b in
       let* orep := get_replacement_sized h (rule_action r) t in
       match orep with
       | None => Ret (content, delta, cdelta)
       | Some rep =>
         let* before := slice t (rep_start rep) (rep_end rep) in
         let cdelta' := enc_adjust_shift E cdelta before (rep_text rep) in
         let delta' := (delta + (Z.of_nat (blen (rep_text rep)) - Z.of_nat (blen before)))%Z in
         let* content' := replace_range content (a + rep_start rep) (a + rep_end rep) (rep_text rep) in
         Ret (content', delta', cdelta')
       end
     else Ret (content, delta, cdelta)) in
  let '(content', delta', cdelta') := st in
  let shift := enc_get_shift E cdelta' delta' in
  let* custom_end := as_usize (Z.of_nat (enc_get_index E (im_cend m) (im_end m)) + shift) in
  let status := match rule_validation r with Some _ => NotChecked | None => NotAvailable end in
  Ret (content', delta', cdelta',
       {| rm_rule := im_rule m; rm_path := p;
          rm_kind := replacement_type (rule_action r);
          rm_start := custom_start; rm_end := custom_end; rm_shift := shift;
          rm_value := value; rm_status := status |}).

(* scanner/mod.rs 434-453, as [apply_match_actions] *)
Fixpoint apply_match_actions_loop_sized {E} (h : hashers) (sc : scanner) (p : path)
    (content : str) (delta : Z) (cdelta : enc_shift E) (ms : list (internal_match E))
  : outcome (str * list rule_match) :=
  match ms with
  | [] => Ret (content, [])
  | m :: ms' =>
    let* st := apply_match_actions_for_string_sized h sc p content delta cdelta m in
    let '(content', delta', cdelta', out) := st in
    let* rest := apply_match_actions_loop_sized h sc p content' delta' cdelta' ms' in
    Ret (fst rest, out :: snd rest)
  end.

(* scanner/mod.rs 342-374, as [process_string] *)
Definition process_string_sized {E} (h : hashers) (srt : sorter) (sc : scanner) (x : excluded_set)
    (p : path) (ms : list (internal_match E)) (content : str)
  : outcome (str * bool * list rule_match) :=
  let* ms1 := (if sc_multipass sc then multipass_retain (sc_rules sc) x content ms else Ret ms) in
  let* ms2 := sort_and_remove_overlapping_rules srt (sc_rules sc) ms1 in
  let will_mutate := existsb (fun m => mutating_at (sc_rules sc) (im_rule m)) ms2 in
  let* res := apply_match_actions_loop_sized h sc p content 0 (enc_zero_shift E) ms2 in
  Ret (fst res, will_mutate, snd res).

(* scanner/mod.rs 340-375, as [process_all] *)
Fixpoint process_all_sized (I : event_impl) (h : hashers) (srt : sorter) (sc : scanner)
    (x : excluded_set) (e : ev_t I) (l : list (path * list (internal_match (ev_enc I))))
  : outcome (ev_t I * list rule_match) :=
  match l with
  | [] => Ret (e, [])
  | (p, ms) :: l' =>
    let* content := ev_get I e p in
    let* res := process_string_sized h srt sc x p ms content in
    let '(content', mutated, out) := res in
    let* rest := process_all_sized I h srt sc x (ev_set I e p content' mutated) l' in
    Ret (fst rest, out ++ snd rest)
  end.

(* scanner/mod.rs 316-386, as [scan] *)
Definition scan_sized (I : event_impl) (fuel : nat) (h : hashers) (srt : sorter) (sc : scanner)
    (blocked : list nat) (e : ev_t I) : outcome (ev_t I * list rule_match) :=
  let* res := visit_string_rule_combinations (sc_tree sc) (length (sc_rules sc)) (sc_wild sc)
                (ev_ops I e) (visit_content fuel srt sc blocked) ([], []) in
  let '((found, x), log) := res in
  process_all_sized I h srt sc x (ev_visited I e log) found.
