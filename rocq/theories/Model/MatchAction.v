(* Model of sds/src/match_action.rs *)
From Verif Require Export Model.Str.

(* match_action.rs 35-39 *)
Inductive direction := FirstCharacters | LastCharacters.

(* match_action.rs 12-33 *)
Inductive match_action :=
| ActNone
| ActRedact (replacement : str)
| ActHash
| ActUtf16Hash
| ActPartialRedact (d : direction) (character_count : nat).

(* match_action.rs 49-69: [true] = Ok(()), [false] = PartialRedactionNumCharsZero *)
Definition action_validate (a : match_action) : bool :=
  match a with
  | ActPartialRedact _ n => negb (n =? 0)
  | ActNone | ActRedact _ | ActHash | ActUtf16Hash => true
  end.

(* match_action.rs 72-82 *)
Definition is_mutating (a : match_action) : bool :=
  match a with
  | ActNone => false
  | ActRedact _ | ActHash | ActUtf16Hash | ActPartialRedact _ _ => true
  end.

(* rule_match.rs 63-70 *)
Inductive replacement_kind :=
| RKNone | RKPlaceholder | RKHash | RKPartialStart | RKPartialEnd.

(* match_action.rs 84-97 *)
Definition replacement_type (a : match_action) : replacement_kind :=
  match a with
  | ActNone => RKNone
  | ActRedact _ => RKPlaceholder
  | ActHash | ActUtf16Hash => RKHash
  | ActPartialRedact FirstCharacters _ => RKPartialStart
  | ActPartialRedact LastCharacters _ => RKPartialEnd
  end.

(* match_action.rs 198-203 *)
Record replacement := { rep_start : nat; rep_end : nat; rep_text : str }.

(* match_action.rs 135-148.  [farmhash::fingerprint64] followed by hexadecimal
   formatting is external; the two hash functions (of the UTF-8 text, and of the
   UTF-16 text) are parameters from the matched text to the printed hash. *)
Record hashers := { hash_utf8 : str -> str; hash_utf16 : str -> str }.

(* match_action.rs 41 *)
Definition partial_redact_character : char := 42%N.

(* match_action.rs 150-173 *)
Definition partial_redaction_first (n : nat) (m : str) : outcome replacement :=
  let match_len := length m in
  let* last_byte :=
    (if n <? match_len then
       let* p := unwrap (iter_nth (char_indices m) n) in Ret (fst p)
     else Ret (blen m)) in
  Ret {| rep_start := 0; rep_end := last_byte;
         rep_text := repeat partial_redact_character n |}.

(* match_action.rs 175-195; [*num_characters - 1] underflows (panics) for 0 *)
Definition partial_redaction_last (n : nat) (m : str) : outcome replacement :=
  let match_len := length m in
  let* start_byte :=
    (if n <? match_len then
       match n with
       | 0 => Panic
       | S n' => let* p := unwrap (iter_nth_back (char_indices m) n') in Ret (fst p)
       end
     else Ret 0) in
  Ret {| rep_start := start_byte; rep_end := blen m;
         rep_text := repeat partial_redact_character n |}.

(* match_action.rs 99-133 *)
Definition get_replacement (h : hashers) (a : match_action) (m : str)
  : outcome (option replacement) :=
  match a with
  | ActNone => Ret None
  | ActRedact r => Ret (Some {| rep_start := 0; rep_end := blen m; rep_text := r |})
  | ActHash => Ret (Some {| rep_start := 0; rep_end := blen m; rep_text := hash_utf8 h m |})
  | ActUtf16Hash => Ret (Some {| rep_start := 0; rep_end := blen m; rep_text := hash_utf16 h m |})
  | ActPartialRedact FirstCharacters n =>
      let* r := partial_redaction_first n m in Ret (Some r)
  | ActPartialRedact LastCharacters n =>
      let* r := partial_redaction_last n m in Ret (Some r)
  end.
