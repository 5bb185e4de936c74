(* Accepted keyword configurations, what keywords mean, sanitized paths *)
From Verif Require Export Spec.KeywordPattern.

(* Unicode White_Space *)
Definition white_space : list N :=
  [9; 10; 11; 12; 13; 32; 133; 160; 5760; 8192; 8193; 8194; 8195; 8196; 8197; 8198; 8199; 8200; 8201;
   8202; 8232; 8233; 8239; 8287; 12288]%N.

(* [t] is [kw] without surrounding white space *)
Definition trims_to (kw t : str) : Prop :=
  exists pre post, kw = pre ++ t ++ post /\
    (forall c, In c pre -> In c white_space) /\ (forall c, In c post -> In c white_space) /\
    (forall c, hd_error t = Some c -> ~ In c white_space) /\
    (forall c, hd_error (rev t) = Some c -> ~ In c white_space).

(* [t] is the keyword that is looked for: trimmed, and for excluded keywords without
   '-' and '_' *)
Definition effective (excluded : bool) (kw t : str) : Prop :=
  exists u, trims_to kw u /\ t = if excluded then filter not_dash u else u.

(* what is wrong with a keyword *)
Inductive keyword_problem (look_ahead : nat) (excluded : bool) (kw : str) : keyword_error -> Prop :=
| kp_long : look_ahead < length kw -> keyword_problem look_ahead excluded kw (KeywordTooLong look_ahead)
| kp_empty : length kw <= look_ahead -> effective excluded kw [] -> keyword_problem look_ahead excluded kw EmptyKeyword.

(* the first problem in a list of keywords *)
Definition first_problem (look_ahead : nat) (excluded : bool) (kws : list str) (e : keyword_error) : Prop :=
  exists pre kw post, kws = pre ++ kw :: post /\ keyword_problem look_ahead excluded kw e /\
    forall k e', In k pre -> ~ keyword_problem look_ahead excluded k e'.
Definition no_problem (look_ahead : nat) (excluded : bool) (kws : list str) : Prop :=
  forall k e, In k kws -> ~ keyword_problem look_ahead excluded k e.

(* the error of a configuration *)
Inductive config_error (c : keywords_config) : keyword_error -> Prop :=
| ce_look_ahead : ~ (1 <= kc_look_ahead c <= 50) -> config_error c InvalidLookAheadCharacterCount
| ce_too_many : 1 <= kc_look_ahead c <= 50 -> ~ (length (kc_included c) <= 50 /\ length (kc_excluded c) <= 50) ->
    config_error c TooManyKeywords
| ce_included : forall e, 1 <= kc_look_ahead c <= 50 ->
    length (kc_included c) <= 50 -> length (kc_excluded c) <= 50 ->
    first_problem (kc_look_ahead c) false (kc_included c) e -> config_error c e
| ce_excluded : forall e, 1 <= kc_look_ahead c <= 50 ->
    length (kc_included c) <= 50 -> length (kc_excluded c) <= 50 ->
    no_problem (kc_look_ahead c) false (kc_included c) ->
    first_problem (kc_look_ahead c) true (kc_excluded c) e -> config_error c e.

Definition config_accepted (c : keywords_config) : Prop :=
  1 <= kc_look_ahead c <= 50 /\ length (kc_included c) <= 50 /\ length (kc_excluded c) <= 50 /\
  no_problem (kc_look_ahead c) false (kc_included c) /\ no_problem (kc_look_ahead c) true (kc_excluded c).

Definition alphanumeric (c : char) : Prop :=
  (48 <= c <= 57 \/ 65 <= c <= 90 \/ 97 <= c <= 122)%N.

(* The keyword [t] (compared as the text [u]) occurs at [a..b] of [s], not inside a
   longer word if it starts (ends) with a letter or digit. *)
Definition occurs_as_word (fold : char -> char) (t u s : str) (a b : nat) : Prop :=
  exists before x after, s = before ++ x ++ after /\ nbytes before = a /\ nbytes (before ++ x) = b /\
    map fold x = map fold u /\
    (forall c, hd_error t = Some c -> alphanumeric c ->
       word_char (hd_error (rev before)) <> word_char (hd_error (x ++ after))) /\
    (forall c, hd_error (rev t) = Some c -> alphanumeric c ->
       word_char (hd_error (rev (before ++ x))) <> word_char (hd_error after)).

(* ---- paths ---- *)
Definition separator (c : char) : Prop := In c [45; 95; 46; 32; 47]%N. (* - _ . space / *)
Definition capital (c : char) : Prop := (65 <= c <= 90)%N.

(* what becomes of the character [cur] after [prev]: separators become '.', a '.' is
   put before a capital that follows neither a capital nor a separator; the last
   character and everything after a separator stays *)
Definition piece (is_last : bool) (prev cur : char) (out : str) : Prop :=
  let dot := ~ separator prev /\ separator cur in
  let camel := ~ separator prev /\ ~ capital prev /\ capital cur in
  if is_last then out = [cur]
  else (dot -> out = [46%N]) /\ (camel -> out = [46%N; cur]) /\ (~ dot -> ~ camel -> out = [cur]).

Definition standardized (s out : str) : Prop :=
  match s with
  | [] => out = []
  | c :: rest =>
    exists pieces, out = c :: concat pieces /\ length pieces = length rest /\
      forall j prev cur x, nth_error s j = Some prev -> nth_error s (S j) = Some cur ->
        nth_error pieces j = Some x -> piece (S j =? nbytes s - 1) prev cur x
  end.

(* the names of the fields of a path *)
Definition fields (p : path) : list str :=
  flat_map (fun s => match s with Field f => [f] | Index _ => [] end) p.

(* texts joined with a separator *)
Fixpoint join (sep : str) (l : list str) : str :=
  match l with
  | [] => []
  | [x] => x
  | x :: l' => x ++ sep ++ join sep l'
  end.
