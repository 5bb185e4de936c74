(* What the texts of errors say (C103) *)
From Coq Require Import Lia.
From Verif Require Import Proofs.MessagesClaims Examples.Build.

(* C103.  If a scanner cannot be built, the text of the error says something true about one
   of the rules. *)
Theorem C103_truthful :
  forall en b e, build en b = Ret (Err e) -> exists c, In c (bu_rules b) /\ truthful en c (create_message e).
Proof. exact c103_truthful_lemma. Qed.
Print Assumptions C103_truthful.

(* the tests of sds/src/scanner/error.rs 46-114 *)
Example error_texts :
  map create_message [EInvalidKeywords EmptyKeyword; EInvalidKeywords TooManyKeywords; EInvalidKeywords (KeywordTooLong 10);
    EInvalidKeywords InvalidLookAheadCharacterCount; EInvalidRegex InvalidSyntax; EInvalidRegex ExceededDepthLimit;
    EInvalidRegex TooComplex; EInvalidRegex MatchesEmptyString; EInvalidMatchAction] =
  [chars "Empty keywords are not allowed"; chars "No more than 50 keywords are allowed";
   chars "Keywords cannot be longer than the look ahead character count (10)";
   chars "Look ahead character count should be bigger than 0 and cannot be longer than 50";
   chars "Invalid regex syntax"; chars "The regex pattern is nested too deeply";
   chars "The regex has exceeded the complexity limit (try simplifying the regex)";
   chars "Regex patterns are not allowed to match an empty string"; chars "Partial redaction chars must be non-zero"].
Proof. vm_compute. reflexivity. Qed.
Definition long_keyword : rule_config := {|
  cf_pattern := chars "ab"; cf_action := ActNone; cf_scope := ScopeExclude [];
  cf_keywords := Some {| kc_look_ahead := 4; kc_included := [chars "key"; chars " key "]; kc_excluded := [] |};
  cf_validator := None; cf_labels := []; cf_validation := None |}.
Example C103_truthful_applies :
  build literal_engines (builder_new [plain_config (chars "ab"); long_keyword]) = Ret (Err (EInvalidKeywords (KeywordTooLong 4))) /\
  build literal_engines (builder_new [plain_config (chars "a{5000}")]) = Ret (Err (EInvalidRegex ExceededQuantifierLimit)) /\
  create_message (EInvalidRegex ExceededQuantifierLimit) = chars "Regex quantifier is too high. Max is 3000" /\
  truthful literal_engines long_keyword (chars "Keywords cannot be longer than the look ahead character count (4)") /\
  ~ truthful literal_engines long_keyword (chars "Partial redaction chars must be non-zero").
Proof.
  split; [vm_compute; reflexivity|]. split; [vm_compute; reflexivity|]. split; [vm_compute; reflexivity|]. split.
  - assert (H : build literal_engines (builder_new [long_keyword]) = Ret (Err (EInvalidKeywords (KeywordTooLong 4)))) by (vm_compute; reflexivity).
    apply C103_truthful in H as (c & [<-|[]] & T). exact T.
  - intros T. inversion T. discriminate.
Qed.

(* The numbers in the texts are the limits: what the text forbids is refused with it, and
   nothing else is. *)
Theorem C103_limits :
  forall en c t n, reads_as t n ->
  (create_message (EInvalidRegex ExceededQuantifierLimit) = chars "Regex quantifier is too high. Max is " ++ t ->
   (build en (builder_new [c]) = Ret (Err (EInvalidRegex ExceededQuantifierLimit)) <->
    exists a q m, pattern_read a (cf_pattern c) /\ repeats q a /\ counts (q_kind q) m /\ (N.of_nat n < m)%N)) /\
  forall k, cf_keywords c = Some k -> (forall e, ~ pattern_error en (cf_pattern c) e) -> (forall d, cf_action c <> ActPartialRedact d 0) ->
  (create_message (EInvalidKeywords InvalidLookAheadCharacterCount) =
     chars "Look ahead character count should be bigger than 0 and cannot be longer than " ++ t ->
   (build en (builder_new [c]) = Ret (Err (EInvalidKeywords InvalidLookAheadCharacterCount)) <->
    kc_look_ahead k = 0 \/ n < kc_look_ahead k)) /\
  (create_message (EInvalidKeywords TooManyKeywords) = chars "No more than " ++ t ++ chars " keywords are allowed" ->
   (build en (builder_new [c]) = Ret (Err (EInvalidKeywords TooManyKeywords)) <->
    build en (builder_new [c]) <> Ret (Err (EInvalidKeywords InvalidLookAheadCharacterCount)) /\
    (n < length (kc_included k) \/ n < length (kc_excluded k)))) /\
  (create_message (EInvalidKeywords (KeywordTooLong (kc_look_ahead k))) =
     chars "Keywords cannot be longer than the look ahead character count (" ++ t ++ chars ")" -> n = kc_look_ahead k).
Proof. exact c103_limits_lemma. Qed.
Print Assumptions C103_limits.

Example C103_limits_applies : reads_as (chars "3000") 3000 /\ reads_as (chars "50") 50 /\
  create_message (EInvalidRegex ExceededQuantifierLimit) = chars "Regex quantifier is too high. Max is " ++ chars "3000" /\
  create_message (EInvalidKeywords InvalidLookAheadCharacterCount) =
    chars "Look ahead character count should be bigger than 0 and cannot be longer than " ++ chars "50" /\
  create_message (EInvalidKeywords TooManyKeywords) = chars "No more than " ++ chars "50" ++ chars " keywords are allowed".
Proof.
  split; [|split]; [| |split; [|split]; vm_compute; reflexivity]; (split; [discriminate|]); (split; [intros x [<-|[<-|H]]; try (split; vm_compute; discriminate)|]).
  all: try (split; [vm_compute; reflexivity|]; vm_compute; intros ? H; discriminate H).
  - destruct H as [<-|[<-|[]]]; split; vm_compute; discriminate.
  - destruct H.
Qed.

(* Different errors have different texts. *)
Theorem C103_distinct :
  forall e e', create_message e = create_message e' -> e = e'.
Proof. exact c103_distinct_lemma. Qed.
Print Assumptions C103_distinct.

Example C103_distinct_applies : create_message (EInvalidKeywords (KeywordTooLong 5)) <> create_message (EInvalidKeywords (KeywordTooLong 50)) /\
  create_message (EInvalidRegex ExceededDepthLimit) <> create_message (EInvalidRegex TooComplex).
Proof. split; vm_compute; discriminate. Qed.

(* "Empty keywords are not allowed" is also said of keywords that are neither empty nor
   blank: excluded keywords that consist of '-' and '_'. *)
Theorem C103_empty_refuted :
  ~ (forall en b, build en b = Ret (Err (EInvalidKeywords EmptyKeyword)) ->
   exists c k kw, In c (bu_rules b) /\ cf_keywords c = Some k /\ (In kw (kc_included k) \/ In kw (kc_excluded k)) /\
     forall x, In x kw -> In x white_space).
Proof. exact c103_empty_refuted_lemma. Qed.
Print Assumptions C103_empty_refuted.

Definition dashes : rule_config := {|
  cf_pattern := chars "ab"; cf_action := ActNone; cf_scope := ScopeExclude [];
  cf_keywords := Some {| kc_look_ahead := 4; kc_included := []; kc_excluded := [chars "-_-"] |};
  cf_validator := None; cf_labels := []; cf_validation := None |}.
Example C103_empty_refuted_witness : build literal_engines (builder_new [dashes]) = Ret (Err (EInvalidKeywords EmptyKeyword)).
Proof. vm_compute. reflexivity. Qed.

