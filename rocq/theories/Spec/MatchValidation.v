(* Specification of match validation, written without the functions of the model that
   combine statuses, replace keywords or classify answers *)
From Verif Require Export Model.MatchValidation Spec.Codec Spec.Sorting.

(* ---- order of statuses ---- *)
(* [a] is before [b] in the dictionary *)
Inductive text_before : str -> str -> Prop :=
| tb_prefix : forall p y b, text_before p (p ++ y :: b)
| tb_differ : forall p x a y b, (x < y)%N -> text_before (p ++ x :: a) (p ++ y :: b).

(* the order of the declaration in match_status.rs 2-8, highest first: Valid, Error,
   Invalid, NotAvailable, NotChecked; two errors are ordered by their messages *)
Inductive above : match_status -> match_status -> Prop :=
| above_valid : forall s, s <> Valid -> above Valid s
| above_error : forall e s, s <> Valid -> (forall e', s <> StError e') -> above (StError e) s
| above_message : forall e e', text_before e' e -> above (StError e) (StError e')
| above_invalid_1 : above Invalid NotAvailable
| above_invalid_2 : above Invalid NotChecked
| above_not_available : above NotAvailable NotChecked.

(* the order of the comment in aws_validator.rs 83, highest first: Valid, Invalid,
   Error; the other two below *)
Definition documented_level (s : match_status) : nat :=
  match s with
  | Valid => 4 | Invalid => 3 | StError _ => 2 | NotAvailable => 1 | NotChecked => 0
  end.

(* [s] is one of the statuses [P] and none of them is above it *)
Definition highest (P : match_status -> Prop) (s : match_status) : Prop :=
  P s /\ forall t, P t -> ~ above t s.

(* ---- text ---- *)
Definition occurs (pat s : str) : Prop := exists a b, s = a ++ pat ++ b.
(* [t] is [s] with the occurrences of [pat], from left to right, replaced by [by_] *)
Inductive replaced (pat by_ : str) : str -> str -> Prop :=
| rep_none : forall s, ~ occurs pat s -> replaced pat by_ s s
| rep_first : forall a b t,
    (forall a' b', a ++ pat ++ b = a' ++ pat ++ b' -> length a <= length a') ->
    replaced pat by_ b t -> replaced pat by_ (a ++ pat ++ b) (a ++ by_ ++ t).

(* ---- matches ---- *)
(* all the fields but the status *)
Record same_match (m m' : rule_match) : Prop := {
  sm_rule : rm_rule m = rm_rule m';
  sm_path : rm_path m = rm_path m';
  sm_kind : rm_kind m = rm_kind m';
  sm_start : rm_start m = rm_start m';
  sm_end : rm_end m = rm_end m';
  sm_shift : rm_shift m = rm_shift m';
  sm_value : rm_value m = rm_value m'
}.

Definition permutes {A} (ord : list A -> list A) : Prop := forall l, Permutation l (ord l).
Definition orders_ok (w : validation_world) : Prop :=
  (forall t, permutes (vw_http_order w t)) /\ permutes (vw_aws_order w) /\
  permutes (vw_group_order w).
(* two runs that get the same answers *)
Definition same_answers (w1 w2 : validation_world) : Prop :=
  vw_http w1 = vw_http w2 /\ vw_aws w1 = vw_aws w2.

(* ---- HTTP ---- *)
Definition in_some_range (code : N) (rs : list (N * N)) : Prop :=
  exists lo hi, In (lo, hi) rs /\ (lo <= code < hi)%N.
Inductive http_result (c : http_config) : http_reply -> match_status -> Prop :=
| hr_valid : forall code, in_some_range code (hc_valid c) -> http_result c (Ok code) Valid
| hr_invalid : forall code, ~ in_some_range code (hc_valid c) ->
    in_some_range code (hc_invalid c) -> http_result c (Ok code) Invalid
| hr_other : forall code d, ~ in_some_range code (hc_valid c) ->
    ~ in_some_range code (hc_invalid c) -> reads_as d (N.to_nat code) ->
    http_result c (Ok code) (StError (chars "Unexpected HTTP status code " ++ d))
| hr_error : forall e, http_result c (Err e) (StError (chars "Error making HTTP request: " ++ e)).

(* the request made to the endpoint [e] for the value [v] *)
Record request_is (c : http_config) (e v : str) (r : http_request) : Prop := {
  ri_method : rq_method r = hc_method c;
  ri_endpoint : rq_endpoint r = e;
  ri_timeout : rq_timeout r = hc_timeout c;
  ri_headers : Forall2 (fun template header =>
      fst header = fst template /\ replaced (chars "$MATCH") v (snd template) (snd header))
    (hc_headers c) (rq_headers r)
}.

(* a status that the match [m] can take: its own, or the result of one of the endpoints *)
Definition http_candidate (c : http_config) (reply : http_request -> http_reply)
  (m : rule_match) (s : match_status) : Prop :=
  s = rm_status m \/
  exists e v r, In e (hc_endpoints c) /\ rm_value m = Some v /\ request_is c e v r /\
    http_result c (reply r) s.

(* ---- AWS ---- *)
Definition word_character (word : char -> bool) (c : char) : Prop :=
  ((c < 128) /\ ((48 <= c <= 57) \/ (65 <= c <= 90) \/ (97 <= c <= 122) \/ c = 95)%N)%N \/
  (128 <= c)%N /\ word c = true.
Definition ends_in_word (word : char -> bool) (s : str) : Prop :=
  exists a c, s = a ++ [c] /\ word_character word c.
Definition starts_with_word (word : char -> bool) (s : str) : Prop :=
  exists c b, s = c :: b /\ word_character word c.
Definition key_character (c : char) : Prop :=
  (48 <= c <= 57 \/ 65 <= c <= 90 \/ 97 <= c <= 122 \/ c = 47 \/ c = 43)%N.
(* 40 key characters [k], followed by [b], with a word boundary between *)
Definition key_before (word : char -> bool) (k b : str) : Prop :=
  length k = 40 /\ (forall c, In c k -> key_character c) /\
  ((ends_in_word word k /\ ~ starts_with_word word b) \/
   (~ ends_in_word word k /\ starts_with_word word b)).
(* the first such text in [v], or nothing *)
Definition secret_of (word : char -> bool) (v k : str) : Prop :=
  (exists a b, v = a ++ k ++ b /\ key_before word k b /\
     forall a' k' b', v = a' ++ k' ++ b' -> key_before word k' b' -> length a <= length a') \/
  (k = [] /\ forall a' k' b', v = a' ++ k' ++ b' -> ~ key_before word k' b').

Inductive aws_result : http_reply -> match_status -> Prop :=
| awr_valid : forall code, (200 <= code < 300)%N -> aws_result (Ok code) Valid
| awr_invalid : forall code, (400 <= code < 500)%N -> aws_result (Ok code) Invalid
| awr_server : forall code d, (500 <= code < 600)%N -> reads_as d (N.to_nat code) ->
    aws_result (Ok code) (StError (chars "Unexpected HTTP status code " ++ d))
| awr_other : forall code, (code < 200 \/ 300 <= code < 400 \/ 600 <= code)%N ->
    aws_result (Ok code) NotChecked
| awr_error : forall e, aws_result (Err e) (StError (chars "Error making HTTP request: " ++ e)).

Definition rule_type (rules : list rule) (m : rule_match) (t : match_validation_type) : Prop :=
  exists r, nth_error rules (rm_rule m) = Some r /\ rule_validation r = Some t.
Definition id_match (rules : list rule) (m : rule_match) : Prop :=
  rule_type rules m (MVAws AwsId).
Definition secret_match (rules : list rule) (m : rule_match) : Prop :=
  exists c, rule_type rules m (MVAws (AwsSecret c)).

(* the answer to the request made for the id match [id] (number [i]) and the secret
   match [secret] (number [j]) *)
Definition pair_answer (c : aws_config) (w : aws_world) (i j : nat) (id secret : rule_match)
  (a : http_reply) : Prop :=
  exists v s k auth, rm_value id = Some v /\ rm_value secret = Some s /\
    secret_of (aw_word w) s k /\ aw_sign w (aws_sts_endpoint c) v k = Some auth /\
    a = aw_reply w i j {| ar_endpoint := aws_sts_endpoint c; ar_timeout := aws_timeout c;
                          ar_authorization := auth |}.
Inductive pair_result (c : aws_config) (w : aws_world) (i j : nat) (id secret : rule_match)
  : match_status -> Prop :=
| pr_no_secret : rm_value secret = None ->
    pair_result c w i j id secret (StError (chars "Missing match value for aws_secret"))
| pr_no_id : rm_value secret <> None -> rm_value id = None ->
    pair_result c w i j id secret (StError (chars "Missing match value for aws_id"))
| pr_answer : forall a s, pair_answer c w i j id secret a -> aws_result a s ->
    pair_result c w i j id secret s.

(* the match number [n] of [ms] takes part in the pair of the id match [i] and the
   secret match [j] *)
Definition in_pair (rules : list rule) (ms : list rule_match) (n i j : nat) (id secret : rule_match) : Prop :=
  nth_error ms i = Some id /\ id_match rules id /\
  nth_error ms j = Some secret /\ secret_match rules secret /\ (n = i \/ n = j).
Definition aws_candidate (c : aws_config) (w : aws_world) (rules : list rule) (ms : list rule_match)
  (n : nat) (m : rule_match) (s : match_status) : Prop :=
  s = rm_status m \/
  exists i j id secret, in_pair rules ms n i j id secret /\ pair_result c w i j id secret s.

(* the signatures of all pairs can be computed and sent *)
Definition signable (w : aws_world) : Prop :=
  forall e id secret, exists auth, aw_sign w e id secret = Some auth /\
    forall c, In c auth -> (32 <= c <= 126)%N \/ c = 9%N.

(* ---- the scanner ---- *)
(* the validator made from the first rule of a given kind *)
Definition makes (t : match_validation_type) (v : validator) : Prop :=
  match t with
  | MVAws (AwsSecret c) => v = VAws c
  | MVAws _ => False
  | MVCustomHttp c => v = VHttp c
  end.
Definition same_kind (t : match_validation_type) (k : internal_type) : Prop :=
  match t, k with
  | MVAws _, ITAws => True
  | MVCustomHttp c, ITCustomHttp es => hc_endpoints c = es
  | _, _ => False
  end.
Definition first_of_kind (types : list (option match_validation_type)) (k : internal_type)
  (v : validator) : Prop :=
  exists before t after, types = before ++ Some t :: after /\ same_kind t k /\ makes t v /\
    forall t', In (Some t') before -> same_kind t' k -> forall v', ~ makes t' v'.

Definition sorted_by_start (ms : list rule_match) : Prop :=
  StronglySorted (fun a b => rm_start a <= rm_start b) ms.
