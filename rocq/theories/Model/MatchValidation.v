(* Model of sds/src/match_validation/config.rs, http_validator.rs, aws_validator.rs,
   validator_utils.rs and of the parts of sds/src/scanner/mod.rs that create and use the
   validators *)
From Verif Require Export Model.Scanner Model.Ascii.

(* ---- strings ---- *)
(* [str::strip_prefix] *)
Fixpoint strip_prefix (p s : str) : option str :=
  match p, s with
  | [], _ => Some s
  | _ :: _, [] => None
  | x :: p', y :: s' => if (x =? y)%N then strip_prefix p' s' else None
  end.
Definition str_starts_with (p s : str) : bool :=
  match strip_prefix p s with Some _ => true | None => false end.

(* [str::contains] *)
Fixpoint str_contains (pat s : str) : bool :=
  str_starts_with pat s || match s with [] => false | _ :: s' => str_contains pat s' end.

(* [str::replace] with a non-empty pattern: from left to right, without overlaps;
   [skip] counts the characters of the pattern still to be passed over *)
Fixpoint replace_from (pat by_ : str) (skip : nat) (s : str) : str :=
  match s with
  | [] => []
  | c :: s' =>
    match skip with
    | S k => replace_from pat by_ k s'
    | 0 => if str_starts_with pat s
           then by_ ++ replace_from pat by_ (length pat - 1) s'
           else c :: replace_from pat by_ 0 s'
    end
  end.
Definition str_replace (pat by_ s : str) : str := replace_from pat by_ 0 s.

(* ---- config.rs ---- *)
Definition host_keyword : str := chars "$HOST".
Definition match_keyword : str := chars "$MATCH".

(* config.rs 52-59 *)
Definition header_value (h : str * str) (value : str) : str :=
  str_replace match_keyword value (snd h).

(* config.rs 9 *)
Definition default_timeout : N := 3.

(* config.rs 82-114 *)
Definition http_config_new (endpoint : str) (hosts : list str) : result http_config str :=
  let no_hosts := match hosts with [] => true | _ => false end in
  if str_contains host_keyword endpoint && no_hosts
  then Err (chars "Endpoint contains $HOST but no hosts are provided")
  else if negb (str_contains host_keyword endpoint) && negb no_hosts
  then Err (chars "Endpoint does not contain $HOST but hosts are provided")
  else
    let endpoints := map (fun host => str_replace host_keyword host endpoint) hosts in
    Ok {| hc_endpoints := match endpoints with [] => [endpoint] | _ => endpoints end;
          hc_method := MGet;
          hc_headers := [];
          hc_valid := [(200, 300)%N];
          hc_invalid := [(400, 500)%N];
          hc_timeout := default_timeout |}.

(* config.rs 117-125 *)
Record http_builder := {
  hb_endpoint : str;
  hb_hosts : list str;
  hb_method : http_method;
  hb_headers : list (str * str);
  hb_valid : list (N * N);
  hb_invalid : list (N * N);
  hb_timeout : N
}.

(* config.rs 128-145 *)
Definition http_builder_new (endpoint : str) : http_builder := {|
  hb_endpoint := endpoint;
  hb_hosts := [];
  hb_method := MGet;
  hb_headers := [(chars "Authorization", chars "Bearer $MATCH")];
  hb_valid := [(200, 300)%N];
  hb_invalid := [(400, 500)%N];
  hb_timeout := default_timeout
|}.

(* config.rs 176-185 *)
Definition http_build (b : http_builder) : result http_config str :=
  match http_config_new (hb_endpoint b) (hb_hosts b) with
  | Err e => Err e
  | Ok c =>
    Ok {| hc_endpoints := hc_endpoints c;
          hc_method := hb_method b;
          hc_headers := hb_headers b;
          hc_valid := hb_valid b;
          hc_invalid := hb_invalid b;
          hc_timeout := hb_timeout b |}
  end.

(* the boxed [dyn MatchValidator]: there are two implementations *)
Inductive validator := VAws (c : aws_config) | VHttp (c : http_config).

(* config.rs 210-224 *)
Definition into_match_validator (t : match_validation_type) : result validator str :=
  match t with
  | MVAws (AwsSecret c) => Ok (VAws c)
  | MVAws _ => Err (chars "This aws type shall not be used to create a validator")
  | MVCustomHttp c => Ok (VHttp c)
  end.

(* config.rs 229: derived [PartialEq] *)
Fixpoint strs_eqb (a b : list str) : bool :=
  match a, b with
  | [], [] => true
  | x :: a', y :: b' => str_eqb x y && strs_eqb a' b'
  | _, _ => false
  end.
Definition internal_eqb (a b : internal_type) : bool :=
  match a, b with
  | ITAws, ITAws => true
  | ITCustomHttp x, ITCustomHttp y => strs_eqb x y
  | _, _ => false
  end.

(* ---- hash maps ----
   A map is a list of entries with distinct keys; the order in which it is iterated is
   an argument of the functions below. *)
Fixpoint assoc {K V} (eqb : K -> K -> bool) (k : K) (l : list (K * V)) : option V :=
  match l with
  | [] => None
  | (k', v) :: l' => if eqb k k' then Some v else assoc eqb k l'
  end.

(* a parallel loop over the entries: one panic is a panic of the whole loop *)
Fixpoint try_map {A B} (f : A -> outcome B) (l : list A) : outcome (list B) :=
  match l with
  | [] => Ret []
  | x :: l' => let* y := f x in let* ys := try_map f l' in Ret (y :: ys)
  end.

(* [matches[i].match_status.merge(s)] *)
Definition with_status (m : rule_match) (s : match_status) : rule_match := {|
  rm_rule := rm_rule m; rm_path := rm_path m; rm_kind := rm_kind m;
  rm_start := rm_start m; rm_end := rm_end m; rm_shift := rm_shift m;
  rm_value := rm_value m; rm_status := s |}.
Fixpoint merge_at (i : nat) (s : match_status) (ms : list rule_match) : outcome (list rule_match) :=
  match ms, i with
  | [], _ => Panic
  | m :: ms', 0 => Ret (with_status m (status_merge (rm_status m) s) :: ms')
  | m :: ms', S i' => let* ms'' := merge_at i' s ms' in Ret (m :: ms'')
  end.

(* ---- http_validator.rs ---- *)
(* what is handed to the HTTP client; reqwest itself is not modelled *)
Record http_request := {
  rq_method : http_method;
  rq_endpoint : str;
  rq_timeout : N;
  rq_headers : list (str * str)
}.
(* the answer of the client: a status code, or the text of an error *)
Definition http_reply := result N str.

Definition code_text (n : N) : str := decimal (N.to_nat n).
Definition unexpected_code (code : N) : match_status :=
  StError (chars "Unexpected HTTP status code " ++ code_text code).
Definition request_error (message : str) : match_status :=
  StError (chars "Error making HTTP request: " ++ message).

(* [Range::contains] *)
Definition range_contains (code : N) (r : N * N) : bool := ((fst r <=? code) && (code <? snd r))%N.

(* http_validator.rs 24-45 *)
Definition http_response_status (c : http_config) (code : N) : match_status :=
  if existsb (range_contains code) (hc_valid c) then Valid
  else if existsb (range_contains code) (hc_invalid c) then Invalid
  else unexpected_code code.

(* http_validator.rs 118-133 *)
Definition http_request_for (c : http_config) (endpoint value : str) : http_request := {|
  rq_method := hc_method c;
  rq_endpoint := endpoint;
  rq_timeout := hc_timeout c;
  rq_headers := map (fun h => (fst h, header_value h value)) (hc_headers c)
|}.

(* http_validator.rs 103-113: the keys of the map, for each match every endpoint;
   repeated endpoints give one entry *)
Fixpoint dedup (l : list str) : list str :=
  match l with
  | [] => []
  | x :: l' => if existsb (str_eqb x) (dedup l') then dedup l' else x :: dedup l'
  end.
Definition http_keys (c : http_config) (ms : list rule_match) : list (nat * str) :=
  flat_map (fun i => map (fun e => (i, e)) (dedup (hc_endpoints c))) (seq 0 (length ms)).

(* http_validator.rs 101-153.  [reply i r] is the answer to the request made for the
   match [i]; [ord] is the order in which the map is iterated. *)
Definition http_entry (c : http_config) (reply : nat -> http_request -> http_reply)
  (ms : list rule_match) (k : nat * str) : outcome ((nat * str) * match_status) :=
  let* m := unwrap (nth_error ms (fst k)) in
  let* value := unwrap (rm_value m) in
  Ret (k, match reply (fst k) (http_request_for c (snd k) value) with
          | Ok code => http_response_status c code
          | Err e => request_error e
          end).
Definition http_validate (c : http_config) (reply : nat -> http_request -> http_reply)
  (ord : list ((nat * str) * match_status) -> list ((nat * str) * match_status))
  (ms : list rule_match) : outcome (list rule_match) :=
  let* entries := try_map (http_entry c reply ms) (http_keys c ms) in
  foldM (fun acc e => merge_at (fst (fst e)) (snd e) acc) (ord entries) ms.

(* ---- aws_validator.rs ---- *)
(* [([A-Za-z0-9\/+]{40})\b], aws_validator.rs 18-20; [word] tells the word characters
   outside ASCII *)
Definition is_word (word : char -> bool) (c : char) : bool :=
  if (c <? 128)%N then is_ascii_alnum c || (c =? 95)%N else word c.
Definition key_char (c : char) : bool := is_ascii_alnum c || (c =? 47)%N || (c =? 43)%N.
Definition word_boundary (word : char -> bool) (before after : option char) : bool :=
  let w o := match o with Some c => is_word word c | None => false end in
  xorb (w before) (w after).

(* aws_validator.rs 70-76: the leftmost match of the regex *)
Fixpoint extract_aws_secret (word : char -> bool) (s : str) : str :=
  let key := firstn 40 s in
  if (length key =? 40) && forallb key_char key &&
     word_boundary word (hd_error (rev key)) (hd_error (skipn 40 s))
  then key
  else match s with [] => [] | _ :: s' => extract_aws_secret word s' end.

(* what is handed to the HTTP client for AWS; the signature is the only header that
   depends on the matches *)
Record aws_request := { ar_endpoint : str; ar_timeout : N; ar_authorization : str }.

(* the parts of the world seen by the AWS validator: word characters outside ASCII, the
   crate aws_sign_v4 (the value of the Authorization header for an endpoint, an id and a
   secret; [None] when it panics), and the answers *)
Record aws_world := {
  aw_word : char -> bool;
  aw_sign : str -> str -> str -> option str;
  aw_reply : nat -> nat -> aws_request -> http_reply
}.

(* [HeaderValue::from_str] of the crate http: visible ASCII, space and tab *)
Definition header_char (c : char) : bool := in_range 32 126 c || (c =? 9)%N.

(* validator_utils.rs 3-38, the date and the constant headers are left out; the
   signature is parsed as a header value and unwrapped *)
Definition aws_headers (w : aws_world) (c : aws_config) (id secret : str) : outcome aws_request :=
  let* signature := unwrap (aw_sign w (aws_sts_endpoint c) id secret) in
  if forallb header_char signature
  then Ret {| ar_endpoint := aws_sts_endpoint c; ar_timeout := aws_timeout c;
              ar_authorization := signature |}
  else Panic.

(* aws_validator.rs 95-116; [status] is the status before *)
Definition aws_response_status (status : match_status) (code : N) : match_status :=
  if in_range 200 299 code then Valid
  else if in_range 400 499 code then Invalid
  else if in_range 500 599 code then unexpected_code code
  else status.

(* aws_validator.rs 36-54: the indices of the matches of AWS ids and of AWS secrets *)
Definition aws_kind (rules : list rule) (m : rule_match) : outcome (option aws_type) :=
  let* r := unwrap (nth_error rules (rm_rule m)) in
  Ret match rule_validation r with Some (MVAws t) => Some t | _ => None end.
Fixpoint aws_indices (rules : list rule) (i : nat) (ms : list rule_match)
  : outcome (list nat * list nat) :=
  match ms with
  | [] => Ret ([], [])
  | m :: ms' =>
    let* k := aws_kind rules m in
    let* (ids, secrets) := aws_indices rules (S i) ms' in
    Ret match k with
        | Some AwsId => (i :: ids, secrets)
        | Some (AwsSecret _) => (ids, i :: secrets)
        | _ => (ids, secrets)
        end
  end.

(* aws_validator.rs 127-170 *)
Definition aws_entry (c : aws_config) (w : aws_world) (ms : list rule_match) (k : nat * nat)
  : outcome ((nat * nat) * match_status) :=
  let* id := unwrap (nth_error ms (fst k)) in
  let* secret := unwrap (nth_error ms (snd k)) in
  match rm_value secret, rm_value id with
  | None, _ => Ret (k, StError (chars "Missing match value for aws_secret"))
  | Some _, None => Ret (k, StError (chars "Missing match value for aws_id"))
  | Some secret_value, Some id_value =>
    let* request := aws_headers w c id_value (extract_aws_secret (aw_word w) secret_value) in
    Ret (k, match aw_reply w (fst k) (snd k) request with
            | Ok code => aws_response_status NotChecked code
            | Err e => request_error e
            end)
  end.

(* aws_validator.rs 78-93 and 118-176 *)
Definition aws_validate (c : aws_config) (w : aws_world)
  (ord : list ((nat * nat) * match_status) -> list ((nat * nat) * match_status))
  (rules : list rule) (ms : list rule_match) : outcome (list rule_match) :=
  let* (ids, secrets) := aws_indices rules 0 ms in
  let* entries := try_map (aws_entry c w ms) (list_prod ids secrets) in
  foldM (fun acc e =>
           let* acc' := merge_at (fst (fst e)) (snd e) acc in
           merge_at (snd (fst e)) (snd e) acc')
    (ord entries) ms.

(* ---- scanner/mod.rs ---- *)
(* mod.rs 650-673: the validators created by [build], with the flag return_matches; the
   error is InvalidMatchValidator(InternalError) *)
Fixpoint build_validators (types : list (option match_validation_type))
  (acc : list (internal_type * validator)) (return_matches : bool)
  : result (list (internal_type * validator) * bool) unit :=
  match types with
  | [] => Ok (acc, return_matches)
  | None :: types' => build_validators types' acc return_matches
  | Some t :: types' =>
    if can_create_match_validator t then
      match into_match_validator t with
      | Ok v =>
        match assoc internal_eqb (get_internal_type t) acc with
        | Some _ => build_validators types' acc return_matches
        | None => build_validators types' (acc ++ [(get_internal_type t, v)]) true
        end
      | Err _ => Err tt
      end
    else build_validators types' acc return_matches
  end.

(* the answers of the network and the iteration orders during one call *)
Record validation_world := {
  vw_http : internal_type -> nat -> http_request -> http_reply;
  vw_http_order : internal_type -> list ((nat * str) * match_status) -> list ((nat * str) * match_status);
  vw_aws : aws_world;
  vw_aws_order : list ((nat * nat) * match_status) -> list ((nat * nat) * match_status);
  vw_group_order : list (internal_type * list rule_match) -> list (internal_type * list rule_match)
}.

(* mod.rs 396-409 *)
Fixpoint push_group (k : internal_type) (m : rule_match)
  (groups : list (internal_type * list rule_match)) : list (internal_type * list rule_match) :=
  match groups with
  | [] => [(k, [m])]
  | (k', ms) :: groups' =>
    if internal_eqb k k' then (k', ms ++ [m]) :: groups' else (k', ms) :: push_group k m groups'
  end.
Definition group_matches (rules : list rule) (ms : list rule_match)
  : outcome (list (internal_type * list rule_match)) :=
  foldM (fun groups m =>
           let* r := unwrap (nth_error rules (rm_rule m)) in
           Ret match rule_validation r with
               | Some t => push_group (get_internal_type t) m groups
               | None => groups
               end) ms [].

(* mod.rs 412-422 *)
Definition validate_group (validators : list (internal_type * validator)) (w : validation_world)
  (rules : list rule) (g : internal_type * list rule_match)
  : outcome (internal_type * list rule_match) :=
  match assoc internal_eqb (fst g) validators with
  | None => Ret g
  | Some (VAws c) =>
    let* ms := aws_validate c (vw_aws w) (vw_aws_order w) rules (snd g) in Ret (fst g, ms)
  | Some (VHttp c) =>
    let* ms := http_validate c (vw_http w (fst g)) (vw_http_order w (fst g)) (snd g) in Ret (fst g, ms)
  end.

(* [sort_by_key(start_index)]: a stable sort *)
Fixpoint insert_by_start (m : rule_match) (l : list rule_match) : list rule_match :=
  match l with
  | [] => [m]
  | x :: l' => if rm_start m <=? rm_start x then m :: l else x :: insert_by_start m l'
  end.
Definition sort_by_start (l : list rule_match) : list rule_match := fold_right insert_by_start [] l.

(* mod.rs 388-430; the error is NoMatchValidationType *)
Definition validate_matches (validators : list (internal_type * validator)) (w : validation_world)
  (return_matches : bool) (rules : list rule) (ms : list rule_match)
  : outcome (result (list rule_match) unit) :=
  if negb return_matches then Ret (Err tt)
  else
    let* groups := group_matches rules ms in
    let* validated := try_map (validate_group validators w rules) groups in
    Ret (Ok (sort_by_start (flat_map snd (vw_group_order w validated)))).
