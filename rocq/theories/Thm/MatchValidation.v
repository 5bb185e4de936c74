(* Match validation (C48-C53, C66) *)
From Coq Require Import Lia.
From Verif Require Import Proofs.MatchValidationClaims Examples.Validation.

(* Combining two statuses is commutative, associative and idempotent, and the result is
   never below either of them. *)
Theorem C48_combination :
  forall a b c, status_merge a b = status_merge b a /\
  status_merge (status_merge a b) c = status_merge a (status_merge b c) /\
  status_merge a a = a /\ ~ above a (status_merge a b) /\ ~ above b (status_merge a b).
Proof. exact c48_combination_lemma. Qed.
Print Assumptions C48_combination.

Example C48_combination_applies :
  status_merge (StError (chars "a")) (StError (chars "b")) = StError (chars "b") /\
  status_merge Invalid (StError (chars "a")) = StError (chars "a") /\
  status_merge (StError (chars "a")) Valid = Valid /\ status_merge NotAvailable NotChecked = NotAvailable.
Proof. repeat split. Qed.

(* The result of the HTTP validator does not depend on the order in which the results of
   the requests are combined. *)
Theorem C48_http :
  forall c reply ord1 ord2 ms, permutes ord1 -> permutes ord2 ->
  http_validate c reply ord1 ms = http_validate c reply ord2 ms.
Proof. exact c48_http_lemma. Qed.
Print Assumptions C48_http.

Example C48_http_applies : permutes (@rev ((nat * list N) * match_status)) /\
  (exists out, http_validate two_hosts (fun _ => eu_only) (@rev _) [found 1 40 (Some (chars "t1"))] = Ret out /\
     map rm_status out = [Valid]).
Proof. split; [intros l; apply Permutation_rev|]. eexists. split; [vm_compute; reflexivity|reflexivity]. Qed.

(* The same for the AWS validator. *)
Theorem C48_aws :
  forall c w ord1 ord2 rules ms, permutes ord1 -> permutes ord2 ->
  aws_validate c w ord1 rules ms = aws_validate c w ord2 rules ms.
Proof. exact c48_aws_lemma. Qed.
Print Assumptions C48_aws.

Example C48_aws_applies : exists out,
  aws_validate sts echo (@rev _) mixed_rules [found 2 30 (Some (chars "good")); found 3 10 (Some (chars "s"));
    found 2 50 (Some (chars "bad"))] = Ret out /\ map rm_status out = [Valid; Valid; Invalid].
Proof. eexists. split; [vm_compute; reflexivity|reflexivity]. Qed.

(* Two calls that get the same answers return the same matches with the same statuses, up
   to the order of the list; and one fails exactly when the other does. *)
Theorem C48_scanner :
  forall vs w1 w2 rm rules ms, orders_ok w1 -> orders_ok w2 -> same_answers w1 w2 ->
  match validate_matches vs w1 rm rules ms, validate_matches vs w2 rm rules ms with
  | Ret (Ok o1), Ret (Ok o2) => Permutation o1 o2
  | r1, r2 => r1 = r2
  end.
Proof. exact c48_scanner_lemma. Qed.
Print Assumptions C48_scanner.

Example C48_scanner_applies : orders_ok (world echo false) /\ orders_ok (world echo true) /\
  same_answers (world echo false) (world echo true) /\
  exists o1 o2, validate_matches [(ITCustomHttp [chars "eu"; chars "us"], VHttp two_hosts); (ITAws, VAws sts)]
      (world echo false) true mixed_rules mixed_matches = Ret (Ok o1) /\
    validate_matches [(ITCustomHttp [chars "eu"; chars "us"], VHttp two_hosts); (ITAws, VAws sts)]
      (world echo true) true mixed_rules mixed_matches = Ret (Ok o2) /\
    length o1 = 5 /\ map rm_status o1 = [Valid; Valid; Valid; Invalid; Valid].
Proof.
  split; [apply world_orders|]. split; [apply world_orders|]. split; [split; reflexivity|].
  eexists _, _. split; [vm_compute; reflexivity|]. split; [vm_compute; reflexivity|]. split; reflexivity.
Qed.

(* The order of the returned list does depend on the iteration order of the map of groups:
   matches of different validators with the same start index can be exchanged. *)
Theorem C48_list_refuted :
  ~ (forall vs w1 w2 rules ms o1 o2, orders_ok w1 -> orders_ok w2 -> same_answers w1 w2 ->
   validate_matches vs w1 true rules ms = Ret (Ok o1) ->
   validate_matches vs w2 true rules ms = Ret (Ok o2) -> o1 = o2).
Proof. exact c48_list_refuted_lemma. Qed.
Print Assumptions C48_list_refuted.

(* The result is not the highest status in the documented order Valid, Invalid, Error: an
   error wins over Invalid. *)
Theorem C49_refuted :
  ~ (forall a b, documented_level (status_merge a b) = Nat.max (documented_level a) (documented_level b)).
Proof. exact c49_refuted_lemma. Qed.
Print Assumptions C49_refuted.

(* It is the highest in the order Valid, Error, Invalid, NotAvailable, NotChecked, and
   among errors the one with the last message in dictionary order. *)
Theorem C49_order :
  forall a b, highest (fun s => s = a \/ s = b) (status_merge a b).
Proof. exact c49_order_lemma. Qed.
Print Assumptions C49_order.

Example C49_order_applies : above (StError (chars "x")) Invalid /\ above (StError (chars "b")) (StError (chars "ab")) /\
  above Invalid NotAvailable.
Proof.
  split; [apply above_error; [discriminate|intros; discriminate]|]. split; [|constructor].
  apply above_message. apply (tb_differ [] 97%N (chars "b") 98%N []). reflexivity.
Qed.

(* The documented order is respected for all other pairs of statuses. *)
Theorem C49_documented :
  forall a b, (a = Invalid -> forall e, b <> StError e) -> (b = Invalid -> forall e, a <> StError e) ->
  documented_level (status_merge a b) = Nat.max (documented_level a) (documented_level b).
Proof. exact c49_documented_lemma. Qed.
Print Assumptions C49_documented.

Example C49_documented_applies : (Invalid = Invalid -> forall e, Valid <> StError e) /\
  (Valid = Invalid -> forall e, Invalid <> StError e) /\ documented_level Valid = 4 /\ documented_level Invalid = 3.
Proof. repeat split; discriminate. Qed.

(* Matches are lost: the matches of rules without validation are dropped. *)
Theorem C50_refuted :
  ~ (forall rm rm' vs w rules ms out, build_validators (map rule_validation rules) [] rm = Ok (vs, rm') ->
   orders_ok w -> validate_matches vs w rm' rules ms = Ret (Ok out) ->
   exists l, Permutation ms l /\ Forall2 same_match l out).
Proof. exact c50_refuted_lemma. Qed.
Print Assumptions C50_refuted.

(* What is returned are the matches of the rules that have a validation type, once each
   and with only their status changed, sorted by start index; the other matches are
   dropped. *)
Theorem C50_kept :
  forall vs w rules ms out, orders_ok w -> validate_matches vs w true rules ms = Ret (Ok out) ->
  exists kept dropped, Permutation ms (kept ++ dropped) /\
    (forall m, In m kept -> exists t, rule_type rules m t) /\
    (forall m, In m dropped -> forall t, ~ rule_type rules m t) /\
    Forall2 same_match kept out /\ sorted_by_start out.
Proof. exact c50_kept_lemma. Qed.
Print Assumptions C50_kept.

Example C50_kept_applies : exists vs rm out, build_validators (map rule_validation mixed_rules) [] false = Ok (vs, rm) /\
  rm = true /\ orders_ok (world echo true) /\
  validate_matches vs (world echo true) rm mixed_rules (found 0 5 None :: mixed_matches) = Ret (Ok out) /\
  map rm_start out = [10; 20; 30; 30; 40] /\ map rm_status out = [Valid; Valid; Valid; Invalid; Valid].
Proof.
  eexists _, _, _. split; [vm_compute; reflexivity|]. split; [reflexivity|]. split; [apply world_orders|].
  split; [vm_compute; reflexivity|]. split; reflexivity.
Qed.

(* Matches with the same validator and the same start index keep their order. *)
Theorem C50_same_kind :
  forall vs w rules ms out, orders_ok w -> validate_matches vs w true rules ms = Ret (Ok out) ->
  forall k n (f : rule_match -> bool),
  (forall m, f m = true <-> (exists t, rule_type rules m t /\ same_kind t k) /\ rm_start m = n) ->
  Forall2 same_match (filter f ms) (filter f out).
Proof. exact c50_same_kind_lemma. Qed.
Print Assumptions C50_same_kind.

Example C50_same_kind_applies : exists vs out f, orders_ok (world echo true) /\
  validate_matches vs (world echo true) true mixed_rules mixed_matches = Ret (Ok out) /\
  (forall m, f m = true <-> (exists t, rule_type mixed_rules m t /\ same_kind t ITAws) /\ rm_start m = 30) /\
  length (filter f mixed_matches) = 2.
Proof.
  exists [], (sort_by_start mixed_matches),
    (fun m => match rm_rule m with 2 | 3 => rm_start m =? 30 | _ => false end).
  split; [apply world_orders|]. split; [vm_compute; reflexivity|]. split; [|reflexivity].
  intros m. destruct (rm_rule m) as [|[|[|[|n]]]] eqn:E.
  - split; [discriminate|]. intros ((t & (r & E1 & E2) & _) & _). rewrite E in E1. injection E1 as <-. discriminate.
  - split; [discriminate|]. intros ((t & (r & E1 & E2) & K) & _). rewrite E in E1. injection E1 as <-. injection E2 as <-. destruct K.
  - rewrite PeanoNat.Nat.eqb_eq. split; [|intros (_ & K); exact K]. intros K. split; [|exact K]. eexists. split; [eexists; rewrite E; split; reflexivity|exact I].
  - rewrite PeanoNat.Nat.eqb_eq. split; [|intros (_ & K); exact K]. intros K. split; [|exact K]. eexists. split; [eexists; rewrite E; split; reflexivity|exact I].
  - split; [discriminate|]. intros ((t & (r & E1 & E2) & _) & _). rewrite E in E1. destruct n; discriminate.
Qed.

(* The call succeeds when match values were kept, the matches come from the rules of this
   scanner, and the signatures can be sent; it is refused when match values were not
   kept. *)
Theorem C50_returns :
  (forall vs w rules ms, orders_ok w -> signable (vw_aws w) ->
   (forall m, In m ms -> exists r, nth_error rules (rm_rule m) = Some r) ->
   (forall m, In m ms -> rm_value m <> None) ->
   exists out, validate_matches vs w true rules ms = Ret (Ok out)) /\
(forall vs w rules ms, validate_matches vs w false rules ms = Ret (Err tt)).
Proof. exact c50_returns_lemma. Qed.
Print Assumptions C50_returns.

Example C50_returns_applies : (forall m, In m mixed_matches -> exists r, nth_error mixed_rules (rm_rule m) = Some r) /\
  (forall m, In m mixed_matches -> rm_value m <> None) /\
  signable {| aw_word := fun _ => false; aw_sign := fun _ _ _ => Some (chars "AWS4 sig"); aw_reply := fun _ _ _ => Ok 200%N |}.
Proof.
  split; [|split].
  - intros m H. repeat (destruct H as [<-|H]; [eexists; reflexivity|]). destruct H.
  - intros m H. repeat (destruct H as [<-|H]; [discriminate|]). destruct H.
  - intros e i s. eexists. split; [reflexivity|]. intros c H. left.
    assert (forallb header_char (chars "AWS4 sig") = true) as K by reflexivity.
    repeat (destruct H as [<-|H]; [vm_compute; split; discriminate|]). destruct H.
Qed.

(* Without a match value the HTTP validator panics instead of reporting an error, unlike
   the AWS validator. *)
Theorem C50_value_refuted :
  exists c reply ms, (forall m, In m ms -> rm_value m = None) /\ http_validate c reply (fun l => l) ms = Panic.
Proof. exact c50_value_refuted_lemma. Qed.
Print Assumptions C50_value_refuted.

(* The HTTP configuration used for a match need not be that of its rule: with equal
   endpoints the first rule decides for all. *)
Theorem C51_refuted :
  ~ (forall rm rm' vs w rules ms out, build_validators (map rule_validation rules) [] rm = Ok (vs, rm') ->
   orders_ok w -> validate_matches vs w rm' rules ms = Ret (Ok out) ->
   forall m', In m' out -> forall c, rule_type rules m' (MVCustomHttp c) ->
   exists m i, In m ms /\ same_match m m' /\
     highest (http_candidate c (vw_http w (ITCustomHttp (hc_endpoints c)) i) m) (rm_status m')).
Proof. exact c51_refuted_lemma. Qed.
Print Assumptions C51_refuted.

(* The validator used for a kind of matches (AWS, or one list of endpoints) is made from
   the first rule of that kind that can make one. *)
Theorem C51_validators :
  forall types rm vs rm', build_validators types [] rm = Ok (vs, rm') ->
  forall k v, assoc internal_eqb k vs = Some v <-> first_of_kind types k v.
Proof. exact c51_validators_lemma. Qed.
Print Assumptions C51_validators.

Example C51_validators_applies : exists vs rm, build_validators (map rule_validation mixed_rules) [] false = Ok (vs, rm) /\
  first_of_kind (map rule_validation mixed_rules) ITAws (VAws sts).
Proof.
  eexists _, _. split; [vm_compute; reflexivity|].
  exists [None; Some (MVCustomHttp two_hosts); Some (MVAws AwsId)], (MVAws (AwsSecret sts)), []. split; [reflexivity|].
  split; [exact I|]. split; [reflexivity|]. intros t [H|[H|[H|[]]]] K v; try discriminate; injection H as <-; [destruct K|intros []].
Qed.

(* When rules with the same endpoints have the same configuration, every match ends with
   the highest of its own status and the results of the requests its own rule asks for. *)
Theorem C51_own :
  forall rm rm' vs w rules ms out, build_validators (map rule_validation rules) [] rm = Ok (vs, rm') ->
  (forall c1 c2, In (Some (MVCustomHttp c1)) (map rule_validation rules) ->
     In (Some (MVCustomHttp c2)) (map rule_validation rules) -> hc_endpoints c1 = hc_endpoints c2 -> c1 = c2) ->
  orders_ok w -> validate_matches vs w true rules ms = Ret (Ok out) ->
  exists kept dropped, Permutation ms (kept ++ dropped) /\
    Forall2 (fun m m' => same_match m m' /\ forall c, rule_type rules m (MVCustomHttp c) ->
      exists i, highest (http_candidate c (vw_http w (ITCustomHttp (hc_endpoints c)) i) m) (rm_status m')) kept out.
Proof. exact c51_own_lemma. Qed.
Print Assumptions C51_own.

Example C51_own_applies :
  (forall c1 c2, In (Some (MVCustomHttp c1)) (map rule_validation mixed_rules) ->
     In (Some (MVCustomHttp c2)) (map rule_validation mixed_rules) -> hc_endpoints c1 = hc_endpoints c2 -> c1 = c2) /\
  In (Some (MVCustomHttp two_hosts)) (map rule_validation mixed_rules).
Proof.
  split; [|right; left; reflexivity]. intros c1 c2 H1 H2 _. cbn in H1, H2.
  repeat (destruct H1 as [H1|H1]; [try discriminate; injection H1 as <-|]); try destruct H1.
  repeat (destruct H2 as [H2|H2]; [try discriminate; injection H2 as <-|]); try destruct H2. reflexivity.
Qed.

(* The AWS matches are validated together, as ids and secrets, with one configuration. *)
Theorem C51_aws :
  forall rm rm' vs w rules ms out c, build_validators (map rule_validation rules) [] rm = Ok (vs, rm') ->
  first_of_kind (map rule_validation rules) ITAws (VAws c) ->
  orders_ok w -> validate_matches vs w true rules ms = Ret (Ok out) ->
  forall f, (forall m, f m = true <-> exists t, rule_type rules m (MVAws t)) ->
  exists kept dropped, Permutation ms (kept ++ dropped) /\
    Forall2 (fun m m' => same_match m m' /\ forall t, rule_type rules m (MVAws t) ->
      exists i, nth_error (filter f ms) i = Some m /\
        highest (aws_candidate c (vw_aws w) rules (filter f ms) i m) (rm_status m')) kept out.
Proof. exact c51_aws_lemma. Qed.
Print Assumptions C51_aws.

Example C51_aws_applies : exists vs rm f, build_validators (map rule_validation mixed_rules) [] false = Ok (vs, rm) /\
  first_of_kind (map rule_validation mixed_rules) ITAws (VAws sts) /\
  (forall m, f m = true <-> exists t, rule_type mixed_rules m (MVAws t)) /\ length (filter f mixed_matches) = 3.
Proof.
  eexists _, _, (fun m => match rm_rule m with 2 | 3 => true | _ => false end). split; [vm_compute; reflexivity|].
  split; [|split; [|reflexivity]].
  - exists [None; Some (MVCustomHttp two_hosts); Some (MVAws AwsId)], (MVAws (AwsSecret sts)), []. split; [reflexivity|].
    split; [exact I|]. split; [reflexivity|]. intros t [H|[H|[H|[]]]] K v; try discriminate; injection H as <-; [destruct K|intros []].
  - intros m. destruct (rm_rule m) as [|[|[|[|n]]]] eqn:E.
    + split; [discriminate|]. intros (t & r & E1 & E2). rewrite E in E1. injection E1 as <-. discriminate.
    + split; [discriminate|]. intros (t & r & E1 & E2). rewrite E in E1. injection E1 as <-. discriminate.
    + split; [|reflexivity]. intros _. eexists _, _. rewrite E. split; reflexivity.
    + split; [|reflexivity]. intros _. eexists _, _. rewrite E. split; reflexivity.
    + split; [discriminate|]. intros (t & r & E1 & E2). rewrite E in E1. destruct n; discriminate.
Qed.

(* A match validated over HTTP ends with the highest of its own status and the results of
   the requests to all endpoints: Valid for a code in a valid range, else Invalid for a
   code in an invalid range, else an error.  The requests carry the method, the timeout
   and the headers of the configuration, with the match value put for $MATCH. *)
Theorem C52_http :
  forall c reply ord ms out, permutes ord -> http_validate c reply ord ms = Ret out ->
  length out = length ms /\
  forall i m, nth_error ms i = Some m -> exists m', nth_error out i = Some m' /\ same_match m m' /\
    highest (http_candidate c (reply i) m) (rm_status m') /\
    (hc_endpoints c <> [] -> rm_status m' = Valid \/ rm_status m' = Invalid \/ exists e, rm_status m' = StError e).
Proof. exact c52_http_lemma. Qed.
Print Assumptions C52_http.

Example C52_http_applies : exists out, permutes (fun l : list ((nat * list N) * match_status) => l) /\
  http_validate {| hc_endpoints := [chars "eu"; chars "us"; chars "ap"; chars "eu"]; hc_method := MPost; hc_headers := [(chars "K", chars "v=$MATCH;$MATCH")];
      hc_valid := [(200, 201); (204, 205)]%N; hc_invalid := [(204, 300)]%N; hc_timeout := 1%N |}
    (fun i r => match rq_headers r with
                | [(_, v)] => if str_eqb v (chars "v=ab;ab") then Ok (if str_eqb (rq_endpoint r) (chars "ap") then 200%N else 204%N) else Ok 250%N
                | _ => Err (chars "no") end) (fun l => l)
    [found 1 0 (Some (chars "ab")); found 1 9 (Some (chars "cd"))] = Ret out /\
  map rm_status out = [Valid; Invalid].
Proof. eexists. split; [intros l; apply Permutation_refl|]. split; [vm_compute; reflexivity|reflexivity]. Qed.

(* A match validated with AWS ends with the highest of its own status and the results of
   all the pairs of an id and a secret it takes part in. *)
Theorem C52_aws :
  forall c w ord rules ms out, permutes ord -> aws_validate c w ord rules ms = Ret out ->
  length out = length ms /\
  forall n m, nth_error ms n = Some m -> exists m', nth_error out n = Some m' /\ same_match m m' /\
    highest (aws_candidate c w rules ms n m) (rm_status m').
Proof. exact c52_aws_lemma. Qed.
Print Assumptions C52_aws.

Example C52_aws_applies : exists out, permutes (@rev ((nat * nat) * match_status)) /\
  aws_validate sts echo (@rev _) mixed_rules [found 2 30 (Some (chars "good")); found 3 10 None; found 1 3 None;
    found 2 50 (Some (chars "bad")); found 3 11 (Some (chars "s"))] = Ret out /\
  map rm_status out = [Valid; StError (chars "Missing match value for aws_secret"); NotChecked;
    StError (chars "Missing match value for aws_secret"); Valid].
Proof. eexists. split; [intros l; apply Permutation_rev|]. split; [vm_compute; reflexivity|reflexivity]. Qed.

(* An unchecked AWS match becomes Valid exactly when the answer for one of its pairs is
   a 2xx. *)
Theorem C52_aws_valid :
  forall c w ord rules ms out n m m', permutes ord -> aws_validate c w ord rules ms = Ret out ->
  nth_error ms n = Some m -> nth_error out n = Some m' -> rm_status m <> Valid ->
  (rm_status m' = Valid <-> exists i j id secret code, in_pair rules ms n i j id secret /\
     pair_answer c w i j id secret (Ok code) /\ (200 <= code < 300)%N).
Proof. exact c52_aws_valid_lemma. Qed.
Print Assumptions C52_aws_valid.

Example C52_aws_valid_applies : exists out m m', aws_validate sts echo (fun l => l) mixed_rules
    [found 2 30 (Some (chars "good")); found 3 10 (Some (chars "s"))] = Ret out /\
  nth_error [found 2 30 (Some (chars "good")); found 3 10 (Some (chars "s"))] 1 = Some m /\
  nth_error out 1 = Some m' /\ rm_status m <> Valid /\ rm_status m' = Valid.
Proof. eexists _, _, _. split; [vm_compute; reflexivity|]. split; [reflexivity|]. split; [reflexivity|]. split; [discriminate|reflexivity]. Qed.

(* A match that was checked need not end with a definite status: an answer that is not
   2xx, 4xx or 5xx leaves it unchecked. *)
Theorem C52_definite_refuted :
  ~ (forall c w ord rules ms out n i j id secret m', permutes ord -> aws_validate c w ord rules ms = Ret out ->
   in_pair rules ms n i j id secret -> nth_error out n = Some m' ->
   rm_status m' = Valid \/ rm_status m' = Invalid \/ exists e, rm_status m' = StError e).
Proof. exact c52_definite_refuted_lemma. Qed.
Print Assumptions C52_definite_refuted.

(* It does when every answer is an error or has a code 2xx, 4xx or 5xx. *)
Theorem C52_definite :
  forall c w ord rules ms out n i j id secret m', permutes ord -> aws_validate c w ord rules ms = Ret out ->
  (forall i j r code, aw_reply w i j r = Ok code -> (200 <= code < 300 \/ 400 <= code < 600)%N) ->
  in_pair rules ms n i j id secret -> nth_error out n = Some m' ->
  rm_status m' = Valid \/ rm_status m' = Invalid \/ exists e, rm_status m' = StError e.
Proof. exact c52_definite_lemma. Qed.
Print Assumptions C52_definite.

Example C52_definite_applies : exists out m', aws_validate sts echo (fun l => l) mixed_rules
    [found 2 30 (Some (chars "good")); found 3 10 (Some (chars "s"))] = Ret out /\
  (forall i j r code, aw_reply echo i j r = Ok code -> (200 <= code < 300 \/ 400 <= code < 600)%N) /\
  in_pair mixed_rules [found 2 30 (Some (chars "good")); found 3 10 (Some (chars "s"))] 1 0 1
    (found 2 30 (Some (chars "good"))) (found 3 10 (Some (chars "s"))) /\
  nth_error out 1 = Some m'.
Proof.
  eexists _, _. split; [vm_compute; reflexivity|]. split.
  - intros i j r code. cbn [aw_reply echo]. destruct (str_eqb (ar_authorization r) (chars "good")); intros E; injection E as <-; [left|right]; split; vm_compute; (discriminate || reflexivity).
  - split; [|reflexivity]. split; [reflexivity|]. split; [eexists; split; reflexivity|]. split; [reflexivity|].
    split; [exists sts; eexists; split; reflexivity|right; reflexivity].
Qed.

(* The AWS validator panics when the signature, which contains the id found in the text,
   is not a legal header value. *)
Theorem C52_signature_refuted :
  ~ (forall c w ord rules ms, permutes ord -> (forall e i s, aw_sign w e i s <> None) ->
   (forall m, In m ms -> exists r, nth_error rules (rm_rule m) = Some r) ->
   (forall m, In m ms -> rm_value m <> None) -> exists out, aws_validate c w ord rules ms = Ret out).
Proof. exact c52_signature_refuted_lemma. Qed.
Print Assumptions C52_signature_refuted.

(* An endpoint is accepted exactly when it contains $HOST if and only if hosts are given. *)
Theorem C53_accepted :
  forall endpoint hosts, (exists c, http_config_new endpoint hosts = Ok c) <->
  (occurs (chars "$HOST") endpoint <-> hosts <> []).
Proof. exact c53_accepted_lemma. Qed.
Print Assumptions C53_accepted.

Example C53_accepted_applies : occurs (chars "$HOST") (chars "https://$HOST/$HOST") /\ [chars "eu"] <> [] /\
  ~ occurs (chars "$HOST") (chars "https://HOST").
Proof.
  split; [exists (chars "https://"), (chars "/$HOST"); reflexivity|]. split; [discriminate|].
  intros K. apply str_contains_spec in K. discriminate K.
Qed.

(* Then there is one endpoint for each host, with every occurrence of $HOST replaced, or
   the endpoint itself without hosts. *)
Theorem C53_endpoints :
  forall endpoint hosts c, http_config_new endpoint hosts = Ok c ->
  (hosts = [] -> hc_endpoints c = [endpoint]) /\
  (hosts <> [] -> Forall2 (fun h e => replaced (chars "$HOST") h endpoint e) hosts (hc_endpoints c)).
Proof. exact c53_endpoints_lemma. Qed.
Print Assumptions C53_endpoints.

Example C53_endpoints_applies : exists c, http_config_new (chars "https://$HOST/v1/$HOST") [chars "eu"; chars "$HOST"] = Ok c /\
  hc_endpoints c = [chars "https://eu/v1/eu"; chars "https://$HOST/v1/$HOST"].
Proof. eexists. split; [vm_compute; reflexivity|reflexivity]. Qed.

(* The builder accepts the same endpoints and hosts, gives the same endpoints, and keeps
   its own method, headers, ranges and timeout. *)
Theorem C53_builder :
  forall b c, http_build b = Ok c <->
  exists c0, http_config_new (hb_endpoint b) (hb_hosts b) = Ok c0 /\ hc_endpoints c = hc_endpoints c0 /\
    hc_method c = hb_method b /\ hc_headers c = hb_headers b /\ hc_valid c = hb_valid b /\
    hc_invalid c = hb_invalid b /\ hc_timeout c = hb_timeout b.
Proof. exact c53_builder_lemma. Qed.
Print Assumptions C53_builder.

Example C53_builder_applies : exists c, http_build (http_builder_new (chars "https://api")) = Ok c /\
  hc_endpoints c = [chars "https://api"] /\ hc_headers c = [(chars "Authorization", chars "Bearer $MATCH")] /\
  hc_valid c = [(200, 300)%N] /\ hc_invalid c = [(400, 500)%N] /\ hc_timeout c = 3%N.
Proof. eexists. split; [vm_compute; reflexivity|]. repeat split. Qed.

(* A configuration made from endpoint and hosts alone asks with GET and no headers for at most
   three seconds; exactly the codes from 200 to 299 make a match valid and exactly those from
   400 to 499 make it invalid.  A new builder has the same defaults, except that it sends the
   match as a bearer token. *)
Theorem C53_defaults :
  (forall endpoint hosts c, http_config_new endpoint hosts = Ok c ->
  hc_method c = MGet /\ hc_headers c = [] /\ hc_timeout c = 3%N /\
  forall code, (in_some_range code (hc_valid c) <-> (200 <= code <= 299)%N) /\
    (in_some_range code (hc_invalid c) <-> (400 <= code <= 499)%N)) /\
forall endpoint, hb_endpoint (http_builder_new endpoint) = endpoint /\ hb_hosts (http_builder_new endpoint) = [] /\
  hb_method (http_builder_new endpoint) = MGet /\ hb_timeout (http_builder_new endpoint) = 3%N /\
  hb_headers (http_builder_new endpoint) = [(chars "Authorization", chars "Bearer $MATCH")] /\
  forall code, (in_some_range code (hb_valid (http_builder_new endpoint)) <-> (200 <= code <= 299)%N) /\
    (in_some_range code (hb_invalid (http_builder_new endpoint)) <-> (400 <= code <= 499)%N).
Proof. exact c53_defaults_lemma. Qed.
Print Assumptions C53_defaults.

Example C53_defaults_applies : exists c, http_config_new (chars "https://$HOST/") [chars "eu"] = Ok c /\
  in_some_range 299 (hc_valid c) /\ ~ in_some_range 300 (hc_valid c) /\ in_some_range 499 (hc_invalid c) /\ ~ in_some_range 500 (hc_invalid c).
Proof.
  eexists. split; [vm_compute; reflexivity|]. unfold in_some_range. cbn [hc_valid hc_invalid].
  split; [exists 200%N, 300%N; split; [left; reflexivity|lia]|]. split; [intros (a & b & [E|[]] & H); injection E as <- <-; lia|].
  split; [exists 400%N, 500%N; split; [left; reflexivity|lia]|]. intros (a & b & [E|[]] & H); injection E as <- <-; lia.
Qed.

(* The message says which of the two mistakes was made. *)
Theorem C53_errors :
  forall endpoint hosts e, http_config_new endpoint hosts = Err e ->
  (occurs (chars "$HOST") endpoint /\ hosts = [] /\ e = chars "Endpoint contains $HOST but no hosts are provided") \/
  (~ occurs (chars "$HOST") endpoint /\ hosts <> [] /\ e = chars "Endpoint does not contain $HOST but hosts are provided").
Proof. exact c53_errors_lemma. Qed.
Print Assumptions C53_errors.

Example C53_errors_applies : exists e, http_config_new (chars "a$HOST") [] = Err e /\ e <> [].
Proof. eexists. split; [vm_compute; reflexivity|discriminate]. Qed.

(* The secret sent to AWS is the first stretch of 40 key characters that ends at a word
   boundary, or nothing. *)
Theorem C66_first :
  forall word v, secret_of word v (extract_aws_secret word v) /\
  forall k, secret_of word v k -> k = extract_aws_secret word v.
Proof. exact c66_first_lemma. Qed.
Print Assumptions C66_first.

Example C66_first_applies : extract_aws_secret (fun _ => false)
    (chars "aws_secret_access_key=wJalrXUtnFEMI/K7MDENG/bPxRfiCYEXAMPLEKEY") = chars "wJalrXUtnFEMI/K7MDENG/bPxRfiCYEXAMPLEKEY".
Proof. vm_compute. reflexivity. Qed.

(* A key delimited by other characters is not always found: a key that ends with a slash
   or a plus sign is not followed by a word boundary. *)
Theorem C66_refuted :
  ~ (forall word a k b, length k = 40 -> (forall c, In c k -> key_character c) ->
   (forall x c, a = x ++ [c] -> ~ key_character c /\ ~ word_character word c) ->
   (forall c x, b = c :: x -> ~ key_character c /\ ~ word_character word c) ->
   (forall c, In c a -> ~ key_character c) -> (forall c, In c b -> ~ key_character c) ->
   extract_aws_secret word (a ++ k ++ b) = k).
Proof. exact c66_refuted_lemma. Qed.
Print Assumptions C66_refuted.

(* It is found when it ends with a letter or digit, nothing before it contains 40
   consecutive key characters, and the characters next to it are not key characters nor,
   after it, word characters. *)
Theorem C66_found :
  forall word a k b, length k = 40 -> (forall c, In c k -> key_character c) -> ends_in_word word k ->
  (forall x c, a = x ++ [c] -> ~ key_character c) -> ~ starts_with_word word b ->
  (forall x y z, a = x ++ y ++ z -> length y = 40 -> exists c, In c y /\ ~ key_character c) ->
  extract_aws_secret word (a ++ k ++ b) = k.
Proof. exact c66_found_lemma. Qed.
Print Assumptions C66_found.

Example C66_found_applies : let k := chars "wJalrXUtnFEMI/K7MDENG/bPxRfiCYEXAMPLEKEY" in
  length k = 40 /\ (forall c, In c k -> key_character c) /\ ends_in_word (fun _ => false) k /\
  (forall x c, chars "key: " = x ++ [c] -> ~ key_character c) /\ ~ starts_with_word (fun _ => false) (chars " end") /\
  (forall x y z, chars "key: " = x ++ y ++ z -> length y = 40 -> exists c, In c y /\ ~ key_character c).
Proof.
  cbv zeta. split; [reflexivity|]. split; [|split; [|split; [|split]]].
  - intros c Hc. apply key_char_spec. revert c Hc. apply forallb_forall. vm_compute. reflexivity.
  - exists (chars "wJalrXUtnFEMI/K7MDENG/bPxRfiCYEXAMPLEKE"), 89%N. split; [vm_compute; reflexivity|]. apply is_word_spec. reflexivity.
  - intros x c E. change (chars "key: ") with (chars "key:" ++ [32%N]) in E. apply app_inj_tail in E as (_ & <-).
    rewrite <- key_char_spec. vm_compute. discriminate.
  - intros (c & b & E & K). injection E as <- _. apply is_word_spec in K. discriminate K.
  - intros x y z E L. apply (f_equal (@length N)) in E. rewrite !app_length, L in E. cbn in E. lia.
Qed.

