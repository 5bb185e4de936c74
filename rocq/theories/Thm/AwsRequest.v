(* The requests that validate AWS keys (C88) *)
From Coq Require Import Lia ZArith.
From Verif Require Import Proofs.AwsRequestClaims.

(* The Host header does not name the host that the request is sent to, not even in the default
   configuration: the request to sts.amazonaws.com says sts.us-east-1.amazonaws.com. *)
Theorem C88_refuted :
  exists sign now m h h', aws_message_for sign aws_config_default None now (chars "id") (chars "key") = Ret m /\
  host_of (am_url m) h /\ header_is (am_headers m) (chars "host") h' /\ h <> h'.
Proof. exact c88_refuted_lemma. Qed.
Print Assumptions C88_refuted.

(* the same header for an endpoint in another region *)
Example C88_refuted_applies : exists m, aws_message_for url_signer {| aws_sts_endpoint := chars "https://sts.eu-west-1.amazonaws.com/"; aws_timeout := 3%N |} None some_time (chars "id") (chars "key") = Ret m /\
  header_is (am_headers m) (chars "host") (chars "sts.us-east-1.amazonaws.com") /\ host_of (am_url m) (chars "sts.eu-west-1.amazonaws.com").
Proof.
  eexists. split; [reflexivity|]. split.
  - split; [right; right; right; left; reflexivity|]. intros v' I. repeat (destruct I as [I|I]; [try discriminate I; injection I as <-; reflexivity|]). destruct I.
  - exists (chars "https"), (chars "/"). split; [reflexivity|]. split; [intros c I; repeat (destruct I as [<-|I]; [intros [E|[E|[E|E]]]; discriminate E|]); destruct I|].
    split; [discriminate|]. split; [intros c I; repeat (destruct I as [<-|I]; [intros [E|[E|[E|E]]]; discriminate E|]); destruct I|].
    right. exists 47%N, []. split; [reflexivity|]. right; left; reflexivity.
Qed.

(* Every request is a POST to the configured endpoint with the configured timeout and the body
   that asks for the caller identity.  It has exactly five headers: the time, encoding, content
   type and host, whose values do not depend on the configuration, and the signature. *)
Theorem C88_sent :
  forall sign c forced now id secret m, aws_message_for sign c forced now id secret = Ret m ->
  am_method m = MPost /\ am_url m = aws_sts_endpoint c /\ am_timeout m = aws_timeout c /\
  am_body m = chars "Action=GetCallerIdentity&Version=2011-06-15" /\ length (am_headers m) = 5 /\
  header_is (am_headers m) (chars "accept-encoding") (chars "identity") /\
  header_is (am_headers m) (chars "content-type") (chars "application/x-www-form-urlencoded; charset=utf-8") /\
  header_is (am_headers m) (chars "host") (chars "sts.us-east-1.amazonaws.com") /\
  (exists t, header_is (am_headers m) (chars "x-amz-date") t) /\
  (exists a, header_is (am_headers m) (chars "authorization") a).
Proof. exact c88_sent_lemma. Qed.
Print Assumptions C88_sent.

Example C88_sent_applies : exists m, aws_message_for url_signer aws_config_default None some_time (chars "id") (chars "key") = Ret m /\
  In (chars "authorization", chars "id https://sts.amazonaws.com") (am_headers m).
Proof. eexists. split; [reflexivity|]. right; right; right; right; left. reflexivity. Qed.

(* What is signed is what is sent: the signature is made from the method, the endpoint, the body
   and all the other headers of the request, with the time that its header shows, the id and the
   secret, for the service sts and always the region us-east-1. *)
Theorem C88_signed :
  forall sign c forced now id secret m, aws_message_for sign c forced now id secret = Ret m ->
  exists i a, sign i = Some a /\ In (chars "authorization", a) (am_headers m) /\
    si_method i = am_method m /\ si_url i = am_url m /\ si_body i = am_body m /\ si_id i = id /\ si_secret i = secret /\
    si_service i = chars "sts" /\ si_region i = chars "us-east-1" /\
    (forall n v, In (n, v) (si_headers i) <-> In (n, v) (am_headers m) /\ n <> chars "authorization") /\
    (forced = None -> si_datetime i = now) /\ (forall d, forced = Some d -> si_datetime i = d) /\
    (common_era (si_datetime i) -> exists t, In (chars "x-amz-date", t) (am_headers m) /\ iso_basic (si_datetime i) t).
Proof. exact c88_signed_lemma. Qed.
Print Assumptions C88_signed.

Example C88_signed_applies : exists m, aws_message_for url_signer aws_config_default (Some some_time) {| dt_year := 0; dt_month := 1; dt_day := 1; dt_hour := 0; dt_minute := 0; dt_second := 0 |} (chars "id") (chars "key") = Ret m /\
  common_era some_time /\ In (chars "x-amz-date", chars "20260309T070560Z") (am_headers m).
Proof. eexists. split; [reflexivity|]. split; [unfold common_era; cbn; lia|]. left. vm_compute. reflexivity. Qed.

(* The header of the time is in the basic format of ISO 8601 for the years 0 to 9999, and two
   times that differ by a second or more have different texts. *)
Theorem C88_date :
  forall d, common_era d -> iso_basic d (amz_date d) /\ forall d', iso_basic d' (amz_date d) -> d' = d.
Proof. exact c88_date_lemma. Qed.
Print Assumptions C88_date.

Example C88_date_applies : common_era some_time /\ amz_date some_time = chars "20260309T070560Z".
Proof. split; [unfold common_era; cbn; lia|vm_compute; reflexivity]. Qed.

(* The model of match validation (C50 to C52) looks only at endpoint, timeout and signature.
   With the signature of this request for its parameter it gives exactly these parts of it. *)
Theorem C88_abstraction :
  forall sign c forced now id secret w,
  (forall e i s, aw_sign w e i s = sign (signing (match forced with Some d => d | None => now end) e i s)) ->
  (forall r, aws_headers w c id secret = Ret r <->
    exists m, aws_message_for sign c forced now id secret = Ret m /\ ar_endpoint r = am_url m /\ ar_timeout r = am_timeout m /\
      In (chars "authorization", ar_authorization r) (am_headers m)) /\
  (aws_headers w c id secret = Panic <-> aws_message_for sign c forced now id secret = Panic).
Proof. exact c88_abstraction_lemma. Qed.
Print Assumptions C88_abstraction.

Example C88_abstraction_applies : let w := {| aw_word := fun _ => false; aw_sign := fun e i _ => Some (i ++ chars " " ++ e); aw_reply := fun _ _ _ => Ok 200%N |} in
  (forall e i s, aw_sign w e i s = url_signer (signing some_time e i s)) /\
  aws_headers w aws_config_default (chars "id") (chars "key") =
    Ret {| ar_endpoint := chars "https://sts.amazonaws.com"; ar_timeout := 3%N; ar_authorization := chars "id https://sts.amazonaws.com" |}.
Proof. split; [reflexivity|vm_compute; reflexivity]. Qed.

