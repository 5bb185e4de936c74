(* The requests that validate AWS keys (C88): proofs of the statements of Thm/AwsRequest.v *)
From Coq Require Import Lia ZArith.
From Verif Require Export Proofs.AwsRequest.

Definition some_time : datetime := {| dt_year := 2026; dt_month := 3; dt_day := 9; dt_hour := 7; dt_minute := 5; dt_second := 60 |}.
(* a signature made of the id and the URL *)
Definition url_signer (i : sign_input) : option str := Some (si_id i ++ chars " " ++ si_url i).

Lemma c88_refuted_lemma :
  exists sign now m h h', aws_message_for sign aws_config_default None now (chars "id") (chars "key") = Ret m /\
  host_of (am_url m) h /\ header_is (am_headers m) (chars "host") h' /\ h <> h'.
Proof.
exists url_signer, some_time. eexists. exists (chars "sts.amazonaws.com"), (chars "sts.us-east-1.amazonaws.com"). split; [reflexivity|]. split; [|split].
- exists (chars "https"), []. split; [reflexivity|]. split; [intros c I; repeat (destruct I as [<-|I]; [intros [E|[E|[E|E]]]; discriminate E|]); destruct I|].
  split; [discriminate|]. split; [intros c I; repeat (destruct I as [<-|I]; [intros [E|[E|[E|E]]]; discriminate E|]); destruct I|]. left; reflexivity.
- split; [right; right; right; left; reflexivity|]. intros v' I. repeat (destruct I as [I|I]; [try discriminate I; injection I as <-; reflexivity|]). destruct I.
- discriminate.
Qed.

Lemma c88_sent_lemma :
  forall sign c forced now id secret m, aws_message_for sign c forced now id secret = Ret m ->
  am_method m = MPost /\ am_url m = aws_sts_endpoint c /\ am_timeout m = aws_timeout c /\
  am_body m = chars "Action=GetCallerIdentity&Version=2011-06-15" /\ length (am_headers m) = 5 /\
  header_is (am_headers m) (chars "accept-encoding") (chars "identity") /\
  header_is (am_headers m) (chars "content-type") (chars "application/x-www-form-urlencoded; charset=utf-8") /\
  header_is (am_headers m) (chars "host") (chars "sts.us-east-1.amazonaws.com") /\
  (exists t, header_is (am_headers m) (chars "x-amz-date") t) /\
  (exists a, header_is (am_headers m) (chars "authorization") a).
Proof.
intros sign c forced now id secret m H. unfold aws_message_for, generate_aws_headers_and_body in H.
destruct (sign _) as [a|]; [|discriminate H]. cbn [unwrap bind] in H. destruct (forallb header_char a); [|discriminate H]. injection H as <-.
cbn [am_method am_url am_timeout am_body am_headers]. do 4 (split; [reflexivity|]). split; [reflexivity|].
assert (U : forall (d : datetime) n v v', In (n, v') (unsigned_headers d ++ [(chars "authorization", a)]) ->
  (n = chars "x-amz-date" /\ v = amz_date d \/ n = chars "accept-encoding" /\ v = chars "identity" \/
   n = chars "content-type" /\ v = chars "application/x-www-form-urlencoded; charset=utf-8" \/ n = chars "host" /\ v = chars "sts.us-east-1.amazonaws.com" \/
   n = chars "authorization" /\ v = a) -> v' = v).
{ intros d n v v' I O. repeat (destruct I as [I|I]; [injection I as En <-; destruct O as [[-> ->]|[[-> ->]|[[-> ->]|[[-> ->]|[-> ->]]]]]; (discriminate En || reflexivity)|]). destruct I. }
split; [split; [right; left; reflexivity|intros v' I; apply (U _ _ _ _ I); auto]|].
split; [split; [right; right; left; reflexivity|intros v' I; apply (U _ _ _ _ I); auto]|].
split; [split; [right; right; right; left; reflexivity|intros v' I; apply (U _ _ _ _ I); auto 6]|].
split; [eexists; split; [left; reflexivity|intros v' I; apply (U _ _ _ _ I); auto]|].
exists a; split; [right; right; right; right; left; reflexivity|intros v' I; apply (U _ _ _ _ I); auto 6].
Qed.

Lemma c88_signed_lemma :
  forall sign c forced now id secret m, aws_message_for sign c forced now id secret = Ret m ->
  exists i a, sign i = Some a /\ In (chars "authorization", a) (am_headers m) /\
    si_method i = am_method m /\ si_url i = am_url m /\ si_body i = am_body m /\ si_id i = id /\ si_secret i = secret /\
    si_service i = chars "sts" /\ si_region i = chars "us-east-1" /\
    (forall n v, In (n, v) (si_headers i) <-> In (n, v) (am_headers m) /\ n <> chars "authorization") /\
    (forced = None -> si_datetime i = now) /\ (forall d, forced = Some d -> si_datetime i = d) /\
    (common_era (si_datetime i) -> exists t, In (chars "x-amz-date", t) (am_headers m) /\ iso_basic (si_datetime i) t).
Proof.
intros sign c forced now id secret m H. unfold aws_message_for, generate_aws_headers_and_body in H.
set (d := match forced with Some d => d | None => now end) in *.
destruct (sign (signing d (aws_sts_endpoint c) id secret)) as [a|] eqn:E; [|discriminate H]. cbn [unwrap bind] in H.
destruct (forallb header_char a); [|discriminate H]. injection H as <-.
exists (signing d (aws_sts_endpoint c) id secret), a. split; [exact E|].
split; [right; right; right; right; left; reflexivity|]. do 7 (split; [reflexivity|]). split; [|split; [|split]].
- intros n v. change (In (n, v) (unsigned_headers d) <-> In (n, v) (unsigned_headers d ++ [(chars "authorization", a)]) /\ n <> chars "authorization"). rewrite in_app_iff. split.
  + intros I. split; [left; exact I|]. repeat (destruct I as [I|I]; [injection I as <- _; discriminate|]). destruct I.
  + intros [[I|[I|[]]] N]; [exact I|]. injection I as <- _. contradiction N. reflexivity.
- intros ->. reflexivity.
- intros d' ->. reflexivity.
- intros L. exists (amz_date d). split; [left; reflexivity|]. apply amz_date_spec. exact L.
Qed.

Lemma c88_date_lemma :
  forall d, common_era d -> iso_basic d (amz_date d) /\ forall d', iso_basic d' (amz_date d) -> d' = d.
Proof.
intros d L. pose proof (amz_date_spec d L) as I. split; [exact I|]. intros d' I'. exact (iso_det _ _ _ I' I).
Qed.

Lemma c88_abstraction_lemma :
  forall sign c forced now id secret w,
  (forall e i s, aw_sign w e i s = sign (signing (match forced with Some d => d | None => now end) e i s)) ->
  (forall r, aws_headers w c id secret = Ret r <->
    exists m, aws_message_for sign c forced now id secret = Ret m /\ ar_endpoint r = am_url m /\ ar_timeout r = am_timeout m /\
      In (chars "authorization", ar_authorization r) (am_headers m)) /\
  (aws_headers w c id secret = Panic <-> aws_message_for sign c forced now id secret = Panic).
Proof.
intros sign c forced now id secret w W. unfold aws_headers, aws_message_for, generate_aws_headers_and_body. rewrite W.
destruct (sign _) as [a|]; cbn [unwrap bind]; [|split; [|split; reflexivity]; intros r; split; [discriminate|intros (m & E & _); discriminate E]].
destruct (forallb header_char a); cbn [bind]; [|split; [|split; reflexivity]; intros r; split; [discriminate|intros (m & E & _); discriminate E]].
split; [|split; discriminate]. intros r. split.
- intros E. injection E as <-. eexists. split; [reflexivity|]. split; [reflexivity|]. split; [reflexivity|]. right; right; right; right; left; reflexivity.
- intros (m & E & A & B & I). injection E as <-. cbn [am_url am_timeout am_headers] in *. destruct r as [e t x]. cbn [ar_endpoint ar_timeout ar_authorization] in *. subst e t.
  repeat (destruct I as [I|I]; [try discriminate I; injection I as <-; reflexivity|]). destruct I.
Qed.

