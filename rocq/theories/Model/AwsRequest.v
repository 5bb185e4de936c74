(* Model of sds/src/match_validation/validator_utils.rs and of the request of
   sds/src/match_validation/aws_validator.rs 142-158 with all its headers.
   Model/MatchValidation.v only looks at the Authorization header; the two are connected by
   C88_abstraction. *)
From Coq Require Import ZArith.
From Verif Require Export Model.MatchValidation.

(* the parts of [chrono::DateTime<Utc>] that are printed *)
Record datetime := {
  dt_year : Z; dt_month : nat; dt_day : nat; dt_hour : nat; dt_minute : nat; dt_second : nat
}.

(* a number with zeros in front *)
Definition padded (width n : nat) : str := let d := decimal n in repeat 48%N (width - length d) ++ d.
(* %Y of chrono: four digits, with a sign for other years (at least five characters) *)
Definition year_text (y : Z) : str :=
  if ((0 <=? y) && (y <=? 9999))%Z then padded 4 (Z.to_nat y)
  else (if (0 <=? y)%Z then 43%N else 45%N) :: padded 4 (Z.abs_nat y).
(* validator_utils.rs 10: %Y%m%dT%H%M%SZ *)
Definition amz_date (d : datetime) : str :=
  year_text (dt_year d) ++ padded 2 (dt_month d) ++ padded 2 (dt_day d) ++ chars "T" ++
  padded 2 (dt_hour d) ++ padded 2 (dt_minute d) ++ padded 2 (dt_second d) ++ chars "Z".

(* what the crate aws_sign_v4 is given, validator_utils.rs 22-32 *)
Record sign_input := {
  si_method : http_method;
  si_url : str;
  si_datetime : datetime;
  si_headers : list (str * str);
  si_region : str;
  si_id : str;
  si_secret : str;
  si_service : str;
  si_body : str
}.

(* validator_utils.rs 11-19: a [HeaderMap] keeps names in lower case; four different names
   are inserted *)
Definition unsigned_headers (d : datetime) : list (str * str) := [
  (chars "x-amz-date", amz_date d);
  (chars "accept-encoding", chars "identity");
  (chars "content-type", chars "application/x-www-form-urlencoded; charset=utf-8");
  (chars "host", chars "sts.us-east-1.amazonaws.com")
].
(* validator_utils.rs 21 *)
Definition caller_identity : str := chars "Action=GetCallerIdentity&Version=2011-06-15".
(* validator_utils.rs 22-32 *)
Definition signing (d : datetime) (endpoint id secret : str) : sign_input := {|
  si_method := MPost; si_url := endpoint; si_datetime := d; si_headers := unsigned_headers d;
  si_region := chars "us-east-1"; si_id := id; si_secret := secret; si_service := chars "sts";
  si_body := caller_identity
|}.
(* validator_utils.rs 3-38; [sign] stands for aws_sign_v4, [None] when it panics; the parts
   written by chrono and the constants are always header values *)
Definition generate_aws_headers_and_body (sign : sign_input -> option str) (d : datetime)
  (endpoint id secret : str) : outcome (str * list (str * str)) :=
  let* signature := unwrap (sign (signing d endpoint id secret)) in
  if forallb header_char signature
  then Ret (caller_identity, unsigned_headers d ++ [(chars "authorization", signature)])
  else Panic.

(* aws_validator.rs 153-158: the whole request *)
Record aws_message := {
  am_method : http_method;
  am_url : str;
  am_headers : list (str * str);
  am_body : str;
  am_timeout : N
}.
(* aws_validator.rs 143-158; [now] is the clock, [forced] is forced_datetime_utc, which
   Model/MatchStatus.v leaves out of [aws_config] *)
Definition aws_message_for (sign : sign_input -> option str) (c : aws_config)
  (forced : option datetime) (now : datetime) (id secret : str) : outcome aws_message :=
  let d := match forced with Some d => d | None => now end in
  let* (body, headers) := generate_aws_headers_and_body sign d (aws_sts_endpoint c) id secret in
  Ret {| am_method := MPost; am_url := aws_sts_endpoint c; am_headers := headers; am_body := body;
         am_timeout := aws_timeout c |}.
(* config.rs 20-28 *)
Definition aws_config_default : aws_config := {|
  aws_sts_endpoint := chars "https://sts.amazonaws.com"; aws_timeout := default_timeout
|}.
