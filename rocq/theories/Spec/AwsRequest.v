(* Vocabulary for the requests that validate AWS keys *)
From Coq Require Import ZArith.
From Verif Require Export Model.AwsRequest Spec.Codec.

(* exactly [w] digits with the value [n] *)
Definition fixed_digits (w : nat) (n : nat) (t : str) : Prop :=
  length t = w /\ (forall c, In c t -> is_digit c) /\ decimal_value t = N.of_nat n.

(* the basic format of ISO 8601 in UTC: YYYYMMDDThhmmssZ *)
Definition iso_basic (d : datetime) (t : str) : Prop := exists y m day h mi s : str,
  t = y ++ m ++ day ++ [84%N] ++ h ++ mi ++ s ++ [90%N] /\
  (0 <= dt_year d)%Z /\ fixed_digits 4 (Z.to_nat (dt_year d)) y /\
  fixed_digits 2 (dt_month d) m /\ fixed_digits 2 (dt_day d) day /\ fixed_digits 2 (dt_hour d) h /\
  fixed_digits 2 (dt_minute d) mi /\ fixed_digits 2 (dt_second d) s.
(* the components are those of a time of the years 0 to 9999 (60 is a leap second) *)
Definition common_era (d : datetime) : Prop :=
  (0 <= dt_year d <= 9999)%Z /\ 1 <= dt_month d <= 12 /\ 1 <= dt_day d <= 31 /\
  dt_hour d <= 23 /\ dt_minute d <= 59 /\ dt_second d <= 60.

(* the host of a URL (RFC 3986, without user information): after the scheme, up to the
   first of : / ? # or the end *)
Definition ends_host (c : char) : Prop := c = 58%N \/ c = 47%N \/ c = 63%N \/ c = 35%N.
Definition host_of (url h : str) : Prop := exists scheme rest,
  url = scheme ++ chars "://" ++ h ++ rest /\ (forall c, In c scheme -> ~ ends_host c) /\
  h <> [] /\ (forall c, In c h -> ~ ends_host c) /\
  (rest = [] \/ exists c rest', rest = c :: rest' /\ ends_host c).

(* the header [name] of a request: there is exactly one, with the value [v] *)
Definition header_is (headers : list (str * str)) (name v : str) : Prop :=
  In (name, v) headers /\ forall v', In (name, v') headers -> v' = v.
