(* Model of sds/src/match_validation/match_status.rs and of the types of
   sds/src/match_validation/config.rs *)
From Verif Require Export Model.Str.

(* match_status.rs 1-8 *)
Inductive match_status :=
| NotChecked
| NotAvailable
| Invalid
| StError (message : str)
| Valid.

(* derived [Ord] on String: byte-wise lexicographic order, which for UTF-8 is the
   lexicographic order of the scalar values *)
Fixpoint str_compare (a b : str) : comparison :=
  match a, b with
  | [], [] => Eq
  | [], _ => Lt
  | _, [] => Gt
  | x :: a', y :: b' =>
    match (x ?= y)%N with
    | Eq => str_compare a' b'
    | c => c
    end
  end.

(* position of the variant in the enum, match_status.rs 2-8 *)
Definition status_rank (s : match_status) : nat :=
  match s with
  | NotChecked => 0
  | NotAvailable => 1
  | Invalid => 2
  | StError _ => 3
  | Valid => 4
  end.

(* derived [Ord] of the enum, match_status.rs 1 *)
Definition status_compare (a b : match_status) : comparison :=
  match a, b with
  | StError x, StError y => str_compare x y
  | _, _ => status_rank a ?= status_rank b
  end.

(* match_status.rs 13-17 *)
Definition status_merge (self new_status : match_status) : match_status :=
  match status_compare new_status self with
  | Gt => new_status
  | _ => self
  end.

(* config.rs 12-18; the forced date (tests only) is left out *)
Record aws_config := { aws_sts_endpoint : str; aws_timeout : N }.

(* config.rs 31-35 *)
Inductive aws_type := AwsId | AwsSecret (c : aws_config) | AwsSession.

(* config.rs 38-44 *)
Inductive http_method := MGet | MPost | MPut | MDelete | MPatch.

(* config.rs 72-79; a header is a key and a value template, a range is [lo, hi) *)
Record http_config := {
  hc_endpoints : list str;
  hc_method : http_method;
  hc_headers : list (str * str);
  hc_valid : list (N * N);
  hc_invalid : list (N * N);
  hc_timeout : N
}.

(* config.rs 189-192 *)
Inductive match_validation_type :=
| MVAws (t : aws_type)
| MVCustomHttp (c : http_config).

(* config.rs 229-232 *)
Inductive internal_type := ITAws | ITCustomHttp (endpoints : list str).

(* config.rs 196-201 *)
Definition can_create_match_validator (t : match_validation_type) : bool :=
  match t with
  | MVAws (AwsSecret _) => true
  | MVAws _ => false
  | MVCustomHttp _ => true
  end.

(* config.rs 202-209 *)
Definition get_internal_type (t : match_validation_type) : internal_type :=
  match t with
  | MVAws _ => ITAws
  | MVCustomHttp c => ITCustomHttp (hc_endpoints c)
  end.
