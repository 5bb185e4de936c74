(* Concrete rules, matches and worlds for the theorems on match validation.  Nothing
   here models code of /repo. *)
From Coq Require Import Lia.
From Verif Require Export Examples.Engine Spec.MatchValidation.

Definition typed_rule (i : nat) (t : option match_validation_type) : rule :=
  regex_compiled ActNone (ScopeExclude []) t (plain_rule i (digits 2)).
Definition http_rule_config (endpoints : list str) (valid : list (N * N)) : http_config := {|
  hc_endpoints := endpoints; hc_method := MGet;
  hc_headers := [(chars "Authorization", chars "Bearer $MATCH")];
  hc_valid := valid; hc_invalid := [(400, 500)%N]; hc_timeout := 3%N |}.
Definition two_hosts : http_config := http_rule_config [chars "eu"; chars "us"] [(200, 300)%N].
Definition sts : aws_config := {| aws_sts_endpoint := chars "sts"; aws_timeout := 3%N |}.

Definition found (rule start : nat) (value : option str) : rule_match := {|
  rm_rule := rule; rm_path := []; rm_kind := RKNone; rm_start := start; rm_end := start + 2;
  rm_shift := 0%Z; rm_value := value; rm_status := NotChecked |}.

(* the signature is the id *)
Definition echo : aws_world := {|
  aw_word := fun _ => false;
  aw_sign := fun _ id _ => Some id;
  aw_reply := fun _ _ r => if str_eqb (ar_authorization r) (chars "good") then Ok 200%N else Ok 403%N |}.
Definition echo_code (code : N) : aws_world := {|
  aw_word := fun _ => false; aw_sign := fun _ id _ => Some id; aw_reply := fun _ _ _ => Ok code |}.
(* the host "eu" answers 204, every other 404 *)
Definition eu_only (r : http_request) : http_reply :=
  if str_eqb (rq_endpoint r) (chars "eu") then Ok 204%N else Ok 404%N.
Definition world (w : aws_world) (flip : bool) : validation_world := {|
  vw_http := fun _ _ => eu_only;
  vw_http_order := fun _ l => if flip then rev l else l;
  vw_aws := w;
  vw_aws_order := fun l => if flip then rev l else l;
  vw_group_order := fun l => if flip then rev l else l |}.
Lemma world_orders : forall w flip, orders_ok (world w flip).
Proof.
  intros w [|]; (split; [|split]); intros; intros l; cbn; (apply Permutation_rev || apply Permutation_refl).
Qed.

Definition mixed_rules : list rule := [
  typed_rule 0 None;
  typed_rule 1 (Some (MVCustomHttp two_hosts));
  typed_rule 2 (Some (MVAws AwsId));
  typed_rule 3 (Some (MVAws (AwsSecret sts)))
].
Definition mixed_matches : list rule_match := [
  found 1 40 (Some (chars "t1")); found 2 30 (Some (chars "good")); found 3 10 (Some (chars "s"));
  found 1 20 (Some (chars "t2")); found 2 30 (Some (chars "bad"))
].
