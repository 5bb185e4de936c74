(* Engines and configurations for examples.  Nothing here models code of /repo. *)
From Coq Require Import Lia.
From Verif Require Import Proofs.Text.
From Verif Require Export Examples.Keywords Spec.Builder.

Definition kw_search (pats : list kw_pattern) : str -> nat -> option (nat * nat) :=
  end_engine (fun s a b => (a <? b) && kw_occb (fun c => c) pats s a b).
(* Patterns are literals; a [+] is not understood, a text of more than ten characters is
   too large, and a pattern that starts with a caret matches everywhere. *)
Definition literal_engines : engines := {|
  en_build := fun p limit =>
    match p with
    | 94%N :: _ => Ok (fun s i => Some (i, i))
    | _ => if existsb (N.eqb 43) p then Err OtherBuildError
           else if (limit <? N.of_nat (length p) * 100000)%N then Err SizeLimit
           else Ok (engine (Engine.literal p))
    end;
  en_earliest := kw_search;
  en_path := fun pats s => match kw_search pats s 0 with Some _ => true | None => false end;
  en_span := fun pats => span_engine (kw_occb (fun c => c) pats);
  en_validators := {| env_alphanumeric := fun _ => false; env_iban := fun _ => false;
                      env_decode_segment := fun _ => None; env_number := fun _ => None; env_now := 0 |}
|}.
Lemma kw_search_earliest : forall pats, (forall s a b, kw_occurs (fun c => c) pats s a b -> a < b) ->
  earliest (kw_search pats) (kw_occurs (fun c => c) pats).
Proof.
  intros pats Hn.
  assert (R : forall s a b, kw_occurs (fun c => c) pats s a b -> boundary s a /\ boundary s b).
  { intros s a b (pat & before & t & after & _ & -> & Ha & Hb & _). split.
    - exists before, (t ++ after). auto.
    - exists (before ++ t), after. rewrite <- app_assoc. auto. }
  assert (E : forall s a b, (a <? b) && kw_occb (fun c => c) pats s a b = true <-> kw_occurs (fun c => c) pats s a b).
  { intros s a b. rewrite andb_true_iff, kw_occb_spec, Nat.ltb_lt. split; [intros [_ H]; exact H|].
    intros H. split; [exact (Hn _ _ _ H)|exact H]. }
  destruct (end_engine_earliest (fun s a b => (a <? b) && kw_occb (fun c => c) pats s a b)) as [A B C].
  - intros s a b H. apply E in H. split; [exact (Hn _ _ _ H)|exact (R _ _ _ H)].
  - unfold Engine.holds_at in *. constructor.
    + intros s a b H. split; [exact (Hn _ _ _ H)|exact (R _ _ _ H)].
    + intros s i a b Hi Hf. destruct (B s i a b Hi Hf) as (B1 & B2 & B3). split; [exact B1|]. split; [apply E; exact B2|].
      intros a' b' K. apply B3. apply E. exact K.
    + intros s i Hi Hf a b K. apply (C s i Hi Hf a b). apply E. exact K.
Qed.

Definition plain_config (p : str) : rule_config := {|
  cf_pattern := p; cf_action := ActNone; cf_scope := ScopeExclude []; cf_keywords := None;
  cf_validator := None; cf_labels := []; cf_validation := None
|}.
Definition full_config : rule_config := {|
  cf_pattern := chars "secret"; cf_action := ActPartialRedact LastCharacters 4;
  cf_scope := ScopeInclude [[Field (chars "a"); Index 3]] [[Field (chars "a"); Index 3; Field (chars "b")]; []];
  cf_keywords := Some {| kc_look_ahead := 30; kc_included := [chars "key"; chars "my token"]; kc_excluded := [chars "test"] |};
  cf_validator := Some LuhnChecksum; cf_labels := [(chars "team", chars "x"); (chars "team", chars "y")];
  cf_validation := Some (MVCustomHttp {| hc_endpoints := [chars "https://h/v"]; hc_method := MPost;
    hc_headers := [(chars "Authorization", chars "Bearer $MATCH")]; hc_valid := [(200, 300)]%N; hc_invalid := [(400, 500); (599, 600)]%N;
    hc_timeout := 3 |})
|}.
(* three configurations with a problem each *)
Definition zero_redact : rule_config := {|
  cf_pattern := chars "ab"; cf_action := ActPartialRedact FirstCharacters 0; cf_scope := ScopeExclude [];
  cf_keywords := Some {| kc_look_ahead := 0; kc_included := []; kc_excluded := [] |};
  cf_validator := None; cf_labels := []; cf_validation := None
|}.
Definition bad_keywords : rule_config := {|
  cf_pattern := chars "ab"; cf_action := ActHash; cf_scope := ScopeExclude [];
  cf_keywords := Some {| kc_look_ahead := 30; kc_included := [chars "  "]; kc_excluded := [] |};
  cf_validator := None; cf_labels := []; cf_validation := None
|}.

(* looking at a built scanner without writing it out *)
Definition on_built {A} (f : built -> A) (o : outcome (result built create_error)) : option A :=
  match o with Ret (Ok t) => Some (f t) | _ => None end.
Lemma on_built_spec : forall A (f : built -> A) o v, on_built f o = Some v -> exists t, o = Ret (Ok t) /\ f t = v.
Proof. intros A f [[t|e]| |] v H; try discriminate H. injection H as <-. exists t. auto. Qed.
