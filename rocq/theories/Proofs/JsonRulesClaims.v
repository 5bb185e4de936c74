(* JSON texts of rules, from Go and from Rust (C82, C83): proofs of the statements of Thm/JsonRules.v *)
From Coq Require Import Lia.
From Verif Require Export Proofs.JsonRules Proofs.BuildClaims.
From Verif Require Import Proofs.Text.

Lemma go_rule_pattern : forall utf16 r c, go_create_rule utf16 r = Some c -> cf_pattern c = gr_pattern r.
Proof.
  intros utf16 r c H. unfold go_create_rule, de_config in H.
  apply obind_some in H as (m & Hm & H). apply obind_some in H as (p & Hp & H).
  do 6 (apply obind_some in H as (? & _ & H)). injection H as <-. cbn [cf_pattern].
  unfold go_rule_json in Hm. cbn [de_object] in Hm. injection Hm as <-. unfold required, jfield in Hp.
  destruct (gr_keywords r), (gr_validator r); cbn [app filter fst] in Hp;
    repeat match type of Hp with context [str_eqb ?a ?b] => let v := eval vm_compute in (str_eqb a b) in change (str_eqb a b) with v in Hp end;
    cbn [snd de_str] in Hp; injection Hp as <-; reflexivity.
Qed.
Lemma utf8_of_same : forall s b b', utf8_of s b -> utf8_of s b' -> b = b'.
Proof. intros s b b' H H'. apply utf8_of_bytes in H, H'. congruence. Qed.
Lemma go_rule_text_of : forall r, exists r', go_rule_text r r'.
Proof. intros r. exists (rule_map runes r). apply rule_runes. reflexivity. Qed.

Lemma c82_reader_lemma :
  forall s v, json_from_str s = Some v <-> json_document v s /\ json_depth v < 128.
Proof.
exact json_reads.
Qed.

Lemma c82_unique_lemma :
  forall s v v', json_document v s -> json_document v' s -> v = v'.
Proof.
  assert (R : forall s v d, json_document v s -> json_depth v < d ->
    (let? (v, r) := read_value (json_fuel s) d s in match skip_blanks r with [] => Some v | _ => None end) = Some v).
  { intros s v d (b & t & b' & Hb & Ht & Hb' & ->) Hd. rewrite value_blanks by exact Hb.
    rewrite (proj1 reader_complete _ _ Ht); [|unfold json_fuel; rewrite !app_length; lia|exact Hd|].
    - cbn [obind]. apply skip_all_blanks in Hb'. rewrite Hb'. reflexivity.
    - rewrite <- (app_nil_r b'). apply past_blank; [exact Hb'|exact I]. }
  intros s v v' H H'. assert (K := R s v (S (json_depth v + json_depth v')) H). assert (K' := R s v' (S (json_depth v + json_depth v')) H').
  rewrite K in K' by lia. specialize (K' ltac:(lia)). injection K' as ->. reflexivity.
Qed.

Lemma c82_serde_lemma :
  forall utf16 c, config_fits utf16 c ->
  json_document (ser_config c) (json_to_string (ser_config c)) /\
  obind (json_from_str (json_to_string (ser_config c))) (de_config utf16) = Some c.
Proof.
  intros utf16 c H. pose proof (fine_config c) as F. split.
  - apply text_document, json_to_string_text, F.
  - rewrite (serde_reads _ F). cbn [obind]. apply c67_round_trip_lemma. exact H.
Qed.

Lemma c82_cstring_lemma :
  forall short r, (exists v t, json_document v t /\ json_depth v < 128 /\ utf8_of t (go_marshal short (go_rule_json r))) /\
  ~ In 0%N (go_marshal short (go_rule_json r)).
Proof.
  intros short r. destruct (fine_go_rule r) as [N D]. destruct (go_marshal_text short _ N) as (t & Ht & <- & W).
  destruct (writable_bytes t W) as [U Z]. split.
  - exists (json_map runes (go_rule_json r)), t. split; [apply text_document; exact Ht|]. split; [|exact U].
    rewrite <- rule_json_map. destruct (fine_go_rule (rule_map runes r)). lia.
  - intros K. rewrite Forall_forall in Z. exact (Z _ K eq_refl).
Qed.

Lemma c82_go_lemma :
  forall short utf16 r, (exists r', go_rule_text r r') /\
  forall r', go_rule_text r r' -> go_create_rule_bytes short utf16 r = go_create_rule utf16 r'.
Proof.
  intros short utf16 r. split; [apply go_rule_text_of|]. intros r' H. apply go_bytes_read. exact H.
Qed.

Lemma c82_valid_lemma :
  forall short r r' c, go_rule_utf8 r r' -> go_rule_fits r' ->
  (go_create_rule_bytes short false r = Some c <-> go_rule_means r' c).
Proof.
  intros short r r' c H F. rewrite (go_bytes_read _ _ _ _ (go_rule_utf8_text _ _ H)). apply c68_go_rule_lemma. exact F.
Qed.

Lemma c83_refuted_lemma :
  exists short r r' c, gr_pattern r <> gr_pattern r' /\
  go_create_rule_bytes short false r = Some c /\ go_create_rule_bytes short false r' = Some c.
Proof.
  exists true, {| gr_id := chars "r"; gr_pattern := [97; 255]%N;
    gr_action := {| ga_type := chars "Hash"; ga_redaction := []; ga_count := 0; ga_direction := [] |}; gr_keywords := None; gr_validator := [] |},
    {| gr_id := chars "r"; gr_pattern := [97; 254]%N;
    gr_action := {| ga_type := chars "Hash"; ga_redaction := []; ga_count := 0; ga_direction := [] |}; gr_keywords := None; gr_validator := [] |},
    {| cf_pattern := [97; 65533]%N; cf_action := ActHash; cf_scope := ScopeExclude []; cf_keywords := None; cf_validator := None; cf_labels := []; cf_validation := None |}.
  split; [discriminate|]. split; vm_compute; reflexivity.
Qed.

Lemma c83_valid_lemma :
  forall short utf16 r r' t t' c, go_rule_utf8 r t -> go_rule_utf8 r' t' ->
  go_create_rule_bytes short utf16 r = Some c -> go_create_rule_bytes short utf16 r' = Some c -> gr_pattern r = gr_pattern r'.
Proof.
  intros short utf16 r r' t t' c H H' E E'. rewrite (go_bytes_read _ _ _ _ (go_rule_utf8_text _ _ H)) in E.
  rewrite (go_bytes_read _ _ _ _ (go_rule_utf8_text _ _ H')) in E'. apply go_rule_pattern in E, E'.
  destruct H as (_ & H & _), H' as (_ & H' & _). apply (utf8_of_same (cf_pattern c)); congruence.
Qed.

