(* Scanning the result of a scan (C93): proofs of the statements of Thm/Rescan.v *)
From Coq Require Import Lia.
From Verif Require Import Proofs.Text Proofs.ConversionClaims Examples.Setting Examples.Build Examples.RegexEngine.
From Verif Require Export Proofs.Rescan.

(* -- the rules of the refutations -- *)
Definition rs_rule (pattern : str) (a : match_action) : rule_config := {|
  cf_pattern := pattern; cf_action := a; cf_scope := ScopeExclude []; cf_keywords := None;
  cf_validator := None; cf_labels := []; cf_validation := None
|}.
Definition rs_builder (rules : list rule_config) : builder :=
  {| bu_rules := rules; bu_labels := []; bu_kw_paths := true; bu_wild := false; bu_multipass := false |}.
Definition rs_engines : engines := regex_engines (en_validators literal_engines).
Lemma good_by : forall c a text r, parse_regex_pattern 51 (cf_pattern c) = Ret (Ok a) -> convert_to_rust_regex 51 (cf_pattern c) = Ret (Ok text) ->
  faithful mode0 a -> NoDup (group_names a) -> reread text = Some r -> consumes r = true -> good_pattern ascii_env c.
Proof.
  intros c a text r P C F N R K. split; [exists a; auto|]. intros s i L (t & a' & P' & M). rewrite P in P'. injection P' as <-.
  destruct (c57_faithful_lemma _ a text P C F N) as (r' & R' & S). rewrite R in R'. injection R' as <-.
  apply (S ascii_env s ascii_env_plain i t i) in M. apply (consumes_spec s r rmode0 K) in M. lia.
Qed.
Lemma secret_by : forall c t a text r, good_pattern ascii_env c -> parse_regex_pattern 51 (cf_pattern c) = Ret (Ok a) ->
  convert_to_rust_regex 51 (cf_pattern c) = Ret (Ok text) -> reread text = Some r -> solid r = true ->
  existsb (fun f => snd f =? length t) (ends t rmode0 r 0) = true -> is_secret ascii_env c t.
Proof.
  intros c t a text r ((a' & P' & F & N) & _) P C R S X. rewrite P in P'. injection P' as <-.
  destruct (c57_faithful_lemma _ a text P C F N) as (r' & R' & M). rewrite R in R'. injection R' as <-.
  apply existsb_exists in X as ([u j] & X & J). apply Nat.eqb_eq in J. cbn in J. subst j. exists u. apply (written_unique ascii_env c t a P).
  apply (M ascii_env t ascii_env_plain). apply ends_spec; assumption.
Qed.
Ltac secret := eapply secret_by; [|vm_compute; reflexivity|vm_compute; reflexivity|vm_compute; reflexivity|reflexivity|vm_compute; reflexivity].
Ltac good := eapply good_by; [vm_compute; reflexivity|vm_compute; reflexivity|cbn; repeat split; try discriminate; try lia; try (left; discriminate)|
  cbn; constructor|vm_compute; reflexivity|reflexivity].
Lemma rs_simple : forall p a, a <> ActNone -> simple_rule (rs_rule p a).
Proof. intros p a H. constructor; [exact H|reflexivity|reflexivity]. Qed.
Lemma rs_plain : forall rules t, build rs_engines (rs_builder rules) = Ret (Ok t) ->
  (forall c, In c rules -> good_pattern ascii_env c /\ self_contained c /\ simple_rule c) -> plain_rules ascii_env lower rs_engines (rs_builder rules) t.
Proof. intros rules t H HA. constructor; auto; [apply regex_engines_ok|exact ascii_env_plain|reflexivity|left; reflexivity]. Qed.
Lemma one_apart : forall E c s, apart E [c] s.
Proof. intros E c s [|[|r]] x [|[|r']] x' i j i' j' H H' N; try discriminate H; try discriminate H'. congruence. Qed.
Definition digit (x : char) : Prop := (48 <= x <= 57)%N.
Definition scanned_to (t : built) (s : str) : option str :=
  match scan simple_event_impl 100 ex_hash isort (bt_scanner t) [] (SString s) with Ret (SString s', _) => Some s' | _ => None end.
Lemma scanned_to_spec : forall t s s', scanned_to t s = Some s' ->
  exists outs, scan simple_event_impl 100 ex_hash isort (bt_scanner t) [] (SString s) = Ret (SString s', outs).
Proof.
  intros t s s' H. unfold scanned_to in H. destruct (scan simple_event_impl 100 ex_hash isort (bt_scanner t) [] (SString s)) as [[e outs]| |]; try discriminate H.
  destruct e; try discriminate H. injection H as ->. eauto.
Qed.
Lemma rs_built : forall rules s s' s'', on_built (fun t => (scanned_to t s, scanned_to t s')) (build rs_engines (rs_builder rules)) = Some (Some s', Some s'') ->
  exists t, build rs_engines (rs_builder rules) = Ret (Ok t) /\
    (exists outs, scan simple_event_impl 100 ex_hash isort (bt_scanner t) [] (SString s) = Ret (SString s', outs)) /\
    (exists outs, scan simple_event_impl 100 ex_hash isort (bt_scanner t) [] (SString s') = Ret (SString s'', outs)).
Proof.
  intros rules s s' s'' H. apply on_built_spec in H as (t & B & H). injection H as H1 H2. exists t. split; [exact B|].
  split; apply scanned_to_spec; assumption.
Qed.

Lemma c93_kept_lemma :
  forall E fold en b t e srt fuel, plain_rules E fold en b t ->
  sorter_ok srt -> distinct_keys e -> enough_fuel fuel (simple_strings e) ->
  forall h, exists e' outs, scan simple_event_impl fuel h srt (bt_scanner t) [] e = Ret (e', outs) /\
  scan_result simple_event_impl (simple_strings e) (simple_holds e) e' outs (fun p s s' os => exists g0 cs,
    s = original g0 cs /\ s' = rewritten g0 cs /\ length cs = length os /\
    (forall u, In u cs -> exists c, In c (bu_rules b) /\ in_scope b c p /\ is_secret E c (cut_old u) /\
      cut_new u = redacted h (cf_action c) (cut_old u)) /\
    (apart E (bu_rules b) s -> forall c g t, In c (bu_rules b) -> in_scope b c p -> In g (left_alone g0 cs) ->
      is_secret E c t -> ~ occurs_in t g)).
Proof.
intros E fold en b t e srt fuel [A B C D F G] Hs Hd Hf h. eapply left_parts_clean; eauto.
Qed.

Lemma c93_again_lemma :
  forall E fold en b t e srt fuel, plain_rules E fold en b t ->
  sorter_ok srt -> distinct_keys e -> enough_fuel fuel (simple_strings e) ->
  (forall p s, In (p, s) (simple_strings e) -> apart E (bu_rules b) s) ->
  forall h, inert E h (bu_rules b) -> exists e' outs, scan simple_event_impl fuel h srt (bt_scanner t) [] e = Ret (e', outs) /\
  (forall c p s t, In c (bu_rules b) -> In (p, s) (simple_strings e') -> in_scope b c p -> is_secret E c t -> ~ occurs_in t s) /\
  forall h' srt' fuel', sorter_ok srt' -> enough_fuel fuel' (simple_strings e') ->
    scan simple_event_impl fuel' h' srt' (bt_scanner t) [] e' = Ret (e', []).
Proof.
intros E fold en b t e srt fuel [A B C D F G] Hs Hd Hf Ha h Hi. eapply scan_again; eauto.
Qed.

Lemma c93_alphabets_lemma :
  forall E fold en b t e srt fuel (alphabet : nat -> char -> Prop), plain_rules E fold en b t ->
  (forall r c, nth_error (bu_rules b) r = Some c -> uses_only E (alphabet r) c) ->
  (forall r r' x, r <> r' -> alphabet r x -> ~ alphabet r' x) ->
  (forall c, In c (bu_rules b) -> exists y, cf_action c = ActRedact y /\ y <> [] /\ forall r x, In x y -> ~ alphabet r x) ->
  sorter_ok srt -> distinct_keys e -> enough_fuel fuel (simple_strings e) ->
  forall h, exists e' outs, scan simple_event_impl fuel h srt (bt_scanner t) [] e = Ret (e', outs) /\
  forall h' srt' fuel', sorter_ok srt' -> enough_fuel fuel' (simple_strings e') ->
    scan simple_event_impl fuel' h' srt' (bt_scanner t) [] e' = Ret (e', []).
Proof.
intros E fold en b t e srt fuel alphabet [A B C D F G] U Dj Y Hs Hd Hf h.
  destruct (scan_again E fold en b t e srt fuel A B C D F G Hs Hd Hf) with (h := h) as (e' & outs & H1 & _ & H2).
  - intros p s _. apply (alphabets_apart E (bu_rules b) alphabet s); auto. intros c Hc. destruct (F c Hc) as (Q1 & Q2 & _). auto.
  - apply (alphabets_inert E h (bu_rules b) alphabet); auto. intros c Hc. destruct (F c Hc) as (_ & Q & _). exact Q.
  - exists e', outs. auto.
Qed.

Lemma c93_remainder_refuted_lemma :
  exists E fold en b t h, plain_rules E fold en b t /\ inert E h (bu_rules b) /\
    map (fun c => (cf_pattern c, cf_action c)) (bu_rules b) = [(chars "x\d", ActRedact (chars "[A]")); (chars "\d+", ActRedact (chars "[B]"))] /\
    (exists outs, scan simple_event_impl 100 h isort (bt_scanner t) [] (SString (chars "x12345")) = Ret (SString (chars "[A]2345"), outs)) /\
    (exists outs, scan simple_event_impl 100 h isort (bt_scanner t) [] (SString (chars "[A]2345")) = Ret (SString (chars "[A][B]"), outs)).
Proof.
pose (c1 := rs_rule (chars "x\d") (ActRedact (chars "[A]"))). pose (c2 := rs_rule (chars "\d+") (ActRedact (chars "[B]"))).
  destruct (rs_built [c1; c2] (chars "x12345") (chars "[A]2345") (chars "[A][B]")) as (t & B & H1 & H2); [vm_compute; reflexivity|].
  exists ascii_env, lower, rs_engines, (rs_builder [c1; c2]), t, ex_hash.
  assert (G : forall c, In c [c1; c2] -> good_pattern ascii_env c /\ self_contained c /\ simple_rule c).
  { intros c [<-|[<-|[]]]; (split; [good|split; [eexists; split; [vm_compute; reflexivity|cbn; tauto]|apply rs_simple; discriminate]]). }
  split; [apply rs_plain; [exact B|exact G]|]. split; [|split; [reflexivity|split; assumption]].
  apply (alphabets_inert _ _ _ (fun _ x => digit x \/ lower x = 120%N)).
  - intros c Hc. apply (G c Hc).
  - intros [|[|[|r]]] c H; try discriminate H; injection H as <-; (eexists; split; [vm_compute; reflexivity|]); cbn.
    + split; [|split; [intros _ x H; left; exact H|exact Logic.I]]. intros i x [<-|(_ & d & <- & S)]; right; [reflexivity|exact S].
    + intros _ x H. left. exact H.
  - intros c [<-|[<-|[]]]; eexists; (split; [reflexivity|]); (split; [discriminate|]); intros _ x [<-|[<-|[<-|[]]]] [[_ H]|H]; try (apply H; reflexivity); discriminate H.
Qed.

Lemma c93_joined_refuted_lemma :
  exists E fold en b t h, plain_rules E fold en b t /\ (forall s, apart E (bu_rules b) s) /\
    map (fun c => (cf_pattern c, cf_action c)) (bu_rules b) = [(chars "ab", ActRedact [])] /\
    (exists outs, scan simple_event_impl 100 h isort (bt_scanner t) [] (SString (chars "aabb")) = Ret (SString (chars "ab"), outs)) /\
    (exists outs, scan simple_event_impl 100 h isort (bt_scanner t) [] (SString (chars "ab")) = Ret (SString [], outs)).
Proof.
pose (c1 := rs_rule (chars "ab") (ActRedact [])).
  destruct (rs_built [c1] (chars "aabb") (chars "ab") []) as (t & B & H1 & H2); [vm_compute; reflexivity|].
  exists ascii_env, lower, rs_engines, (rs_builder [c1]), t, ex_hash.
  split; [apply rs_plain; [exact B|]|].
  { intros c [<-|[]]; (split; [good|split; [eexists; split; [vm_compute; reflexivity|cbn; tauto]|apply rs_simple; discriminate]]). }
  split; [apply one_apart|]. split; [reflexivity|split; assumption].
Qed.

Lemma c93_partial_refuted_lemma :
  exists E fold en b t h, plain_rules E fold en b t /\ (forall s, apart E (bu_rules b) s) /\
    map (fun c => (cf_pattern c, cf_action c)) (bu_rules b) = [(chars "\d+", ActPartialRedact FirstCharacters 2)] /\
    (exists outs, scan simple_event_impl 100 h isort (bt_scanner t) [] (SString (chars "12345")) = Ret (SString (chars "**345"), outs)) /\
    (exists outs, scan simple_event_impl 100 h isort (bt_scanner t) [] (SString (chars "**345")) = Ret (SString (chars "****5"), outs)).
Proof.
pose (c1 := rs_rule (chars "\d+") (ActPartialRedact FirstCharacters 2)).
  destruct (rs_built [c1] (chars "12345") (chars "**345") (chars "****5")) as (t & B & H1 & H2); [vm_compute; reflexivity|].
  exists ascii_env, lower, rs_engines, (rs_builder [c1]), t, ex_hash.
  split; [apply rs_plain; [exact B|]|].
  { intros c [<-|[]]; (split; [good|split; [eexists; split; [vm_compute; reflexivity|cbn; tauto]|apply rs_simple; discriminate]]). }
  split; [apply one_apart|]. split; [reflexivity|split; assumption].
Qed.

Lemma c93_assertion_refuted_lemma :
  exists E (fold : char -> char) en b t h, build en b = Ret (Ok t) /\ crate_ok E en /\ plain_env E /\ (forall c d, same_letter E c d <-> fold c = fold d) /\
    bu_multipass b = false /\ (forall c, In c (bu_rules b) -> good_pattern E c /\ simple_rule c) /\ (forall s, apart E (bu_rules b) s) /\
    map (fun c => (cf_pattern c, cf_action c)) (bu_rules b) = [(chars "\b\d\d", ActRedact (chars "[R]"))] /\
    (exists outs, scan simple_event_impl 100 h isort (bt_scanner t) [] (SString (chars "1234")) = Ret (SString (chars "[R]34"), outs)) /\
    (exists outs, scan simple_event_impl 100 h isort (bt_scanner t) [] (SString (chars "[R]34")) = Ret (SString (chars "[R][R]"), outs)).
Proof.
pose (c1 := rs_rule (chars "\b\d\d") (ActRedact (chars "[R]"))).
  destruct (rs_built [c1] (chars "1234") (chars "[R]34") (chars "[R][R]")) as (t & B & H1 & H2); [vm_compute; reflexivity|].
  exists ascii_env, lower, rs_engines, (rs_builder [c1]), t, ex_hash.
  split; [exact B|]. split; [apply regex_engines_ok|]. split; [exact ascii_env_plain|]. split; [reflexivity|]. split; [reflexivity|].
  split; [intros c [<-|[]]; (split; [good|apply rs_simple; discriminate])|].
  split; [apply one_apart|]. split; [reflexivity|split; assumption].
Qed.

