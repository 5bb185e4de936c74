(* The texts of configurations and of rules of Go are read back. *)
From Coq Require Import Lia ZifyN ZifyBool.
From Verif Require Export Proofs.JsonWriting.
From Verif Require Import Proofs.Binary Proofs.Text.

(* ---- numbers and nesting of what is written ---- *)
Definition fine (n : nat) (v : json) : Prop := numbers_ok v /\ json_depth v <= n.
Lemma fine_more : forall n m v, fine n v -> n <= m -> fine m v.
Proof. intros n m v [A B] H. split; [exact A|lia]. Qed.
Lemma fine_leaf : forall n v, numbers_ok v -> json_depth v = 0 -> fine n v.
Proof. intros n v A B. split; [exact A|lia]. Qed.
Lemma fine_string : forall n s, fine n (JString s).
Proof. intros. apply fine_leaf; [exact I|reflexivity]. Qed.
Lemma fine_null : forall n, fine n JNull.
Proof. intros. apply fine_leaf; [exact I|reflexivity]. Qed.
Lemma fine_array : forall n l, Forall (fine n) l -> fine (S n) (JArray l).
Proof.
  intros n l H. split.
  - apply numbers_array. eapply Forall_impl; [|exact H]. intros v [A _]. exact A.
  - cbn [json_depth]. apply le_n_S. induction H as [|v l [_ A] H IH]; [cbn; lia|]. cbn [fold_right]. apply Nat.max_lub; assumption.
Qed.
Lemma fine_object : forall n m, Forall (fun f => fine n (snd f)) m -> fine (S n) (JObject m).
Proof.
  intros n l H. split.
  - apply numbers_object. eapply Forall_impl; [|exact H]. intros v [A _]. exact A.
  - cbn [json_depth]. apply le_n_S. induction H as [|v l [_ A] H IH]; [cbn; lia|]. cbn [fold_right]. apply Nat.max_lub; assumption.
Qed.
Lemma decimal_number : forall n, json_number (decimal n).
Proof.
  intros n. destruct (decimal_reads n) as (A & B & C & D). exists [], (decimal n), [], [].
  repeat split; [left; reflexivity| |left; reflexivity|left; reflexivity|rewrite !app_nil_r; reflexivity].
  assert (N : Forall digit (decimal n)).
  { apply Forall_forall. intros c Hc. apply B in Hc. unfold is_digit in Hc. unfold digit. lia. }
  destruct (decimal n) as [|c t] eqn:E; [contradiction|]. destruct (N.eq_dec c 48) as [->|Hc].
  - left. rewrite (D t eq_refl). reflexivity.
  - right. split; [split; [discriminate|exact N]|]. intros r K. change (chars "0") with [48%N] in K. injection K as K _. contradiction.
Qed.
Lemma fine_nat : forall n k, fine n (ser_nat k).
Proof. intros. apply fine_leaf; [apply decimal_number|reflexivity]. Qed.
Lemma fine_num : forall n k, fine n (ser_num k).
Proof. intros. apply fine_leaf; [apply decimal_number|reflexivity]. Qed.
Lemma fine_list : forall A (f : A -> json) n l, (forall x, fine n (f x)) -> fine (S n) (ser_list f l).
Proof. intros A f n l H. apply fine_array. apply Forall_forall. intros v Hv. apply in_map_iff in Hv as (x & <- & _). apply H. Qed.
Lemma fine_option : forall A (f : A -> json) n o, (forall x, fine n (f x)) -> fine n (ser_option f o).
Proof. intros A f n [x|] H; [apply H|apply fine_null]. Qed.
Ltac fine := repeat first [apply fine_string | apply fine_null | apply fine_nat | apply fine_num
  | apply fine_list; intros | apply fine_option; intros
  | apply fine_object; repeat (apply Forall_cons; [cbn [snd]|]); [..|apply Forall_nil]
  | apply fine_array; repeat (apply Forall_cons; [cbn [snd]|]); [..|apply Forall_nil]].
Lemma fine_segment : forall n s, fine (S n) (ser_segment s).
Proof. intros n [f|i]; unfold ser_segment; fine. Qed.
Lemma fine_config : forall c, fine 100 (ser_config c).
Proof.
  intros c. unfold ser_config. fine.
  - destruct (cf_action c); unfold ser_action, ser_direction; fine.
  - destruct (cf_scope c); unfold ser_scope; fine; apply fine_segment.
  - destruct x as [[|a|]|h]; unfold ser_validation, ser_aws_type, ser_aws, ser_http, ser_duration, ser_header, ser_range; fine.
Qed.
Lemma fine_reads : forall v t, fine 100 v -> json_text v t -> json_from_str t = Some v.
Proof. intros v t [_ A] H. apply json_reads. split; [apply text_document; exact H|lia]. Qed.
Lemma serde_reads : forall v, fine 100 v -> json_from_str (json_to_string v) = Some v.
Proof. intros v H. apply fine_reads; [exact H|]. apply json_to_string_text, H. Qed.

(* ---- strings of Go ---- *)
Lemma go_text_unique : forall b s, go_text b s -> forall s', go_text b s' -> s = s'.
Proof.
  intros b s H. induction H as [|c b rest s Hc H IH|b rest s Hb H IH]; intros s' H'.
  - inversion H' as [|c b rest s Hc H E|]; [reflexivity|]. apply app_eq_nil in E as [-> ->]. inversion Hc.
  - inversion H' as [E|c' b' rest' s2 Hc' H2 E|b1 rest' s2 Hb H2 E].
    + symmetry in E. apply app_eq_nil in E as [-> ->]. inversion Hc.
    + assert (c' = c).
      { pose proof (lossy_char c b rest Hc) as E1. pose proof (lossy_char c' b' rest' Hc') as E2. rewrite E, E1 in E2. injection E2 as K _. auto. }
      subst c'. rewrite <- (char_utf8_bytes _ _ Hc), <- (char_utf8_bytes _ _ Hc') in E. apply app_inv_head in E. subst rest'. f_equal. auto.
    + exfalso. exact (Hb c b rest Hc E).
  - inversion H' as [|c' b' rest' s2 Hc' H2 E|b1 rest' s2 Hb1 H2]; subst.
    + exfalso. exact (Hb c' b' rest' Hc' (eq_sym E)).
    + f_equal. auto.
Qed.
Fixpoint runes_fuel (fuel : nat) (b : octets) : str :=
  match fuel, b with
  | S fuel, x :: l =>
    if (x <? 128)%N then x :: runes_fuel fuel l
    else match go_decode_rune x l with Some (c, r) => c :: runes_fuel fuel r | None => 65533%N :: runes_fuel fuel l end
  | _, _ => []
  end.
Definition runes (b : octets) : str := runes_fuel (length b) b.
Lemma runes_fuel_text : forall fuel b, length b <= fuel -> go_text b (runes_fuel fuel b).
Proof.
  induction fuel as [|fuel IH]; intros [|b l] Hf; cbn [runes_fuel]; try constructor; [cbn in Hf; lia|]. cbn [length] in Hf.
  destruct (N.ltb_spec b 128) as [Hb|Hb].
  - apply (gt_char b [b]); [constructor; exact Hb|apply IH; lia].
  - destruct (go_decode_rune b l) as [[c r]|] eqn:E.
    + destruct (go_decode_some _ _ _ _ Hb E) as (w & Hw & Ew & _). rewrite Ew. apply gt_char; [exact Hw|]. apply IH.
      assert (L : length (b :: l) = length w + length r) by (rewrite Ew, app_length; reflexivity). destruct w; [inversion Hw|]. cbn in L. lia.
    + apply gt_bad; [apply go_decode_none; assumption|apply IH; lia].
Qed.
Lemma runes_text : forall b s, go_text b s <-> s = runes b.
Proof.
  intros b s. assert (R : go_text b (runes b)) by (apply runes_fuel_text; lia). split; [|intros ->; exact R].
  intros H. exact (go_text_unique _ _ H _ R).
Qed.
Lemma utf8_go_text : forall s b, utf8_of s b -> go_text b s.
Proof. intros s b H. induction H; constructor; assumption. Qed.
Lemma runes_nil : forall b, runes b = [] <-> b = [].
Proof.
  intros b. split; [|intros ->; reflexivity]. intros H. assert (K : go_text b []) by (apply runes_text; auto). inversion K. reflexivity.
Qed.
Lemma ascii_text : forall s, Forall (fun c => (c < 128)%N) s -> forall b, go_text b s <-> b = s.
Proof.
  intros s H. induction H as [|c s Hc H IH]; intros b.
  - split; [intros K; inversion K; reflexivity|intros ->; constructor].
  - split.
    + intros K. inversion K as [|c' b' rest s' Hc' K' E1 E2|b' rest s' _ _ E1 E2]; subst.
      * apply IH in K'. subst rest. change (c :: s) with ([c] ++ s). f_equal. apply char_utf8_bytes in Hc'. rewrite <- Hc'. apply char_utf8_bytes. constructor. exact Hc.
      * lia.
    + intros ->. change (c :: s) with ([c] ++ s). constructor; [constructor; exact Hc|]. apply IH. reflexivity.
Qed.

Lemma runes_eqb : forall t s, forallb (fun c => c <? 128)%N s = true -> str_eqb (runes t) s = str_eqb t s.
Proof.
  intros t s H. assert (A : Forall (fun c => (c < 128)%N) s).
  { apply Forall_forall. intros c Hc. rewrite forallb_forall in H. specialize (H c Hc). lia. }
  pose proof (ascii_text s A t) as K. rewrite runes_text in K.
  destruct (str_eqb (runes t) s) eqn:E1, (str_eqb t s) eqn:E2; try reflexivity; exfalso.
  - apply str_eqb_eq in E1. assert (T : t = s) by (apply K; auto). assert (str_eqb t s = true) by (apply str_eqb_eq; exact T). congruence.
  - apply str_eqb_eq in E2. assert (T : s = runes t) by (apply K; auto). assert (str_eqb (runes t) s = true) by (apply str_eqb_eq; auto). congruence.
Qed.

(* ---- rules of Go ---- *)
Definition keywords_map (f : str -> str) (k : go_keywords) : go_keywords :=
  {| gk_look_ahead := gk_look_ahead k; gk_included := option_map (map f) (gk_included k); gk_excluded := option_map (map f) (gk_excluded k) |}.
Definition rule_map (f : str -> str) (r : go_rule) : go_rule :=
  {| gr_id := f (gr_id r); gr_pattern := f (gr_pattern r);
     gr_action := {| ga_type := f (ga_type (gr_action r)); ga_redaction := f (ga_redaction (gr_action r));
                     ga_count := ga_count (gr_action r); ga_direction := f (ga_direction (gr_action r)) |};
     gr_keywords := option_map (keywords_map f) (gr_keywords r); gr_validator := f (gr_validator r) |}.
Lemma forall2_runes : forall l l', Forall2 go_text l l' <-> l' = map runes l.
Proof.
  induction l as [|x l IH]; intros l'.
  - split; [intros H; inversion H; reflexivity|intros ->; constructor].
  - split; [intros H; inversion H as [|? y ? l2 A B]; subst; apply runes_text in A as ->; apply IH in B as ->; reflexivity|].
    intros ->. constructor; [apply runes_text; reflexivity|apply IH; reflexivity].
Qed.
Lemma slice_runes : forall o o', slice_by go_text o o' <-> o' = option_map (map runes) o.
Proof.
  intros [l|] [l'|]; cbn; split; try (intros H; (contradiction || discriminate H)).
  - intros H. apply forall2_runes in H as ->. reflexivity.
  - intros H. injection H as ->. apply forall2_runes. reflexivity.
  - reflexivity.
  - intros _. exact I.
Qed.
Lemma rule_runes : forall r r', go_rule_text r r' <-> r' = rule_map runes r.
Proof.
  intros [id pat [ty red n dir] kw va] [id' pat' [ty' red' n' dir'] kw' va']. unfold go_rule_text, go_rule_by, rule_map. cbn.
  rewrite !runes_text. split.
  - intros (-> & -> & -> & -> & -> & -> & H & ->). f_equal. destruct kw as [[la i e]|], kw' as [[la' i' e']|]; try contradiction; [|reflexivity].
    cbn in *. rewrite !slice_runes in H. destruct H as (-> & -> & ->). reflexivity.
  - intros H. injection H as -> -> -> -> -> -> -> ->. repeat (split; [reflexivity|]). split; [|reflexivity].
    destruct kw as [[la i e]|]; [|exact I]. cbn. rewrite !slice_runes. auto.
Qed.
Lemma rule_json_map : forall r, go_rule_json (rule_map runes r) = json_map runes (go_rule_json r).
Proof.
  assert (S : forall o, go_slice_json (option_map (map runes) o) = json_map runes (go_slice_json o)).
  { intros [l|]; [|reflexivity]. unfold go_slice_json, ser_option, ser_list. cbn [option_map json_map]. rewrite !map_map. reflexivity. }
  assert (A : forall a, go_action_json {| ga_type := runes (ga_type a); ga_redaction := runes (ga_redaction a);
     ga_count := ga_count a; ga_direction := runes (ga_direction a) |} = json_map runes (go_action_json a)).
  { intros [ty red n dir]. unfold go_action_json. cbn [ga_type ga_redaction ga_count ga_direction].
    rewrite !runes_eqb by reflexivity. destruct (str_eqb ty (chars "Redact")); [reflexivity|].
    destruct (str_eqb ty (chars "PartialRedact")); reflexivity. }
  intros [id pat a kw va]. unfold go_rule_json, rule_map. cbn [gr_id gr_pattern gr_action gr_keywords gr_validator]. rewrite A.
  cbn [json_map]. rewrite !map_app. apply (f_equal JObject). apply f_equal2; [reflexivity|]. apply f_equal2.
  - destruct kw as [k|]; [|reflexivity]. cbn [option_map]. unfold go_keywords_json, keywords_map. cbn [gk_look_ahead gk_included gk_excluded].
    rewrite !S. reflexivity.
  - destruct va as [|c va]; [reflexivity|]. destruct (runes (c :: va)) as [|c' va'] eqn:E; [apply (proj1 (runes_nil (c :: va))) in E; discriminate E|].
    unfold go_validator_json. cbn [map fst snd json_map]. rewrite E. reflexivity.
Qed.
Lemma fine_go_rule : forall r, fine 100 (go_rule_json r).
Proof.
  intros [id pat [ty red n dir] kw va]. unfold go_rule_json, go_action_json. cbn [gr_id gr_pattern gr_action gr_keywords gr_validator ga_type ga_redaction ga_count ga_direction].
  apply fine_object. apply Forall_app. split; [|apply Forall_app; split].
  - repeat (apply Forall_cons; [cbn [snd]|]); [fine|fine| |constructor]. destruct (str_eqb ty (chars "Redact")); [fine|].
    destruct (str_eqb ty (chars "PartialRedact")); fine.
  - destruct kw as [k|]; [apply Forall_cons; [|apply Forall_nil]|apply Forall_nil]. cbn [snd]. unfold go_keywords_json, go_slice_json. fine.
  - destruct va as [|c va]; [apply Forall_nil|apply Forall_cons; [|apply Forall_nil]]. cbn [snd]. unfold go_validator_json. fine.
Qed.

(* ---- the C string ---- *)
Lemma until_nul_app : forall b, Forall (fun x => x <> 0%N) b -> forall rest, until_nul (b ++ 0%N :: rest) = b.
Proof.
  intros b H. induction H as [|x b Hx H IH]; intros rest; [reflexivity|]. cbn. rewrite IH. destruct (N.eqb_spec x 0); [contradiction|reflexivity].
Qed.
Lemma writable_bytes : forall t, Forall writable t -> utf8_of t (as_bytes t) /\ Forall (fun x => x <> 0%N) (as_bytes t).
Proof.
  intros t H. split.
  - apply utf8_of_iff. split; [|reflexivity]. eapply Forall_impl; [|exact H]. intros c [A _]. exact A.
  - induction H as [|c t [A B] H IH]; [constructor|]. change (c :: t) with ([c] ++ t). rewrite as_bytes_app. apply Forall_app. split; [|exact IH].
    unfold as_bytes. cbn [flat_map]. rewrite app_nil_r. apply scalar_utf8 in A. remember (char_bytes c) as b eqn:E. clear E.
    destruct A; repeat constructor; lia.
Qed.
Lemma go_marshal_text : forall short v, numbers_ok v ->
  exists t, json_text (json_map runes v) t /\ as_bytes t = go_marshal short v /\ Forall writable t.
Proof.
  intros short v H. unfold go_marshal. apply written_text; auto.
  - apply as_bytes_app.
  - apply as_bytes_ascii.
  - intros c Hc. split; [unfold scalar|]; lia.
  - intros s. destruct (go_string_text short (length s) s) as (s' & u & A & B); [lia|]. apply runes_text in A as ->. exists u. exact B.
Qed.
Lemma go_bytes_read : forall short utf16 r r', go_rule_text r r' -> go_create_rule_bytes short utf16 r = go_create_rule utf16 r'.
Proof.
  intros short utf16 r r' H. apply rule_runes in H as ->. unfold go_create_rule_bytes, go_create_rule, native_create_rule.
  destruct (fine_go_rule r) as [N _]. destruct (go_marshal_text short _ N) as (t & Ht & <- & W).
  destruct (writable_bytes t W) as [U Z]. rewrite (until_nul_app _ Z), (lossy_utf8 _ _ U). rewrite <- rule_json_map in Ht.
  rewrite (fine_reads _ _ (fine_go_rule _) Ht). reflexivity.
Qed.
Lemma go_rule_utf8_text : forall r r', go_rule_utf8 r r' -> go_rule_text r r'.
Proof.
  assert (F : forall l l', Forall2 (fun b s => utf8_of s b) l l' -> Forall2 go_text l l').
  { intros l l' H. induction H; constructor; [apply utf8_go_text|]; assumption. }
  assert (S : forall o o', slice_by (fun b s => utf8_of s b) o o' -> slice_by go_text o o').
  { intros [l|] [l'|] H; cbn in *; auto. }
  intros r r' (A & B & C & D & E & G & K & V). unfold go_rule_text, go_rule_by.
  do 6 (split; [auto using utf8_go_text; fail|]). split; [|apply utf8_go_text; exact V].
  revert K. destruct (gr_keywords r), (gr_keywords r'); auto. intros (K1 & K2 & K3). auto.
Qed.
