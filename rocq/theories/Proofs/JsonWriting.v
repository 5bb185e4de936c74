(* The JSON texts that are written stand for the values they are written for. *)
From Coq Require Import Lia ZifyN ZifyBool.
From Verif Require Export Proofs.JsonText Proofs.Lossy Spec.JsonRule.
From Verif Require Import Proofs.Json.

(* numbers are written as in JSON *)
Fixpoint numbers_ok (v : json) : Prop :=
  match v with
  | JNumber t => json_number t
  | JArray l => (fix all l := match l with [] => True | v :: l' => numbers_ok v /\ all l' end) l
  | JObject m => (fix all l := match l with [] => True | f :: l' => numbers_ok (snd f) /\ all l' end) m
  | _ => True
  end.
Lemma numbers_array : forall l, numbers_ok (JArray l) <-> Forall numbers_ok l.
Proof.
  intros l. cbn [numbers_ok]. induction l as [|v l IH]; split; intros H; [constructor|exact I| |].
  - constructor; [apply H|apply IH, H].
  - inversion H; subst. split; [assumption|apply IH; assumption].
Qed.
Lemma numbers_object : forall m, numbers_ok (JObject m) <-> Forall (fun f => numbers_ok (snd f)) m.
Proof.
  intros l. cbn [numbers_ok]. induction l as [|v l IH]; split; intros H; [constructor|exact I| |].
  - constructor; [apply H|apply IH, H].
  - inversion H; subst. split; [assumption|apply IH; assumption].
Qed.

Fixpoint json_map (f : str -> str) (v : json) : json :=
  match v with
  | JString s => JString (f s)
  | JArray l => JArray (map (json_map f) l)
  | JObject m => JObject (map (fun x => (f (fst x), json_map f (snd x))) m)
  | _ => v
  end.

Section Writing.
(* the strings are written by [string], their meaning is [f]; the text is encoded by [enc] *)
Variables (string f enc : str -> str) (good : char -> Prop).
Hypothesis enc_nil : enc [] = [].
Hypothesis enc_app : forall a b, enc (a ++ b) = enc a ++ enc b.
Hypothesis enc_ascii : forall c, (c < 128)%N -> enc [c] = [c].
Hypothesis good_ascii : forall c, (32 <= c < 127)%N -> good c.
Hypothesis strings : forall s, exists u, json_chars (f s) u /\ enc u = string s /\ Forall good u.

Lemma enc_plain : forall t, Forall (fun c => (c < 128)%N) t -> enc t = t.
Proof.
  intros t H. induction H as [|c t Hc H IH]; [exact enc_nil|]. change (c :: t) with ([c] ++ t). rewrite enc_app, enc_ascii, IH by exact Hc.
  reflexivity.
Qed.
Lemma written_plain : forall t, Forall (fun c => (32 <= c < 127)%N) t -> enc t = t /\ Forall good t.
Proof.
  intros t H. split; [apply enc_plain|]; (eapply Forall_impl; [|exact H]); intros c Hc; [cbn in Hc; lia|apply good_ascii; exact Hc].
Qed.
Lemma number_chars : forall t, json_number t -> Forall (fun c => (32 <= c < 127)%N) t.
Proof.
  assert (D : forall d, numerals d -> Forall (fun c => (32 <= c < 127)%N) d).
  { intros d [_ H]. eapply Forall_impl; [|exact H]. intros c Hc. unfold digit in Hc. cbn. lia. }
  assert (L : forall c : char, (32 <= c < 127)%N -> Forall (fun c => (32 <= c < 127)%N) [c]) by (intros; constructor; [assumption|constructor]).
  intros t (g & i & fr & e & Hg & Hi & Hf & He & ->). repeat (apply Forall_app; split).
  - destruct Hg as [-> | ->]; [constructor|apply L; vm_compute; split; [discriminate|reflexivity]].
  - destruct Hi as [-> |[H _]]; [apply L; vm_compute; split; [discriminate|reflexivity]|apply D; exact H].
  - destruct Hf as [-> |(d & Hd & ->)]; [constructor|]. apply Forall_app. split; [apply L; vm_compute; split; [discriminate|reflexivity]|apply D; exact Hd].
  - destruct He as [-> |(m & s & d & Hm & Hs & Hd & ->)]; [constructor|]. repeat (apply Forall_app; split).
    + destruct Hm as [-> | ->]; apply L; vm_compute; (split; [discriminate|reflexivity]).
    + destruct Hs as [-> |[-> | ->]]; [constructor| |]; apply L; vm_compute; (split; [discriminate|reflexivity]).
    + apply D; exact Hd.
Qed.
Ltac plain := apply written_plain; vm_compute; repeat constructor; discriminate.
Ltac lit t := let A := fresh "A" in let B := fresh "B" in
  assert (A : enc t = t /\ Forall good t) by (apply written_plain; vm_compute; repeat constructor; discriminate); destruct A as [A B].

Lemma quoted_text : forall s, exists t, string_text (f s) t /\ enc t = json_quoted string s /\ Forall good t.
Proof.
  intros s. destruct (strings s) as (u & Hu & E & G). exists (chars """" ++ u ++ chars """").
  lit (chars """"). split; [exists u; split; [exact Hu|reflexivity]|]. split.
  - unfold json_quoted. rewrite !enc_app, A, E. reflexivity.
  - repeat (apply Forall_app; split); assumption.
Qed.
Lemma written_text : forall v, numbers_ok v ->
  exists t, json_text (json_map f v) t /\ enc t = json_written string v /\ Forall good t.
Proof.
  induction v as [|b|t|s|l IH|m IH] using json_ind'; intros Hv.
  - exists (chars "null"). split; [constructor|plain].
  - destruct b; [exists (chars "true")|exists (chars "false")]; (split; [constructor|plain]).
  - exists t. split; [constructor; exact Hv|]. apply written_plain, number_chars, Hv.
  - destruct (quoted_text s) as (t & Ht & H). exists t. split; [constructor; exact Ht|exact H].
  - apply numbers_array in Hv. lit (chars "["). lit (chars "]"). lit (chars ","). cbn [json_map json_written].
    destruct l as [|v l].
    + exists (chars "[" ++ [] ++ chars "]"). split; [apply jt_no_elements; constructor|]. cbn [map commas]. split; [plain|plain].
    + assert (L : exists t, elements_text (map (json_map f) (v :: l)) t /\ enc t = commas (map (json_written string) (v :: l)) /\ Forall good t).
      { clear B B0. revert v IH Hv. induction l as [|w l IHl]; intros v IH Hv.
        - inversion IH as [|? ? IHv _]; subst. inversion Hv as [|? ? Nv _]; subst. destruct (IHv Nv) as (t & Ht & E & G).
          exists ([] ++ t ++ []). split; [apply (et_last _ [] t []); [constructor|exact Ht|constructor]|].
          cbn [app map commas flat_map]. rewrite !app_nil_r. split; assumption.
        - inversion IH as [|? ? IHv IH']; subst. inversion Hv as [|? ? Nv Nl]; subst. destruct (IHv Nv) as (t & Ht & E & G).
          destruct (IHl w IH' Nl) as (t' & Ht' & E' & G'). exists ([] ++ t ++ [] ++ chars "," ++ t').
          split; [apply (et_more _ [] t [] _ t'); [constructor|exact Ht|constructor|exact Ht']|]. cbn [app]. split.
          + rewrite !enc_app, E, E', A1. cbn [map commas flat_map]. rewrite <- app_assoc. reflexivity.
          + repeat (apply Forall_app; split); assumption. }
      destruct L as (t & Ht & E & G). exists (chars "[" ++ t ++ chars "]"). split; [apply jt_array; exact Ht|]. split.
      * rewrite !enc_app, A, A0, E. reflexivity.
      * repeat (apply Forall_app; split); assumption.
  - apply numbers_object in Hv. lit (chars "{"). lit (chars "}"). lit (chars ","). lit (chars ":"). cbn [json_map json_written].
    destruct m as [|v l].
    + exists (chars "{" ++ [] ++ chars "}"). split; [apply jt_no_members; constructor|]. cbn [map commas]. split; [plain|plain].
    + assert (L : exists t, members_text (map (fun x => (f (fst x), json_map f (snd x))) (v :: l)) t /\
        enc t = commas (map (fun x => json_quoted string (fst x) ++ chars ":" ++ json_written string (snd x)) (v :: l)) /\ Forall good t).
      { clear B B0. revert v IH Hv. induction l as [|w l IHl]; intros v IH Hv.
        - inversion IH as [|? ? IHv _]; subst. inversion Hv as [|? ? Nv _]; subst. destruct (IHv Nv) as (t & Ht & E & G).
          destruct (quoted_text (fst v)) as (k & Hk & Ek & Gk).
          exists ([] ++ k ++ [] ++ chars ":" ++ [] ++ t ++ []).
          split; [apply (mt_last _ _ [] k [] [] t []); [constructor|exact Hk|constructor|constructor|exact Ht|constructor]|].
          cbn [app map commas flat_map]. rewrite !app_nil_r. split.
          + rewrite !enc_app, Ek, A2, E. reflexivity.
          + repeat (apply Forall_app; split); assumption.
        - inversion IH as [|? ? IHv IH']; subst. inversion Hv as [|? ? Nv Nl]; subst. destruct (IHv Nv) as (t & Ht & E & G).
          destruct (IHl w IH' Nl) as (t' & Ht' & E' & G'). destruct (quoted_text (fst v)) as (k & Hk & Ek & Gk).
          exists ([] ++ k ++ [] ++ chars ":" ++ [] ++ t ++ [] ++ chars "," ++ t').
          split; [apply (mt_more _ _ [] k [] [] t [] _ t'); [constructor|exact Hk|constructor|constructor|exact Ht|constructor|exact Ht']|].
          cbn [app]. split.
          + rewrite !enc_app, Ek, E, E', A1, A2. cbn [map commas flat_map]. rewrite <- !app_assoc. reflexivity.
          + repeat (apply Forall_app; split); assumption. }
      destruct L as (t & Ht & E & G). exists (chars "{" ++ t ++ chars "}"). split; [apply jt_object; exact Ht|]. split.
      * rewrite !enc_app, A, A0, E. reflexivity.
      * repeat (apply Forall_app; split); assumption.
Qed.
End Writing.

(* ---- escapes ---- *)
Lemma hex_char_numeral : forall n, (n < 16)%N -> hex_numeral (hex_char n) n.
Proof. intros n H. unfold hex_char, hex_numeral. destruct (N.ltb_spec n 10); lia. Qed.
Lemma unicode_escape_text : forall c, (c < 55296 \/ 57343 < c < 65536)%N -> json_char c (unicode_escape c).
Proof.
  intros c H. unfold unicode_escape. apply jc_unicode; [|lia].
  exists (hex_char (c / 4096)), (hex_char (c / 256 mod 16)), (hex_char (c / 16 mod 16)), (hex_char (c mod 16)),
    (c / 4096)%N, (c / 256 mod 16)%N, (c / 16 mod 16)%N, (c mod 16)%N.
  split; [reflexivity|]. repeat split; try (apply hex_char_numeral; lia). lia.
Qed.
Lemma unicode_escape_chars : forall c, (c < 65536)%N -> Forall (fun c => (32 <= c < 127)%N) (unicode_escape c).
Proof.
  intros c H. unfold unicode_escape. change (chars "\u") with [92; 117]%N. cbn [app].
  assert (K : forall n, (n < 16)%N -> (32 <= hex_char n < 127)%N) by (intros n Hn; unfold hex_char; destruct (N.ltb_spec n 10); lia).
  repeat constructor; try lia; apply K; lia.
Qed.
Lemma short_text : forall e c, In (e, c) json_escapes -> json_char c [92%N; e].
Proof. intros e c H. constructor. exact H. Qed.

Lemma serde_char_text : forall c, json_char c (serde_char c).
Proof.
  intros c. unfold serde_char.
  destruct (N.eqb_spec c 34) as [->|]; [apply (short_text 34); cbn; tauto|].
  destruct (N.eqb_spec c 92) as [->|]; [apply (short_text 92); cbn; tauto|].
  destruct (N.eqb_spec c 8) as [->|]; [apply (short_text 98); cbn; tauto|].
  destruct (N.eqb_spec c 9) as [->|]; [apply (short_text 116); cbn; tauto|].
  destruct (N.eqb_spec c 10) as [->|]; [apply (short_text 110); cbn; tauto|].
  destruct (N.eqb_spec c 12) as [->|]; [apply (short_text 102); cbn; tauto|].
  destruct (N.eqb_spec c 13) as [->|]; [apply (short_text 114); cbn; tauto|].
  destruct (N.ltb_spec c 32); [apply unicode_escape_text; lia|]. apply jc_plain; assumption.
Qed.
Lemma serde_string_text : forall s, json_chars s (serde_string s).
Proof. induction s as [|c s IH]; [constructor|]. cbn. constructor; [apply serde_char_text|exact IH]. Qed.
Lemma json_map_id : forall v, json_map (fun s => s) v = v.
Proof.
  induction v as [|b|t|s|l IH|m IH] using json_ind'; try reflexivity; cbn [json_map]; f_equal.
  - induction IH as [|x l Hx _ IHl]; [reflexivity|]. cbn [map]. rewrite Hx, IHl. reflexivity.
  - induction IH as [|[k x] l Hx _ IHl]; [reflexivity|]. cbn [map fst snd] in *. rewrite Hx, IHl. reflexivity.
Qed.
Lemma json_to_string_text : forall v, numbers_ok v -> json_text v (json_to_string v).
Proof.
  intros v H. unfold json_to_string. destruct (written_text serde_string (fun s => s) (fun s => s) (fun _ => True)) with (v := v) as (t & Ht & E & _); auto.
  - intros s. exists (serde_string s). split; [apply serde_string_text|]. split; [reflexivity|]. apply Forall_forall. intros; exact I.
  - rewrite json_map_id in Ht. rewrite <- E. exact Ht.
Qed.
Lemma text_document : forall v t, json_text v t -> json_document v t.
Proof. intros v t H. exists [], t, []. rewrite app_nil_r. repeat split; try constructor. exact H. Qed.

(* ---- Go ---- *)
Lemma go_ascii_text : forall short b, (b < 128)%N -> json_char b (go_ascii short b) /\ Forall (fun c => (32 <= c < 128)%N) (go_ascii short b).
Proof.
  assert (P : forall t, forallb (fun c => (32 <=? c) && (c <? 128))%N t = true -> Forall (fun c => (32 <= c < 128)%N) t).
  { intros t H. apply Forall_forall. intros c Hc. rewrite forallb_forall in H. specialize (H c Hc). lia. }
  assert (U : forall c, (c < 128)%N -> Forall (fun c => (32 <= c < 128)%N) (unicode_escape c)).
  { intros c Hc. eapply Forall_impl; [|apply unicode_escape_chars; lia]. intros x Hx. cbn in Hx. lia. }
  intros short b H. unfold go_ascii.
  destruct (N.eqb_spec b 34) as [->|]; [split; [apply (short_text 34); cbn; tauto|apply P; reflexivity]|].
  destruct (N.eqb_spec b 92) as [->|]; [split; [apply (short_text 92); cbn; tauto|apply P; reflexivity]|].
  destruct ((b =? 8)%N && short) eqn:E1; [apply andb_true_iff in E1 as [E1 _]; apply N.eqb_eq in E1 as ->; split; [apply (short_text 98); cbn; tauto|apply P; reflexivity]|].
  destruct ((b =? 12)%N && short) eqn:E2; [apply andb_true_iff in E2 as [E2 _]; apply N.eqb_eq in E2 as ->; split; [apply (short_text 102); cbn; tauto|apply P; reflexivity]|].
  destruct (N.eqb_spec b 10) as [->|]; [split; [apply (short_text 110); cbn; tauto|apply P; reflexivity]|].
  destruct (N.eqb_spec b 13) as [->|]; [split; [apply (short_text 114); cbn; tauto|apply P; reflexivity]|].
  destruct (N.eqb_spec b 9) as [->|]; [split; [apply (short_text 116); cbn; tauto|apply P; reflexivity]|].
  destruct ((b <? 32)%N || (b =? 60)%N || (b =? 62)%N || (b =? 38)%N) eqn:E3.
  - split; [apply unicode_escape_text; lia|apply U; exact H].
  - split; [apply jc_plain; [lia|assumption|assumption]|]. constructor; [|constructor]. lia.
Qed.
Lemma go_decode_some : forall b0 l c rest, (128 <= b0)%N -> go_decode_rune b0 l = Some (c, rest) ->
  exists u, char_utf8 c u /\ b0 :: l = u ++ rest /\ u = firstn (length l + 1 - length rest) (b0 :: l).
Proof.
  intros b0 l c rest Hb H. unfold go_decode_rune in H.
  assert (F : forall u, b0 :: l = u ++ rest -> u = firstn (length l + 1 - length rest) (b0 :: l)).
  { intros u E. assert (L : length l + 1 = length u + length rest) by (rewrite <- app_length, <- E; cbn; lia).
    rewrite L, E. replace (length u + length rest - length rest) with (length u) by lia.
    rewrite firstn_app, firstn_all, Nat.sub_diag. cbn. rewrite app_nil_r. reflexivity. }
  destruct (in_range 194 223 b0) eqn:R2; [|destruct (in_range 224 239 b0) eqn:R3; [|destruct (in_range 240 244 b0) eqn:R4; [|discriminate H]]].
  - destruct l as [|b1 l]; [discriminate H|]. destruct (is_cont b1) eqn:C1; [|discriminate H]. injection H as <- <-.
    exists [b0; b1]. split; [apply two_utf8; assumption|]. split; [reflexivity|apply F; reflexivity].
  - destruct l as [|b1 [|b2 l]]; try discriminate H. destruct (second_of_three b0 b1 && is_cont b2) eqn:C1; [|discriminate H].
    apply andb_true_iff in C1 as [C1 C2]. injection H as <- <-.
    exists [b0; b1; b2]. split; [apply three_utf8; assumption|]. split; [reflexivity|apply F; reflexivity].
  - destruct l as [|b1 [|b2 [|b3 l]]]; try discriminate H.
    destruct (second_of_four b0 b1 && is_cont b2 && is_cont b3) eqn:C1; [|discriminate H].
    apply andb_true_iff in C1 as [C1 C3]. apply andb_true_iff in C1 as [C1 C2]. injection H as <- <-.
    exists [b0; b1; b2; b3]. split; [apply four_utf8; assumption|]. split; [reflexivity|apply F; reflexivity].
Qed.
Lemma go_decode_none : forall b0 l, (128 <= b0)%N -> go_decode_rune b0 l = None -> forall c u after, char_utf8 c u -> b0 :: l <> u ++ after.
Proof.
  intros b0 l Hb H c u after Hu E. unfold go_decode_rune in H. apply char_utf8_inv in Hu.
  destruct u as [|u0 [|u1 [|u2 [|u3 [|u4 u]]]]]; try contradiction; cbn [app] in E.
  - injection E as -> _. lia.
  - injection E as -> ->. destruct Hu as [R C]. rewrite R, C in H. discriminate H.
  - injection E as -> ->. destruct Hu as (R & C1 & C2). destruct (in_range 194 223 u0) eqn:R2; [apply in_range_spec in R, R2; lia|].
    rewrite R, C1, C2 in H. discriminate H.
  - injection E as -> ->. destruct Hu as (R & C1 & C2 & C3). destruct (in_range 194 223 u0) eqn:R2; [apply in_range_spec in R, R2; lia|].
    destruct (in_range 224 239 u0) eqn:R3; [apply in_range_spec in R, R3; lia|]. rewrite R, C1, C2, C3 in H. discriminate H.
Qed.
Definition writable (c : char) : Prop := scalar c /\ (32 <= c)%N.
Lemma as_bytes_app : forall a b, as_bytes (a ++ b) = as_bytes a ++ as_bytes b.
Proof. intros a b. apply flat_map_app. Qed.
Lemma as_bytes_ascii : forall c, (c < 128)%N -> as_bytes [c] = [c].
Proof. intros c H. unfold as_bytes. cbn [flat_map]. rewrite (char_utf8_bytes c [c]) by (constructor; exact H). reflexivity. Qed.
Lemma as_bytes_plain : forall t, Forall (fun c => (32 <= c < 128)%N) t -> as_bytes t = t /\ Forall writable t.
Proof.
  intros t H. split.
  - apply (enc_plain as_bytes eq_refl as_bytes_app as_bytes_ascii). eapply Forall_impl; [|exact H]. intros c Hc. cbn in Hc. lia.
  - eapply Forall_impl; [|exact H]. intros c Hc. cbn in Hc. unfold writable, scalar. lia.
Qed.
Lemma go_string_text : forall short fuel b, length b <= fuel -> exists s u, go_text b s /\ json_chars s u /\
  as_bytes u = go_string_fuel short fuel b /\ Forall writable u.
Proof.
  intros short. induction fuel as [|fuel IH]; intros b Hf.
  - destruct b; [|simpl in Hf; lia]. exists [], []. repeat split; constructor.
  - destruct b as [|b l]; [exists [], []; repeat split; constructor|]. cbn [go_string_fuel]. cbn [length] in Hf.
    destruct (N.ltb_spec b 128) as [Hb|Hb].
    + destruct (IH l) as (s & u & H1 & H2 & H3 & H4); [lia|]. destruct (go_ascii_text short b Hb) as [A B]. apply as_bytes_plain in B as [B C].
      exists (b :: s), (go_ascii short b ++ u). split; [apply (gt_char b [b]); [constructor; exact Hb|exact H1]|].
      split; [constructor; assumption|]. split; [rewrite as_bytes_app, B, H3; reflexivity|apply Forall_app; split; assumption].
    + destruct (go_decode_rune b l) as [[c rest]|] eqn:E.
      * destruct (go_decode_some _ _ _ _ Hb E) as (w & Hw & Ew & Fw).
        assert (Lw : w <> []) by (intros ->; destruct (char_utf8_inv _ _ Hw)).
        destruct (IH rest) as (s & u & H1 & H2 & H3 & H4).
        { assert (length (b :: l) = length w + length rest) by (rewrite Ew, app_length; reflexivity). destruct w; [contradiction|]. cbn in H. lia. }
        rewrite Ew in *. destruct ((c =? 8232) || (c =? 8233))%N eqn:Ec.
        -- exists (c :: s), (unicode_escape c ++ u). split; [constructor; assumption|].
           assert (Pc : Forall (fun c => (32 <= c < 128)%N) (unicode_escape c)).
           { eapply Forall_impl; [|apply unicode_escape_chars; lia]. intros x Hx. cbn in Hx. lia. }
           apply as_bytes_plain in Pc as [P1 P2].
           split; [constructor; [apply unicode_escape_text; lia|exact H2]|]. split; [rewrite as_bytes_app, P1, H3; reflexivity|apply Forall_app; split; assumption].
        -- exists (c :: s), ([c] ++ u). split; [constructor; assumption|].
           assert (Hc : (128 <= c)%N).
           { destruct Hw; try lia. cbn in Ew. injection Ew as -> _. exact Hb. }
           split; [constructor; [apply jc_plain; lia|exact H2]|]. split.
           ++ rewrite as_bytes_app, H3, <- Fw. unfold as_bytes. cbn [flat_map]. rewrite (char_utf8_bytes c w Hw), app_nil_r. reflexivity.
           ++ apply Forall_app. split; [|exact H4]. constructor; [|constructor]. split; [exact (utf8_scalar _ _ Hw)|lia].
      * destruct (IH l) as (s & u & H1 & H2 & H3 & H4); [lia|].
        exists (65533%N :: s), (chars "\ufffd" ++ u). split; [apply gt_bad; [apply go_decode_none; assumption|exact H1]|].
        assert (Pc : Forall (fun c => (32 <= c < 128)%N) (chars "\ufffd")) by (vm_compute; repeat constructor; discriminate).
        apply as_bytes_plain in Pc as [P1 P2].
        split; [constructor; [|exact H2]; apply (unicode_escape_text 65533); lia|]. split; [rewrite as_bytes_app, P1, H3; reflexivity|apply Forall_app; split; assumption].
Qed.
