(* The binary encoding, the Go binding and event implementations (C38-C42) *)
From Coq Require Import Permutation Lia.
From Verif Require Import Proofs.CodecClaims Examples.Setting Examples.Codec Examples.LongResponse.

(* Decoding in Rust what Go encodes for a string, list or map shows exactly the strings
   of the event, each with its path, and every push has its pop.  The order of the
   entries of a map is the order of the list, so any order is covered. *)
Theorem C38_round_trip :
  forall e v, go_image e v -> go_fits v ->
  exists data ops strs,
    go_encode v = Ok data /\ decode_event data = Ret ops /\ balanced ops /\
    strings_of ops = Some strs /\ (forall p s, In (p, s) strs <-> holds_at e p s) /\
    (distinct_keys e -> NoDup (map fst strs)).
Proof. exact c38_round_trip_lemma. Qed.
Print Assumptions C38_round_trip.

Example C38_round_trip_applies : exists e v, go_image e v /\ go_fits v /\ distinct_keys e /\
  exists data, go_encode v = Ok data /\ length data = 50 /\ decode_event data <> Panic.
Proof.
  exists co_event, co_value. split; [exact co_image|]. split; [exact co_fits|]. split; [exact co_distinct|].
  eexists. split; [vm_compute; reflexivity|]. split; [reflexivity|]. vm_compute. discriminate.
Qed.

(* Go strings need not be UTF-8.  For arbitrary bytes, the strings and the keys shown
   are those of the event after the ill-formed parts have been replaced. *)
Theorem C38_any_bytes :
  forall v, go_fits v -> ~ has_unknown v ->
  exists data ops strs,
    go_encode v = Ok data /\ decode_event data = Ret ops /\ strings_of ops = Some strs /\
    forall p s, In (p, s) strs <->
      exists q b, go_holds v q b /\ s = from_utf8_lossy b /\
        p = map (fun x => match x with GKey k => Field (from_utf8_lossy k) | GIdx i => Index i end) q.
Proof. exact c38_any_bytes_lemma. Qed.
Print Assumptions C38_any_bytes.

Example C38_any_bytes_applies : exists v, go_fits v /\ ~ has_unknown v /\ go_holds v [GKey [255%N]] [115; 255]%N.
Proof.
  exists (GMap [([255%N], GString [115; 255]%N)]). split; [|split].
  - constructor. intros k v [E|[]]. injection E as <- <-. split; [reflexivity|]. constructor. reflexivity.
  - intros H. inversion H; subst. destruct H1 as [E|[]]. injection E as <- <-. inversion H2.
  - econstructor; [left; reflexivity|constructor].
Qed.

(* The replacement leaves well-formed UTF-8 as it is: decoding the bytes of a text gives
   the text, and the bytes the native side writes for a text are its UTF-8 bytes. *)
Theorem C38_utf8 :
  forall s b, utf8_of s b -> from_utf8_lossy b = s /\ as_bytes s = b.
Proof. exact c38_utf8_lemma. Qed.
Print Assumptions C38_utf8.

Example C38_utf8_applies : exists b, utf8_of [97; 233; 8364; 128512]%N b /\
  b = [97; 195; 169; 226; 130; 172; 240; 159; 152; 128]%N /\
  from_utf8_lossy [97; 226; 130; 98; 255]%N = [97; 65533; 98; 65533]%N.
Proof.
  exists (as_bytes [97; 233; 8364; 128512]%N). split; [|split; vm_compute; reflexivity].
  apply utf8_text. reflexivity.
Qed.

(* Bytes that are not UTF-8 are read as Unicode recommends. *)
Theorem C38_lossy :
  forall b s, read_lossily b s <-> s = from_utf8_lossy b.
Proof. exact c38_lossy_lemma. Qed.
Print Assumptions C38_lossy.

(* an overlong form, a cut-off character, a lone continuation byte, a surrogate *)
Example C38_lossy_applies :
  read_lossily [224; 128; 97]%N [65533; 65533; 97]%N /\ read_lossily [195; 97; 240; 159; 152; 97]%N [65533; 97; 65533; 97]%N /\
  read_lossily [128]%N [65533]%N /\ read_lossily [237; 160; 128]%N [65533; 65533; 65533]%N.
Proof. repeat split; apply C38_lossy; reflexivity. Qed.

(* The encoder refuses exactly the events in which a value of another type occurs. *)
Theorem C38_rejected_events :
  forall v, (exists x, go_encode v = Err x) <-> has_unknown v.
Proof. exact c38_rejected_events_lemma. Qed.
Print Assumptions C38_rejected_events.

Example C38_rejected_events_applies :
  has_unknown (GMap [([97%N], GList [GString [98%N]; GOther])]) /\ ~ has_unknown co_value.
Proof.
  split.
  - econstructor; [left; reflexivity|]. econstructor; [right; left; reflexivity|]. constructor.
  - intros H. apply C38_rejected_events in H as (x & H). vm_compute in H. discriminate H.
Qed.

(* Without well-formed keys the paths are not distinct: two entries of a Go map can be
   shown under the same path. *)
Theorem C38_ill_formed_keys_refuted :
  exists k1 k2 b data ops, k1 <> k2 /\
  go_encode (GMap [(k1, GString b); (k2, GString b)]) = Ok data /\
  decode_event data = Ret ops /\
  exists p s, strings_of ops = Some [(p, s); (p, s)].
Proof. exact c38_ill_formed_keys_refuted_lemma. Qed.
Print Assumptions C38_ill_formed_keys_refuted.

(* Decoding in Go what Rust encodes yields the same matches in the same order, and the
   content of the last string marked as mutated. *)
Theorem C39_response :
  forall st ms, ms <> [] ->
  (forall e, In e st -> fst (snd e) = true -> entry_fits e) ->
  (forall o, In o ms -> match_fits o /\ path_fits (rm_path o)) ->
  exists data o r,
    encode_response st ms = Some data /\
    decode_response (length data) data no_outcome = Ret (Ok o) /\
    last_mutated st r /\ Forall2 match_image ms (so_matches o) /\
    match r with
    | None => so_mutated o = false
    | Some s => so_mutated o = true /\ utf8_of s (so_event o)
    end.
Proof. exact c39_response_lemma. Qed.
Print Assumptions C39_response.

Example C39_response_applies : exists st ms, ms <> [] /\
  (forall e, In e st -> fst (snd e) = true -> entry_fits e) /\
  (forall o, In o ms -> match_fits o /\ path_fits (rm_path o)) /\
  exists o, In o ms /\ rm_shift o = (-3)%Z /\ rm_path o = [Field (text "a"); Index 12; Field [233%N]].
Proof.
  exists co_storage, [co_match]. split; [discriminate|]. split; [exact co_storage_fits|].
  split; [|exists co_match; split; [left; reflexivity|split; reflexivity]].
  intros o [<-|[]]. split; [exact co_match_fits|exact co_path_fits].
Qed.

(* The response byte by byte: the strings marked as mutated in order, then the matches in
   order, in the format of Spec/Wire.v. *)
Theorem C39_format :
  forall st ms data,
  (forall p s, In (p, (true, s)) st -> is_text s /\ forall f, In (Field f) p -> is_text f) ->
  (forall o t, In o ms -> path_text true (rm_path o) t -> is_text t) ->
  encode_response st ms = Some data ->
  exists x y, data = x ++ y /\ wire_mutations st x /\ wire_matches ms y.
Proof. exact c39_format_lemma. Qed.
Print Assumptions C39_format.

(* a mutated string under a[12].é and a match there *)
Example C39_format_applies :
  (forall p s, In (p, (true, s)) co_storage -> is_text s /\ forall f, In (Field f) p -> is_text f) /\
  (forall o t, In o [co_match] -> path_text true (rm_path o) t -> is_text t) /\
  exists data, encode_response co_storage [co_match] = Some data /\ length data = 77.
Proof.
  split; [|split].
  - intros p s Hin. destruct (co_storage_fits _ Hin eq_refl) as (H1 & b & Hb & _). split; [exists b; exact Hb|].
    intros f Hf. destruct (H1 _ Hf) as (fb & H & _). exists fb. exact H.
  - intros o t [<-|[]] Ht. destruct (co_path_fits t Ht) as (b & Hb & _). exists b. exact Hb.
  - eexists. split; [vm_compute; reflexivity|reflexivity].
Qed.

(* Beyond 32 bits: indices are reduced modulo 2^32, shift offsets to a signed 32-bit
   number; everything else is unaffected as long as the texts are shorter than 2^32 bytes. *)
Theorem C39_wrapping :
  forall st ms, ms <> [] ->
  (forall e, In e st -> fst (snd e) = true -> entry_fits e) ->
  (forall o, In o ms -> path_fits (rm_path o)) ->
  exists data o,
    encode_response st ms = Some data /\
    decode_response (length data) data no_outcome = Ret (Ok o) /\
    Forall2 (match_as wrap32 signed32) ms (so_matches o).
Proof. exact c39_wrapping_lemma. Qed.
Print Assumptions C39_wrapping.

Example C39_wrapping_applies : signed32 4294967295 = (-1)%Z /\ wrap32 4294967299 = 3%N /\
  exists ms, ms <> [] /\ (forall o, In o ms -> path_fits (rm_path o)).
Proof.
  split; [reflexivity|]. split; [reflexivity|]. exists [co_match]. split; [discriminate|].
  intros o [<-|[]]. exact co_path_fits.
Qed.

(* Without matches there is no response, and Go reports nothing and leaves the event. *)
Theorem C39_nothing_matched :
  forall st, encode_response st [] = None /\
  decode_response 0 [] no_outcome = Ret (Ok no_outcome) /\
  forall m scan data, go_encode (GMap m) = Ok data -> scan data = Ret (encode_response st []) ->
    go_scan_events_map scan m = Ret (Ok no_outcome, GMap m).
Proof. exact c39_nothing_matched_lemma. Qed.
Print Assumptions C39_nothing_matched.

Example C39_nothing_matched_applies : exists m scan data st, go_encode (GMap m) = Ok data /\
  scan data = Ret (encode_response st []) /\ st <> [].
Proof.
  exists [([97%N], GString [98%N])], (fun _ => Ret None), [0;0;0;0;1;97;3;0;0;0;1;98;2]%N, co_storage.
  split; [vm_compute; reflexivity|]. split; [reflexivity|discriminate].
Qed.

(* A map event scanned through the binding ends as the event scanned directly, for every
   order of the entries, and Go gets the same matches, string by string in its own order.
   The texts after the scan must be UTF-8 (as every Rust string is) and fit in 32 bits, and
   the response must be shorter than 2 GiB (see C89). *)
Theorem C40_map_events :
  forall srt sc fs m gm fuel h e' outs v',
  scan_setting simple_event_impl clen srt sc fs (SMap m) (simple_strings (SMap m))
    (simple_holds (SMap m)) fuel ->
  distinct_keys (SMap m) -> go_image (SMap m) (GMap gm) -> go_fits (GMap gm) ->
  scan simple_event_impl fuel h srt sc [] (SMap m) = Ret (e', outs) ->
  go_image e' v' -> go_fits v' ->
  (forall o, In o outs -> match_fits o /\ path_fits (rm_path o)) ->
  (forall data, go_encode (GMap gm) = Ok data -> response_fits (native_scan fuel h srt sc) data) ->
  exists o outs',
    go_scan_events_map (native_scan fuel h srt sc) gm = Ret (Ok o, v') /\
    Permutation outs outs' /\ Forall2 match_image outs' (so_matches o) /\
    (so_mutated o = false -> v' = GMap gm).
Proof. exact c40_map_events_lemma. Qed.
Print Assumptions C40_map_events.

Example C40_map_events_applies : exists srt sc fs m gm fuel h e' outs v',
  scan_setting simple_event_impl clen srt sc fs (SMap m) (simple_strings (SMap m))
    (simple_holds (SMap m)) fuel /\
  distinct_keys (SMap m) /\ go_image (SMap m) (GMap gm) /\ go_fits (GMap gm) /\
  scan simple_event_impl fuel h srt sc [] (SMap m) = Ret (e', outs) /\
  go_image e' v' /\ go_fits v' /\ v' <> GMap gm /\ length outs = 6 /\
  (forall o, In o outs -> match_fits o /\ path_fits (rm_path o)) /\
  (forall data, go_encode (GMap gm) = Ok data -> response_fits (native_scan fuel h srt sc) data).
Proof.
  exists isort, ex_scanner, (finders ex_scanner), (simple_entries ex_event), (go_entries_of co_ex_value), 100, ex_hash,
    ex_redacted, co_ex_outs, co_ex_redacted.
  split; [exact ex_setting|]. split; [exact ex_distinct|]. split; [exact co_ex_image|]. split; [exact co_ex_fits|].
  split; [vm_compute; reflexivity|]. split; [exact co_ex_image'|]. split; [exact co_ex_fits'|].
  split; [discriminate|]. split; [reflexivity|]. split; [exact co_ex_matches|].
  intros data E. injection E as <-. intros r R. vm_compute in R. injection R as <-. reflexivity.
Qed.

(* The conditions on the result are met by themselves: let the strings of the event be shorter
   than 2 GiB, the keys fit, the rules put text in the place of text, and the response be
   shorter than 2 GiB.  Then the binding returns, with the event and the matches of the direct
   scan. *)
Theorem C40_whole :
  forall srt sc fs m gm fuel h,
  scan_setting simple_event_impl clen srt sc fs (SMap m) (simple_strings (SMap m))
    (simple_holds (SMap m)) fuel ->
  distinct_keys (SMap m) -> go_image (SMap m) (GMap gm) -> go_fits (GMap gm) -> go_short (GMap gm) ->
  text_stays h sc -> (N.of_nat (length (sc_rules sc)) <= two32)%N ->
  (forall data, go_encode (GMap gm) = Ok data -> response_fits (native_scan fuel h srt sc) data) ->
  exists e' outs v' o outs',
    scan simple_event_impl fuel h srt sc [] (SMap m) = Ret (e', outs) /\ go_image e' v' /\ go_fits v' /\
    go_scan_events_map (native_scan fuel h srt sc) gm = Ret (Ok o, v') /\
    Permutation outs outs' /\ Forall2 match_image outs' (so_matches o) /\
    (so_mutated o = false -> v' = GMap gm).
Proof. exact c40_whole_lemma. Qed.
Print Assumptions C40_whole.

Lemma co_ex_short : go_short (GMap (go_entries_of co_ex_value)).
Proof. apply (small_short co_ex_value). reflexivity. Qed.
Lemma co_ex_text : text_stays ex_hash ex_scanner.
Proof.
  intros r t Hr Ht. apply redacted_text; [intros s; exists (as_bytes (text "#hash")); apply utf8_text; reflexivity|
    intros s; exists (as_bytes (text "#16")); apply utf8_text; reflexivity| |exact Ht].
  intros x E. destruct Hr as [<-|[<-|[<-|[<-|[]]]]]; try discriminate E. injection E as <-. exists (as_bytes (text "[R]")). apply utf8_text. reflexivity.
Qed.
Example C40_whole_applies : exists srt sc fs m gm fuel h,
  scan_setting simple_event_impl clen srt sc fs (SMap m) (simple_strings (SMap m))
    (simple_holds (SMap m)) fuel /\
  distinct_keys (SMap m) /\ go_image (SMap m) (GMap gm) /\ go_fits (GMap gm) /\ go_short (GMap gm) /\ text_stays h sc /\
  (N.of_nat (length (sc_rules sc)) <= two32)%N /\
  (forall data, go_encode (GMap gm) = Ok data -> response_fits (native_scan fuel h srt sc) data) /\
  exists o, go_scan_events_map (native_scan fuel h srt sc) gm = Ret (Ok o, co_ex_redacted) /\ length (so_matches o) = 6.
Proof.
  exists isort, ex_scanner, (finders ex_scanner), (simple_entries ex_event), (go_entries_of co_ex_value), 100, ex_hash.
  split; [exact ex_setting|]. split; [exact ex_distinct|]. split; [exact co_ex_image|]. split; [exact co_ex_fits|].
  split; [exact co_ex_short|]. split; [exact co_ex_text|]. split; [vm_compute; discriminate|]. split.
  - intros data E. injection E as <-. intros r R. vm_compute in R. injection R as <-. reflexivity.
  - eexists. split; [vm_compute; reflexivity|reflexivity].
Qed.

(* The same for a single string: Go gets the bytes of the scanned string and the same
   matches, and keeps its own bytes when nothing was mutated. *)
Theorem C40_string_events :
  forall srt sc fs s b fuel h s' outs b',
  scan_setting string_event clen srt sc fs s [([], s)] (fun e l => exists x, l = [([], e, x)]) fuel ->
  utf8_of s b -> (N.of_nat (length b) < two32)%N ->
  scan string_event fuel h srt sc [] s = Ret (s', outs) ->
  utf8_of s' b' -> (N.of_nat (length b') < two32)%N ->
  (forall o, In o outs -> match_fits o) -> response_fits (native_scan fuel h srt sc) (go_encode_string b) ->
  exists o, go_scan (native_scan fuel h srt sc) b = Ret (Ok o) /\ so_event o = b' /\
    Forall2 match_image outs (so_matches o) /\ (so_mutated o = false -> b' = b).
Proof. exact c40_string_events_lemma. Qed.
Print Assumptions C40_string_events.

Example C40_string_events_applies : exists srt sc fs s b fuel h s' outs b',
  scan_setting string_event clen srt sc fs s [([], s)] (fun e l => exists x, l = [([], e, x)]) fuel /\
  utf8_of s b /\ (N.of_nat (length b) < two32)%N /\
  scan string_event fuel h srt sc [] s = Ret (s', outs) /\
  utf8_of s' b' /\ (N.of_nat (length b') < two32)%N /\ b' <> b /\
  (forall o, In o outs -> match_fits o) /\ response_fits (native_scan fuel h srt sc) (go_encode_string b).
Proof.
  exists isort, ex_scanner, (finders ex_scanner), (text "n 12"), (text "n 12"), 100, ex_hash, (text "n [R]").
  eexists. exists (text "n [R]"). split; [exact co_string_setting|].
  split; [apply utf8_text; reflexivity|]. split; [reflexivity|]. split; [vm_compute; reflexivity|].
  split; [apply utf8_text; reflexivity|]. split; [reflexivity|]. split; [discriminate|]. split.
  - intros o H. repeat (destruct H as [<-|H]; [constructor; vm_compute; split; congruence|]). destruct H.
  - intros r R. vm_compute in R. injection R as <-. reflexivity.
Qed.

(* The same for a single string. *)
Theorem C40_whole_string :
  forall srt sc fs s b fuel h,
  scan_setting string_event clen srt sc fs s [([], s)] (fun e l => exists x, l = [([], e, x)]) fuel ->
  utf8_of s b -> (N.of_nat (length b) < 2147483648)%N -> text_stays h sc -> (N.of_nat (length (sc_rules sc)) <= two32)%N ->
  response_fits (native_scan fuel h srt sc) (go_encode_string b) ->
  exists s' outs b' o, scan string_event fuel h srt sc [] s = Ret (s', outs) /\ utf8_of s' b' /\
    go_scan (native_scan fuel h srt sc) b = Ret (Ok o) /\ so_event o = b' /\
    Forall2 match_image outs (so_matches o) /\ (so_mutated o = false -> b' = b).
Proof. exact c40_whole_string_lemma. Qed.
Print Assumptions C40_whole_string.

Example C40_whole_string_applies : exists srt sc fs s b fuel h o,
  scan_setting string_event clen srt sc fs s [([], s)] (fun e l => exists x, l = [([], e, x)]) fuel /\
  utf8_of s b /\ (N.of_nat (length b) < 2147483648)%N /\ text_stays h sc /\ (N.of_nat (length (sc_rules sc)) <= two32)%N /\
  response_fits (native_scan fuel h srt sc) (go_encode_string b) /\
  go_scan (native_scan fuel h srt sc) b = Ret (Ok o) /\ so_event o = text "n [R]".
Proof.
  exists isort, ex_scanner, (finders ex_scanner), (text "n 12"), (text "n 12"), 100, ex_hash. eexists.
  split; [exact co_string_setting|]. split; [apply utf8_text; reflexivity|]. split; [reflexivity|]. split; [exact co_ex_text|].
  split; [vm_compute; discriminate|]. split; [intros r R; vm_compute in R; injection R as <-; reflexivity|]. split; [vm_compute; reflexivity|reflexivity].
Qed.

(* A key that is not UTF-8 breaks this: the redacted text comes back under another key
   and the original entry keeps its secret. *)
Theorem C40_ill_formed_key_refuted :
  exists sc k secret redacted o,
  go_scan_events_map (native_scan 100 ex_hash isort sc) [(k, GString secret)]
  = Ret (Ok o, GMap [(k, GString secret); ([239; 191; 189]%N, GString redacted)]) /\
  so_mutated o = true /\ secret <> redacted /\ so_matches o <> [].
Proof. exact c40_ill_formed_key_refuted_lemma. Qed.
Print Assumptions C40_ill_formed_key_refuted.

(* When the key is that of an inner map, applying the response panics in Go. *)
Theorem C40_nested_ill_formed_key_refuted :
  exists sc k secret,
  go_scan_events_map (native_scan 100 ex_hash isort sc) [(k, GMap [([97%N], GString secret)])] = Panic.
Proof. exact c40_nested_ill_formed_key_refuted_lemma. Qed.
Print Assumptions C40_nested_ill_formed_key_refuted.

(* The size of the response passes through a C int.  A response of exactly 4 GiB arrives as
   an empty one: the library redacts the secret, and Go keeps it and reports no match. *)
Theorem C89_lost_refuted :
  exists sc secret data, (N.of_nat (length data) = two32)%N /\
  native_scan 100 ex_hash isort sc (go_encode_string secret) = Ret (Some data) /\
  go_scan (native_scan 100 ex_hash isort sc) secret
  = Ret (Ok {| so_event := secret; so_mutated := false; so_matches := [] |}) /\
  exists s' o, scan string_event 100 ex_hash isort sc [] secret = Ret (s', [o]) /\ s' <> secret.
Proof. exact c89_lost_refuted_lemma. Qed.
Print Assumptions C89_lost_refuted.

(* A response of 2 GiB or more, but less than 4, makes Go panic, whatever the event. *)
Theorem C89_panics_refuted :
  forall sc secret data, native_scan 100 ex_hash isort sc (go_encode_string secret) = Ret (Some data) ->
  (2147483648 <= N.of_nat (length data) < two32)%N ->
  go_scan (native_scan 100 ex_hash isort sc) secret = Panic.
Proof. exact c89_panics_refuted_lemma. Qed.
Print Assumptions C89_panics_refuted.

(* there are responses of every such length *)
Example C89_panics_refuted_applies : exists sc secret data,
  native_scan 100 ex_hash isort sc (go_encode_string secret) = Ret (Some data) /\ (2147483648 <= N.of_nat (length data) < two32)%N.
Proof.
  destruct (long_length (N.to_nat 2147483606)) as (p & data & H & L & E).
  exists (long_scanner p), (text "12"), data. split; [exact H|]. rewrite L. unfold two32. lia.
Qed.

(* In general Go gets the bytes up to the length modulo 2^32, or panics; so the whole response
   arrives exactly if it is shorter than 2 GiB. *)
Theorem C89_received :
  forall scan encoded data, scan encoded = Ret (Some data) ->
  exists r, received data r /\
    (low_level_scan scan encoded = match r with Ret x => Ret (Ok x) | Panic => Panic | Diverge => Diverge end) /\
    (low_level_scan scan encoded = Ret (Ok data) <-> (N.of_nat (length data) < 2147483648)%N).
Proof. exact c89_received_lemma. Qed.
Print Assumptions C89_received.

Example C89_received_applies : received [1; 2; 3]%N (Ret [1; 2; 3]%N) /\
  low_level_scan (fun _ => Ret (Some [1; 2; 3]%N)) [] = Ret (Ok [1; 2; 3]%N).
Proof. split; [|reflexivity]. apply (rc_prefix _ 0 _ []); reflexivity. Qed.

(* Two strings with the same path share one storage entry.  Here each string alone is
   reported, and the first one is redacted.  Scanned together, the flag left by the
   second string hides the redaction of the first: the response holds the match of the
   redacting rule but no mutation. *)
Theorem C41_lost_redaction_refuted :
  exists sc e1 e2 o1 m1 o2 o12,
  go_scan (native_scan 100 ex_hash isort sc) e1 = Ret (Ok o1) /\ so_mutated o1 = true /\
  so_matches o1 = [m1] /\ gm_kind m1 = RKPlaceholder /\
  go_scan (native_scan 100 ex_hash isort sc) e2 = Ret (Ok o2) /\ so_mutated o2 = false /\
  exists data, native_scan 100 ex_hash isort sc (go_encode_string e1 ++ go_encode_string e2) = Ret (Some data) /\
    decode_response (length data) data no_outcome = Ret (Ok o12) /\
    In m1 (so_matches o12) /\ so_mutated o12 = false.
Proof. exact c41_lost_redaction_refuted_lemma. Qed.
Print Assumptions C41_lost_redaction_refuted.

(* The matches of the second string are applied to the text of the first: the scan
   panics when they do not fit. *)
Theorem C41_panic_refuted :
  exists sc e1 e2 o1 o2,
  go_scan (native_scan 100 ex_hash isort sc) e1 = Ret (Ok o1) /\
  go_scan (native_scan 100 ex_hash isort sc) e2 = Ret (Ok o2) /\
  native_scan 100 ex_hash isort sc (go_encode_string e1 ++ go_encode_string e2) = Panic.
Proof. exact c41_panic_refuted_lemma. Qed.
Print Assumptions C41_panic_refuted.

(* With distinct paths the binary event does keep its strings apart: what the storage
   says about a path after writing another one is what it said before. *)
Theorem C41_distinct_paths :
  forall E ops strs, strings_of ops = Some strs -> NoDup (map fst strs) ->
  forall log, map fst log = strs ->
  let e := ev_visited (binary_event_impl E) {| be_ops := ops; be_storage := [] |} log in
  forall p c, In (p, c, true) log ->
    ev_get (binary_event_impl E) e p = Ret c /\
    forall q d s mutated, In (q, d, true) log -> q <> p ->
      ev_get (binary_event_impl E) (ev_set (binary_event_impl E) e q s mutated) p = Ret c /\
      storage_get (be_storage (ev_set (binary_event_impl E) e q s mutated)) p = Some (false, c) /\
      storage_get (be_storage (ev_set (binary_event_impl E) e q s mutated)) q = Some (mutated, s).
Proof. exact c41_distinct_paths_lemma. Qed.
Print Assumptions C41_distinct_paths.

Example C41_distinct_paths_applies : exists ops strs log p c,
  strings_of ops = Some strs /\ NoDup (map fst strs) /\ map fst log = strs /\ In (p, c, true) log /\ length log = 2.
Proof.
  exists (under (Index 0) [OpString (text "a")] ++ under (Index 1) [OpString (text "b")]).
  exists [([Index 0], text "a"); ([Index 1], text "b")], [([Index 0], text "a", true); ([Index 1], text "b", true)].
  exists [Index 1], (text "b"). split; [reflexivity|]. split; [|split; [reflexivity|split; [right; left; reflexivity|reflexivity]]].
  repeat constructor; simpl; intuition discriminate.
Qed.

(* Reading or writing the string at a visited path reaches exactly that string. *)
Theorem C42_simple_event :
  forall e p s, distinct_keys e -> holds_at e p s ->
  simple_get e p = Ret s /\
  forall s', simple_get (simple_set e p s') p = Ret s' /\
    forall q t, holds_at e q t -> q <> p -> simple_get (simple_set e p s') q = Ret t.
Proof. exact c42_simple_event_lemma. Qed.
Print Assumptions C42_simple_event.

Example C42_simple_event_applies : exists p s, distinct_keys ex_event /\ holds_at ex_event p s /\ length p = 2.
Proof.
  exists [Field (text "list"); Index 1], (text "a key"). split; [exact ex_distinct|]. split; [|reflexivity].
  econstructor; [left; reflexivity|]. econstructor; [reflexivity|]. constructor.
Qed.

(* The same for the strings of a JSON value. *)
Theorem C42_json_strings :
  forall e p s, json_distinct e -> json_shown e p s true ->
  json_get e p = Ret s /\
  forall s', json_shape (json_set e p s') = json_shape e /\ json_get (json_set e p s') p = Ret s' /\
    forall q t, json_shown e q t true -> q <> p -> json_get (json_set e p s') q = Ret t.
Proof. exact c42_json_strings_lemma. Qed.
Print Assumptions C42_json_strings.

Example C42_json_strings_applies : exists e p s, json_distinct e /\ json_shown e p s true /\ length p = 2.
Proof.
  exists (JObject [(text "a", JArray [JNumber (text "1"); JString (text "x")])]), [Field (text "a"); Index 1], (text "x").
  split; [|split; [|reflexivity]].
  - constructor; [repeat constructor; simpl; tauto|]. intros k c [E|[]]. injection E as _ <-. constructor.
    intros c [<-|[<-|[]]]; constructor.
  - econstructor; [left; reflexivity|]. econstructor; [reflexivity|]. constructor.
Qed.

(* A JSON value without numbers and booleans shows exactly its strings and obeys the laws
   that the theorems on whole scans ask of an event. *)
Theorem C42_json_laws :
  forall e, json_distinct e -> (forall p s b, json_shown e p s b -> b = true) ->
  exists strs, event_laws json_event_impl e strs (json_holds e) /\
    forall p s, In (p, s) strs <-> json_shown e p s true.
Proof. exact c42_json_laws_lemma. Qed.
Print Assumptions C42_json_laws.

Example C42_json_laws_applies : exists e, json_distinct e /\ (forall p s b, json_shown e p s b -> b = true) /\
  exists p, json_shown e p (text "x") true.
Proof.
  exists (JObject [(text "a", JArray [JNull; JString (text "x")])]). split; [|split].
  - constructor; [repeat constructor; simpl; tauto|]. intros k c [E|[]]. injection E as _ <-. constructor.
    intros c [<-|[<-|[]]]; constructor.
  - intros p s b H. inversion H as [| | | | |m k c q s' b' Hin Hc]; subst. destruct Hin as [E|[]]. injection E as <- <-.
    inversion Hc as [| | | |l i c q' s' b' Hi Hs|]; subst.
    destruct i as [|[|[|]]]; simpl in Hi; try discriminate; injection Hi as <-; inversion Hs; reflexivity.
  - eexists. econstructor; [left; reflexivity|]. econstructor; [|constructor]. instantiate (1 := 1). reflexivity.
Qed.

(* Numbers and booleans are shown to the scanner but cannot be mutated: a rule that
   matches the text of one makes the scan panic. *)
Theorem C42_json_scalars_refuted :
  exists sc e p s, json_distinct e /\ json_shown e p s false /\ json_get e p = Panic /\
  scan json_event_impl 100 ex_hash isort sc [] e = Panic.
Proof. exact c42_json_scalars_refuted_lemma. Qed.
Print Assumptions C42_json_scalars_refuted.

