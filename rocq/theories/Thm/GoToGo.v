(* From the rules of a Go program to its events (C96) *)
From Coq Require Import Lia Permutation.
From Verif Require Import Proofs.Text Proofs.GoToGoClaims Examples.Setting Examples.Build Examples.RegexEngine Examples.Native Examples.Codec.
From Verif Require Import Model.Hash Model.JsonText Thm.AsWritten.

(* CreateScanner called with rules whose strings are UTF-8.  If a rule stands for no
   configuration an error is returned and nothing is left behind.  Otherwise the scanner is
   built from the configurations that the rules stand for, and what comes back says how that
   went. *)
Theorem C96_created :
  forall alloc capacity message en fuel srt short rules gs tr m cl r m',
  let w := library alloc capacity message en fuel farm_hashers srt in
  (forall hp a, alloc hp = Some a -> address a /\ load hp a = None) -> (forall b, (N.of_nat (length b) <= capacity b)%N) ->
  reaches w tr m cl -> Forall2 go_rule_utf8 rules gs -> Forall go_rule_fits gs ->
  go_create w (go_create_rule_bytes short false) m rules = Done r m' ->
  exists tr' cl', reaches w (tr' ++ tr) m' cl' /\
    ((exists configs, Forall2 go_rule_means gs configs /\
        match build en {| bu_rules := configs; bu_labels := []; bu_kw_paths := false; bu_wild := false; bu_multipass := true |} with
        | Ret (Ok t) => exists a, fresh cl a /\ r = GoScanner (as_int a) /\ equivalent cl' (hold cl a (Some (HScanner t)))
        | Ret (Err e) => r = go_created_of (error_code e) None /\ equivalent cl' cl
        | Panic => exists s, c_string message s /\ r = GoErrPanic (Some s) /\ equivalent cl' cl
        | Diverge => False
        end) \/
     ((exists g, In g gs /\ forall c, ~ go_rule_means g c) /\ r = GoErrRule /\ equivalent cl' cl)).
Proof. exact c96_created_lemma. Qed.
Print Assumptions C96_created.

(* the rules of the examples of C79, as Go has them, without their scopes; [u] is applied to
   the texts *)
Definition gg_rules (u : str -> str) : list go_rule := [
  {| gr_id := u (chars "plain"); gr_pattern := u (chars "\d{3}-((?i)ab)+?");
     gr_action := {| ga_type := u (chars "Redact"); ga_redaction := u (91%N :: 233%N :: chars "]"); ga_count := 0; ga_direction := u [] |};
     gr_keywords := None; gr_validator := u [] |};
  {| gr_id := u (chars "keyed"); gr_pattern := u (chars "\bcats?");
     gr_action := {| ga_type := u (chars "Hash"); ga_redaction := u []; ga_count := 0; ga_direction := u [] |};
     gr_keywords := Some {| gk_look_ahead := 8; gk_included := Some [u (chars "key")]; gk_excluded := None |}; gr_validator := u [] |};
  {| gr_id := u (chars "barred"); gr_pattern := u (chars "[d]{1,2}");
     gr_action := {| ga_type := u (chars "PartialRedact"); ga_redaction := u []; ga_count := 1; ga_direction := u (chars "LastCharacters") |};
     gr_keywords := Some {| gk_look_ahead := 6; gk_included := Some []; gk_excluded := Some [u (chars "no")] |}; gr_validator := u [] |}
].
Lemma gg_utf8 : Forall2 go_rule_utf8 (gg_rules as_bytes) (gg_rules (fun s => s)).
Proof.
  unfold gg_rules. repeat (constructor; [unfold go_rule_utf8, go_rule_by; cbn [gr_id gr_pattern gr_action ga_type ga_redaction ga_count ga_direction gr_keywords gk_look_ahead gk_included gk_excluded gr_validator slice_by];
    repeat split; try (apply utf8_text; reflexivity); try exact Logic.I; repeat (constructor; [apply utf8_text; reflexivity|]); constructor|]). constructor.
Qed.
Lemma gg_fits : Forall go_rule_fits (gg_rules (fun s => s)).
Proof. repeat (constructor; [split; [reflexivity|intros k K; inversion K; subst; reflexivity]|]). constructor. Qed.
Definition gg_world : native_world := library lowest_free (fun b => N.of_nat (length b)) (chars "oops") aw_engines 100 farm_hashers isort.
(* a second list is refused: its last rule has an action that does not exist *)
Definition gg_bad : go_rule :=
  {| gr_id := []; gr_pattern := chars "a"; gr_action := {| ga_type := chars "Erase"; ga_redaction := []; ga_count := 0; ga_direction := [] |};
     gr_keywords := None; gr_validator := [] |}.
Example C96_created_applies : reaches gg_world [] start nothing /\
  Forall2 go_rule_utf8 (gg_rules as_bytes) (gg_rules (fun s => s)) /\ Forall go_rule_fits (gg_rules (fun s => s)) /\
  Forall2 go_rule_utf8 (gg_rules as_bytes ++ [gg_bad]) (gg_rules (fun s => s) ++ [gg_bad]) /\ Forall go_rule_fits (gg_rules (fun s => s) ++ [gg_bad]) /\
  on_done (go_create gg_world (go_create_rule_bytes false false) start (gg_rules as_bytes)) = Some (GoScanner 5, [5%N]) /\
  on_done (go_create gg_world (go_create_rule_bytes false false) start (gg_rules as_bytes ++ [gg_bad])) = Some (GoErrRule, []).
Proof.
  split; [apply reached_nil|]. split; [exact gg_utf8|]. split; [exact gg_fits|]. split; [|split; [|split]].
  - apply Forall2_app; [exact gg_utf8|]. constructor; [|constructor]. repeat split; apply utf8_text; reflexivity.
  - apply Forall_app. split; [exact gg_fits|]. constructor; [|constructor]. split; [reflexivity|discriminate].
  - vm_compute. reflexivity.
  - vm_compute. reflexivity.
Qed.

(* From the rules of a Go program to its map events.  CreateScanner has returned a scanner;
   the program goes on with any careful calls, from any threads, without deleting it.  Then
   ScanEventsMap returns, unless memory runs out, and everything held is as before.  Every
   string of the event is cut into pieces that the rules, as they are written in Go, account
   for, and these are replaced as the rules say; no rule is passed over.  The event in Go is
   the event with these strings, and the matches are those of the pieces.  An error comes
   back only if a window of excluded keywords is reversed (see C22), and then the event stays
   as it was. *)
Theorem C96_map :
  forall E (fold : char -> char) alloc capacity message en fuel srt short_ rules gs tr m cl z m1,
  let w := library alloc capacity message en fuel farm_hashers srt in
  (forall hp a, alloc hp = Some a -> address a /\ load hp a = None) -> (forall b, (N.of_nat (length b) <= capacity b)%N) ->
  crate_ok E en -> plain_env E -> (forall c d, same_letter E c d <-> fold c = fold d) ->
  sane_env (en_validators en) -> sorter_ok srt ->
  reaches w tr m cl -> Forall2 go_rule_utf8 rules gs -> Forall go_rule_fits gs -> (forall g, In g gs -> go_good E g) ->
  (N.of_nat (length gs) <= two32)%N ->
  go_create w (go_create_rule_bytes short_ false) m rules = Done (GoScanner z) m1 ->
  exists configs t tr1 cl1, Forall2 go_rule_means gs configs /\
  build en {| bu_rules := configs; bu_labels := []; bu_kw_paths := false; bu_wild := false; bu_multipass := true |} = Ret (Ok t) /\
  reaches w (tr1 ++ tr) m1 cl1 /\
  forall later m2 cl2 u, reaches w (later ++ tr1 ++ tr) m2 cl2 -> (forall r, ~ In (CDelete z, r) later) -> cl_scan cl2 u = None ->
  forall e gm, go_image (SMap e) (GMap gm) -> distinct_keys (SMap e) -> go_fits (GMap gm) -> go_brief (GMap gm) ->
  enough_fuel fuel (simple_strings (SMap e)) ->
  (forall data, go_encode (GMap gm) = Ok data -> response_fits (nw_scan w t) data) ->
  (go_scan_map w m2 u z gm = Never /\ out_of_memory w) \/
  (exists m3 tr3 cl3, go_scan_map w m2 u z gm = Done (Ret (Err tt, GMap gm)) m3 /\
    reaches w (tr3 ++ later ++ tr1 ++ tr) m3 cl3 /\ equivalent cl3 cl2 /\ ~ go_windows E gs (simple_strings (SMap e))) \/
  exists o v' m3 tr3 cl3 e' outs outs', go_scan_map w m2 u z gm = Done (Ret (Ok o, v')) m3 /\
    reaches w (tr3 ++ later ++ tr1 ++ tr) m3 cl3 /\ equivalent cl3 cl2 /\ go_image e' v' /\
    Permutation outs outs' /\ Forall2 match_image outs' (so_matches o) /\
    scan_result simple_event_impl (simple_strings (SMap e)) (simple_holds (SMap e)) e' outs
      (fun p s s' os => go_cut E en fold farm_hashers gs s s' os).
Proof. exact c96_map_lemma. Qed.
Print Assumptions C96_map.

Lemma gg_good : forall g, In g (gg_rules (fun s => s)) -> go_good ascii_env g.
Proof.
  assert (K : forall g c, In c aw_rules -> cf_pattern c = gr_pattern g -> go_good ascii_env g).
  { intros g c H E. destruct (aw_good c H) as (A & B). unfold as_written in B. unfold go_good, go_written. rewrite <- E. split; [exact A|exact B]. }
  intros g [<-|[<-|[<-|[]]]]; [apply (K _ aw_plain)|apply (K _ aw_keyed)|apply (K _ aw_barred)]; cbn; auto.
Qed.
Lemma gg_windows : forall strs, go_windows ascii_env (gg_rules (fun s => s)) strs.
Proof.
  intros strs g k Hg K1 K2 K3 p s i j Hps L M.
  destruct Hg as [<-|[<-|[<-|[]]]]; [discriminate K1|injection K1 as <-; discriminate K2|injection K1 as <-].
  eapply (aw_fine strs aw_barred _ ltac:(cbn; auto) eq_refl); [reflexivity|discriminate|exact Hps|exact L|exact M].
Qed.
Definition gg_entries : list (str * simple_event) := [
  (chars "m", SList [SString (233%N :: chars "12345-aBAb KEY: cats cat"); SString (chars "bobcat key")]);
  (chars "raw", SString (chars "123-ab no d; so ddd"))
].
Definition gg_done : simple_event := SMap [
  (chars "m", SList [SString (233%N :: chars "12[" ++ 233%N :: chars "]Ab KEY: d01123ef36b33d42 cat"); SString (chars "bobcat key")]);
  (chars "raw", SString (91%N :: 233%N :: chars "] no d; so d**"))
].
Definition gg_map := go_entries_of (to_go (SMap gg_entries)).
Lemma gg_event_ok : go_image (SMap gg_entries) (GMap gg_map) /\ distinct_keys (SMap gg_entries) /\ go_fits (GMap gg_map) /\ go_brief (GMap gg_map) /\
  enough_fuel 100 (simple_strings (SMap gg_entries)).
Proof.
  split; [apply (to_go_image (SMap gg_entries)); reflexivity|]. split; [|split; [|split]].
  - constructor.
    + repeat (constructor; [simpl; intros H; repeat (destruct H as [H|H]; [discriminate H|]); exact H|]). constructor.
    + intros k c [E|[E|[]]]; injection E as _ <-; constructor. intros c' [<-|[<-|[]]]; constructor.
  - apply (small_fits (to_go (SMap gg_entries))). reflexivity.
  - intros q b K. assert (L : length b < 1000) by (eapply (small_holds (to_go (SMap gg_entries))); [reflexivity|exact K]). unfold two32. lia.
  - intros p s [E|[E|[E|[]]]]; injection E as _ <-; vm_compute; lia.
Qed.
Lemma done_spec : forall A (s : stepped A) r l, on_done s = Some (r, l) -> exists m, s = Done r m.
Proof. intros A s r l H. destruct s as [x m| |]; try discriminate H. injection H as <- _. exists m. reflexivity. Qed.
Lemma means_made : forall rules gs configs, Forall2 go_rule_utf8 rules gs -> Forall go_rule_fits gs -> Forall2 go_rule_means gs configs ->
  all_some (map (go_create_rule_bytes false false) rules) = Some configs.
Proof.
  intros rules gs configs U. revert configs. induction U as [|r g rules gs K U IH]; intros configs F M; inversion M as [|? c ? cs M1 M2]; subst; cbn [map all_some]; [reflexivity|].
  inversion F as [|? ? F1 F2]; subst. apply (c82_valid_lemma false r g c K F1) in M1. rewrite M1. cbn [obind]. rewrite (IH cs F2 M2). reflexivity.
Qed.
Definition gg_configs : list rule_config :=
  match all_some (map (go_create_rule_bytes false false) (gg_rules as_bytes)) with Some l => l | None => [] end.
Definition gg_response (data : octets) : option bool := on_built (fun t => match nw_scan gg_world t data with Ret (Some r) => length r <? 1000 | _ => false end)
  (build aw_engines {| bu_rules := gg_configs; bu_labels := []; bu_kw_paths := false; bu_wild := false; bu_multipass := true |}).
Lemma gg_response_fits : forall configs t data, Forall2 go_rule_means (gg_rules (fun s => s)) configs ->
  build aw_engines {| bu_rules := configs; bu_labels := []; bu_kw_paths := false; bu_wild := false; bu_multipass := true |} = Ret (Ok t) ->
  gg_response data = Some true -> response_fits (nw_scan gg_world t) data.
Proof.
  intros configs t data M B H. apply (means_made (gg_rules as_bytes) _ _ gg_utf8 gg_fits) in M. unfold gg_response, gg_configs in H. rewrite M, B in H.
  cbn [on_built] in H. intros r K. rewrite K in H. injection H as H. apply Nat.ltb_lt in H. lia.
Qed.
Example C96_map_applies :
  (forall hp a, lowest_free hp = Some a -> address a /\ load hp a = None) /\
  crate_ok ascii_env aw_engines /\ plain_env ascii_env /\ (forall c d, same_letter ascii_env c d <-> lower c = lower d) /\
  sane_env (en_validators aw_engines) /\ sorter_ok isort /\ reaches gg_world [] start nothing /\
  Forall2 go_rule_utf8 (gg_rules as_bytes) (gg_rules (fun s => s)) /\ Forall go_rule_fits (gg_rules (fun s => s)) /\
  (forall g, In g (gg_rules (fun s => s)) -> go_good ascii_env g) /\
  (exists m1, go_create gg_world (go_create_rule_bytes false false) start (gg_rules as_bytes) = Done (GoScanner 5) m1) /\
  go_image (SMap gg_entries) (GMap gg_map) /\ distinct_keys (SMap gg_entries) /\ go_fits (GMap gg_map) /\ go_brief (GMap gg_map) /\
  enough_fuel 100 (simple_strings (SMap gg_entries)) /\ go_windows ascii_env (gg_rules (fun s => s)) (simple_strings (SMap gg_entries)) /\
  (forall configs t, Forall2 go_rule_means (gg_rules (fun s => s)) configs ->
     build aw_engines {| bu_rules := configs; bu_labels := []; bu_kw_paths := false; bu_wild := false; bu_multipass := true |} = Ret (Ok t) ->
     forall data, go_encode (GMap gg_map) = Ok data -> response_fits (nw_scan gg_world t) data) /\
  (* a scan after another scanner was made and deleted *)
  on_done (after (go_create gg_world (go_create_rule_bytes false false) start (gg_rules as_bytes)) (fun r m =>
           after (go_create gg_world (go_create_rule_bytes false false) m (gg_rules as_bytes)) (fun r' m =>
           match r, r' with
           | GoScanner z, GoScanner z' => after (go_delete gg_world m z') (fun _ m => after (go_scan_map gg_world m 3 z gg_map) (fun v m =>
               Done (match v with Ret (Ok o, x) => Some (x, map gm_rule (so_matches o)) | _ => None end) m))
           | _, _ => Undefined
           end))) = Some (Some (to_go gg_done, [0; 1; 0; 2; 2]%N), [5%N]).
Proof.
  destruct gg_event_ok as (A & B & C & D & F).
  split; [exact lowest_free_sane|]. split; [apply regex_engines_ok|]. split; [exact ascii_env_plain|]. split; [reflexivity|].
  split; [intros x m K; discriminate K|]. split; [exact isort_ok|]. split; [apply reached_nil|]. split; [exact gg_utf8|]. split; [exact gg_fits|].
  split; [exact gg_good|]. split; [eapply done_spec; vm_compute; reflexivity|]. split; [exact A|]. split; [exact B|]. split; [exact C|]. split; [exact D|].
  split; [exact F|]. split; [apply gg_windows|]. split; [|vm_compute; reflexivity].
  intros configs t M K data En. eapply gg_response_fits; [exact M|exact K|]. vm_compute in En. injection En as <-. vm_compute. reflexivity.
Qed.

(* The same for Scan and a single string. *)
Theorem C96_string :
  forall E (fold : char -> char) alloc capacity message en fuel srt short_ rules gs tr m cl z m1,
  let w := library alloc capacity message en fuel farm_hashers srt in
  (forall hp a, alloc hp = Some a -> address a /\ load hp a = None) -> (forall b, (N.of_nat (length b) <= capacity b)%N) ->
  crate_ok E en -> plain_env E -> (forall c d, same_letter E c d <-> fold c = fold d) ->
  sane_env (en_validators en) -> sorter_ok srt ->
  reaches w tr m cl -> Forall2 go_rule_utf8 rules gs -> Forall go_rule_fits gs -> (forall g, In g gs -> go_good E g) ->
  (N.of_nat (length gs) <= two32)%N ->
  go_create w (go_create_rule_bytes short_ false) m rules = Done (GoScanner z) m1 ->
  exists configs t tr1 cl1, Forall2 go_rule_means gs configs /\
  build en {| bu_rules := configs; bu_labels := []; bu_kw_paths := false; bu_wild := false; bu_multipass := true |} = Ret (Ok t) /\
  reaches w (tr1 ++ tr) m1 cl1 /\
  forall later m2 cl2 u, reaches w (later ++ tr1 ++ tr) m2 cl2 -> (forall r, ~ In (CDelete z, r) later) -> cl_scan cl2 u = None ->
  forall s b, utf8_of s b -> (9 * N.of_nat (length b) < two32)%N -> nbytes s + 2 <= fuel ->
  response_fits (nw_scan w t) (go_encode_string b) ->
  (go_scan_string w m2 u z b = Never /\ out_of_memory w) \/
  (exists m3 tr3 cl3, go_scan_string w m2 u z b = Done (Ret (Err tt)) m3 /\
    reaches w (tr3 ++ later ++ tr1 ++ tr) m3 cl3 /\ equivalent cl3 cl2 /\ ~ go_windows E gs [([], s)]) \/
  exists o s' m3 tr3 cl3 outs, go_scan_string w m2 u z b = Done (Ret (Ok o)) m3 /\
    reaches w (tr3 ++ later ++ tr1 ++ tr) m3 cl3 /\ equivalent cl3 cl2 /\ utf8_of s' (so_event o) /\
    Forall2 match_image outs (so_matches o) /\ go_cut E en fold farm_hashers gs s s' outs.
Proof. exact c96_string_lemma. Qed.
Print Assumptions C96_string.

Definition gg_text : str := 233%N :: chars "1234-abab keys cats d".
Example C96_string_applies : utf8_of gg_text (as_bytes gg_text) /\ (9 * N.of_nat (length (as_bytes gg_text)) < two32)%N /\
  nbytes gg_text + 2 <= 100 /\ go_windows ascii_env (gg_rules (fun s => s)) [([], gg_text)] /\
  (forall configs t, Forall2 go_rule_means (gg_rules (fun s => s)) configs ->
     build aw_engines {| bu_rules := configs; bu_labels := []; bu_kw_paths := false; bu_wild := false; bu_multipass := true |} = Ret (Ok t) ->
     response_fits (nw_scan gg_world t) (go_encode_string (as_bytes gg_text))) /\
  on_done (after (go_create gg_world (go_create_rule_bytes false false) start (gg_rules as_bytes)) (fun r m =>
           match r with
           | GoScanner z => after (go_scan_string gg_world m 3 z (as_bytes gg_text)) (fun v m =>
               Done (match v with Ret (Ok o) => Some (so_event o) | _ => None end) m)
           | _ => Undefined
           end)) = Some (Some (as_bytes (233%N :: chars "1[" ++ 233%N :: chars "]ab keys cats *")), [5%N]).
Proof.
  split; [apply utf8_text; reflexivity|]. split; [reflexivity|]. split; [vm_compute; lia|]. split; [apply gg_windows|]. split; [|vm_compute; reflexivity].
  intros configs t M K. eapply gg_response_fits; [exact M|exact K|]. vm_compute. reflexivity.
Qed.
(* an error: the window before "é1" is reversed *)
Definition gg_late (u : str -> str) : list go_rule := [
  {| gr_id := u (chars "late"); gr_pattern := u (233%N :: chars "1");
     gr_action := {| ga_type := u (chars "Redact"); ga_redaction := u (chars "*"); ga_count := 0; ga_direction := u [] |};
     gr_keywords := Some {| gk_look_ahead := 3; gk_included := Some []; gk_excluded := Some [u (chars "no")] |}; gr_validator := u [] |}
].
Example C96_error_applies :
  let after_late b := on_done (after (go_create gg_world (go_create_rule_bytes false false) start (gg_late as_bytes)) (fun r m =>
    match r with
    | GoScanner z => after (go_scan_string gg_world m 3 z b) (fun v m => Done (match v with Ret (Ok o) => Some (so_event o) | _ => None end) m)
    | _ => Undefined
    end)) in
  after_late (as_bytes (chars "----" ++ 233%N :: chars "1")) = Some (None, [3%N]) /\
  after_late (as_bytes (chars "no " ++ 233%N :: chars "1")) = Some (Some (as_bytes (chars "no " ++ 233%N :: chars "1")), [3%N]) /\
  after_late (as_bytes (chars "so " ++ 233%N :: chars "1")) = Some (Some (chars "so *"), [3%N]).
Proof. vm_compute. auto. Qed.

