(* Checksums catch typing errors (C104) *)
From Verif Require Import Proofs.TypingClaims.
Local Open Scope N_scope.

(* C104.  In an accepted NHS number of at most ten digits, changing one digit or exchanging
   two different neighbouring digits is noticed; other characters may stand between them. *)
Theorem C104_nhs :
  forall x c y l, has_digits (x ++ c :: y) l -> (length l <= 10)%nat -> is_digit c ->
  nhs_is_valid (x ++ c :: y) = true ->
  (forall c', is_digit c' -> c' <> c -> nhs_is_valid (x ++ c' :: y) = false) /\
  (forall m d z, y = m ++ d :: z -> Forall (fun k => ~ is_digit k) m -> is_digit d -> d <> c ->
     nhs_is_valid (x ++ d :: m ++ c :: z) = false).
Proof. exact c104_nhs_lemma. Qed.
Print Assumptions C104_nhs.

Example C104_nhs_applies :
  has_digits (text "907 78" ++ 52 :: text " 4449") [9; 0; 7; 7; 8; 4; 4; 4; 4; 9] /\
  nhs_is_valid (text "907 78" ++ 52 :: text " 4449") = true /\
  nhs_is_valid (text "907 78" ++ 53 :: text " 4449") = false /\ nhs_is_valid (text "907 7" ++ 52 :: [] ++ 56 :: text " 4449") = false.
Proof.
  split; [|split; [|split]; vm_compute; reflexivity].
  apply has_digits_spec. vm_compute. reflexivity.
Qed.

(* The same for accepted NIRs. *)
Theorem C104_nir :
  forall x c y, is_digit c -> nir_is_valid (x ++ c :: y) = true ->
  (forall c', is_digit c' -> c' <> c -> nir_is_valid (x ++ c' :: y) = false) /\
  (forall m d z, y = m ++ d :: z -> Forall (fun k => ~ is_digit k) m -> is_digit d -> d <> c ->
     nir_is_valid (x ++ d :: m ++ c :: z) = false).
Proof. exact c104_nir_lemma. Qed.
Print Assumptions C104_nir.

Example C104_nir_applies :
  nir_is_valid (text "1-51-02-46102-04" ++ 51 :: text "-25") = true /\
  nir_is_valid (text "1-51-02-46102-04" ++ 52 :: text "-25") = false /\
  nir_is_valid (text "1-51-02-46102-04" ++ 50 :: text "-" ++ 51 :: text "5") = false.
Proof. split; [|split]; vm_compute; reflexivity. Qed.

(* If up to four characters in a row of the payload of an accepted token are changed, or the
   checksum is, the token is rejected. *)
Theorem C104_github :
  forall prefix p x q check, Forall alnum (p ++ x ++ q ++ check) -> length check = 6%nat ->
  github_is_valid crc32 (prefix ++ [95] ++ p ++ x ++ q ++ check) = true ->
  (forall y, Forall alnum y -> length y = length x -> (length x <= 4)%nat -> y <> x ->
     github_is_valid crc32 (prefix ++ [95] ++ p ++ y ++ q ++ check) = false) /\
  (forall check', Forall alnum check' -> length check' = 6%nat -> check' <> check ->
     github_is_valid crc32 (prefix ++ [95] ++ p ++ x ++ q ++ check') = false).
Proof. exact c104_github_lemma. Qed.
Print Assumptions C104_github.

Example C104_github_applies :
  github_is_valid crc32 (text "ghp" ++ [95] ++ text "M7H4jxUDD" ++ text "WHP4" ++ text "kZ6A4dxlQYsQIWJuq" ++ text "11T4V4") = true /\
  github_is_valid crc32 (text "ghp" ++ [95] ++ text "M7H4jxUDD" ++ text "HWP4" ++ text "kZ6A4dxlQYsQIWJuq" ++ text "11T4V4") = false /\
  Forall alnum (text "WHP4").
Proof. split; [|split]; [vm_compute; reflexivity|vm_compute; reflexivity|]. repeat constructor; unfold alnum; vm_compute; intuition discriminate. Qed.

(* With eleven digits, which the validator also accepts, it is not noticed. *)
Theorem C104_nhs_eleven_refuted :
  exists x c c' y, is_digit c /\ is_digit c' /\ c <> c' /\ nhs_is_valid (x ++ c :: y) = true /\ nhs_is_valid (x ++ c' :: y) = true.
Proof. exact c104_nhs_eleven_refuted_lemma. Qed.
Print Assumptions C104_nhs_eleven_refuted.

