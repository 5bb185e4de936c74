(* Specification of JWT segments: base64url by bits (RFC 4648), the JSON document in it, and
   the time of the "exp" claim *)
From Coq Require Export ZArith.
From Verif Require Export Spec.Codec Spec.JsonText.

(* ---- base64url ---- *)
(* the lowest [k] bits of [n], the highest first *)
Fixpoint bits (k : nat) (n : N) : list bool :=
  match k with
  | 0 => []
  | S k => bits k (N.div2 n) ++ [N.odd n]
  end.
Definition base64_alphabet : str := chars "ABCDEFGHIJKLMNOPQRSTUVWXYZabcdefghijklmnopqrstuvwxyz0123456789-_".
Inductive six_bits : str -> list bool -> Prop :=
| sb_nil : six_bits [] []
| sb_cons : forall c v s l, nth_error base64_alphabet v = Some c -> six_bits s l ->
    six_bits (c :: s) (bits 6 (N.of_nat v) ++ l).
(* the bits of the characters are those of the bytes, and then fewer than six zeros *)
Definition base64url (b : octets) (s : str) : Prop :=
  Forall (fun x => (x < 256)%N) b /\
  exists k, k < 6 /\ six_bits s (flat_map (bits 8) b ++ repeat false k).

(* ---- the document of a segment ---- *)
Inductive number_within : str -> json -> Prop :=
| nw_number : forall t, number_within t (JNumber t)
| nw_array : forall t v l, In v l -> number_within t v -> number_within t (JArray l)
| nw_object : forall t k v m, In (k, v) m -> number_within t v -> number_within t (JObject m).
Definition segment_holds (finite : str -> bool) (v : json) (s : str) : Prop :=
  exists b t, base64url b s /\ utf8_of t b /\ json_document v t /\ json_depth v < 128 /\
    forall n, number_within n v -> finite n = true.
(* of several members with a name the last one counts *)
Definition last_member (m : list (str * json)) (k : str) (v : json) : Prop :=
  exists before after, m = before ++ (k, v) :: after /\ ~ In k (map fst after).

(* ---- times ---- *)
Definition natural (t : str) (n : N) : Prop :=
  numerals t /\ n = fold_left (fun n c => n * 10 + (c - 48))%N t 0%N.
(* an integer of 64 bits, written without fraction and exponent, but not -0 *)
Inductive i64_text : str -> Z -> Prop :=
| it_natural : forall t n, natural t n -> (n < 2 ^ 63)%N -> i64_text t (Z.of_N n)
| it_negative : forall t n, natural t n -> (0 < n <= 2 ^ 63)%N -> i64_text (chars "-" ++ t) (- Z.of_N n).

(* NumericDate of RFC 7519: any JSON number.  The text [t] is the number [m] * 10 ^ [e]. *)
Definition number_value (t : str) (m e : Z) : Prop :=
  exists g i f x, t = g ++ i ++ f ++ x /\ (g = [] \/ g = chars "-") /\ integer_text i /\
  exists d n, (f = [] /\ d = [] \/ f = chars "." ++ d /\ numerals d) /\ natural (i ++ d) n /\
  m = (if g then Z.of_N n else - Z.of_N n)%Z /\
  exists k, (x = [] /\ k = 0%Z \/
             exists s u j, In s [chars "e"; chars "E"; chars "e+"; chars "E+"; chars "e-"; chars "E-"] /\ x = s ++ u /\ natural u j /\
               k = (if existsb (N.eqb 45) s then - Z.of_N j else Z.of_N j)%Z) /\
  e = (k - Z.of_nat (length d))%Z.
Definition after_time (now : Z) (t : str) : Prop :=
  exists m e, number_value t m e /\
  if (0 <=? e)%Z then (now < m * 10 ^ e)%Z else (now * 10 ^ (- e) < m)%Z.
