(* Specification of the Go binding: events, paths and matches as Go sees them, written
   without the encoder and the decoders *)
From Verif Require Export Model.GoBinding Spec.Claims.

(* UTF-8: the bytes of one scalar value, after the table of the Unicode standard *)
Inductive char_utf8 : char -> octets -> Prop :=
| cu_1 : forall x, (x < 128)%N -> char_utf8 x [x]
| cu_2 : forall x y, (y < 64 -> 128 <= x * 64 + y < 2048 ->
    char_utf8 (x * 64 + y) [192 + x; 128 + y])%N
| cu_3 : forall x y z, (y < 64 -> z < 64 ->
    2048 <= x * 4096 + y * 64 + z < 65536 -> ~ 55296 <= x * 4096 + y * 64 + z < 57344 ->
    char_utf8 (x * 4096 + y * 64 + z) [224 + x; 128 + y; 128 + z])%N
| cu_4 : forall x y z t, (y < 64 -> z < 64 -> t < 64 ->
    65536 <= x * 262144 + y * 4096 + z * 64 + t < 1114112 ->
    char_utf8 (x * 262144 + y * 4096 + z * 64 + t) [240 + x; 128 + y; 128 + z; 128 + t])%N.
Inductive utf8_of : str -> octets -> Prop :=
| uo_nil : utf8_of [] []
| uo_cons : forall c b s bs, char_utf8 c b -> utf8_of s bs -> utf8_of (c :: s) (b ++ bs).

(* the Go value [v] is the event [e], maps listed in the same order *)
Inductive go_image : simple_event -> go_value -> Prop :=
| gi_string : forall s b, utf8_of s b -> go_image (SString s) (GString b)
| gi_list : forall l l', go_images l l' -> go_image (SList l) (GList l')
| gi_map : forall m m', go_entries m m' -> go_image (SMap m) (GMap m')
with go_images : list simple_event -> list go_value -> Prop :=
| gis_nil : go_images [] []
| gis_cons : forall c v l l', go_image c v -> go_images l l' -> go_images (c :: l) (v :: l')
with go_entries : list (str * simple_event) -> list (octets * go_value) -> Prop :=
| gie_nil : go_entries [] []
| gie_cons : forall k k' c v m m', utf8_of k k' -> go_image c v -> go_entries m m' ->
    go_entries ((k, c) :: m) ((k', v) :: m').

(* 2^32 *)
Definition two32 : N := 4294967296%N.

(* all lengths and indices fit in 32 bits *)
Inductive go_fits : go_value -> Prop :=
| gf_string : forall b, (N.of_nat (length b) < two32)%N -> go_fits (GString b)
| gf_list : forall l, (N.of_nat (length l) <= two32)%N -> (forall v, In v l -> go_fits v) ->
    go_fits (GList l)
| gf_map : forall m, (forall k v, In (k, v) m -> (N.of_nat (length k) < two32)%N /\ go_fits v) ->
    go_fits (GMap m)
| gf_other : go_fits GOther.

(* a value of a type the binding does not know occurs in [v] *)
Inductive has_unknown : go_value -> Prop :=
| hu_here : has_unknown GOther
| hu_list : forall l v, In v l -> has_unknown v -> has_unknown (GList l)
| hu_map : forall m k v, In (k, v) m -> has_unknown v -> has_unknown (GMap m).

(* the Go value holds the bytes [b] under the keys and indices [p] *)
Inductive go_segment := GKey (k : octets) | GIdx (i : nat).
Inductive go_holds : go_value -> list go_segment -> octets -> Prop :=
| gh_string : forall b, go_holds (GString b) [] b
| gh_list : forall l i v p b, nth_error l i = Some v -> go_holds v p b ->
    go_holds (GList l) (GIdx i :: p) b
| gh_map : forall m k v p b, In (k, v) m -> go_holds v p b ->
    go_holds (GMap m) (GKey k :: p) b.

(* the text of a number *)
Definition is_digit (c : char) : Prop := (48 <= c <= 57)%N.
Definition decimal_value (t : str) : N := fold_left (fun n c => n * 10 + (c - 48))%N t 0%N.
Definition reads_as (t : str) (n : nat) : Prop :=
  t <> [] /\ (forall c, In c t -> is_digit c) /\ decimal_value t = N.of_nat n /\
  (forall t', t = 48%N :: t' -> t' = []).

(* the text of a path: fields joined by dots, indices in brackets *)
Inductive path_text : bool -> path -> str -> Prop :=
| pt_nil : forall first, path_text first [] []
| pt_first_field : forall f p t, path_text false p t -> path_text true (Field f :: p) (f ++ t)
| pt_field : forall f p t, path_text false p t -> path_text false (Field f :: p) (46%N :: f ++ t)
| pt_index : forall first i p d t, reads_as d i -> path_text false p t ->
    path_text first (Index i :: p) (91%N :: d ++ 93%N :: t).

(* the Go match [g] is the match [o]; [wrap] and [wrapz] are applied to the numbers *)
Record match_as (wrap : N -> N) (wrapz : Z -> Z) (o : rule_match) (g : go_match) : Prop := {
  ma_rule : gm_rule g = wrap (N.of_nat (rm_rule o));
  ma_path : exists t, path_text true (rm_path o) t /\ utf8_of t (gm_path g);
  ma_kind : gm_kind g = rm_kind o;
  ma_start : gm_start g = wrap (N.of_nat (rm_start o));
  ma_end : gm_end g = wrap (N.of_nat (rm_end o));
  ma_shift : gm_shift g = wrapz (rm_shift o)
}.
Definition match_image : rule_match -> go_match -> Prop := match_as (fun n => n) (fun z => z).

(* the numbers of a match fit in 32 bits *)
Record match_fits (o : rule_match) : Prop := {
  mf_rule : (N.of_nat (rm_rule o) < two32)%N;
  mf_start : (N.of_nat (rm_start o) < two32)%N;
  mf_end : (N.of_nat (rm_end o) < two32)%N;
  mf_shift : (-2147483648 <= rm_shift o < 2147483648)%Z
}.
(* the text of its path is text, shorter than 2^32 bytes *)
Definition path_fits (p : path) : Prop :=
  forall t, path_text true p t -> exists b, utf8_of t b /\ (N.of_nat (length b) < two32)%N.

(* wrapping to 32 bits, unsigned and signed *)
Definition wrap32 (n : N) : N := (n mod two32)%N.
Definition signed32 (z : Z) : Z := ((z + 2147483648) mod 4294967296 - 2147483648)%Z.

(* a storage entry can be written: text, shorter than 2^32 bytes *)
Definition segment_fits (s : segment) : Prop :=
  match s with
  | Field f => exists b, utf8_of f b /\ (N.of_nat (length b) < two32)%N
  | Index i => (N.of_nat i < two32)%N
  end.
Definition entry_fits (e : path * (bool * str)) : Prop :=
  (forall s, In s (fst e) -> segment_fits s) /\
  exists b, utf8_of (snd (snd e)) b /\ (N.of_nat (length b) < two32)%N.

(* the last content marked as mutated *)
Inductive last_mutated : storage -> option str -> Prop :=
| lm_nil : last_mutated [] None
| lm_later : forall e st s, last_mutated st (Some s) -> last_mutated (e :: st) (Some s)
| lm_here : forall p s st, last_mutated st None -> last_mutated ((p, (true, s)) :: st) (Some s)
| lm_not : forall p s st, last_mutated st None -> last_mutated ((p, (false, s)) :: st) None.

(* Bytes that need not be UTF-8, read as Unicode recommends: a well-formed character is
   itself; elsewhere the longest beginning of a character, or one byte if there is none, is
   replaced by U+FFFD. *)
Definition cut_short (t : octets) : Prop := exists c more, more <> [] /\ char_utf8 c (t ++ more).
Definition ill_formed (bad rest : octets) : Prop :=
  (forall c b after, char_utf8 c b -> bad ++ rest <> b ++ after) /\
  (length bad = 1 \/ bad <> [] /\ cut_short bad) /\
  forall x y, rest = x ++ y -> x <> [] -> ~ cut_short (bad ++ x).
Inductive read_lossily : octets -> str -> Prop :=
| rl_nil : read_lossily [] []
| rl_char : forall c b rest s, char_utf8 c b -> read_lossily rest s -> read_lossily (b ++ rest) (c :: s)
| rl_bad : forall bad rest s, ill_formed bad rest -> read_lossily rest s -> read_lossily (bad ++ rest) (65533%N :: s).

(* The response of the native library to an encoded event is shorter than 2 GiB. *)
Definition response_fits (scan : octets -> outcome (option octets)) (encoded : octets) : Prop :=
  forall r, scan encoded = Ret (Some r) -> (N.of_nat (length r) < 2147483648)%N.
(* What Go gets of a response: the size passes through a 32-bit signed number. *)
Inductive received (b : octets) : outcome octets -> Prop :=
| rc_prefix : forall q x y, b = x ++ y -> (N.of_nat (length b) = q * two32 + N.of_nat (length x))%N ->
    (N.of_nat (length x) < 2147483648)%N -> received b (Ret x)
| rc_panic : forall q k, (N.of_nat (length b) = q * two32 + k)%N -> (2147483648 <= k < two32)%N -> received b Panic.

(* text, as every Rust string is: it can be written in UTF-8 *)
Definition is_text (s : str) : Prop := exists b, utf8_of s b.
(* every string of the Go value is shorter than 2 GiB *)
Definition go_short (v : go_value) : Prop := forall p b, go_holds v p b -> (N.of_nat (length b) < 2147483648)%N.
(* what the rules put in the place of text is text *)
Definition text_stays (h : hashers) (sc : scanner) : Prop :=
  forall r t, In r (sc_rules sc) -> is_text t -> is_text (redacted h (rule_action r) t).
