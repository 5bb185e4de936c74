(* The response of the native library, byte by byte *)
From Verif Require Export Spec.Codec.

(* the number modulo 2^32, most significant byte first *)
Definition four_bytes (n : N) (b : octets) : Prop :=
  exists b3 b2 b1 b0, b = [b3; b2; b1; b0] /\ (b3 < 256 /\ b2 < 256 /\ b1 < 256 /\ b0 < 256)%N /\
    (n mod two32 = ((b3 * 256 + b2) * 256 + b1) * 256 + b0)%N.
(* bytes after their number *)
Definition counted (t b : octets) : Prop :=
  exists n, four_bytes (N.of_nat (length t)) n /\ b = n ++ t.

Inductive kind_name : replacement_kind -> octets -> Prop :=
| kn_none : kind_name RKNone (chars "none")
| kn_placeholder : kind_name RKPlaceholder (chars "placeholder")
| kn_hash : kind_name RKHash (chars "hash")
| kn_start : kind_name RKPartialStart (chars "partial_beginning")
| kn_end : kind_name RKPartialEnd (chars "partial_end").

(* 5, the number of the rule, the text of the path, the name of the replacement, the start,
   the end and the shift offset (two's complement) *)
Definition wire_match (o : rule_match) (b : octets) : Prop :=
  exists rule t tb p k kb s e z, b = 5%N :: rule ++ p ++ kb ++ s ++ e ++ z /\
    four_bytes (N.of_nat (rm_rule o)) rule /\
    path_text true (rm_path o) t /\ utf8_of t tb /\ counted tb p /\
    kind_name (rm_kind o) k /\ counted k kb /\
    four_bytes (N.of_nat (rm_start o)) s /\ four_bytes (N.of_nat (rm_end o)) e /\
    four_bytes (Z.to_N (rm_shift o mod 4294967296)) z.

(* a field: 0 and its name; an index: 1 and its number *)
Inductive wire_path : path -> octets -> Prop :=
| wp_nil : wire_path [] []
| wp_field : forall f fb n p b, utf8_of f fb -> counted fb n -> wire_path p b ->
    wire_path (Field f :: p) (0%N :: n ++ b)
| wp_index : forall i n p b, four_bytes (N.of_nat i) n -> wire_path p b ->
    wire_path (Index i :: p) (1%N :: n ++ b).
(* 4, the path, 3 and the new text, for every mutated string *)
Inductive wire_mutations : storage -> octets -> Prop :=
| wm_nil : wire_mutations [] []
| wm_unchanged : forall p s st b, wire_mutations st b -> wire_mutations ((p, (false, s)) :: st) b
| wm_mutated : forall p s sb n pb st b, wire_path p pb -> utf8_of s sb -> counted sb n ->
    wire_mutations st b -> wire_mutations ((p, (true, s)) :: st) (4%N :: pb ++ 3%N :: n ++ b).
Inductive wire_matches : list rule_match -> octets -> Prop :=
| wms_nil : wire_matches [] []
| wms_cons : forall o ob ms b, wire_match o ob -> wire_matches ms b -> wire_matches (o :: ms) (ob ++ b).
