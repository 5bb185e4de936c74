(* Model of sds/src/encoding.rs *)
From Verif Require Export Model.Str.

(* encoding.rs 2-21.  The trait [Encoding]: [enc_calculate] receives the UTF-8
   ranges sorted by start and returns the custom indices that the Rust method
   writes through its [&mut] outputs, in order (possibly fewer than the matches). *)
Record encoding := {
  enc_index : Type;
  enc_shift : Type;
  enc_zero_index : enc_index;
  enc_zero_shift : enc_shift;
  enc_get_index : enc_index -> nat -> nat;
  enc_get_shift : enc_shift -> Z -> Z;
  enc_calculate : str -> list (nat * nat) -> list (enc_index * enc_index);
  enc_adjust_shift : enc_shift -> str -> str -> enc_shift
}.

(* encoding.rs 23-52 *)
Definition utf8_encoding : encoding := {|
  enc_index := unit;
  enc_shift := unit;
  enc_zero_index := tt;
  enc_zero_shift := tt;
  enc_get_index := fun _ i => i;
  enc_get_shift := fun _ z => z;
  enc_calculate := fun _ _ => [];
  enc_adjust_shift := fun _ _ _ => tt
|}.
