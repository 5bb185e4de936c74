(* ASCII constants.  Not a transcription of any Rust item. *)
From Coq Require Ascii String.
From Verif Require Export Model.Base.
From Verif Require Import Model.Str.
Export String.StringSyntax.

(* the characters of an ASCII literal; only a way of writing constants *)
Definition chars (s : String.string) : str :=
  map (fun a => N.of_nat (Ascii.nat_of_ascii a)) (String.list_ascii_of_string s).
Arguments chars s%string_scope.
