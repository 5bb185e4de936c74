(* Contract between the scanner and a compiled rule (scanner/mod.rs 58-257): what a
   rule finds in a string is a function of the string, its path, whether the path is
   excluded for the rule and whether keywords are searched in paths. *)
From Verif Require Export Model.Scanner Spec.Text.

(* the emitted ranges, and the texts remembered because the path is excluded *)
Definition finder := str -> path -> bool -> bool -> list (nat * nat) * list str.

(* rule number [i] behaves as [f] on the texts of [dom] *)
Record meets (dom : str -> Prop) (i : nat) (r : rule) (f : finder) : Prop := {
  mt_action : action_validate (rule_action r) = true;
  mt_runs : forall fuel content p excl kw x, dom content -> nbytes content + 2 <= fuel ->
    rule_string_matches r fuel content p excl [] kw x =
    Ret (fst (f content p (excl i) kw), snd (f content p (excl i) kw) ++ x);
  mt_ranges : forall content p e kw a b, dom content -> In (a, b) (fst (f content p e kw)) ->
    a < b /\ exists t, part_at content a b t;
  mt_excluded : forall content p kw, dom content -> fst (f content p true kw) = [];
  mt_included : forall content p kw, dom content -> snd (f content p false kw) = []
}.
