(* Model of sds/src/stats.rs 37-61: a counter that is updated atomically and a gauge that
   is set afterwards.  Each of the two is atomic; other threads can act between them. *)
From Verif Require Export Model.Base.
From Coq Require Import ZArith.

Record stats := {
  st_count : Z;                (* total_scanners_count *)
  st_gauge : Z;                (* total_scanners; a float that holds an integer *)
  st_pending : list Z          (* the values [prev_value + delta] of calls that have not
                                  yet set the gauge *)
}.
Definition stats_new : stats := {| st_count := 0%Z; st_gauge := 0%Z; st_pending := [] |}.

Inductive stat_action :=
| SAdd (delta : Z)      (* 46-48: fetch_add; 1 and -1 (37-43) are the deltas *)
| SSet (n : nat).       (* 49: one of the pending calls sets the gauge *)

Fixpoint drop_nth {A} (i : nat) (l : list A) : list A :=
  match l, i with
  | [], _ => []
  | _ :: l', 0 => l'
  | x :: l', S i' => x :: drop_nth i' l'
  end.
Definition stat_step (a : stat_action) (s : stats) : option stats :=
  match a with
  | SAdd delta =>
    let v := (st_count s + delta)%Z in
    Some {| st_count := v; st_gauge := st_gauge s; st_pending := st_pending s ++ [v] |}
  | SSet n =>
    match nth_error (st_pending s) n with
    | Some v => Some {| st_count := st_count s; st_gauge := v; st_pending := drop_nth n (st_pending s) |}
    | None => None
    end
  end.
Fixpoint stat_run (acts : list stat_action) (s : stats) : option stats :=
  match acts with
  | [] => Some s
  | a :: acts' => match stat_step a s with Some s' => stat_run acts' s' | None => None end
  end.
