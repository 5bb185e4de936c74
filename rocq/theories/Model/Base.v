(* Common vocabulary of the model: computations that may panic or run out of
   fuel.  Not a transcription of any single Rust item. *)
From Coq Require Export List Bool Arith NArith ZArith.
Export ListNotations.

(* Result of running a piece of Rust code.
   [Panic]   : a slice out of range or off a char boundary, a failed [unwrap],
               an out of bounds index, an arithmetic underflow.
   [Diverge] : the fuel given to an unbounded loop was not enough. *)
Inductive outcome (A : Type) : Type :=
| Ret (a : A)
| Panic
| Diverge.
Arguments Ret {A} a.
Arguments Panic {A}.
Arguments Diverge {A}.

Definition bind {A B} (m : outcome A) (f : A -> outcome B) : outcome B :=
  match m with
  | Ret a => f a
  | Panic => Panic
  | Diverge => Diverge
  end.

Notation "'let*' x := e 'in' f" := (bind e (fun x => f))
  (at level 200, x pattern, e at level 200, f at level 200, right associativity).

(* [Option::unwrap] and slice indexing: [None] is a panic. *)
Definition unwrap {A} (o : option A) : outcome A :=
  match o with Some a => Ret a | None => Panic end.

(* Sequential [for] loop with a state; a panic or divergence stops it. *)
Fixpoint foldM {A S} (f : S -> A -> outcome S) (l : list A) (s : S) : outcome S :=
  match l with
  | [] => Ret s
  | x :: l' => let* s' := f s x in foldM f l' s'
  end.

(* [(z as usize)] for a signed value: a negative value would wrap to a huge
   index whose use panics, so it is identified with that panic. *)
Definition as_usize (z : Z) : outcome nat :=
  if (z <? 0)%Z then Panic else Ret (Z.to_nat z).
