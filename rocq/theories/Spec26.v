(** * Spec26: reading a curve backwards (C90).
    [reads_back F D E]: the curve [F] maps the numbers in [D] one-to-one onto the numbers in [E], and it can be read backwards with
    measured values: each value in [E] belongs to exactly one argument in [D], and a value close to it belongs to an argument close
    to that one. *)
From Verif Require Import Fl.
Open Scope R_scope.

Definition reads_back (F : fl -> outcome fl) (D E : R -> Prop) : Prop :=
  (forall x, D x -> exists y, E y /\ F (Fin x) = Ret (Fin y)) /\
  (forall y, E y -> exists x, D x /\ F (Fin x) = Ret (Fin y) /\
     (forall x', D x' -> F (Fin x') = Ret (Fin y) -> x' = x) /\
     forall eps, 0 < eps -> exists d, 0 < d /\
       forall x' y', D x' -> F (Fin x') = Ret (Fin y') -> Rabs (y' - y) < d -> Rabs (x' - x) < eps).

(** Two arguments in [D] with the same value: the curve cannot be read backwards. *)
Definition ambiguous (F : fl -> outcome fl) (D : R -> Prop) : Prop :=
  exists x x' y, D x /\ D x' /\ x <> x' /\ F (Fin x) = Ret (Fin y) /\ F (Fin x') = Ret (Fin y).

(** The first and the second of two (or three) results. *)
Definition part1 {A B} (o : outcome (A * B)) : outcome A := call! p := o in Ret (fst p).
Definition part2 {A B} (o : outcome (A * B)) : outcome B := call! p := o in Ret (snd p).

(** Intervals: with both ends, without ends, without the right or the left end, half-lines. *)
Definition seg (a b x : R) : Prop := a <= x <= b.
Definition oseg (a b x : R) : Prop := a < x < b.
Definition rseg (a b x : R) : Prop := a <= x < b.
Definition lseg (a b x : R) : Prop := a < x <= b.
Definition ray (a x : R) : Prop := a <= x.
