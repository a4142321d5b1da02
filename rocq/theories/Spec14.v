(** * Spec14: initial value problems and the grid on which a solver is evaluated. *)
From Verif Require Import Fl.
From Coq Require Import List.
Import ListNotations.
Open Scope R_scope.

(** [x] and [y] start at [x0] and [y0] and on [0, T) have the derivatives that the Python function [rhs] returns. *)
Definition ode_solution (rhs : fl -> fl -> fl -> outcome (fl * fl)) (x0 y0 T : R) (x y : R -> R) : Prop :=
  x 0 = x0 /\ y 0 = y0 /\ forall t, 0 <= t < T -> exists dx dy,
    derivable_pt_lim x t dx /\ derivable_pt_lim y t dy /\ rhs (Fin (x t)) (Fin (y t)) (Fin t) = Ret (Fin dx, Fin dy).
(** [odeint] answers this call with the values of some solution at the grid points. *)
Definition solved_by (odeint : (fl -> fl -> fl -> outcome (fl * fl)) -> fl * fl -> list fl -> list (fl * fl))
    (rhs : fl -> fl -> fl -> outcome (fl * fl)) (x0 y0 T : R) (ts : list R) : Prop :=
  exists x y, ode_solution rhs x0 y0 T x y /\ odeint rhs (Fin x0, Fin y0) (map Fin ts) = map (fun t => (Fin (x t), Fin (y t))) ts.
(** numpy.arange in exact arithmetic: the points a, a + s, a + 2 s, ... that are less than b. *)
Definition arange_spec (arange : fl -> fl -> fl -> list fl) : Prop :=
  forall a b s, 0 < s -> exists n, arange (Fin a) (Fin b) (Fin s) = map Fin (map (fun k => a + INR k * s) (seq 0 n)) /\
    b <= a + INR n * s /\ forall k, (k < n)%nat -> a + INR k * s < b.
