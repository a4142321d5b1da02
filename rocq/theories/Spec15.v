(** * Spec15: volume of a spheroidal crack *)
From Coq Require Import Reals.
From Coquelicot Require Import Coquelicot.
Open Scope R_scope.

(** An oblate spheroid of radius [c] and aspect ratio [a]: at height [z] its section is a disc of radius [r z]. *)
Definition spheroid (c a : R) (r : R -> R) : Prop :=
  forall z, - (a * c) <= z <= a * c -> 0 <= r z /\ (r z / c)^2 + (z / (a * c))^2 = 1.
(** Its volume: the integral of the area of the discs. *)
Definition spheroid_volume (c a v : R) : Prop :=
  exists r, spheroid c a r /\ is_RInt (fun z => PI * r z ^ 2) (- (a * c)) (a * c) v.
