(** * Spec21: small changes of the inputs change the results little.

    [within d xs ys]: the two lists have the same length and differ by less than [d] in every place.
    [continuous_on D f]: at every input in [D] where [f] gives numbers, the results are continuous: to every tolerance on the
    results belongs a tolerance on the inputs, such that inputs within the latter that give numbers give results within the former.
    [robust_on D f]: around every input in [D] where [f] gives numbers it goes on giving numbers: a small enough error in the
    inputs can neither make it raise nor give inf or nan. *)
From Verif Require Import Fl M_GM.
Open Scope R_scope.

Definition within (d : R) (xs ys : list R) : Prop := Forall2 (fun x y => Rabs (y - x) < d) xs ys.
Definition continuous_on (D : list R -> Prop) (f : list fl -> outcome (list fl)) : Prop :=
  forall xs ys, D xs -> f (map Fin xs) = Ret (map Fin ys) ->
  forall eps, 0 < eps -> exists d, 0 < d /\
    forall xs' ys', within d xs xs' -> f (map Fin xs') = Ret (map Fin ys') -> within eps ys ys'.
Definition robust_on (D : list R -> Prop) (f : list fl -> outcome (list fl)) : Prop :=
  forall xs ys, D xs -> f (map Fin xs) = Ret (map Fin ys) ->
  exists d, 0 < d /\ forall xs', within d xs xs' -> exists ys', f (map Fin xs') = Ret (map Fin ys').
Definition continuous_fn := continuous_on (fun _ => True).
Definition robust_fn := robust_on (fun _ => True).

(** The conditions under which the cementation models vary continuously. [cement_ok]: the grain modulus combinations in the
    denominators and the bases of the non-integer powers of [contactcement] are not zero. [threshold_ok]: what is asked where the
    amount of cement equals the threshold above which the rock counts as fully cemented: grain moduli are positive and the
    contact-cement scheme at the threshold porosity [phic - v] gives positive moduli. *)
Definition cement_ok (K0 G0 Gc : R) : Prop := 3 * K0 + G0 <> 0 /\ G0 <> 0 /\ Gc <> 0.
Definition threshold_ok (m : mode) (K0 G0 Kc Gc phic v Cn : R) (scheme : Z) : Prop :=
  0 < K0 /\ 0 < G0 /\ phic <> v /\
  exists Kb Gb, GM_contactcement m (Fin K0) (Fin G0) (Fin Kc) (Fin Gc) (Fin phic - Fin v)%fl (Fin phic) (Fin Cn) scheme = Ret (Fin Kb, Fin Gb) /\ 0 < Kb /\ 0 < Gb.
