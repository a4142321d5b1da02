(** * Spec8: plane waves at a welded interface. *)
From Verif Require Import Fl Spec Spec5.
Open Scope R_scope.

(** A plane wave of horizontal slowness [p], vertical slowness [q] (positive: down) and polarisation (ux, uz) in a medium
    of P velocity [vp], S velocity [vs] and density [r]: shear and normal traction on a horizontal plane, per unit
    amplitude and i*omega. *)
Definition shear_traction (vs r p q ux uz : R) : R := r * vs^2 * (q * ux + p * uz).
Definition normal_traction (vp vs r p q ux uz : R) : R := r * (vp^2 - 2 * vs^2) * (p * ux + q * uz) + 2 * r * vs^2 * q * uz.
(** P waves are polarised along their slowness, S waves across it. [q1], [q2] are the vertical slownesses of P, [s1], [s2]
    those of S. An incident P wave of amplitude 1, reflected Rpp and Rps, transmitted Tpp and Tps: displacement and traction
    are continuous. *)
Definition welded (vp1 vs1 r1 vp2 vs2 r2 p q1 q2 s1 s2 Rpp Rps Tpp Tps : R) : Prop :=
  let side1 (f : R -> R -> R -> R) := f q1 (vp1 * p) (vp1 * q1) + Rpp * f (- q1) (vp1 * p) (- (vp1 * q1)) + Rps * f (- s1) (vs1 * s1) (vs1 * p) in
  let side2 (f : R -> R -> R -> R) := Tpp * f q2 (vp2 * p) (vp2 * q2) + Tps * f s2 (vs2 * s2) (- (vs2 * p)) in
  side1 (fun _ ux _ => ux) = side2 (fun _ ux _ => ux) /\
  side1 (fun _ _ uz => uz) = side2 (fun _ _ uz => uz) /\
  side1 (shear_traction vs1 r1 p) = side2 (shear_traction vs2 r2 p) /\
  side1 (normal_traction vp1 vs1 r1 p) = side2 (normal_traction vp2 vs2 r2 p).
(** [q] is the vertical slowness belonging to the velocity [v]. *)
Definition slowness (v p q : R) : Prop := p^2 + q^2 = 1 / v^2.

(** Aki and Richards' solution of these conditions (Quantitative Seismology, 5.39-5.40). [sh] is the S slowness in the
    coefficient H; it is [s1] in the solution. *)
Section AR.
Variables (vp1 vs1 r1 vp2 vs2 r2 p q1 q2 s1 s2 sh : R).
Definition ar_a := r2 * (1 - 2 * vs2^2 * p^2) - r1 * (1 - 2 * vs1^2 * p^2).
Definition ar_b := r2 * (1 - 2 * vs2^2 * p^2) + 2 * r1 * vs1^2 * p^2.
Definition ar_c := r1 * (1 - 2 * vs1^2 * p^2) + 2 * r2 * vs2^2 * p^2.
Definition ar_d := 2 * (r2 * vs2^2 - r1 * vs1^2).
Definition ar_E := ar_b * q1 + ar_c * q2.
Definition ar_F := ar_b * s1 + ar_c * s2.
Definition ar_G := ar_a - ar_d * q1 * s2.
Definition ar_H := ar_a - ar_d * q2 * sh.
Definition ar_D := ar_E * ar_F + ar_G * ar_H * p^2.
Definition ar_pp := ((ar_b * q1 - ar_c * q2) * ar_F - (ar_a + ar_d * q1 * s2) * ar_H * p^2) / ar_D.
Definition ar_ps := - 2 * q1 * (ar_a * ar_b + ar_c * ar_d * q2 * s2) * p * vp1 / (vs1 * ar_D).
End AR.
