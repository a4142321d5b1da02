(** * Spec13: pore pressure diffusing between a saturated sphere and the shell around it (White; Dutta and Ode). *)
From Verif Require Import Fl.
Open Scope R_scope.

(** Complex amplitudes (time factor exp(i omega t)) of a pressure [pr + i pi] that depends on the radius, with
    gradient [gr + i gi]: div g = i beta p, written as (r^2 g)' = i beta r^2 p. *)
Definition radial_diffusion (lo hi beta : R) (pr pi gr gi : R -> R) : Prop :=
  forall r, 0 < r -> lo <= r <= hi ->
  derivable_pt_lim pr r (gr r) /\ derivable_pt_lim pi r (gi r) /\
  derivable_pt_lim (fun x => x^2 * gr x) r (- (beta * (r^2 * pi r))) /\
  derivable_pt_lim (fun x => x^2 * gi x) r (beta * (r^2 * pr r)).
(** Neither a source nor a singularity at the centre. *)
Definition regular_centre (pr pi gr gi : R -> R) : Prop :=
  limit1_in (fun r => r * pr r) (fun r => 0 < r) 0 0 /\ limit1_in (fun r => r * pi r) (fun r => 0 < r) 0 0 /\
  limit1_in (fun r => r^2 * gr r) (fun r => 0 < r) 0 0 /\ limit1_in (fun r => r^2 * gi r) (fun r => 0 < r) 0 0.

(** Biot: a region with drained modulus [Kd], coefficient [bt] and fluid modulus [M] that takes up the fluid content [z]
    at constant mean stress has pressure [N z] and volume strain [Q z]. *)
Definition content_response (Kd bt M N Q : R) : Prop :=
  forall z e p, p = M * z - bt * M * e -> 0 = (Kd + bt^2 * M) * e - bt * M * z -> p = N * z /\ e = Q * z.

(** Complex compliance [Cr + i Ci] of a composite sphere (fluid 1 in the inner radius [a], fluid 2 out to the radius with
    a^3 = sg b^3) whose outside is sealed and loaded by a unit harmonic pressure at angular frequency [om]. Without flow
    the regions are compressed by [e1] and [e2] and their pressures rise by bt M e; the difference drives the fluid
    displacement [vr + i vi] through the interface (Darcy), which the inner region loses and the outer one gains. *)
Definition white_compliance (Kd Gd K0 phi Kf1 Kf2 eta1 eta2 kap a sg om Cr Ci : R) : Prop :=
  exists b bt M1 M2 N1 N2 Q1 Q2 e1 e2 vr vi,
  exists pr1 pi1 gr1 gi1 pr2 pi2 gr2 gi2 : R -> R,
    let K1 := Kd + bt^2 * M1 in let K2 := Kd + bt^2 * M2 in
    0 < b /\ a^3 = sg * b^3 /\
    (* poroelastic constants *)
    bt = 1 - Kd / K0 /\ 1 / M1 = phi / Kf1 + (bt - phi) / K0 /\ 1 / M2 = phi / Kf2 + (bt - phi) / K0 /\
    content_response Kd bt M1 N1 Q1 /\ content_response Kd bt M2 N2 Q2 /\
    (* compression before any flow: elastic composite sphere, mean pressure 1 *)
    (K1 + 4/3 * Gd) * e1 = (K2 + 4/3 * Gd) * e2 /\ sg * (K1 * e1) + (1 - sg) * (K2 * e2) = 1 /\
    (* diffusion in the sphere and in the shell *)
    radial_diffusion 0 a (om * eta1 / (kap * N1)) pr1 pi1 gr1 gi1 /\ regular_centre pr1 pi1 gr1 gi1 /\
    radial_diffusion a b (om * eta2 / (kap * N2)) pr2 pi2 gr2 gi2 /\ gr2 b = 0 /\ gi2 b = 0 /\
    (* interface: continuous total pressure, and i om v = - (kap / eta) g on both sides *)
    bt * M1 * e1 + pr1 a = bt * M2 * e2 + pr2 a /\ pi1 a = pi2 a /\
    - om * vi = - (kap / eta1) * gr1 a /\ om * vr = - (kap / eta1) * gi1 a /\
    - om * vi = - (kap / eta2) * gr2 a /\ om * vr = - (kap / eta2) * gi2 a /\
    (* compression of the whole *)
    Cr = sg * e1 + (1 - sg) * e2 - 3 * a^2 * (Q2 - Q1) * vr / b^3 /\ Ci = - (3 * a^2 * (Q2 - Q1) * vi / b^3).
