(** * Specification notions for Biot's viscosity factor (C29), squirt (C32) and White's
    patchy-saturation model (C33). *)
From Verif Require Import Fl Cx.
Open Scope R_scope.

(** Biot's viscosity factor F at the dimensionless pore size [z]. [jv n] is the Bessel function J_n.
    Below 1/10 it is 1. From there on F (1 + 2iT/z) = zT/4 with, up to z = 1000,
    T = e^(3 pi i/4) J_1(z e^(-i pi/4)) / J_0(z e^(-i pi/4)), and beyond that the limit T = e^(i pi/4). *)
Definition is_viscosity_factor (jv : nat -> cx -> cx) (z : R) (F : cx) : Prop :=
  let r := 1 / sqrt 2 in let w := CFin (z * r) (- (z * r)) in
  (z < 1/10 -> F = CFin 1 0) /\
  (1/10 <= z -> exists t1 t2,
     (z <= 1000 -> cmul (CFin t1 t2) (jv 0%nat w) = cmul (CFin (- r) r) (jv 1%nat w)) /\
     (1000 < z -> t1 = r /\ t2 = r) /\
     cmul F (CFin (1 - 2 * t2 / z) (2 * t1 / z)) = CFin (z * t1 / 4) (z * t2 / 4)).

(** Physically sensible arguments: drained frame softer than the mineral, two liquids softer than
    the mineral, porosity in (0,1], inner-gas saturation strictly between 0 and 1, positive
    permeability, viscosities, patch radius and bulk density. *)
Definition white_inputs (Kd Gd K0 phi r0 rf1 rf2 Kf1 Kf2 eta1 eta2 kap a sg : R) : Prop :=
  0 < K0 /\ 0 < Kf1 < K0 /\ 0 < Kf2 < K0 /\ 0 < Kd < K0 /\ 0 <= Gd /\ 0 < phi <= 1 /\ 0 < sg < 1 /\ 0 < kap /\
  0 < (1 - phi) * r0 + phi * sg * rf1 + phi * (1 - sg) * rf2 /\ 0 < eta1 /\ 0 < eta2 /\ 0 < a.
(** Bulk density of the partially saturated rock. *)
Definition white_density (phi r0 rf1 rf2 sg : R) : R := (1 - phi) * r0 + phi * sg * rf1 + phi * (1 - sg) * rf2.
(** Hill's theorem: the bulk modulus of a composite of two phases K1, K2 with one shear modulus G. *)
Definition is_hill (K1 K2 G s K : R) : Prop := 0 < K /\ 1 / (K + 4/3 * G) = s / (K1 + 4/3 * G) + (1 - s) / (K2 + 4/3 * G).

(** A transversely isotropic fourth-rank tensor (axis 2) from its components 1111, 1122, 1133, 3333, 1313. *)
Definition ti4 (c11 c12 c13 c33 c1313 : R) (i j k l : nat) : R :=
  if (Nat.eqb i j && Nat.eqb k l)%bool then
    if Nat.eqb i k then (if Nat.eqb i 2 then c33 else c11) else if (Nat.eqb i 2 || Nat.eqb k 2)%bool then c13 else c12
  else if ((Nat.eqb i k && Nat.eqb j l) || (Nat.eqb i l && Nat.eqb j k))%bool then
    (if (Nat.eqb i 2 || Nat.eqb j 2)%bool then c1313 else (c11 - c12) / 2)
  else 0.
Definition del (i j : nat) : R := if Nat.eqb i j then 1 else 0.
(** Mukerji and Mavko's decomposition of the normalised extra compliance D of the compliant pores: G is
    the part that trapped fluid removes, alpha their shear-to-compression parameter (D_abab - 1)/4. *)
Definition crack_decomposition (D G : nat -> nat -> nat -> nat -> R) (al : R) : Prop :=
  let F i j := G i j 0%nat 0%nat + G i j 1%nat 1%nat + G i j 2%nat 2%nat in
  let s3 f := f 0%nat + f 1%nat + f 2%nat in
  4 * al = s3 (fun a => s3 (fun b => D a b a b)) - 1 /\
  forall i j k l, (i < 3)%nat -> (j < 3)%nat -> (k < 3)%nat -> (l < 3)%nat ->
    D i j k l = (1 - 4 * al) * G i j k l + al * (del i k * F j l + del i l * F j k + del j k * F i l + del j l * F i k).
