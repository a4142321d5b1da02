(** * Spec2: specification notions for fluids, granular media, batch properties, AVO.
    Nothing here refers to the model of the code. *)
From Verif Require Import Fl Cx Spec.
Open Scope R_scope.

(** ** Biot's poroelastic coefficients (Biot 1956, Stoll's notation) in terms of rock properties. *)
Definition biot_b (K0 Kd : R) : R := 1 - Kd / K0.
Definition biot_N (K0 Kd Kf phi : R) : R := 1 / ((biot_b K0 Kd - phi) / K0 + phi / Kf).
Definition biot_P (K0 Kd Gd Kf phi : R) : R :=
  Kd + 4/3 * Gd + (biot_b K0 Kd - phi)^2 * biot_N K0 Kd Kf phi.
Definition biot_Q (K0 Kd Kf phi : R) : R := (biot_b K0 Kd - phi) * phi * biot_N K0 Kd Kf phi.
Definition biot_R (K0 Kd Kf phi : R) : R := phi^2 * biot_N K0 Kd Kf phi.
(** Mass coefficients: inertial coupling [r12], and the two phase masses. *)
Definition biot_r12 (rf phi al : R) : R := - (al - 1) * phi * rf.
Definition biot_r11 (r0 rf phi al : R) : R := (1 - phi) * r0 - biot_r12 rf phi al.
Definition biot_r22 (rf phi al : R) : R := phi * rf - biot_r12 rf phi al.
(** Biot's P-wave dispersion relation for the squared complex slowness [x], and the S-wave one.
    [q] is the (complex) effective fluid inertia. *)
Definition biot_P_slowness2 (H C M rho rf : R) (q x : cx) : Prop :=
  cadd (cmul (csub (cmul (CFin H 0) x) (CFin rho 0)) (csub q (cmul (CFin M 0) x)))
       (cmul (csub (cmul (CFin C 0) x) (CFin rf 0)) (csub (cmul (CFin C 0) x) (CFin rf 0))) = CFin 0 0.
Definition biot_S_slowness2 (G rho rf : R) (q x : cx) : Prop :=
  cmul (CFin G 0) (cmul q x) = csub (cmul (CFin rho 0) q) (CFin (rf^2) 0).
(** A wave whose squared slowness is [x] has phase velocity [v] and inverse quality factor [iq]. *)
Definition complex_velocity (x : cx) (v iq : R) : Prop :=
  exists a b y z, cmul (CFin a b) (CFin a b) = x /\ 0 < a /\ v * a = 1 /\
    cmul (CFin y z) x = CFin 1 0 /\ iq * y = z.

(** ** Five compliances of a transversely isotropic rock: S11, S12, S13, S33, S44 *)
Definition vol5 (s0 s1 s2 s3 : R) : R := 2 * s0 + 2 * s1 + 4 * s2 + s3.
(** Decides which of the two roots of the dispersion relation the principal square root selects. *)
Definition biot_branch (H C M rho rf q0 : R) : R := H^2 * q0 - M * H * rho - 2 * C * H * rf + 2 * C^2 * rho.
