(** * Property theorems about Fluid.py (C25-C33). *)
From Verif Require Import Fl Cx M_Utils M_EM M_Anis M_Fluid Spec Spec2 Spec9 L_Utils L_Fluid1 L_Fluid2 L_Fluid3 L_Fluid4 L_Fluid5 L_Fluid6 L_Fluid7 L_Fluid8.
Open Scope R_scope.

(** ** C25: Gassmann *)
(** Between the dry and the mineral modulus, shear untouched, Gassmann's equation, and the modulus
    an undrained compression test measures. *)
Theorem C25_gassmann_undrained_modulus :
  forall m Kd Gd K0 Kf phi, 0 < Kf < K0 -> 0 <= Kd < K0 -> 0 < phi <= 1 ->
  exists Ks, Fluid_Gassmann m (Fin Kd) (Fin Gd) (Fin K0) (Fin Kf) (Fin phi) = Ret (Fin Ks, Fin Gd) /\
    Kd < Ks < K0 /\ Ks / (K0 - Ks) = Kd / (K0 - Kd) + Kf / (phi * (K0 - Kf)) /\
    (0 < Kd -> forall s, (exists p e, undrained K0 Kd Kf phi s p e) /\
       (forall p e, undrained K0 Kd Kf phi s p e -> s = Ks * e)).
Proof. exact Gassmann_pack. Qed.
Print Assumptions C25_gassmann_undrained_modulus.
Theorem C25_gassmann_monotone :
  forall m K0 Kd Kd' Gd Gd' Kf Kf' phi,
  0 < Kf -> Kf <= Kf' -> Kf' < K0 -> 0 <= Kd -> Kd <= Kd' -> Kd' < K0 -> 0 < phi <= 1 ->
  exists Ks Ks', Fluid_Gassmann m (Fin Kd) (Fin Gd) (Fin K0) (Fin Kf) (Fin phi) = Ret (Fin Ks, Fin Gd) /\
    Fluid_Gassmann m (Fin Kd') (Fin Gd') (Fin K0) (Fin Kf') (Fin phi) = Ret (Fin Ks', Fin Gd') /\
    Ks <= Ks' /\ (Kf < Kf' -> Ks < Ks').
Proof. exact Gassmann_mono. Qed.
Print Assumptions C25_gassmann_monotone.
Theorem C25_gassmann_porosity :
  forall m K0 Kd Gd Kf phi phi', 0 < Kf < K0 -> 0 <= Kd < K0 -> 0 < phi -> phi < phi' -> phi' <= 1 ->
  exists Ks Ks', Fluid_Gassmann m (Fin Kd) (Fin Gd) (Fin K0) (Fin Kf) (Fin phi) = Ret (Fin Ks, Fin Gd) /\
    Fluid_Gassmann m (Fin Kd) (Fin Gd) (Fin K0) (Fin Kf) (Fin phi') = Ret (Fin Ks', Fin Gd) /\ Ks' < Ks.
Proof. exact Gassmann_phi. Qed.
Print Assumptions C25_gassmann_porosity.
Theorem C25_gassmann_dry_limit :
  forall m K0 Kd Gd phi, 0 <= Kd < K0 -> 0 < phi <= 1 ->
  forall eps, 0 < eps -> exists d, 0 < d /\ forall Kf, 0 < Kf < d -> exists Ks,
    Fluid_Gassmann m (Fin Kd) (Fin Gd) (Fin K0) (Fin Kf) (Fin phi) = Ret (Fin Ks, Fin Gd) /\ Kd < Ks < Kd + eps.
Proof. exact Gassmann_dry_limit. Qed.
Print Assumptions C25_gassmann_dry_limit.
Example C25_nonvacuous : 0 < 2.2 < 37 /\ 0 <= 12 < 37 /\ 0 < 0.25 <= 1. Proof. lra. Qed.

(** ** C26: fluid substitution *)
Theorem C26_substitution_is_gassmann :
  forall m Kd Gd K0 phi, 0 < K0 -> 0 <= Kd < K0 -> 0 < phi <= 1 ->
  forall f1 f2, 0 < f1 < K0 -> 0 < f2 < K0 -> exists K1 K2,
  Fluid_Gassmann m (Fin Kd) (Fin Gd) (Fin K0) (Fin f1) (Fin phi) = Ret (Fin K1, Fin Gd) /\
  Fluid_Gassmann m (Fin Kd) (Fin Gd) (Fin K0) (Fin f2) (Fin phi) = Ret (Fin K2, Fin Gd) /\
  Fluid_Gassmann_sub m (Fin phi) (Fin K0) (Fin K1) (Fin f1) (Fin f2) = Ret (Fin K2).
Proof. exact Sub_Gassmann. Qed.
Print Assumptions C26_substitution_is_gassmann.
(** Whenever two substitutions from the same rock give numbers, they compose. *)
Theorem C26_substitutions_compose :
  forall m phi K0 K f1 f2 f3 K2 K3,
  Fluid_Gassmann_sub m (Fin phi) (Fin K0) (Fin K) (Fin f1) (Fin f2) = Ret (Fin K2) ->
  Fluid_Gassmann_sub m (Fin phi) (Fin K0) (Fin K) (Fin f1) (Fin f3) = Ret (Fin K3) -> K0 <> 0 ->
  Fluid_Gassmann_sub m (Fin phi) (Fin K0) (Fin K2) (Fin f2) (Fin f3) = Ret (Fin K3).
Proof. exact Sub_compose. Qed.
Print Assumptions C26_substitutions_compose.
Theorem C26_same_fluid_is_identity :
  forall m phi K0, phi <> 0 -> K0 <> 0 -> forall K f, K0 - K <> 0 -> K0 - f <> 0 ->
  Fluid_Gassmann_sub m (Fin phi) (Fin K0) (Fin K) (Fin f) (Fin f) = Ret (Fin K).
Proof. exact Sub_self. Qed.
Print Assumptions C26_same_fluid_is_identity.
(** A rock at least as stiff as the fluid in a frame of no stiffness: the substitution exists, stays
    below the mineral, moves with the fluid and is undone by the reverse substitution. *)
Theorem C26_substitution_exists_and_inverts :
  forall m phi K0 K f1 f2, 0 < phi <= 1 -> 0 < f1 < K0 -> 0 < f2 < K0 -> K < K0 ->
  f1 / (phi * (K0 - f1)) <= K / (K0 - K) -> exists K2,
  Fluid_Gassmann_sub m (Fin phi) (Fin K0) (Fin K) (Fin f1) (Fin f2) = Ret (Fin K2) /\ 0 < K2 < K0 /\
  K2 / (K0 - K2) - f2 / (phi * (K0 - f2)) = K / (K0 - K) - f1 / (phi * (K0 - f1)) /\
  (f1 < f2 -> K < K2) /\ (f2 < f1 -> K2 < K) /\
  Fluid_Gassmann_sub m (Fin phi) (Fin K0) (Fin K2) (Fin f2) (Fin f1) = Ret (Fin K).
Proof. exact Sub_physical. Qed.
Print Assumptions C26_substitution_exists_and_inverts.
(** The approximate (P-modulus) variant is the same map; a rock as stiff as its mineral raises. *)
Theorem C26_approximate_variant_and_pole :
  forall m phi K0 K f1 f2,
  Fluid_Gassmann_approx m (Fin K) (Fin K0) (Fin f1) (Fin phi) (Fin f2) =
    Fluid_Gassmann_sub m (Fin phi) (Fin K0) (Fin K) (Fin f1) (Fin f2) /\
  Fluid_Gassmann_sub PyFloat (Fin phi) (Fin K0) (Fin K0) (Fin f1) (Fin f2) = Raise ZeroDivisionError.
Proof. intros. split; [apply Approx_eval|apply Sub_pole]. Qed.
Print Assumptions C26_approximate_variant_and_pole.
Example C26_nonvacuous : 0 < 0.25 <= 1 /\ 0 < 0.1 < 37 /\ 0 < 2.2 < 37 /\ 20 < 37 /\ 2.2 / (0.25 * (37 - 2.2)) <= 20 / (37 - 20).
Proof. repeat split; lra. Qed.

(** ** C27: velocities *)
Theorem C27_vels_is_gassmann_with_mass_balance :
  forall m Kd Gd K0 phi, 0 < K0 -> 0 <= Kd < K0 -> 0 < phi <= 1 ->
  forall Kf D0 Df, 0 < Kf <= K0 -> 0 <= Gd -> 0 < D0 * (1 - phi) + Df * phi -> exists Ks Vp Vs rho,
  rho = (1 - phi) * D0 + phi * Df /\
  Fluid_Gassmann m (Fin Kd) (Fin Gd) (Fin K0) (Fin Kf) (Fin phi) = Ret (Fin Ks, Fin Gd) /\
  Fluid_vels m (Fin Kd) (Fin Gd) (Fin K0) (Fin D0) (Fin Kf) (Fin Df) (Fin phi) = Ret (Fin Vp, Fin Vs, Fin rho) /\
  utils_V m (Fin Ks) (Fin Gd) (Fin rho) = Ret (Fin Vp, Fin Vs).
Proof. exact vels_V. Qed.
Print Assumptions C27_vels_is_gassmann_with_mass_balance.
(** Velocities of the rock with fluid 1 in, velocities with fluid 2 out (moduli in the unit that
    density times squared velocity has). *)
Theorem C27_gassmann_vels_agrees_with_vels :
  forall m Kd Gd K0 phi, 0 < K0 -> 0 <= Kd < K0 -> 0 < phi <= 1 ->
  forall f1 f2 D0 D1 D2, 0 < f1 < K0 -> 0 < f2 < K0 -> 0 <= Gd ->
  0 < D0 * (1 - phi) + D1 * phi -> 0 < D0 * (1 - phi) + D2 * phi -> exists Vp1 Vs1 r1 Vp2 Vs2 r2,
  Fluid_vels m (Fin Kd) (Fin Gd) (Fin K0) (Fin D0) (Fin f1) (Fin D1) (Fin phi) = Ret (Fin Vp1, Fin Vs1, Fin r1) /\
  Fluid_vels m (Fin Kd) (Fin Gd) (Fin K0) (Fin D0) (Fin f2) (Fin D2) (Fin phi) = Ret (Fin Vp2, Fin Vs2, Fin r2) /\
  Fluid_Gassmann_vels m (Fin Vp1) (Fin Vs1) (Fin r1) (Fin D1) (Fin (1000000 * f1)) (Fin D2) (Fin (1000000 * f2))
    (Fin (1000000 * K0)) (Fin phi) = Ret (Fin Vp2, Fin Vs2).
Proof. exact Gassmann_vels_vels. Qed.
Print Assumptions C27_gassmann_vels_agrees_with_vels.
Example C27_nonvacuous : 0 < 37 /\ 0 <= 12 < 37 /\ 0 < 0.25 <= 1 /\ 0 < 0.1 < 37 /\ 0 < 2.2 < 37 /\ 0 <= 10 /\
  0 < 2.65 * (1 - 0.25) + 0.1 * 0.25 /\ 0 < 2.65 * (1 - 0.25) + 1 * 0.25.
Proof. lra. Qed.

(** ** C28: Brie *)
Theorem C28_brie_end_points_monotone_bounds :
  forall m Kw Kg e, 0 < e -> Kg <= Kw -> exists B : R -> R,
  (forall S, 0 <= S -> Fluid_Brie m (Fin Kw) (Fin Kg) (Fin S) (Fin e) = Ret (Fin (B S))) /\
  B 0 = Kg /\ B 1 = Kw /\ (forall S S', 0 <= S -> S <= S' -> B S <= B S') /\
  (Kg < Kw -> forall S S', 0 <= S -> S < S' -> B S < B S') /\
  (forall S, 0 <= S <= 1 -> Kg <= B S <= Kw) /\ (e = 1 -> forall S, 0 <= S -> B S = S * Kw + (1 - S) * Kg) /\
  (1 <= e -> forall S, 0 <= S <= 1 -> B S <= S * Kw + (1 - S) * Kg) /\
  (Kg < Kw -> forall S, 0 < S -> ln ((B S - Kg) / (Kw - Kg)) = e * ln S).
Proof. exact Brie_facts. Qed.
Print Assumptions C28_brie_end_points_monotone_bounds.
Theorem C28_brie_larger_exponent_softer :
  forall m Kw Kg S e e', 0 <= S <= 1 -> 0 < e -> e <= e' -> Kg <= Kw -> exists B B',
  Fluid_Brie m (Fin Kw) (Fin Kg) (Fin S) (Fin e) = Ret (Fin B) /\
  Fluid_Brie m (Fin Kw) (Fin Kg) (Fin S) (Fin e') = Ret (Fin B') /\ B' <= B.
Proof. exact Brie_exponent. Qed.
Print Assumptions C28_brie_larger_exponent_softer.
Example C28_nonvacuous : 0 < 3 /\ 0.1 <= 2.2 /\ 0 <= 0.5 <= 1 /\ 3 <= 4. Proof. lra. Qed.

(** ** C29: Biot and Geertsma-Smit *)
(** The two high-frequency P velocities are exactly the phase velocities of Biot's inertial system. *)
Theorem C29_biot_hf_phase_velocities :
  forall m Kd Gd K0 Kf r0 rf phi al,
  0 < K0 -> 0 < Kf <= K0 -> 0 < Kd < K0 -> 0 <= Gd -> 0 < phi < 1 -> 0 < r0 -> 0 < rf -> 1 <= al ->
  exists Vf Vs Vsh,
  Fluid_Biot_HF m (Fin Kd) (Fin Gd) (Fin K0) (Fin Kf) (Fin r0) (Fin rf) (Fin phi) (Fin al) =
    Ret (Fin Vf, Fin Vs, Fin Vsh) /\ 0 < Vs <= Vf /\
  (forall v, 0 <= v -> biot_phase (biot_P K0 Kd Gd Kf phi) (biot_Q K0 Kd Kf phi) (biot_R K0 Kd Kf phi)
      (biot_r11 r0 rf phi al) (biot_r12 rf phi al) (biot_r22 rf phi al) v <-> v = Vf \/ v = Vs) /\
  Vsh^2 * ((1 - phi) * r0 + phi * rf - phi * rf / al) = Gd /\ 0 <= Vsh.
Proof. exact Biot_HF_facts. Qed.
Print Assumptions C29_biot_hf_phase_velocities.
(** The Gassmann velocity lies between the slow and the fast one, and the shear velocity below. *)
Theorem C29_biot_hf_brackets_gassmann :
  forall m Kd Gd K0 Kf r0 rf phi al,
  0 < K0 -> 0 < Kf <= K0 -> 0 < Kd < K0 -> 0 <= Gd -> 0 < phi < 1 -> 0 < r0 -> 0 < rf -> 1 <= al ->
  exists Vf Vs Vsh Vp V_s,
  Fluid_Biot_HF m (Fin Kd) (Fin Gd) (Fin K0) (Fin Kf) (Fin r0) (Fin rf) (Fin phi) (Fin al) =
    Ret (Fin Vf, Fin Vs, Fin Vsh) /\
  Fluid_vels m (Fin Kd) (Fin Gd) (Fin K0) (Fin r0) (Fin Kf) (Fin rf) (Fin phi) =
    Ret (Fin Vp, Fin V_s, Fin ((1 - phi) * r0 + phi * rf)) /\
  1000 * Vs <= Vp <= 1000 * Vf /\ V_s <= 1000 * Vsh.
Proof. exact Biot_HF_Gassmann. Qed.
Print Assumptions C29_biot_hf_brackets_gassmann.
(** The Geertsma-Smit high-frequency velocity squared is the sum of both squared Biot velocities. *)
Theorem C29_geertsma_smit_hf_exceeds_biot :
  forall m Kd Gd K0 Kf r0 rf phi al,
  0 < K0 -> 0 < Kf <= K0 -> 0 < Kd < K0 -> 0 <= Gd -> 0 < phi < 1 -> 0 < r0 -> 0 < rf -> 1 <= al ->
  exists Vf Vs Vsh Vg,
  Fluid_Biot_HF m (Fin Kd) (Fin Gd) (Fin K0) (Fin Kf) (Fin r0) (Fin rf) (Fin phi) (Fin al) =
    Ret (Fin Vf, Fin Vs, Fin Vsh) /\
  Fluid_Geertsma_Smit_HF m (Fin Kd) (Fin Gd) (Fin K0) (Fin Kf) (Fin r0) (Fin rf) (Fin phi) (Fin al) =
    Ret (Fin Vg, Fin Vsh) /\ Vg^2 = Vf^2 + Vs^2 /\ Vf < Vg.
Proof. exact GS_HF_eval. Qed.
Print Assumptions C29_geertsma_smit_hf_exceeds_biot.
Theorem C29_geertsma_smit_lf_interpolates :
  forall m V0 Vi phi rf kap eta, 0 < V0 -> V0 <= Vi -> 0 < phi -> 0 < rf -> 0 < kap -> 0 < eta ->
  let fc := phi * eta / (2 * PI * rf * kap) in
  exists V : R -> R,
  (forall f, 0 < f -> Fluid_Geertsma_Smit_LF m (Fin V0) (Fin Vi) (Fin f) (Fin phi) (Fin rf) (Fin kap) (Fin eta) = Ret (Fin (V f))) /\
  (forall f, 0 < f -> V0 <= V f <= Vi /\ V f^2 * (Vi^2 * f^2 + V0^2 * fc^2) = Vi^4 * f^2 + V0^4 * fc^2) /\ (forall f f', 0 < f -> f <= f' -> V f <= V f') /\
  (forall eps, 0 < eps -> exists F, 0 < F /\ forall f, 0 < f < F -> V f < V0 + eps) /\
  (forall eps, 0 < eps -> exists F, 0 < F /\ forall f, F < f -> Vi - eps < V f).
Proof. exact GSLF_facts. Qed.
Print Assumptions C29_geertsma_smit_lf_interpolates.
Theorem C29_geertsma_smit_lf_zero_frequency_raises :
  forall V0 Vi phi rf kap eta, 0 < rf -> 0 < kap ->
  Fluid_Geertsma_Smit_LF PyFloat (Fin V0) (Fin Vi) (Fin 0) (Fin phi) (Fin rf) (Fin kap) (Fin eta) = Raise ZeroDivisionError.
Proof. exact GSLF_zero. Qed.
Print Assumptions C29_geertsma_smit_lf_zero_frequency_raises.
(** The full model at one frequency: whatever it returns solves Biot's dispersion relations. *)
Theorem C29_biot_solves_dispersion_relation :
  forall m jv Kd Gd K0 Kf r0 rf eta phi kap a al f,
  0 < K0 -> 0 < Kf <= K0 -> 0 < Kd < K0 -> 0 < Gd -> 0 < phi <= 1 ->
  0 < eta -> a <> 0 -> 0 < rf -> 0 < kap -> 0 < f ->
  let N := biot_N K0 Kd Kf phi in let b := biot_b K0 Kd in
  let H := Kd + 4/3 * Gd + b^2 * N in let rho := (1 - phi) * r0 + phi * rf in
  forall V1 V2 Vs q1 q2 q3,
  Fluid_Biot m jv (Fin Kd) (Fin Gd) (Fin K0) (Fin Kf) (Fin r0) (Fin rf) (Fin eta) (Fin phi) (Fin kap) (Fin a) (Fin al) (Fin f)
   = Ret (Fin V1, Fin V2, Fin Vs, Fin q1, Fin q2, Fin q3) ->
  exists F q x1 x2 x3,
    is_viscosity_factor jv (sqrt (a^2 * (2 * PI * f) * rf / eta)) F /\
    q = csub (CFin (al * rf / phi) 0) (cdiv (cmul (CFin 0 eta) F) (CFin (2 * PI * f * kap) 0)) /\
    biot_P_slowness2 H (b * N) N rho rf q x1 /\ complex_velocity x1 V1 q1 /\
    biot_P_slowness2 H (b * N) N rho rf q x2 /\ complex_velocity x2 V2 q2 /\
    biot_S_slowness2 Gd rho rf q x3 /\ complex_velocity x3 Vs q3.
Proof.
  intros m jv Kd Gd K0 Kf r0 rf eta phi kap a al f H1 H2 H3 H4 H5 H6 H7 H8 H9 H10 N b H rho. apply Biot_dispersion; assumption.
Qed.
Print Assumptions C29_biot_solves_dispersion_relation.
(** Low-frequency limit of the full model: Gassmann velocities, no attenuation, and a slow wave
    that stops; in particular the call returns numbers there (so the theorem above is not vacuous). *)
Theorem C29_biot_low_frequency_is_gassmann :
  forall m jv Kd Gd K0 Kf r0 rf eta phi kap a al,
  0 < K0 -> 0 < Kf <= K0 -> 0 < Kd < K0 -> 0 < Gd -> 0 < phi < 1 -> 0 < eta -> a <> 0 -> 0 < r0 -> 0 < rf -> 0 < kap -> 1 <= al ->
  let N := biot_N K0 Kd Kf phi in let b := biot_b K0 Kd in
  0 < biot_branch (Kd + 4/3 * Gd + b^2 * N) (b * N) N ((1 - phi) * r0 + phi * rf) rf (al * rf / phi) ->
  exists Vp Vs rho, Fluid_vels m (Fin Kd) (Fin Gd) (Fin K0) (Fin r0) (Fin Kf) (Fin rf) (Fin phi) = Ret (Fin Vp, Fin Vs, Fin rho) /\
  forall eps, 0 < eps -> exists f0, 0 < f0 /\ forall f, 0 < f < f0 -> exists V1 V2 V3 q1 q2 q3,
    Fluid_Biot m jv (Fin Kd) (Fin Gd) (Fin K0) (Fin Kf) (Fin r0) (Fin rf) (Fin eta) (Fin phi) (Fin kap) (Fin a) (Fin al) (Fin f) =
      Ret (Fin V1, Fin V2, Fin V3, Fin q1, Fin q2, Fin q3) /\
    Rabs (1000 * V1 - Vp) < eps /\ 0 < V2 < eps /\ Rabs (1000 * V3 - Vs) < eps /\ Rabs q1 < eps /\ Rabs q3 < eps.
Proof. exact Biot_low_vels. Qed.
Print Assumptions C29_biot_low_frequency_is_gassmann.
(** A water-saturated sandstone meets every hypothesis. *)
Example C29_nonvacuous : let N := biot_N 36 18 2 (1/4) in let b := biot_b 36 18 in
  0 < biot_branch (18 + 4/3 * 15 + b^2 * N) (b * N) N ((1 - 1/4) * 2.65 + 1/4 * 1) 1 (2 * 1 / (1/4)) /\
  0 < 36 /\ 0 < 2 <= 36 /\ 0 < 18 < 36 /\ 0 < 15 /\ 0 < 1/4 < 1 /\ 0 < 0.001 /\ 0.00002 <> 0 /\ 1 <= 2.
Proof. cbv zeta. unfold biot_branch, biot_N, biot_b. repeat split; lra. Qed.

(** ** C30: Brown-Korringa. [inv] stands for [numpy.linalg.inv]; it is only assumed to invert
    invertible matrices, and such a function exists. *)
Theorem C30_inverse_exists : exists inv, inverts inv.
Proof. exact np_inv_exists. Qed.
Print Assumptions C30_inverse_exists.
(** The result is the compliance seen by an undrained test; never softer in stiffness; shear columns unchanged. *)
Theorem C30_dry2sat_is_undrained_compliance :
  forall m inv K0 G0 phi, inverts inv -> 0 < K0 -> 0 < G0 -> 0 < phi ->
  forall Kf Sd, 0 < Kf <= K0 -> symmetric Sd -> 1 / K0 < sum3 (fun i => sum3 (fun j => Sd i j)) ->
  exists Ssat, Fluid_Brown_Korringa_dry2sat m inv (finmat Sd) (Fin K0) (Fin G0) (Fin Kf) (Fin phi) = Ret (finmat Ssat) /\
  symmetric Ssat /\
  (forall C0 S0, utils_write_iso m (Fin K0) (Fin G0) = Ret (finmat C0) -> is_inverse C0 S0 -> forall s,
     (exists p e, undrained_aniso Sd S0 K0 Kf phi s p e) /\
     (forall p e, undrained_aniso Sd S0 K0 Kf phi s p e -> forall i, (i < 6)%nat -> e i = sum6 (fun j => Ssat i j * s j))) /\
  (forall s, energy Ssat s <= energy Sd s) /\
  (forall j, (j < 6)%nat -> (3 <= j)%nat -> sum3 (fun i => Sd i j) = 0 -> forall i, (i < 6)%nat -> Ssat i j = Sd i j).
Proof. exact BK_undrained. Qed.
Print Assumptions C30_dry2sat_is_undrained_compliance.
Theorem C30_dry2sat_sat2dry_round_trip :
  forall m inv K0 G0 phi, inverts inv -> 0 < K0 -> 0 < G0 -> 0 < phi ->
  forall Kf Sd, 0 < Kf < K0 -> 1 / K0 < sum3 (fun i => sum3 (fun j => Sd i j)) ->
  exists Ssat, Fluid_Brown_Korringa_dry2sat m inv (finmat Sd) (Fin K0) (Fin G0) (Fin Kf) (Fin phi) = Ret (finmat Ssat) /\
   Fluid_Brown_Korringa_sat2dry m inv (finmat Ssat) (Fin K0) (Fin G0) (Fin Kf) (Fin phi) = Ret (finmat Sd).
Proof. exact BK_roundtrip. Qed.
Print Assumptions C30_dry2sat_sat2dry_round_trip.
Theorem C30_sat2dry_dry2sat_round_trip :
  forall m inv K0 G0 phi, inverts inv -> 0 < K0 -> 0 < G0 -> 0 < phi ->
  forall Kf Ss, 0 < Kf < K0 -> sum3 (fun i => sum3 (fun j => Ss i j)) < phi / Kf + (1 - phi) / K0 ->
  exists Sd, Fluid_Brown_Korringa_sat2dry m inv (finmat Ss) (Fin K0) (Fin G0) (Fin Kf) (Fin phi) = Ret (finmat Sd) /\
   Fluid_Brown_Korringa_dry2sat m inv (finmat Sd) (Fin K0) (Fin G0) (Fin Kf) (Fin phi) = Ret (finmat Ss).
Proof. exact BK_roundtrip2. Qed.
Print Assumptions C30_sat2dry_dry2sat_round_trip.
(** Substituting fluid 2 for fluid 1 gives stiffness and compliance of the rock saturated with 2. *)
Theorem C30_substitution_is_resaturation :
  forall m inv K0 G0 phi, inverts inv -> 0 < K0 -> 0 < G0 -> 0 < phi ->
  forall f1 f2 Cd Sd, 0 < f1 < K0 -> 0 < f2 <= K0 -> is_inverse Cd Sd -> symmetric Cd -> symmetric Sd ->
  1 / K0 < sum3 (fun i => sum3 (fun j => Sd i j)) -> iso_K Cd < K0 -> phi <= 1 ->
  exists C1 S1 C2 S2,
    Fluid_Brown_Korringa_dry2sat m inv (finmat Sd) (Fin K0) (Fin G0) (Fin f1) (Fin phi) = Ret (finmat S1) /\ is_inverse C1 S1 /\
    Fluid_Brown_Korringa_dry2sat m inv (finmat Sd) (Fin K0) (Fin G0) (Fin f2) (Fin phi) = Ret (finmat S2) /\ is_inverse C2 S2 /\
    Fluid_Brown_Korringa_sub m inv (finmat C1) (Fin K0) (Fin G0) (Fin f1) (Fin f2) (Fin phi) = Ret (finmat C2, finmat S2) /\
    (forall i j, (i < 6)%nat -> (j < 6)%nat -> C2 i j = Cd i j +
       (hydro i - sum3 (fun k => Cd i k) / (3 * K0)) * (hydro j - sum3 (fun k => Cd j k) / (3 * K0))
        / (phi / f2 + (1 - phi) / K0 - iso_K Cd / K0^2)).
Proof. exact BK_sub. Qed.
Print Assumptions C30_substitution_is_resaturation.
Theorem C30_isotropic_case_is_gassmann :
  forall m inv K0 G0 phi, inverts inv -> 0 < K0 -> 0 < G0 -> 0 < phi ->
  forall Kd Gd Kf Sd Cd, 0 < Kf <= K0 -> 0 < Kd < K0 -> 0 < Gd -> phi <= 1 ->
  utils_write_iso m (Fin Kd) (Fin Gd) = Ret (finmat Cd) -> is_inverse Cd Sd ->
  exists Ks Cs Ss, Fluid_Gassmann m (Fin Kd) (Fin Gd) (Fin K0) (Fin Kf) (Fin phi) = Ret (Fin Ks, Fin Gd) /\
   utils_write_iso m (Fin Ks) (Fin Gd) = Ret (finmat Cs) /\ is_inverse Cs Ss /\
   Fluid_Brown_Korringa_dry2sat m inv (finmat Sd) (Fin K0) (Fin G0) (Fin Kf) (Fin phi) = Ret (finmat Ss).
Proof. exact BK_Gassmann. Qed.
Print Assumptions C30_isotropic_case_is_gassmann.
(** The isotropic compliance of a sandstone frame meets the matrix hypotheses. *)
Example C30_nonvacuous : let Cd := iso 18 15 in let Sd := isoc 18 15 in
  is_inverse Cd Sd /\ symmetric Cd /\ symmetric Sd /\ 1 / 36 < sum3 (fun i => sum3 (fun j => Sd i j)) /\ iso_K Cd < 36 /\
  utils_write_iso NumPy (Fin 18) (Fin 15) = Ret (finmat Cd).
Proof.
  cbv zeta. split; [apply isoc_inverse; lra|]. split; [|split; [apply isoc_sym|]].
  { intros i j Hi Hj. do 6 (destruct i as [|i]; [do 6 (destruct j as [|j]; [cbn; try reflexivity; lra|]); lia|]). lia. }
  split; [unfold sum3, isoc, ofrows; cbn; lra|]. split.
  { unfold iso_K, sum3. cbn. lra. }
  apply write_iso_eval.
Qed.

(** ** C31: Mavko-Jizba *)
Theorem C31_mavko_jizba :
  forall m K0 rd rf Kf phi Kd Gd Kh Gh vph vsh vpd vsd,
  0 < K0 -> 0 < Kf <= K0 -> 0 < Kd -> 0 < Gd -> 0 < Kh < K0 -> 0 < phi <= 1 ->
  0 < rd + phi * rf -> 4/15 * (1 / Kd - 1 / Kh) < 1 / Gd ->
  utils_M_from_V m (Fin rd) (Fin vpd) (Fin vsd) = Ret (Fin Kd, Fin Gd) ->
  utils_M_from_V m (Fin rd) (Fin vph) (Fin vsh) = Ret (Fin Kh, Fin Gh) ->
  exists Ks G Vp Vs,
  Fluid_Mavko_Jizba m (Fin vph) (Fin vsh) (Fin vpd) (Fin vsd) (Fin K0) (Fin rd) (Fin rf) (Fin Kf) (Fin phi)
   = Ret (Fin Ks, Fin G, Fin Vp, Fin Vs) /\
  Fluid_Gassmann m (Fin Kh) (Fin Gd) (Fin K0) (Fin Kf) (Fin phi) = Ret (Fin Ks, Fin Gd) /\
  1 / G - 1 / Gd = - 4/15 * (1 / Kd - 1 / Kh) /\ 0 < G /\
  utils_V m (Fin Ks) (Fin G) (Fin (rd + phi * rf)) = Ret (Fin Vp, Fin Vs) /\ (Kd <= Kh -> Gd <= G).
Proof. exact MJ_facts. Qed.
Print Assumptions C31_mavko_jizba.
Example C31_nonvacuous :
  utils_M_from_V PyFloat (Fin 2) (Fin 3000) (Fin 2000) = Ret (Fin (22/3), Fin 8) /\
  utils_M_from_V PyFloat (Fin 2) (Fin 4000) (Fin 2500) = Ret (Fin (46/3), Fin (25/2)) /\
  4/15 * (1 / (22/3) - 1 / (46/3)) < 1 / 8 /\ 0 < 46/3 < 37.
Proof. unfold utils_M_from_V. split; [|split; [|lra]]; fls; reteq; lra. Qed.

(** ** C32: anisotropic squirt *)
(** The volumetric compliance of the result is that of the unrelaxed reference, whatever the input. *)
Theorem C32_squirt_volumetric_compliance :
  forall m s0 s1 s2 s3 s4 h0 h1 h2 h3 h4,
  let V := vol5 (s0 - h0) (s1 - h1) (s2 - h2) (s3 - h3) in
  V <> 0 -> 2 * V <> 2 * (s0 - h0) + (s3 - h3) + 4 * (s4 - h4) + 4 * (s0 - h0 - (s1 - h1)) ->
  exists w0 w1 w2 w3 w4,
  Fluid_Squirt_anisotropic m (Fin s0, Fin s1, Fin s2, Fin s3, Fin s4) (Fin h0, Fin h1, Fin h2, Fin h3, Fin h4)
  = Ret [Fin w0; Fin w1; Fin w2; Fin w3; Fin w4] /\ vol5 w0 w1 w2 w3 = vol5 h0 h1 h2 h3.
Proof. exact Squirt_vol'. Qed.
Print Assumptions C32_squirt_volumetric_compliance.
(** Isotropic input does not give an isotropic output: only when the shear compliances agree already. *)
Theorem C32_squirt_preserves_isotropy_refuted :
  forall m s0 s1 h0 h1,
  let d0 := s0 - h0 in let d1 := s1 - h1 in let V := vol5 d0 d1 d1 d0 in
  V <> 0 -> 2 * V <> 2 * d0 + d0 + 4 * ((d0 - d1) / 2) + 4 * (d0 - d1) ->
  exists w0 w1 w2 w3 w4,
  Fluid_Squirt_anisotropic m (Fin s0, Fin s1, Fin s1, Fin s0, Fin ((s0 - s1) / 2)) (Fin h0, Fin h1, Fin h1, Fin h0, Fin ((h0 - h1) / 2))
  = Ret [Fin w0; Fin w1; Fin w2; Fin w3; Fin w4] /\ w0 = w3 /\ w1 = w2 /\
  (w4 = (w0 - w1) / 2 <-> s0 - s1 = h0 - h1).
Proof. exact Squirt_iso'. Qed.
Print Assumptions C32_squirt_preserves_isotropy_refuted.
Example C32_nonvacuous :
  let d0 := 0.10 - 0.06 in let d1 := -0.02 - -0.015 in let V := vol5 d0 d1 d1 d0 in
  V <> 0 /\ 2 * V <> 2 * d0 + d0 + 4 * ((d0 - d1) / 2) + 4 * (d0 - d1) /\ 0.10 - -0.02 <> 0.06 - -0.015.
Proof. unfold vol5. cbv zeta. repeat split; lra. Qed.

(** ** C33: White-Dutta-Ode with one fluid *)
(** Same fluid modulus and density in both patches (viscosities may differ): Gassmann's modulus and
    velocity, and no attenuation, at every frequency. *)
Theorem C33_white_equal_fluids_is_gassmann :
  forall m Kd Gd K0 phi r0 rf Kf eta1 eta2 kap a sg f,
  0 < K0 -> 0 < Kf < K0 -> 0 < Kd < K0 -> 0 <= Gd -> 0 < phi <= 1 -> 0 < sg < 1 -> 0 < kap ->
  0 < (1 - phi) * r0 + phi * rf -> 0 < eta1 -> 0 < eta2 -> 0 < a -> 0 < f ->
  exists Ks, Fluid_Gassmann m (Fin Kd) (Fin Gd) (Fin K0) (Fin Kf) (Fin phi) = Ret (Fin Ks, Fin Gd) /\
  Fluid_White_Dutta_Ode m (Fin Kd) (Fin Gd) (Fin K0) (Fin phi) (Fin r0) (Fin rf) (Fin rf) (Fin Kf) (Fin Kf)
    (Fin eta1) (Fin eta2) (Fin kap) (Fin a) (Fin sg) (Fin f)
  = Ret (Fin (sqrt ((Ks + 4/3*Gd) / ((1 - phi) * r0 + phi * rf))), Fin 0, CFin Ks 0).
Proof. exact White_equal. Qed.
Print Assumptions C33_white_equal_fluids_is_gassmann.
Example C33_nonvacuous : 0 < 36 /\ 0 < 2.2 < 36 /\ 0 < 18 < 36 /\ 0 <= 15 /\ 0 < 0.25 <= 1 /\ 0 < 0.3 < 1 /\ 0 < 0.001 /\
  0 < (1 - 0.25) * 2.65 + 0.25 * 1. Proof. lra. Qed.
