(** * Further property theorems about Fluid.py (C32, C33). *)
From Verif Require Import Fl Cx M_Utils M_EM M_Anis M_Fluid Spec Spec2 Spec9 Spec13 L_Utils L_Fluid9 L_Fluid10 L_Fluid11 L_White.
Open Scope R_scope.

(** ** C32: squirt against Mukerji and Mavko's decomposition *)
(** [g] is what the function removes, per unit of extra dry compliance. Its normal components solve the
    decomposition, but with a parameter that is too large by 3(d11 - d12)/(4 d_aabb). Reading S44 as the tensor
    component 1313, the whole result is the theory's exactly when d11 = d12 and d13 = d33; reading it as
    the engineering compliance 4 S1313, agreement forces d44 + (d11 - d12) = 0. *)
Theorem C32_squirt_is_crack_theory_refuted :
  forall m s0 s1 s2 s3 s4 h0 h1 h2 h3 h4,
  let V := vol5 (s0 - h0) (s1 - h1) (s2 - h2) (s3 - h3) in
  let d0 := s0 - h0 in let d1 := s1 - h1 in let d2 := s2 - h2 in let d3 := s3 - h3 in let d4 := s4 - h4 in
  V <> 0 -> 2 * V <> 2 * d0 + d3 + 4 * d4 + 4 * (d0 - d1) ->
  exists w0 w1 w2 w3 w4,
  Fluid_Squirt_anisotropic m (Fin s0, Fin s1, Fin s2, Fin s3, Fin s4) (Fin h0, Fin h1, Fin h2, Fin h3, Fin h4)
  = Ret [Fin w0; Fin w1; Fin w2; Fin w3; Fin w4] /\
  let g0 := (s0 - w0) / V in let g1 := (s1 - w1) / V in let g2 := (s2 - w2) / V in let g3 := (s3 - w3) / V in let g4 := (s4 - w4) / V in
  (exists al, 4 * al = (2 * d0 + d3 + 4 * d4 + (d0 - d1)) / V - 1 + 3 * (d0 - d1) / V /\ d0 / V = (1 - 4 * al) * g0 + 4 * al * (g0 + g1 + g2) /\
     d1 / V = (1 - 4 * al) * g1 /\ d2 / V = (1 - 4 * al) * g2 /\ d3 / V = (1 - 4 * al) * g3 + 4 * al * (2 * g2 + g3) /\
     d4 / V = (1 - 4 * al) * g4 + (d0 / V + d2 / V) / 4 - (1 - 4 * al) * (g0 + g3) / 4) /\
  (d1 <> 0 -> ((exists al, crack_decomposition (ti4 (d0 / V) (d1 / V) (d2 / V) (d3 / V) (d4 / V)) (ti4 g0 g1 g2 g3 g4) al) <-> d0 = d1 /\ d2 = d3)) /\
  (d1 <> 0 -> (exists al, crack_decomposition (ti4 (d0 / V) (d1 / V) (d2 / V) (d3 / V) (d4 / V / 4)) (ti4 g0 g1 g2 g3 (g4 / 4)) al) -> d4 + (d0 - d1) = 0).
Proof. exact Squirt_theory. Qed.
Print Assumptions C32_squirt_is_crack_theory_refuted.
(** Aligned cracks with some shear compliance meet the hypotheses and violate both conditions. *)
Example C32_theory_nonvacuous :
  let d0 := 0.03 in let d1 := -0.01 in let d2 := -0.005 in let d3 := 0.06 in let d4 := 0.02 in let V := vol5 d0 d1 d2 d3 in
  V <> 0 /\ 2 * V <> 2 * d0 + d3 + 4 * d4 + 4 * (d0 - d1) /\ d1 <> 0 /\ d0 <> d1 /\ d2 <> d3 /\ d4 + (d0 - d1) <> 0.
Proof. unfold vol5. cbv zeta. repeat split; lra. Qed.

(** ** C33: White-Dutta-Ode with two different fluids *)
(** At every frequency the model returns a passive medium: a complex modulus with nonnegative loss and a
    real part no stiffer than unrelaxed patches (Hill), a positive phase velocity, a nonnegative
    attenuation, and a complex slowness 1/V - i a/omega that satisfies the wave equation. *)
Theorem C33_white_passive_at_every_frequency :
  forall m Kd Gd K0 phi r0 rf1 rf2 Kf1 Kf2 eta1 eta2 kap a sg,
  white_inputs Kd Gd K0 phi r0 rf1 rf2 Kf1 Kf2 eta1 eta2 kap a sg -> forall f, 0 < f ->
  exists V aw KR KI K1 K2 Kh,
  Fluid_White_Dutta_Ode m (Fin Kd) (Fin Gd) (Fin K0) (Fin phi) (Fin r0) (Fin rf1) (Fin rf2) (Fin Kf1) (Fin Kf2)
    (Fin eta1) (Fin eta2) (Fin kap) (Fin a) (Fin sg) (Fin f) = Ret (Fin V, Fin aw, CFin KR KI) /\
  Fluid_Gassmann m (Fin Kd) (Fin Gd) (Fin K0) (Fin Kf1) (Fin phi) = Ret (Fin K1, Fin Gd) /\
  Fluid_Gassmann m (Fin Kd) (Fin Gd) (Fin K0) (Fin Kf2) (Fin phi) = Ret (Fin K2, Fin Gd) /\
  is_hill K1 K2 Gd sg Kh /\ 0 < V /\ 0 <= aw /\ 0 < KR <= Kh /\ 0 <= KI /\
  cmul (cmul (CFin (1 / V) (- aw / (2 * PI * f))) (CFin (1 / V) (- aw / (2 * PI * f)))) (CFin (KR + 4/3 * Gd) KI) = CFin (white_density phi r0 rf1 rf2 sg) 0.
Proof. exact white_pack. Qed.
Print Assumptions C33_white_passive_at_every_frequency.

(** At every frequency the inverse of the complex modulus is the compliance of White's composite sphere: the pressures
    diffuse in the sphere and in the sealed shell, and the fluid that crosses the interface changes the strain. Every
    solution of that problem has this compliance, and there is one. *)
Theorem C33_white_is_pressure_diffusion :
  forall m Kd Gd K0 phi r0 rf1 rf2 Kf1 Kf2 eta1 eta2 kap a sg f,
  white_inputs Kd Gd K0 phi r0 rf1 rf2 Kf1 Kf2 eta1 eta2 kap a sg -> 0 < f ->
  exists V aw KR KI,
  Fluid_White_Dutta_Ode m (Fin Kd) (Fin Gd) (Fin K0) (Fin phi) (Fin r0) (Fin rf1) (Fin rf2) (Fin Kf1) (Fin Kf2)
    (Fin eta1) (Fin eta2) (Fin kap) (Fin a) (Fin sg) (Fin f) = Ret (Fin V, Fin aw, CFin KR KI) /\
  forall Cr Ci, white_compliance Kd Gd K0 phi Kf1 Kf2 eta1 eta2 kap a sg (2 * PI * f) Cr Ci <-> cmul (CFin KR KI) (CFin Cr Ci) = CFin 1 0.
Proof. exact white_diffusion. Qed.
Print Assumptions C33_white_is_pressure_diffusion.

(** As the frequency goes to 0 the patches equilibrate: Gassmann's modulus with the harmonic (Wood)
    average of the fluids, its velocity, and no attenuation. *)
Theorem C33_low_frequency_is_gassmann_wood :
  forall m Kd Gd K0 phi r0 rf1 rf2 Kf1 Kf2 eta1 eta2 kap a sg,
  white_inputs Kd Gd K0 phi r0 rf1 rf2 Kf1 Kf2 eta1 eta2 kap a sg ->
  let Kw := 1 / (sg / Kf1 + (1 - sg) / Kf2) in
  exists Ks, Fluid_Gassmann m (Fin Kd) (Fin Gd) (Fin K0) (Fin Kw) (Fin phi) = Ret (Fin Ks, Fin Gd) /\
  forall eps, 0 < eps -> exists f0, 0 < f0 /\ forall f, 0 < f < f0 -> exists V aw KR KI,
  Fluid_White_Dutta_Ode m (Fin Kd) (Fin Gd) (Fin K0) (Fin phi) (Fin r0) (Fin rf1) (Fin rf2) (Fin Kf1) (Fin Kf2)
    (Fin eta1) (Fin eta2) (Fin kap) (Fin a) (Fin sg) (Fin f) = Ret (Fin V, Fin aw, CFin KR KI) /\
  Rabs (KR - Ks) < eps /\ Rabs KI < eps /\ Rabs (V - sqrt ((Ks + 4/3 * Gd) / white_density phi r0 rf1 rf2 sg)) < eps /\ Rabs aw < eps.
Proof. exact white_low. Qed.
Print Assumptions C33_low_frequency_is_gassmann_wood.

(** As the frequency goes to infinity the patches are isolated: each has its own Gassmann modulus and they
    combine by Hill's equation; the loss per cycle vanishes. *)
Theorem C33_high_frequency_is_gassmann_hill :
  forall m Kd Gd K0 phi r0 rf1 rf2 Kf1 Kf2 eta1 eta2 kap a sg,
  white_inputs Kd Gd K0 phi r0 rf1 rf2 Kf1 Kf2 eta1 eta2 kap a sg ->
  exists K1 K2 Kh, Fluid_Gassmann m (Fin Kd) (Fin Gd) (Fin K0) (Fin Kf1) (Fin phi) = Ret (Fin K1, Fin Gd) /\
  Fluid_Gassmann m (Fin Kd) (Fin Gd) (Fin K0) (Fin Kf2) (Fin phi) = Ret (Fin K2, Fin Gd) /\ is_hill K1 K2 Gd sg Kh /\
  forall eps, 0 < eps -> exists f0, 0 < f0 /\ forall f, f0 < f -> exists V aw KR KI,
  Fluid_White_Dutta_Ode m (Fin Kd) (Fin Gd) (Fin K0) (Fin phi) (Fin r0) (Fin rf1) (Fin rf2) (Fin Kf1) (Fin Kf2)
    (Fin eta1) (Fin eta2) (Fin kap) (Fin a) (Fin sg) (Fin f) = Ret (Fin V, Fin aw, CFin KR KI) /\
  Rabs (KR - Kh) < eps /\ Rabs KI < eps /\ Rabs (V - sqrt ((Kh + 4/3 * Gd) / white_density phi r0 rf1 rf2 sg)) < eps /\ Rabs (aw * V / f) < eps.
Proof. exact white_high. Qed.
Print Assumptions C33_high_frequency_is_gassmann_hill.
(** Gas and brine in a sandstone. *)
Example C33_two_fluids_nonvacuous : white_inputs 18 15 36 0.25 2.65 0.1 1 0.1 2.2 0.00001 0.001 0.001 0.1 0.3.
Proof. unfold white_inputs. lra. Qed.
