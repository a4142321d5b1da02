(** * Spec5: specification notions for reflectivity, reservoir fluids, trends and interpretation. Nothing here
    refers to the model of the code. *)
From Verif Require Import Fl Spec.
Open Scope R_scope.

(** ** Reflectivity *)
Definition mean2 (x y : R) : R := (x + y) / 2.
(** Relative contrast of a property across an interface: difference over mean. *)
Definition contrast (x1 x2 : R) : R := (x2 - x1) / mean2 x1 x2.
Definition radians (deg : R) : R := deg * PI / 180.
(** Aki and Richards' first-order PP and PS reflection coefficients, incidence angle [i] in radians. *)
Definition aki_pp (i vp1 vp2 vs1 vs2 r1 r2 : R) : R :=
  let g := mean2 vs1 vs2 / mean2 vp1 vp2 in
  1/2 * (1 - 4 * g^2 * (sin i)^2) * contrast r1 r2 + 1 / (2 * (cos i)^2) * contrast vp1 vp2
  - 4 * g^2 * (sin i)^2 * contrast vs1 vs2.
Definition aki_ps (i vp1 vp2 vs1 vs2 r1 r2 : R) : R :=
  let vp := mean2 vp1 vp2 in let vs := mean2 vs1 vs2 in
  let p := sin i / vp1 in let cj := sqrt (1 - (p * vs1)^2) in
  - (p * vp / (2 * cj)) *
    ((1 - 2 * vs^2 * p^2 + 2 * vs^2 * (cos i / vp) * (cj / vs)) * contrast r1 r2
     - (4 * vs^2 * p^2 - 4 * vs^2 * (cos i / vp) * (cj / vs)) * contrast vs1 vs2).
(** Normal-incidence reflection coefficient between impedances. *)
Definition normal_reflection (Z1 Z2 : R) : R := (Z2 - Z1) / (Z2 + Z1).
(** Rueger's PP reflectivity for weak HTI contrasts: densities [r], vertical velocities [a] (P) and [b] (S),
    anisotropy contrasts [de], [dd], [dg], incidence [i] and azimuth [w] from the symmetry axis, radians. *)
Definition ruger (r1 a1 b1 r2 a2 b2 de dd dg i w : R) : R :=
  let f := (2 * mean2 b1 b2 / mean2 a1 a2)^2 in
  1/2 * contrast (r1 * a1) (r2 * a2)
  + 1/2 * (contrast a1 a2 - f * contrast (r1 * b1^2) (r2 * b2^2) + (dd + 2 * f * dg) * (cos w)^2) * (sin i)^2
  + 1/2 * (contrast a1 a2 + de * (cos w)^4 + dd * (sin w)^2 * (cos w)^2) * (sin i)^2 * (tan i)^2.
(** Poisson's ratio from the two velocities; Shuey's AVO gradient from the contrasts and the Poisson ratios. *)
Definition poisson_v (vp vs : R) : R := (vp^2 - 2 * vs^2) / (2 * (vp^2 - vs^2)).
Definition shuey_gradient (vp1 vs1 r1 vp2 vs2 r2 : R) : R :=
  let s := mean2 (poisson_v vp1 vs1) (poisson_v vp2 vs2) in
  1/2 * contrast vp1 vp2 - (2 * contrast vp1 vp2 + contrast r1 r2) * ((1 - 2 * s) / (1 - s))
  + (poisson_v vp2 vs2 - poisson_v vp1 vs1) / (1 - s)^2.
(** Gradient (coefficient of sin^2) of [aki_pp], and slope in sin of the converted wave for equal P velocities. *)
Definition aki_gradient (vp1 vs1 r1 vp2 vs2 r2 : R) : R :=
  let g := mean2 vs1 vs2 / mean2 vp1 vp2 in
  1/2 * contrast vp1 vp2 - 2 * g^2 * contrast r1 r2 - 4 * g^2 * contrast vs1 vs2.
Definition ps_slope (vp1 vs1 r1 vp2 vs2 r2 : R) : R :=
  let g := mean2 vs1 vs2 / mean2 vp1 vp2 in
  - (1/2) * contrast r1 r2 - g * (contrast r1 r2 + 2 * contrast vs1 vs2).
(** Exponents of velocity and density in the elastic impedances: [SP] is the ratio Vs/Vp, [i] the P and [j] the
    S angle. For a pair of layers the logarithm of the impedance ratio is then twice the first-order
    reflection coefficient. *)
Definition ei_pp_P i := 1 / (cos i)^2.
Definition ei_pp_S SP i := - 8 * SP^2 * (sin i)^2.
Definition ei_pp_R SP i := 1 - 4 * SP^2 * (sin i)^2.
Definition ei_psv_S SP i := let cj := sqrt (1 - SP^2 * (sin i)^2) in sin i / cj * (4 * SP^2 * (sin i)^2 - 4 * SP * cos i * cj).
Definition ei_psv_R SP i := let cj := sqrt (1 - SP^2 * (sin i)^2) in - (sin i / cj) * (1 - 2 * SP^2 * (sin i)^2 + 2 * SP * cos i * cj).
Definition ei_svp_S SP j := let ci := sqrt (1 - (sin j / SP)^2) in sin j / ci * (4 * (sin j)^2 - 4 * SP * cos j * ci).
Definition ei_svp_R SP j := let ci := sqrt (1 - (sin j / SP)^2) in - (sin j / ci) * (1 - 2 * (sin j)^2 + 2 * SP * cos j * ci).
Definition ei_svsv_S j := - (1 / (cos j)^2 - 8 * (sin j)^2).
Definition ei_svsv_R j := - (1 - 4 * (sin j)^2).
Definition ei_shsh_S j := - (1 - (tan j)^2).
Definition ei_pp (vp vs rho SP i : R) : R := Rpower vp (ei_pp_P i) * Rpower vs (ei_pp_S SP i) * Rpower rho (ei_pp_R SP i).
Definition ei_psv (vs rho SP i : R) : R := Rpower vs (ei_psv_S SP i) * Rpower rho (ei_psv_R SP i).
Definition ei_svp (vs rho SP j : R) : R := Rpower vs (ei_svp_S SP j) * Rpower rho (ei_svp_R SP j).
Definition ei_svsv (vs rho j : R) : R := Rpower vs (ei_svsv_S j) * Rpower rho (ei_svsv_R j).
Definition ei_shsh (vs rho j : R) : R := Rpower vs (ei_shsh_S j) * Rpower rho (- 1).
(** Arithmetic mean of a quantity over a list of layers; a layer is (Vp, Vs, density). *)
Definition average {A} (f : A -> R) (L : list A) : R := sumf f L / INR (length L).
Definition lvp (s : R * R * R) := fst (fst s).
Definition lvs (s : R * R * R) := snd (fst s).
Definition lrho (s : R * R * R) := snd s.
Definition fin3 (s : R * R * R) : fl * fl * fl := (Fin (lvp s), Fin (lvs s), Fin (lrho s)).

(** ** Reservoir fluids (Batzle and Wang) *)
(** Compressibility factor at reduced pressure [p] > 0 and reduced temperature [t], and the heat-capacity ratio. *)
Definition z_factor (p t : R) : R :=
  (0.03 + 0.00527 * (3.5 - t)^3) * p + (0.642 * t - 0.007 * t^4 - 0.52)
  + 0.109 * (3.85 - t)^2 * exp (- (0.45 + 8 * (0.56 - 1 / t)^2) * Rpower p 1.2 / t).
Definition gamma0 (p : R) : R := 0.85 + 5.6 / (p + 2) + 27.1 / (p + 3.5)^2 - 8.7 * exp (- 0.65 * (p + 1)).
(** Density of a real gas: [G] gravity, [P] in MPa, [Ta] in K. *)
Definition gas_density (G P Ta z : R) : R := 28.8 * G * P / (z * 8.3145 * Ta).
(** Pure water: density in g/cc and velocity in m/s, T in degrees Celsius, P in MPa. *)
Definition water_density (T P : R) : R :=
  1 + 1e-6 * (- 80 * T - 3.3 * T^2 + 0.00175 * T^3 + 489 * P - 2 * T * P + 0.016 * T^2 * P - 1.3e-5 * T^3 * P - 0.333 * P^2 - 0.002 * T * P^2).
Definition water_velocity (T P : R) : R :=
  (1402.85 + 4.871 * T - 0.04783 * T^2 + 1.487e-4 * T^3 - 2.197e-7 * T^4)
  + (1.524 - 0.0111 * T + 2.747e-4 * T^2 - 6.503e-7 * T^3 + 7.987e-10 * T^4) * P
  + (3.437e-3 + 1.739e-4 * T - 2.135e-6 * T^2 - 1.455e-8 * T^3 + 5.230e-11 * T^4) * P^2
  + (- 1.197e-5 - 1.628e-6 * T + 1.237e-8 * T^2 + 1.327e-10 * T^3 - 4.614e-13 * T^4) * P^3.
(** Brine of salt weight fraction [S]. *)
Definition brine_density (T P S : R) : R :=
  water_density T P + S * (0.668 + 0.44 * S + 1e-6 * (300 * P - 2400 * P * S + T * (80 + 3 * T - 3300 * S - 13 * P + 47 * P * S))).
Definition brine_velocity (T P S : R) : R :=
  water_velocity T P + S * (1170 - 9.6 * T + 0.055 * T^2 - 8.5e-5 * T^3 + 2.6 * P - 0.0029 * T * P - 0.0476 * P^2)
  + S * sqrt S * (780 - 10 * P + 0.16 * P^2) - 820 * S^2.
(** Oil: density at pressure and temperature, and velocity of oil of (pseudo-)density [d]. *)
Definition oil_density (d T P : R) : R :=
  (d + (0.00277 * P - 1.71e-7 * P^3) * (d - 1.15)^2 + 3.49e-4 * P) / (0.972 + 3.81e-4 * Rpower (T + 17.78) 1.175).
Definition oil_velocity (d T P : R) : R :=
  2096 * sqrt (d / (2.6 - d)) - 3.7 * T + 4.64 * P + 0.0115 * (4.12 * sqrt (1.08 / d - 1) - 1) * T * P.
(** Live oil: volume factor for gas-oil ratio [Rg], and the ratio at saturation. *)
Definition oil_volume_factor (d G Rg T : R) : R := 0.972 + 0.00038 * Rpower (2.4 * Rg * sqrt (G / d) + T + 17.8) 1.175.
Definition max_gas_ratio (d G T P : R) : R := 0.02123 * G * Rpower (P * exp (4.072 / d - 0.00377 * T)) 1.205.
(** Velocity is that of a dead oil of this pseudo-density; density of the oil with its gas. *)
Definition pseudo_density (d G Rg T : R) : R := d / ((1 + 0.001 * Rg) * oil_volume_factor d G Rg T).
Definition live_density (d G Rg T : R) : R := (d + 0.0012 * G * Rg) / oil_volume_factor d G Rg T.

(** ** Published depth trends *)
(** Velocity (m/s) against depth (m): segmented lines. *)
Definition yu_trend (z : R) : R := if Rle_dec z 2630 then 1707.998 + 0.66 * z else 1200.84 + 0.853 * z.
Definition japsen_trend (z : R) : R :=
  if Rlt_dec z 1393 then 1550 + 0.6 * z else if Rlt_dec z 2000 then -400 + 2 * z
  else if Rlt_dec z 3500 then 2600 + 0.5 * z else 3475 + 0.25 * z.
(** Porosity in percent against depth (m): mechanical compaction, then chemical. *)
Definition ramm_trend (z : R) : R := Rmin (45 * exp (- 0.00025 * z)) (25 - 0.013 * (z - 2500)).
(** Velocity (km/s) against effective pressure (kbar): V = A + K P - B exp(-D P). *)
Definition pressure_law (A K B D P : R) : R := A + K * P - B * exp (- D * P).
(** Greenberg-Castagna lines, km/s. *)
Definition gc_sand (vp : R) : R := 0.80416 * vp - 0.85588.
Definition gc_shale (vp : R) : R := 0.76969 * vp - 0.86735.
