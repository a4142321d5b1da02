(** * Model of rockphypy/AVO.py (class AVO). *)
From Verif Require Import Fl M_Utils M_EM M_Anis.
Open Scope fl_scope.

(** [np.mean] of a one-dimensional array (of a scalar: a one-element list). *)
Definition np_mean (xs : list fl) : fl := fsum xs /n #(INR (length xs)).

(** AVO.py 10-95, [AVO.AVO_HTI], one element of the mesh. The entries of [C1], [C2] are NumPy numbers,
    so every division follows NumPy. [beta_v], [gamma_v], [mu_v] are computed and not used. *)
Definition AVO_HTI_elem (D1 D2 : fl) (C1 C2 : mat) (theta azimuth : fl) : outcome fl :=
  let! theta := fdeg2rad theta in
  let! azimuth := fdeg2rad azimuth in
  let! C11_1 := mget C1 0 0 in
  let! C13_1 := mget C1 0 2 in
  let! C33_1 := mget C1 2 2 in
  let! C44_1 := mget C1 3 3 in
  let! C55_1 := mget C1 4 4 in
  let! C66_1 := mget C1 5 5 in
  let! C11_2 := mget C2 0 0 in
  let! C13_2 := mget C2 0 2 in
  let! C33_2 := mget C2 2 2 in
  let! C44_2 := mget C2 3 3 in
  let! C55_2 := mget C2 4 4 in
  let! C66_2 := mget C2 5 5 in
  let! alpha_1 := fsqrt (C33_1 /n D1) in
  let! beta_1 := fsqrt (C44_1 /n D1) in
  let! gamma_1 := (C44_1 - C66_1) /n (#2 * C66_1) in
  let! epsilon_v_1 := (C11_1 - C33_1) /n (#2 * C33_1) in
  let! delta_v_1 := ((C13_1 + C55_1) ^^ 2 - (C33_1 - C55_1) ^^ 2) /n (#2 * C33_1 * (C33_1 - C55_1)) in
  let! Z_1 := D1 * alpha_1 in
  let! mu_1 := D1 * beta_1 ^^ 2 in
  let! alpha_2 := fsqrt (C33_2 /n D2) in
  let! beta_2 := fsqrt (C44_2 /n D2) in
  let! gamma_2 := (C44_2 - C66_2) /n (#2 * C66_2) in
  let! epsilon_v_2 := (C11_2 - C33_2) /n (#2 * C33_2) in
  let! delta_v_2 := ((C13_2 + C55_2) ^^ 2 - (C33_2 - C55_2) ^^ 2) /n (#2 * C33_2 * (C33_2 - C55_2)) in
  let! Z_2 := D2 * alpha_2 in
  let! mu_2 := D2 * beta_2 ^^ 2 in
  let! dZ := Z_2 - Z_1 in
  let! Z_ := (Z_1 + Z_2) /n #2 in
  let! dalpha := alpha_2 - alpha_1 in
  let! alpha_ := (alpha_1 + alpha_2) /n #2 in
  let! beta_ := (beta_1 + beta_2) /n #2 in
  let! dmu := mu_2 - mu_1 in
  let! mu_ := (mu_1 + mu_2) /n #2 in
  let! ddelta := delta_v_2 - delta_v_1 in
  let! dgamma := gamma_2 - gamma_1 in
  let! depsilon := epsilon_v_2 - epsilon_v_1 in
  let! Rpp :=
    #(1/2) * dZ /n Z_
    + #(1/2) * (dalpha /n alpha_ - (#2 * beta_ /n alpha_) ^^ 2 * dmu /n mu_
                + (ddelta + #2 * (#2 * beta_ /n alpha_) ^^ 2 * dgamma) * fcos azimuth ^^ 2) * fsin theta ^^ 2
    + #(1/2) * (dalpha /n alpha_ + depsilon * fcos azimuth ^^ 4
                + ddelta * fsin azimuth ^^ 2 * fcos azimuth ^^ 2) * fsin theta ^^ 2 * ftan theta ^^ 2 in
  Ret Rpp.

(** AVO.py 34-38: the mesh has one row per azimuth and one column per incidence angle. *)
Fixpoint omap {A B} (f : A -> outcome B) (l : list A) : outcome (list B) :=
  match l with
  | [] => Ret []
  | x :: r => call! y := f x in call! ys := omap f r in Ret (y :: ys)
  end.
Definition AVO_HTI (D1 D2 : fl) (C1 C2 : mat) (theta azimuth : list fl) : outcome (list (list fl)) :=
  omap (fun a => omap (fun t => AVO_HTI_elem D1 D2 C1 C2 t a) theta) azimuth.

(** AVO.py 157-220, [AVO.zoeppritz]. The ray parameter of line 184 uses [sin] of the angle in degrees. All
    divisions have a NumPy operand. *)
Definition AVO_zoeppritz (vp1 vs1 rho1 vp2 vs2 rho2 theta : fl) : outcome (fl * fl) :=
  let! theta1 := fdeg2rad theta in
  let! p := fsin theta /n vp1 in
  let! theta2 := farcsin (p * vp2) in
  let! phi1 := farcsin (p * vs1) in
  let! phi2 := farcsin (p * vs2) in
  let! a := rho2 * (#1 - #2 * fsin phi2 ^^ 2) - rho1 * (#1 - #2 * fsin phi1 ^^ 2) in
  let! b := rho2 * (#1 - #2 * fsin phi2 ^^ 2) + #2 * rho1 * fsin phi1 ^^ 2 in
  let! c := rho1 * (#1 - #2 * fsin phi1 ^^ 2) + #2 * rho2 * fsin phi2 ^^ 2 in
  let! d := #2 * (rho2 * vs2 ^^ 2 - rho1 * vs1 ^^ 2) in
  let! H := a - d * fcos theta2 /n vp2 * fcos phi2 /n vs2 in
  let! E := b * fcos theta1 /n vp1 + c * fcos theta2 /n vp2 in
  let! F := b * fcos phi1 /n vs1 + c * fcos phi2 /n vs2 in
  let! G := a - d * fcos theta1 /n vp1 * fcos phi2 /n vs2 in
  let! D := E * F + G * H * p ^^ 2 in
  let! Rpp := ((b * fcos theta1 /n vp1 - c * fcos theta2 /n vp2) * F
               - (a + d * fcos theta1 /n vp1 * fcos phi2 /n vs2) * H * p ^^ 2) /n D in
  let! Rps := (#(-2) * fcos theta1 /n vp1
               * (a * b + c * d * fcos theta2 /n vp2 * fcos phi2 /n vs2) * p * vp1) /n (vs1 * D) in
  Ret (Rpp, Rps).

(** AVO.py 276-349, [AVO.EI_ref], one sample and one angle: [Vp0], [Vs0] before normalisation (used for
    the ray parameter), [Vp], [Vs], [rho] after it. Everything but [1/SP**2] involves a NumPy number, except
    [rho**C] of line 348 when [rho] is a Python float and [norm] is off; there a zero density raises ZeroDivisionError,
    which is left out (the model has [Inf]). *)
Record EI_result := { EI_pp : fl; EI_psv : fl; EI_svp : fl; EI_svsv : fl; EI_shsh : fl }.
Section EI.
Variable m : mode.
Definition AVO_EI_sample (ipn isn Vp0 Vs0 Vp Vs rho theta SP : fl) : outcome EI_result :=
  let! theta := fdeg2rad theta in
  let! p := fsin theta /n Vp0 in
  let! theta_s := farcsin (p * Vs0) in
  let! A := #1 + ftan theta ^^ 2 in
  let! B := #(-8) * SP ^^ 2 * fsin theta ^^ 2 in
  let! C := #1 - #4 * SP ^^ 2 * fsin theta ^^ 2 in
  let! EI_pp := ipn * fpow NumPy Vp A * fpow NumPy Vs B * fpow NumPy rho C in
  let! B := fsin theta /n fsqrt (#1 - SP ^^ 2 * fsin theta ^^ 2)
            * (#4 * fsin theta ^^ 2 * SP ^^ 2
               - #4 * SP * fcos theta * fsqrt (#1 - SP ^^ 2 * fsin theta ^^ 2)) in
  let! C := (- fsin theta) /n fsqrt (#1 - SP ^^ 2 * fsin theta ^^ 2)
            * (#1 - #2 * fsin theta ^^ 2 * SP ^^ 2
               + #2 * SP * fcos theta * fsqrt (#1 - SP ^^ 2 * fsin theta ^^ 2)) in
  let! EI_psv := ipn * fpow NumPy Vs B * fpow NumPy rho C in
  let! iSP := fdiv m #1 (SP ^^ 2) in
  let! B := fsin theta_s /n fsqrt (#1 - iSP * fsin theta_s ^^ 2)
            * (#4 * fsin theta_s ^^ 2
               - #4 * SP * fcos theta_s * fsqrt (#1 - iSP * fsin theta_s ^^ 2)) in
  let! C := (- fsin theta_s) /n fsqrt (#1 - iSP * fsin theta_s ^^ 2)
            * (#1 - #2 * fsin theta_s ^^ 2
               + #2 * SP * fcos theta_s * fsqrt (#1 - iSP * fsin theta_s ^^ 2)) in
  let! EI_svp := isn * fpow NumPy Vs B * fpow NumPy rho C in
  let! B := #(-1) /n fcos theta_s ^^ 2 + #8 * fsin theta_s ^^ 2 in
  let! C := #(-1) + #4 * fsin theta_s ^^ 2 in
  let! EI_svsv := isn * fpow NumPy Vs B * fpow NumPy rho C in
  let! B := #(-1) + ftan theta_s ^^ 2 in
  let! EI_shsh := isn * fpow NumPy Vs B * fpow NumPy rho #(-1) in
  Ret {| EI_pp := EI_pp; EI_psv := EI_psv; EI_svp := EI_svp; EI_svsv := EI_svsv; EI_shsh := EI_shsh |}.

(** AVO.py 276-349, [AVO.EI_ref] for one angle: a sample is (Vp, Vs, rho). Python scalars are one sample.
    The normalised velocities replace the originals after the ray parameter is computed. *)
Definition AVO_EI_ref (samples : list (fl * fl * fl)) (theta SP : fl) (norm : bool) : outcome (list EI_result) :=
  let mVp := np_mean (map (fun s => fst (fst s)) samples) in
  let mVs := np_mean (map (fun s => snd (fst s)) samples) in
  let mrho := np_mean (map snd samples) in
  omap (fun s =>
    let '(Vp, Vs, rho) := s in
    if norm then AVO_EI_sample (mVp * mrho) (mVs * mrho) Vp Vs (Vp /n mVp) (Vs /n mVs) (rho /n mrho) theta SP
    else AVO_EI_sample #1 #1 Vp Vs Vp Vs rho theta SP) samples.
End EI.

Section AVO.
Variable m : mode.
Local Infix "/" := (fdiv m) : fl_scope.

(** AVO.py 98-154, [AVO.Aki_Richards]. Operations on [sin theta] and what derives from it are NumPy. *)
Definition AVO_Aki_Richards (theta vp1 vp2 vs1 vs2 den1 den2 : fl) : outcome (fl * fl * fl * fl) :=
  let! theta := fdeg2rad theta in
  let! delta_den := den2 - den1 in
  let! delta_vp := vp2 - vp1 in
  let! delta_vs := vs2 - vs1 in
  let! rho_mean := #(1/2) * (den1 + den2) in
  let! vp_mean := #(1/2) * (vp1 + vp2) in
  let! vs_mean := #(1/2) * (vs1 + vs2) in
  let! Rpp0 := #(1/2) * (delta_den / rho_mean + delta_vp / vp_mean) in
  let! M := #(-2) * (vs_mean / vp_mean) ^^ 2 * (#2 * delta_vs / vs_mean + delta_den / rho_mean) in
  let! N := #(1/2) * delta_vp / vp_mean in
  let! R_pp := Rpp0 + M * fsin theta ^^ 2 + N * ftan theta ^^ 2 in
  let! gradient := M + N in
  let! p := fsin theta /n vp1 in
  let! cos_theta_s := fsqrt (#1 - (fsin theta ^^ 2 * (vs1 ^^ 2 / vp1 ^^ 2))) in
  let! R_ps :=
    #(- (1/2)) * p * vp_mean /n cos_theta_s
    * ((#1 - #2 * vs_mean ^^ 2 * p ^^ 2 + #2 * vs_mean ^^ 2 * fcos theta /n vp_mean * cos_theta_s /n vs_mean)
         * delta_den /n rho_mean
       - (#4 * p ^^ 2 * vs_mean ^^ 2 - #4 * vs_mean ^^ 2 * fcos theta /n vp_mean * cos_theta_s /n vs_mean)
         * delta_vs /n vs_mean) in
  Ret (R_pp, R_ps, Rpp0, gradient).

(** AVO.py 223-273, [AVO.AVO_abe]. *)
Definition AVO_AVO_abe (vp1 vs1 d1 vp2 vs2 d2 : fl) : outcome (fl * fl * fl * fl * fl) :=
  let! da := (d1 + d2) / #2 in
  let! Dd := d2 - d1 in
  let! vpa := (vp1 + vp2) / #2 in
  let! Dvp := vp2 - vp1 in
  let! vsa := (vs1 + vs2) / #2 in
  let! Dvs := vs2 - vs1 in
  let! Ro := #(1/2) * ((Dvp / vpa) + (Dd / da)) in
  let! poi1 := ((#(1/2) * (vp1 / vs1) ^^ 2) - #1) / ((vp1 / vs1) ^^ 2 - #1) in
  let! poi2 := ((#(1/2) * (vp2 / vs2) ^^ 2) - #1) / ((vp2 / vs2) ^^ 2 - #1) in
  let! poia := (poi1 + poi2) / #2 in
  let! Dpoi := poi2 - poi1 in
  let! Bx := (Dvp / vpa) / ((Dvp / vpa) + (Dd / da)) in
  let! Ax := Bx - (#2 * (#1 + Bx) * (#1 - #2 * poia) / (#1 - poia)) in
  let! B1 := (Ax * Ro) + (Dpoi / (#1 - poia) ^^ 2) in
  let! B2 := (#(-2) * vsa ^^ 2 * Dd / (vpa ^^ 2 * da)) + (#(1/2) * Dvp / vpa) - (#4 * vsa * Dvs / (vpa ^^ 2)) in
  let! E1 := (#(- (1/2)) * Dd / da) - ((vsa / vpa) * ((Dd / da) + (#2 * Dvs / vsa)))
             + (((vsa / vpa) ^^ 3) * ((#(1/2) * Dd / da) + (Dvs / vsa))) in
  let! E2 := #(-2) * (vs1 / vp1) * ((Dd / da * (#(1/2) + (#(1/4) * vpa / vsa))) + (Dvs / vsa)) in
  Ret (Ro, B1, B2, E1, E2).

(** AVO.py 352-419, [AVO.AVO_ortho]. [db] is computed and not used. *)
Definition AVO_AVO_ortho (a1 b1 e11 d11 e12 d12 g1 rho1 a2 b2 e21 d21 e22 d22 g2 rho2 the : fl) : outcome (fl * fl) :=
  let! Z1 := rho1 * a1 in
  let! Z2 := rho2 * a2 in
  let! G1 := rho1 * b1 * b1 in
  let! G2 := rho2 * b2 * b2 in
  let! G := (G1 + G2) / #2 in
  let! dG := G2 - G1 in
  let! a := (a1 + a2) / #2 in
  let! da := a2 - a1 in
  let! b := (b1 + b2) / #2 in
  let! the := the * Fin PI / #180 in
  let! sthe2 := fsin the ^^ 2 in
  let! tthe2 := ftan the ^^ 2 in
  let! f := (#2 * b / a) ^^ 2 in
  let! Rxz := (Z2 - Z1) / (Z2 + Z1) + #(1/2) * (da / a - f * (dG / G - #2 * (g2 - g1)) + d22 - d12) * sthe2
              + #(1/2) * (da / a + e22 - e12) * sthe2 * tthe2 in
  let! Ryz := (Z2 - Z1) / (Z2 + Z1) + #(1/2) * (da / a - f * dG / G + d21 - d11) * sthe2
              + #(1/2) * (da / a + e21 - e11) * sthe2 * tthe2 in
  Ret (Rxz, Ryz).
End AVO.
