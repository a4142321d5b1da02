(** * Model of rockphypy/Fluid.py (class Fluid). *)
From Verif Require Import Fl Cx M_Utils M_EM M_Anis.
Open Scope fl_scope.

(** [np.linalg.inv] is a parameter of the functions that call it. *)
Definition np_inv_t := mat -> outcome mat.
Definition ftab6 (f : nat -> nat -> fl) : mat := map (fun i => map (f i) (seq 0 6)) (seq 0 6).
(** [np.sum(S[0:3,:],axis=0)], column [j]. *)
Definition fcol3 (S : mat) (j : nat) : fl := mget S 0 j + mget S 1 j + mget S 2 j.

Section Fluid.
Variable m : mode.
Local Infix "/" := (fdiv m) : fl_scope.

(** Fluid.py 13-34, [Fluid.Brie]. *)
Definition Fluid_Brie (Kw Kgas Sw e : fl) : outcome fl :=
  let! Kf := (Kw - Kgas) * fpow m Sw e + Kgas in
  Ret Kf.

(** Fluid.py 37-114, [Fluid.Biot], for one frequency (the masks act elementwise on the frequency
    array). [jv n z] is the Bessel function [sp.jv]. [freq] must be an array in the code, so
    divisions involving it follow NumPy. *)
Definition Fluid_Biot (jv : nat -> cx -> cx)
  (Kdry Gdry K0 Kfl rho0 rhofl eta phi kapa a alpha freq : fl)
  : outcome (fl * fl * fl * fl * fl * fl) :=
  let! rho := (#1 - phi) * rho0 + phi * rhofl in
  let! D := K0 * (#1 + phi * (K0 / Kfl - #1)) in
  let! M := K0 ^^ 2 / (D - Kdry) in
  let! C := (K0 - Kdry) * K0 / (D - Kdry) in
  let! H := Kdry + #4 * Gdry / #3 + (K0 - Kdry) ^^ 2 / (D - Kdry) in
  let! w := #2 * Fin PI * freq in
  let! zeta := fsqrt (w * a ^^ 2 * rhofl /n eta) in
  let z4 := cmul (cof zeta) (cexp (CFin 0 (- PI / 4)%R)) in
  let T := match fleb zeta #1000 with
           | Some true => cdiv (cmul (cexp (CFin 0 (3 * PI / 4)%R)) (jv 1%nat z4)) (jv 0%nat z4)
           | Some false => cdiv (CFin 1 1) (CFin (sqrt 2) 0)
           | None => CUnd
           end in
  let F := match fltb zeta #(1/10) with
           | Some true => CFin 1 0
           | Some false =>
               cmul (CFin (1/4)%R 0)
                 (cdiv (cmul (cof zeta) T)
                       (cadd (CFin 1 0) (cdiv (cmul (CFin 0 2) T) (cof zeta))))
           | None => CUnd
           end in
  let q := csub (cof (alpha * rhofl / phi)) (cdiv (cmul (cmul cI (cof eta)) F) (cof (w * kapa))) in
  let! Ta := C ^^ 2 - M * H in
  let Tb := csub (cadd (cmul (cof H) q) (cof (M * rho))) (cof (#2 * C * rhofl)) in
  let Tc := csub (cof (rhofl ^^ 2)) (cmul (cof rho) q) in
  let root := csqrt (csub (cmul Tb Tb) (cmul (cmul (CFin 4 0) (cof Ta)) Tc)) in
  let P1 := cdiv (cadd (cneg Tb) root) (cof (#2 * Ta)) in
  let P2 := cdiv (csub (cneg Tb) root) (cof (#2 * Ta)) in
  let S := cdiv (csub (cmul (cof rho) q) (cof (rhofl ^^ 2))) (cmul (cof Gdry) q) in
  let inv1 x := cdiv (CFin 1 0) x in
  let! Vp_fast := #1 /n creal (csqrt P1) in
  let! Vp_slow := #1 /n creal (csqrt P2) in
  let! Vs := #1 /n creal (csqrt S) in
  let! QP1_inv := cimag (inv1 P1) /n creal (inv1 P1) in
  let! QP2_inv := cimag (inv1 P2) /n creal (inv1 P2) in
  let! Qs_inv := cimag (inv1 S) /n creal (inv1 S) in
  Ret (Vp_fast, Vp_slow, Vs, QP1_inv, QP2_inv, Qs_inv).

(** Fluid.py 117-161, [Fluid.Biot_HF]. [alpha**-1] is [1/alpha]. *)
Definition Fluid_Biot_HF (Kdry Gdry K0 Kfl rho0 rhofl phi alpha : fl) : outcome (fl * fl * fl) :=
  let! rho := (#1 - phi) * rho0 + phi * rhofl in
  let! rho12 := (#1 - alpha) * phi * rhofl in
  let! rho22 := alpha * phi * rhofl in
  let! rho11 := (#1 - phi) * rho0 - (#1 - alpha) * phi * rhofl in
  let! T1 := #1 - phi - Kdry / K0 in
  let! T2 := phi * K0 / Kfl in
  let! R := phi ^^ 2 * K0 / (T1 + T2) in
  let! Q := T1 * phi * K0 / (T1 + T2) in
  let! P := ((#1 - phi) * T1 * K0 + T2 * Kdry) / (T1 + T2) + #4 * Gdry / #3 in
  let! Delta := P * rho22 + R * rho11 - #2 * Q * rho12 in
  let! T3 := rho11 * rho22 - rho12 ^^ 2 in
  let! T4 := P * R - Q ^^ 2 in
  let! Vp_fast := fsqrt ((Delta + fsqrt (Delta ^^ 2 - #4 * T3 * T4)) /n (#2 * T3)) in
  let! Vp_slow := fsqrt ((Delta - fsqrt (Delta ^^ 2 - #4 * T3 * T4)) /n (#2 * T3)) in
  let! Vs := fsqrt (Gdry / (rho - phi * rhofl * (#1 / alpha))) in
  Ret (Vp_fast, Vp_slow, Vs).

(** Fluid.py 164-201, [Fluid.Geertsma_Smit_HF]. *)
Definition Fluid_Geertsma_Smit_HF (Kdry Gdry K0 Kfl rho0 rhofl phi alpha : fl) : outcome (fl * fl) :=
  let! rho := (#1 - phi) * rho0 + phi * rhofl in
  let! rho_biot := rho0 * (#1 - phi) + phi * rhofl * (#1 - #1 / alpha) in
  let! Hdry := Kdry + #4 * Gdry / #3 in
  let! T1 := phi * rho / (rhofl * alpha) in
  let! alpha_biot := #1 - Kdry / K0 in
  let! Vp_fast := fsqrt (#1 / rho_biot * (Hdry + (T1 + alpha_biot * (alpha_biot - #2 * phi / alpha))
                                                 / ((alpha_biot - phi) / K0 + phi / Kfl))) in
  let! Vs := fsqrt (Gdry / rho_biot) in
  Ret (Vp_fast, Vs).

(** Fluid.py 204-236, [Fluid.Geertsma_Smit_LF]. *)
Definition Fluid_Geertsma_Smit_LF (Vp0 Vpinf freq phi rhofl kapa eta : fl) : outcome fl :=
  let! fc := phi * eta / (#2 * Fin PI * rhofl * kapa) in
  let! a := (fc / freq) ^^ 2 in
  let! Vp := fsqrt ((Vpinf ^^ 4 + Vp0 ^^ 4 * a) / (Vpinf ^^ 2 + Vp0 ^^ 2 * a)) in
  Ret Vp.

(** Fluid.py 239-265, [Fluid.Gassmann]. *)
Definition Fluid_Gassmann (K_dry G_dry K_mat Kf phi : fl) : outcome (fl * fl) :=
  let! A := (#1 - K_dry / K_mat) ^^ 2 in
  let! B := phi / Kf + (#1 - phi) / K_mat - K_dry / (K_mat ^^ 2) in
  let! K_sat := K_dry + A / B in
  let! G_sat := G_dry in
  Ret (K_sat, G_sat).

(** Fluid.py 268-293, [Fluid.Gassmann_sub]. *)
Definition Fluid_Gassmann_sub (phi K0 Ksat1 Kfl1 Kfl2 : fl) : outcome fl :=
  let! a := Ksat1 / (K0 - Ksat1) - Kfl1 / (phi * (K0 - Kfl1)) + Kfl2 / (phi * (K0 - Kfl2)) in
  let! Ksat2 := a * K0 / (#1 + a) in
  Ret Ksat2.

(** Fluid.py 296-327, [Fluid.vels]. *)
Definition Fluid_vels (K_dry G_dry K0 D0 Kf Df phi : fl) : outcome (fl * fl * fl) :=
  let! rho := D0 * (#1 - phi) + Df * phi in
  call! (K, _) := Fluid_Gassmann K_dry G_dry K0 Kf phi in
  let! Vp := fsqrt ((K + #(4/3) * G_dry) / rho) * #1000 in
  let! Vs := fsqrt (G_dry / rho) * #1000 in
  Ret (Vp, Vs, rho).

(** Fluid.py 328-366, [Fluid.Gassmann_vels]. *)
Definition Fluid_Gassmann_vels (Vp1 Vs1 rho1 rhofl1 Kfl1 rhofl2 Kfl2 K0 phi : fl) : outcome (fl * fl) :=
  let! rho2 := rho1 - phi * rhofl1 + phi * rhofl2 in
  let! G1 := rho1 * Vs1 ^^ 2 in
  let! Ksat1 := rho1 * Vp1 ^^ 2 - #(4/3) * G1 in
  call! k2 := Fluid_Gassmann_sub phi K0 Ksat1 Kfl1 Kfl2 in
  let! G2 := G1 in
  let! Vp2 := fsqrt ((k2 + #(4/3) * G2) / rho2) in
  let! Vs2 := fsqrt (G2 / rho2) in
  Ret (Vp2, Vs2).

(** Fluid.py 368-393, [Fluid.Gassmann_approx]. *)
Definition Fluid_Gassmann_approx (Msat1 M0 Mfl1 phi Mfl2 : fl) : outcome fl :=
  let! x := Msat1 / (M0 - Msat1) - Mfl1 / (phi * (M0 - Mfl1)) + Mfl2 / (phi * (M0 - Mfl2)) in
  let! Msat2 := x * M0 / (#1 + x) in
  Ret Msat2.

(** Fluid.py 395-432, [Fluid.Brown_Korringa_dry2sat]. The sums are NumPy scalars, so the last
    division follows NumPy. *)
Definition Fluid_Brown_Korringa_dry2sat (np_inv : np_inv_t) (Sdry : mat) (K0 G0 Kfl phi : fl) : outcome mat :=
  let! beta0 := #1 / K0 in
  let! betadry := fcol3 Sdry 0 + fcol3 Sdry 1 + fcol3 Sdry 2 in
  let! betafl := #1 / Kfl in
  call! C := utils_write_iso m K0 G0 in
  call! S0 := np_inv C in
  let Sprime j := fcol3 Sdry j - fcol3 S0 j in
  let! denom := (betafl - beta0) * phi + (betadry - beta0) in
  Ret (ftab6 (fun i j => mget Sdry i j - Sprime i * Sprime j /n denom)).

(** Fluid.py 434-471, [Fluid.Brown_Korringa_sat2dry]. *)
Definition Fluid_Brown_Korringa_sat2dry (np_inv : np_inv_t) (Ssat : mat) (K0 G0 Kfl phi : fl) : outcome mat :=
  let! beta0 := #1 / K0 in
  let! betasat := fcol3 Ssat 0 + fcol3 Ssat 1 + fcol3 Ssat 2 in
  let! betafl := #1 / Kfl in
  call! C := utils_write_iso m K0 G0 in
  call! S0 := np_inv C in
  let Sprime j := fcol3 Ssat j - fcol3 S0 j in
  let! denom := (betafl - beta0) * phi - (betasat - beta0) in
  Ret (ftab6 (fun i j => mget Ssat i j + Sprime i * Sprime j /n denom)).

(** Fluid.py 473-504, [Fluid.Brown_Korringa_sub]. *)
Definition Fluid_Brown_Korringa_sub (np_inv : np_inv_t) (Csat : mat) (K0 G0 Kfl1 Kfl2 phi : fl)
  : outcome (mat * mat) :=
  call! Ssat := np_inv Csat in
  call! Sdry := Fluid_Brown_Korringa_sat2dry np_inv Ssat K0 G0 Kfl1 phi in
  call! Ssat2 := Fluid_Brown_Korringa_dry2sat np_inv Sdry K0 G0 Kfl2 phi in
  call! Csat2 := np_inv Ssat2 in
  Ret (Csat2, Ssat2).

(** Fluid.py 506-552, [Fluid.Mavko_Jizba]. *)
Definition Fluid_Mavko_Jizba (Vp_hs Vs_hs Vpdry Vsdry K0 rhodry rhofl Kfl phi : fl)
  : outcome (fl * fl * fl * fl) :=
  call! (Kdry, Gdry) := utils_M_from_V m rhodry Vpdry Vsdry in
  call! (Khs, Ghs) := utils_M_from_V m rhodry Vp_hs Vs_hs in
  let! Kuf := Khs in
  call! (Kuf_sat, _) := Fluid_Gassmann Kuf #1 K0 Kfl phi in
  let! Guf_sat_inv := #1 / Gdry - #(4/15) * (#1 / Kdry - #1 / Kuf) in
  let! Guf_sat := #1 / Guf_sat_inv in
  let! rho_sat := rhodry + phi * rhofl in
  call! (Vp_hf, Vs_hf) := utils_V m Kuf_sat Guf_sat rho_sat in
  Ret (Kuf_sat, Guf_sat, Vp_hf, Vs_hf).

(** Fluid.py 554-597, [Fluid.Squirt_anisotropic], on five-element compliance vectors (NumPy). *)
Definition Fluid_Squirt_anisotropic (S H : fl * fl * fl * fl * fl) : outcome (list fl) :=
  let '(s0, s1, s2, s3, s4) := S in
  let '(h0, h1, h2, h3, h4) := H in
  let! d0 := s0 - h0 in let! d1 := s1 - h1 in let! d2 := s2 - h2 in
  let! d3 := s3 - h3 in let! d4 := s4 - h4 in
  let! aabb := #2 * d0 + #2 * d1 + #4 * d2 + d3 in
  let! D0 := d0 /n aabb in let! D1 := d1 /n aabb in let! D2 := d2 /n aabb in
  let! D3 := d3 /n aabb in let! D4 := d4 /n aabb in
  let! abab := #2 * D0 + D3 + #4 * D4 + #4 * (D0 - D1) in
  let! alpha := #(1/4) * (abab - #1) in
  let! T := #1 - #4 * alpha in
  let! G11 := D0 - #4 * alpha /n T * (D1 + D2) in
  let! G12 := D1 /n T in
  let! G13 := D2 /n T in
  let! G33 := D3 - #8 * alpha * D2 /n T in
  let! G44 := D4 /n T - (D0 + D2) /n (#4 * T) + (G11 + G33) / #4 in
  Ret [s0 - aabb * G11; s1 - aabb * G12; s2 - aabb * G13; s3 - aabb * G33; s4 - aabb * G44].

(** Fluid.py 599-684, [Fluid.White_Dutta_Ode], for one frequency. [x ** -1] is [1/x]. [Klowf] and
    [K_star_gas] are computed but not returned; [K_star_gas] is omitted (a NumPy complex value, it
    cannot raise), [Klowf] is kept because it can raise. *)
Definition Fluid_White_Dutta_Ode
  (Kdry Gdry K0 phi rho0 rhofl1 rhofl2 Kfl1 Kfl2 eta1 eta2 kapa a sg freq : fl)
  : outcome (fl * fl * cx) :=
  let! omega := #2 * Fin PI * freq in
  let! b := a / fpow m sg #(1/3) in
  call! (K1, _) := Fluid_Gassmann Kdry #0 K0 Kfl1 phi in
  call! (K2, _) := Fluid_Gassmann Kdry #0 K0 Kfl2 phi in
  let! G1 := Gdry in
  let! G2 := G1 in
  let! R1 := (K1 - Kdry) / (#1 - Kdry / K0) * (#3 * K2 + #4 * G2)
             / (K2 * (#3 * K1 + #4 * G2) + #4 * G2 * (K1 - K2) * sg) in
  let! R2 := (K2 - Kdry) / (#1 - Kdry / K0) * (#3 * K1 + #4 * G1)
             / (K2 * (#3 * K1 + #4 * G2) + #4 * G2 * (K1 - K2) * sg) in
  let! KA1 := #1 / (phi / Kfl1 + (#1 - phi) / K0 - Kdry / K0 ^^ 2) in
  let! KA2 := #1 / (phi / Kfl2 + (#1 - phi) / K0 - Kdry / K0 ^^ 2) in
  let! KE1 := (#1 - Kfl1 * (#1 - K1 / K0) * (#1 - Kdry / K0) / (phi * K1 * (#1 - Kfl1 / K0))) * KA1 in
  let! KE2 := (#1 - Kfl2 * (#1 - K2 / K0) * (#1 - Kdry / K0) / (phi * K2 * (#1 - Kfl2 / K0))) * KA2 in
  let alpha1 := csqrt (cdiv (cmul (cmul cI (cof omega)) (cof eta1)) (cof (kapa * KE1))) in
  let alpha2 := csqrt (cdiv (cmul (cmul cI (cof omega)) (cof eta2)) (cof (kapa * KE2))) in
  let one := CFin 1 0 in
  let a1a := cmul alpha1 (cof a) in
  let a2a := cmul alpha2 (cof a) in
  let a2b := cmul alpha2 (cof b) in
  let e1 := cexp (cmul (cmul (CFin (-2) 0) alpha1) (cof a)) in
  let e2 := cexp (cmul (cmul (CFin 2 0) alpha2) (cof (b - a))) in
  let Z1 := cdiv (cmul (cof (eta1 * a / kapa)) (csub one e1))
                 (cadd (csub a1a one) (cmul (cadd a1a one) e1)) in
  let Z2 := cdiv (cmul (cof (- eta2 * a / kapa)) (cadd (cadd a2b one) (cmul (csub a2b one) e2)))
                 (csub (cmul (cadd a2b one) (csub a2a one)) (cmul (cmul (csub a2b one) (cadd a2a one)) e2)) in
  let! Q1 := (#1 - Kdry / K0) * KA1 / K1 in
  let! Q2 := (#1 - Kdry / K0) * KA2 / K2 in
  let W := cdiv (cof (#3 * a ^^ 2 * (R1 - R2) * (- Q1 + Q2)))
                (cmul (cmul (cmul (cof (b ^^ 3)) cI) (cof omega)) (cadd Z1 Z2)) in
  let! Kinf := (K2 * (#3 * K1 + #4 * G2) + #4 * G2 * (K1 - K2) * sg)
               / ((#3 * K1 + #4 * G2) - #3 * (K1 - K2) * sg) in
  let! Klowf := (K2 * (K1 - Kdry) + sg * Kdry * (K2 - K1)) / ((K1 - Kdry) + sg * (K2 - K1)) in
  let K_star := cdiv (cof Kinf) (csub one (cmul (cof Kinf) W)) in
  let M := cadd K_star (cof (#4 * Gdry / #3)) in
  let! rho := (#1 - phi) * rho0 + phi * sg * rhofl1 + phi * (#1 - sg) * rhofl2 in
  let! theta := farctan (cimag M /n creal M) in
  let! Vp := fsqrt (cabs M /n rho) * #1 /n fcos (theta /n #2) in
  let! a_w := omega /n Vp * ftan (theta /n #2) in
  Ret (Vp, a_w, K_star).

End Fluid.
