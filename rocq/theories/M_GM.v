(** * Model of rockphypy/GM.py (class GM). *)
From Verif Require Import Fl Cx M_Utils M_EM.
Open Scope fl_scope.

(** [np.roots], a parameter of [Digby]: coefficients (highest degree first) to complex roots. *)
Definition np_roots_t := list fl -> list cx.
(** A stress argument is a scalar or an array. *)
Inductive sarg := SScalar (x : fl) | SArray (xs : list fl).
(** [alpha[np.isnan(alpha)] = 0], one element. *)
Definition fnan0 (x : fl) : fl := match x with NaN => #0 | y => y end.

Section GM.
Variable m : mode.
Local Infix "/" := (fdiv m) : fl_scope.
Local Notation inv x := (#1 / x).

(** GM.py 18-44, [GM.ThomasStieber]. [phi_AD] is computed and discarded by the code. *)
Definition GM_ThomasStieber (phi_sand phi_sh vsh : fl) : outcome (fl * fl) :=
  let! phi1 := phi_sand - (#1 - phi_sh) * vsh in
  let! phi2 := phi_sh * vsh in
  let! phi_ABC := fmaximum phi1 phi2 in
  let! phi_AD := phi_sand + phi_sh * vsh in
  let! m_ := phi_sh - phi_sand in
  let! phi_AC := m_ * vsh + phi_sand in
  Ret (phi_ABC, phi_AC).

(** GM.py 47-72, [GM.silty_shale]. *)
Definition GM_silty_shale (C Kq Gq Ksh Gsh : fl) : outcome (fl * fl) :=
  let! K_sat := inv (C / (Ksh + #4 * Gsh / #3) + (#1 - C) / (Kq + #4 * Gq / #3)) - #4 * Gsh / #3 in
  let! Zsh := Gsh / #6 * (#9 * Ksh + #8 * Gsh) / (Ksh + #2 * Gsh) in
  let! G_sat := inv (C / (Gsh + Zsh) + (#1 - C) / (Gq + Zsh)) - Zsh in
  Ret (K_sat, G_sat).

(** GM.py 75-102, [GM.shaly_sand]. *)
Definition GM_shaly_sand (phis C Kss Gss Kcc Gcc : fl) : outcome (fl * fl) :=
  let! K_sat := inv ((#1 - C / phis) / (Kss + #4 * Gss / #3)
                     + (C / phis) / (Kcc + #4 * Gss / #3)) - #4 * Gss / #3 in
  let! Zss := Gss / #6 * (#9 * Kss + #8 * Gss) / (Kss + #2 * Gss) in
  let! G_sat := inv ((#1 - C / phis) / (Gss + Zss) + (C / phis) / (Gcc + Zss)) - Zss in
  Ret (K_sat, G_sat).

(** GM.py 105-158, [GM.contactcement]. *)
Definition GM_contactcement (K0 G0 Kc Gc phi phic Cn : fl) (scheme : Z) : outcome (fl * fl) :=
  let! nu_0 := (#3 * K0 - #2 * G0) / (#6 * K0 + #2 * G0) in
  let! nu_c := (#3 * Kc - #2 * Gc) / (#6 * Kc + #2 * Gc) in
  let! alpha :=
    if Z.eqb scheme 1
    then #2 * fpow m ((phic - phi) / (#3 * Cn * (#1 - phic))) (#1 / #4)
    else fpow m ((#2 * (phic - phi)) / (#3 * (#1 - phic))) (#1 / #2) in
  let! LambdaN := (#2 * Gc * (#1 - nu_0) * (#1 - nu_c)) / (Fin PI * G0 * (#1 - #2 * nu_c)) in
  let! N1 := #(- (24153/1000000)) * fpow m LambdaN #(- (13646/10000)) in
  let! N2 := #(20405/100000) * fpow m LambdaN #(- (89008/100000)) in
  let! N3 := #(24649/100000000) * fpow m LambdaN #(- (19864/10000)) in
  let! Sn := N1 * alpha ^^ 2 + N2 * alpha + N3 in
  let! LambdaT := Gc / (Fin PI * G0) in
  let! T1 := #(- (1/100)) * (#(226/100) * nu_0 ^^ 2 + #(207/100) * nu_0 + #(23/10))
             * fpow m LambdaT (#(79/1000) * nu_0 ^^ 2 + #(1754/10000) * nu_0 - #(1342/1000)) in
  let! T2 := (#(573/10000) * nu_0 ^^ 2 + #(937/10000) * nu_0 + #(202/1000))
             * fpow m LambdaT (#(274/10000) * nu_0 ^^ 2 + #(529/10000) * nu_0 - #(8765/10000)) in
  let! T3 := #(1/10000) * (#(9654/1000) * nu_0 ^^ 2 + #(4945/1000) * nu_0 + #(31/10))
             * fpow m LambdaT (#(1867/100000) * nu_0 ^^ 2 + #(4011/10000) * nu_0 - #(18186/10000)) in
  let! St := T1 * alpha ^^ 2 + T2 * alpha + T3 in
  let! K_dry := #1 / #6 * Cn * (#1 - phic) * (Kc + (#4 / #3) * Gc) * Sn in
  let! G_dry := #3 / #5 * K_dry + #3 / #20 * Cn * (#1 - phic) * Gc * St in
  Ret (K_dry, G_dry).

(** GM.py 161-197, [GM.hertzmindlin]. *)
Definition GM_hertzmindlin (K0 G0 phic Cn sigma f : fl) : outcome (fl * fl) :=
  let! sigma := sigma / #1000 in
  let! nu := (#3 * K0 - #2 * G0) / (#6 * K0 + #2 * G0) in
  let! K_dry := fpow m (sigma * (Cn ^^ 2 * (#1 - phic) ^^ 2 * G0 ^^ 2)
                        / (#18 * Fin PI ^^ 2 * (#1 - nu) ^^ 2)) (#1 / #3) in
  let! G_dry := ((#2 + #3 * f - nu * (#1 + #3 * f)) / (#5 * (#2 - nu)))
                * fpow m (sigma * (#3 * Cn ^^ 2 * (#1 - phic) ^^ 2 * G0 ^^ 2)
                          / (#2 * Fin PI ^^ 2 * (#1 - nu) ^^ 2)) (#1 / #3) in
  Ret (K_dry, G_dry).

(** GM.py 200-237, [GM.softsand]. *)
Definition GM_softsand (K0 G0 phi phic Cn sigma f : fl) : outcome (fl * fl) :=
  call! (K_HM, G_HM) := GM_hertzmindlin K0 G0 phic Cn sigma f in
  let! K_dry := #(-4) / #3 * G_HM
                + inv (((phi / phic) / (K_HM + #4 / #3 * G_HM))
                       + ((#1 - phi / phic) / (K0 + #4 / #3 * G_HM))) in
  let! aux := G_HM / #6 * ((#9 * K_HM + #8 * G_HM) / (K_HM + #2 * G_HM)) in
  let! G_dry := - aux + inv ((phi / phic) / (G_HM + aux) + ((#1 - phi / phic) / (G0 + aux))) in
  Ret (K_dry, G_dry).

(** GM.py 240-282, [GM.Walton]. *)
Definition GM_Walton (K0 G0 phic Cn sigma f : fl) : outcome (fl * fl) :=
  let! sigma := sigma / #1000 in
  let! lamda := K0 - #2 * G0 / #3 in
  let! B := #1 / (#4 * Fin PI) * (#1 / G0 + #1 / (G0 + lamda)) in
  let! K_w := #1 / #6 * fpow m (#3 * (#1 - phic) ^^ 2 * Cn ^^ 2 * sigma
                                / (Fin PI ^^ 4 * B ^^ 2)) (#1 / #3) in
  let! G_dry1 := #3 / #5 * K_w in
  let! nu := (#3 * K0 - #2 * G0) / (#6 * K0 + #2 * G0) in
  let! G_dry2 := #3 / #5 * K_w * (#5 - #4 * nu) / (#2 - nu) in
  let! G_w := f * G_dry2 + (#1 - f) * G_dry1 in
  Ret (K_w, G_w).

(** GM.py 285-354, [GM.johnson]. [alpha] comes from [np.sqrt], so what is computed from it follows
    NumPy. An unrecognised [path] leaves the stresses unbound: UnboundLocalError. *)
Definition GM_johnson (K0 G0 n phi epsilon epsilon_axial : fl) (path : string)
  : outcome (mat * fl * fl) :=
  call! nu0 := utils_poi m K0 G0 in
  let! Cn := #4 * G0 / (#1 - nu0) in
  let! Ct := (#8 * G0) / (#2 - nu0) in
  let! Bw := #2 / (Fin PI * Cn) in
  let! Cw := #4 / Fin PI * (#1 / Ct - #1 / Cn) in
  let! gamma := (#3 / #32) * Cn * Ct * n * (#1 - phi) * fsqrt (- epsilon) in
  let! alpha := fsqrt (epsilon / epsilon_axial) in
  let! I0 := (#1 / #2) * (fsqrt (#1 + alpha ^^ 2)
               + alpha ^^ 2 * flog (#1 + fsqrt (#1 + alpha ^^ 2) /n alpha)) in
  let! I2 := (#1 / #4) * (fpow NumPy (#1 + alpha ^^ 2) (#3 / #2) - alpha ^^ 2 * I0) in
  let! I4 := (#1 / #6) * (fpow NumPy (#1 + alpha ^^ 2) (#3 / #2) - #3 * alpha ^^ 2 * I2) in
  let! C11 := gamma /n alpha * (#4 * Bw / #3 + #2 * Cw / #5
                + epsilon / epsilon_axial * (#2 * Bw / #15 + Cw / #35)) in
  let! C33 := (gamma /n alpha) * (#4 * Bw * I2 + #2 * Cw * I4) in
  let! C13 := (gamma /n alpha) * Cw * (I2 - I4) in
  let! C44 := (gamma /n alpha) * ((Bw / #2) * (I0 + I2) + Cw * (I2 - I4)) in
  let! C66 := (gamma /n alpha) * (Bw * (I0 - I2) + (Cw / #4) * (I0 - #2 * I2 + I4)) in
  call! C := utils_write_VTI_matrix C11 C33 C13 C44 C66 in
  let! Temp := (- fpow m (- epsilon) (#3 / #2)) * (#1 - phi) * n /n (#4 * Fin PI * alpha ^^ 3) in
  if String.eqb path "together" then
    let! sigma33 := #2 * Temp * (Ct * (I2 - I4) + Cn * (alpha ^^ 2 * I2 + I4)) in
    let! sigma11 := Temp * ((- Ct) * (I2 - I4)
                      + Cn * (alpha ^^ 2 * I0 + (#1 - alpha ^^ 2) * I2 - I4)) in
    Ret (C, sigma33, sigma11)
  else if String.eqb path "uni_iso" then
    let! sigma33 := #2 * Temp * (#1 / #12 * Ct + Cn * (alpha ^^ 2 * I2 + I4)) in
    let! sigma11 := Temp * (#(-1) / #12 * Ct
                      + Cn * (alpha ^^ 2 * I0 + (#1 - alpha ^^ 2) * I2 - I4)) in
    Ret (C, sigma33, sigma11)
  else if String.eqb path "iso-uni" then
    let! sigma33 := #2 * Temp * (Ct * (alpha ^^ 2 * I0 + (#1 - alpha ^^ 2) * I2 - I4
                                       - #2 * alpha ^^ 3 / #3)
                                 + Cn * (alpha ^^ 2 * I2 + I4)) in
    let! sigma11 := Temp * ((- Ct) * (alpha ^^ 2 * I0 + (#1 - alpha ^^ 2) * I2 - I4
                                      - #2 * alpha ^^ 3 / #3
                              + Cn * (alpha ^^ 2 * I0 + (#1 - alpha ^^ 2) * I2 - I4))) in
    Ret (C, sigma33, sigma11)
  else Raise UnboundLocalError.

(** GM.py 358-391, [GM.stiffsand]. *)
Definition GM_stiffsand (K0 G0 phi phic Cn sigma f : fl) : outcome (fl * fl) :=
  call! (K_HM, G_HM) := GM_hertzmindlin K0 G0 phic Cn sigma f in
  let! K_dry := #(-4) / #3 * G0
                + inv (((phi / phic) / (K_HM + #4 / #3 * G0))
                       + ((#1 - phi / phic) / (K0 + #4 / #3 * G0))) in
  let! aux := G0 / #6 * ((#9 * K0 + #8 * G0) / (K0 + #2 * G0)) in
  let! G_dry := - aux + inv ((phi / phic) / (G_HM + aux) + ((#1 - phi / phic) / (G0 + aux))) in
  Ret (K_dry, G_dry).

(** GM.py 394-437, [GM.constantcement]. *)
Definition GM_constantcement (phi_b K0 G0 Kc Gc phi phic Cn : fl) (scheme : Z) : outcome (fl * fl) :=
  call! (K_b, G_b) := GM_contactcement K0 G0 Kc Gc phi_b phic Cn scheme in
  let! T := phi / phi_b in
  let! Z_ := (G_b / #6) * (#9 * K_b + #8 * G_b) / (K_b + #2 * G_b) in
  let! Kdry := inv (T / (K_b + #4 * G_b / #3) + (#1 - T) / (K0 + #4 * G_b / #3)) - #4 * G_b / #3 in
  let! Gdry := inv (T / (G_b + Z_) + (#1 - T) / (G0 + Z_)) - Z_ in
  Ret (Kdry, Gdry).

(** GM.py 440-483, [GM.MUHS]. *)
Definition GM_MUHS (K0 G0 Kc Gc phi phi_b phic Cn : fl) (scheme : Z) : outcome (fl * fl) :=
  call! (K_b, G_b) := GM_contactcement K0 G0 Kc Gc phi_b phic Cn scheme in
  let! K_dry := #(-4) / #3 * G0
                + inv (((phi / phi_b) / (K_b + #4 / #3 * G0))
                       + ((#1 - phi / phi_b) / (K0 + #4 / #3 * G0))) in
  let! tmp := G0 / #6 * ((#9 * K0 + #8 * G0) / (K0 + #2 * G0)) in
  let! G_dry := - tmp + inv ((phi / phi_b) / (G_b + tmp) + ((#1 - phi / phi_b) / (G0 + tmp))) in
  Ret (K_dry, G_dry).

(** GM.py 486-525, [GM.Digby], scalar stress (an array makes [np.array] of line 517 ragged).
    The result arrays have one entry per root kept by the filter of line 519. *)
Definition GM_Digby (np_roots : np_roots_t) (K0 G0 phi Cn sigma a_R : fl) : outcome (list fl * list fl) :=
  let! sigma := sigma / #1000 in
  let! nu := (#3 * K0 - #2 * G0) / (#6 * K0 + #2 * G0) in
  let! c2 := #3 / #2 * a_R ^^ 2 in
  let! c3 := #(-3) * Fin PI * (#1 - nu) * sigma / (#2 * Cn * (#1 - phi) * G0) in
  let roots := np_roots [#1; #0; c2; c3] in
  let root := filter (fun x => match fleb #0 x with Some true => true | _ => false end)
                     (map creal roots) in
  let b_R := map (fun x => fsqrt (x ^^ 2 + a_R ^^ 2)) root in
  let! one_nu := #1 - nu in
  let Sn_R := map (fun b => #4 * G0 * b /n one_nu) b_R in
  let! St_R := #8 * G0 * a_R / (#2 - nu) in
  let Keff := map (fun s => Cn * (#1 - phi) * s /n #12 /n Fin PI) Sn_R in
  let Geff := map (fun s => Cn * (#1 - phi) * (s + #(3/2) * St_R) /n #20 /n Fin PI) Sn_R in
  Ret (Keff, Geff).

(** GM.py 583-594 (and 691-703), the unconsolidated and cemented end members of [pcm]/[vpcm]. *)
Definition GM_pcm_ends (sigma K0 G0 phic v_cem v_ci Kc Gc Cn : fl) (scheme : Z) (f_ : fl)
  : outcome ((fl * fl) * (fl * fl)) :=
  call! unc := GM_hertzmindlin K0 G0 phic Cn sigma f_ in
  match fleb v_cem v_ci with
  | Some true =>
      call! cem := GM_contactcement K0 G0 Kc Gc (phic - v_cem) phic Cn scheme in
      Ret (unc, cem)
  | Some false =>
      call! cem := GM_MUHS K0 G0 Kc Gc (phic - v_cem) (phic - v_ci) phic Cn scheme in
      Ret (unc, cem)
  | None => Unknown
  end.
(** GM.py 601-604 and 709-712. *)
Definition GM_pcm_stiff (f Kunc Gunc Kcem Gcem : fl) : outcome (fl * fl) :=
  let! Kp := Kcem + (#1 - f) / (inv (Kunc - Kcem) + f * inv (Kcem + #4 * Gcem / #3)) in
  let! Temp := (Kcem + #2 * Gcem) / (#5 * Gcem * (Kcem + #4 * Gcem / #3)) in
  let! Gp := Gcem + (#1 - f) / (inv (Gunc - Gcem) + #2 * f * Temp) in
  Ret (Kp, Gp).
(** GM.py 606-609 and 714-717. *)
Definition GM_pcm_soft (f Kunc Gunc Kcem Gcem : fl) : outcome (fl * fl) :=
  let! Kp := Kunc + f / (inv (Kcem - Kunc) + (#1 - f) * inv (Kunc + #4 * Gunc / #3)) in
  let! Temp := (Kunc + #2 * Gunc) / (#5 * Gunc * (Kunc + #4 * Gunc / #3)) in
  let! Gp := Gunc + f / (inv (Gcem - Gunc) + #2 * (#1 - f) * Temp) in
  Ret (Kp, Gp).
(** GM.py 613-617 and 728-732. *)
Definition GM_pcm_final (Kp Gp K0 G0 phi phic : fl) : outcome (fl * fl) :=
  let! K_DRY := #(-4) / #3 * Gp
                + inv (((phi / phic) / (Kp + #4 / #3 * Gp))
                       + ((#1 - phi / phic) / (K0 + #4 / #3 * Gp))) in
  let! tmp := Gp / #6 * ((#9 * Kp + #8 * Gp) / (Kp + #2 * Gp)) in
  let! G_DRY := - tmp + inv ((phi / phic) / (Gp + tmp) + ((#1 - phi / phic) / (G0 + tmp))) in
  Ret (K_DRY, G_DRY).

(** GM.py 528-617, [GM.pcm]. *)
Definition GM_pcm (f sigma K0 G0 phi phic v_cem v_ci Kc Gc Cn : fl) (mode_ : string) (scheme : Z) (f_ : fl)
  : outcome (fl * fl) :=
  call! (unc, cem) := GM_pcm_ends sigma K0 G0 phic v_cem v_ci Kc Gc Cn scheme f_ in
  let '(Kunc, Gunc) := unc in
  let '(Kcem, Gcem) := cem in
  call! (Kp, Gp) := (if String.eqb mode_ "stiff" then GM_pcm_stiff f Kunc Gunc Kcem Gcem
                     else GM_pcm_soft f Kunc Gunc Kcem Gcem) in
  GM_pcm_final Kp Gp K0 G0 phi phic.

(** GM.py 620-641, [GM.diluting]. A scalar stress makes the item assignment of line 640 fail. *)
Definition GM_diluting (k sigma0 : fl) (sigma : sarg) (m_ : fl) : outcome (list fl) :=
  match sigma with
  | SArray xs => Ret (map (fun s => fnan0 (k * fpow NumPy (#1 - s /n sigma0) m_)) xs)
  | SScalar s =>
      match k * fpow m (#1 - s / sigma0) m_ with
      | Exc e => Raise e
      | _ => Raise TypeError
      end
  end.

(** GM.py 644-732, [GM.vpcm], for one element of [alpha]. *)
Definition GM_vpcm (alpha f sigma K0 G0 phi phic v_cem v_ci Kc Gc Cn : fl) (scheme : Z) (f_ : fl)
  : outcome (fl * fl) :=
  call! (unc, cem) := GM_pcm_ends sigma K0 G0 phic v_cem v_ci Kc Gc Cn scheme f_ in
  let '(Kunc, Gunc) := unc in
  let '(Kcem, Gcem) := cem in
  call! (Kp_stiff, Gp_stiff) := GM_pcm_stiff f Kunc Gunc Kcem Gcem in
  call! (Kp_soft, Gp_soft) := GM_pcm_soft f Kunc Gunc Kcem Gcem in
  let! Kp := Kp_stiff * (#1 - alpha) + Kp_soft * alpha in
  let! Gp := Gp_stiff * (#1 - alpha) + Gp_soft * alpha in
  GM_pcm_final Kp Gp K0 G0 phi phic.

End GM.
