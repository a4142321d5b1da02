(** * Model of rockphypy/QI.py (class QI), without the figures.
    NumPy division rules are used throughout [screening], [cst_vels], [cal_v_const] and [estimate_cem]. The intermediate
    divisions that involve only Python floats (Poisson ratios of grain and cement, [1/Cn], ...) raise ZeroDivisionError
    in the code where the model has an infinity, and a Python float to a fractional power with a negative base is complex
    there and NaN here; both happen only for zero denominators (6 Kc + 2 Gc = 0, phi_c = 1, Cn = 0) or for phib_p > phi_c,
    which the theorems about these functions exclude. *)
From Verif Require Import Fl M_Utils M_EM M_GM M_Fluid M_Emp.
Open Scope fl_scope.

(** [np.max]/[np.min] of an array; an empty one raises ValueError. *)
Definition fmax2 (x y : fl) : fl :=
  match x, y with Fin a, Fin b => Fin (Rmax a b) | NaN, _ | _, NaN => NaN | _, _ => Und end.
Definition fmin2 (x y : fl) : fl :=
  match x, y with Fin a, Fin b => Fin (Rmin a b) | NaN, _ | _, NaN => NaN | _, _ => Und end.
Definition np_max (a : list fl) : outcome fl :=
  match a with [] => Raise ValueError | x :: a' => Ret (fold_left fmax2 a' x) end.
Definition np_min (a : list fl) : outcome fl :=
  match a with [] => Raise ValueError | x :: a' => Ret (fold_left fmin2 a' x) end.

(** [np.linspace(a, b, n)] for n >= 2. *)
Definition np_linspace (a b : fl) (n : nat) : list fl :=
  map (fun i => a + #(INR i) * ((b - a) /n #(INR (n - 1)))) (seq 0 n).

(** [s[a == x]] for arrays of the same length. *)
Fixpoint fselect (x : fl) (a s : list fl) : outcome (list fl) :=
  match a, s with
  | [], [] => Ret []
  | y :: a', t :: s' =>
      match feqb y x with
      | Some b => call! r := fselect x a' s' in Ret (if b then t :: r else r)
      | None => Unknown
      end
  | _, _ => Raise IndexError
  end.

Section QI.
Variable m : mode.
Local Infix "/" := (fdiv m) : fl_scope.

(** QI.py 73-77 and 115-120: fractions of shale, grain and cement in the matrix. *)
Definition QI_fractions (vsh phi_c phi_0 : fl) : outcome (fl * fl * fl) :=
  let! fc := phi_c - phi_0 in
  let! vsh_s := vsh / (#1 - phi_0) in
  let! fgs := (#1 - phi_c - vsh) / (#1 - phi_0) in
  let! fcs := fc / (#1 - phi_0) in
  Ret (vsh_s, fgs, fcs).

(** QI.py 48-88, [QI.matrix_modulus], for one porosity ([np.vstack(...).T] has one row per porosity, and [EM.VRH]
    treats each row by itself). *)
Definition QI_matrix_modulus (vsh phi_c phi_0 M_sh M_g M_c : fl) : outcome fl :=
  call! (vsh_s, fgs, fcs) := QI_fractions vsh phi_c phi_0 in
  match feqb vsh #0 with
  | Some true => call! (_, _, M_mat) := EM_VRH [fgs; fcs] [M_g; M_c] in Ret M_mat
  | Some false => call! (_, _, M_mat) := EM_VRH [vsh_s; fgs; fcs] [M_sh; M_g; M_c] in Ret M_mat
  | None => Unknown
  end.

(** QI.py 91-124, [QI.den_matrix], for one porosity. *)
Definition QI_den_matrix (vsh phi_c phi_0 den_sh den_g den_c : fl) : outcome fl :=
  call! (vsh_s, fgs, fcs) := QI_fractions vsh phi_c phi_0 in
  call! (den_mat, _, _) := EM_VRH [vsh_s; fgs; fcs] [den_sh; den_g; den_c] in
  Ret den_mat.

(** QI.py 184-186 (also 431-433, 496-498, 550-552): mineral moduli and density of a shale/quartz mixture. *)
Definition QI_mineral (Dqz Kqz Gqz Dsh Ksh Gsh vsh : fl) : outcome (fl * fl * fl) :=
  call! (_, _, K0) := EM_VRH [vsh; #1 - vsh] [Ksh; Kqz] in
  call! (_, _, G0) := EM_VRH [vsh; #1 - vsh] [Gsh; Gqz] in
  let! D0 := Dsh * vsh + Dqz * (#1 - vsh) in
  Ret (K0, G0, D0).

(** [v[phi<b]=np.nan]: one element. *)
Definition mask_lt (phi b v : fl) : outcome fl :=
  match fltb phi b with Some true => Ret NaN | Some false => Ret v | None => Unknown end.
Definition mask_gt (phi b v : fl) : outcome fl :=
  match fltb b phi with Some true => Ret NaN | Some false => Ret v | None => Unknown end.

(** QI.py 190-214, the body of [QI.screening] at one porosity (all array operations there are elementwise). The
    porosities are a NumPy array. Returns (vp1, vp2, vp3, vs1, vs2, vs3). *)
Definition QI_screening_elem (K0 G0 D0 Dqz Kqz Dsh Ksh Dc Kc Gc Db Kb phib_p phi_c sigma vsh : fl) (scheme : Z)
  (f Cn phi : fl) : outcome (fl * fl * fl * fl * fl * fl) :=
  call! (Kdry1, Gdry1) := GM_softsand NumPy K0 G0 phi phi_c Cn sigma f in
  call! (Kdry3, Gdry3) := GM_contactcement NumPy K0 G0 Kc Gc phi phi_c Cn scheme in
  call! K_mat := QI_matrix_modulus vsh phi_c phi Ksh Kqz Kc in
  call! Den_mat := QI_den_matrix vsh phi_c phi Dsh Dqz Dc in
  call! (Ksat1, Gsat1) := Fluid_Gassmann NumPy Kdry1 Gdry1 K0 Kb phi in
  call! (Ksat3, Gsat3) := Fluid_Gassmann NumPy Kdry3 Gdry3 K_mat Kb phi in
  let! rho := D0 * (#1 - phi) + Db * phi in
  let! rho_cst := Den_mat * (#1 - phi) + Db * phi in
  call! (vp1, vs1) := utils_V NumPy Ksat1 Gsat1 rho in
  call! (vp3, vs3) := utils_V NumPy Ksat3 Gsat3 rho_cst in
  call! vp3 := mask_lt phi phib_p vp3 in
  call! vs3 := mask_lt phi phib_p vs3 in
  call! (Kdry2, Gdry2) := GM_MUHS NumPy K0 G0 Kc Gc phi phib_p phi_c Cn scheme in
  call! (Ksat2, Gsat2) := Fluid_Gassmann NumPy Kdry2 Gdry2 K0 Kb phi in
  call! (vp2, vs2) := utils_V NumPy Ksat2 Gsat2 rho in
  call! vp2 := mask_gt phi phib_p vp2 in
  call! vs2 := mask_gt phi phib_p vs2 in
  Ret (vp1, vp2, vp3, vs1, vs2, vs3).
End QI.

Fixpoint oseq {A B} (f : A -> outcome B) (l : list A) : outcome (list B) :=
  match l with [] => Ret [] | x :: l' => call! y := f x in call! r := oseq f l' in Ret (y :: r) end.

(** QI.py 127-216, [QI.screening]: the porosity grid and one row of six velocities per porosity. *)
Definition QI_screening (Dqz Kqz Gqz Dsh Ksh Gsh Dc Kc Gc Db Kb phib_p phi_c sigma vsh : fl) (scheme : Z) (f Cn : fl) :
  outcome (list fl * list (fl * fl * fl * fl * fl * fl)) :=
  call! (K0, G0, D0) := QI_mineral Dqz Kqz Gqz Dsh Ksh Gsh vsh in
  let phi := np_linspace #(1/10000000) phi_c 100 in
  call! rows := oseq (QI_screening_elem NumPy K0 G0 D0 Dqz Kqz Dsh Ksh Dc Kc Gc Db Kb phib_p phi_c sigma vsh scheme f Cn) phi in
  Ret (phi, rows).

(** QI.py 252-262, [QI.normalize], on the flattened array. *)
Definition QI_normalize (density : list fl) : outcome (list fl) :=
  call! den_max := np_max density in
  Ret (map (fun d => #1 - (den_max - d) /n den_max) density).

(** QI.py 325-375, [QI.cst_vels], at one porosity of the array [phi]; the matrix density is the one of porosity [phi_b]. *)
Definition QI_cst_vels (m : mode) (phi_b K0 D0 G0 phi phi_c Cn Kc Gc Db Kb : fl) (scheme : Z) (vsh Dsh Dqz Dc : fl) : outcome (fl * fl) :=
  call! (Kdry, Gdry) := GM_constantcement NumPy phi_b K0 G0 Kc Gc phi phi_c Cn scheme in
  call! D := QI_den_matrix m vsh phi_c phi_b Dsh Dqz Dc in
  call! (vp, vs, _) := Fluid_vels NumPy Kdry Gdry K0 D Kb Db phi in
  call! vp := mask_gt phi phi_b vp in
  call! vs := mask_gt phi phi_b vs in
  Ret (vp, vs).

(** QI.py 450-502, [QI.cal_v_const], at one porosity of the array [phi]. *)
Definition QI_cal_v_const (Dqz Kqz Gqz Dsh Ksh Gsh Dc Kc Gc Db Kb phi_b phi_c vsh phi : fl) (scheme : Z) : outcome (fl * fl) :=
  call! (K0, G0, D0) := QI_mineral Dqz Kqz Gqz Dsh Ksh Gsh vsh in
  call! Cn := Emp_Cp phi_c in
  call! (Kdry, Gdry) := GM_constantcement NumPy phi_b K0 G0 Kc Gc phi phi_c Cn scheme in
  call! (vp, vs, _) := Fluid_vels NumPy Kdry Gdry K0 D0 Kb Db phi in
  Ret (vp, vs).

(** QI.py 563-574, one sample [val] against the velocities [array] of the constant-cement lines. [seeds_list]: the seeds
    were given as a Python list, which a boolean array cannot index (TypeError). [s[a==x]] with other than one match is an
    array that cannot be stored in one cell (ValueError). *)
Definition QI_cem_sample (seeds : list fl) (seeds_list : bool) (array : list fl) (val : fl) : outcome fl :=
  match array with
  | [] => Raise IndexError
  | a0 :: _ =>
      match fleb val a0, fleb (last array a0) val with
      | Some true, _ => Ret #0
      | Some false, Some true => Ret #(1/10)
      | Some false, Some false =>
          call! lo := fmask (fun x => fltb x val) array in
          call! big := np_max lo in
          call! hi := fmask (fun x => fltb val x) array in
          call! small := np_min hi in
          if seeds_list then Raise TypeError else
          call! sb := fselect big array seeds in
          call! ss := fselect small array seeds in
          match sb, ss with
          | [b], [s] => Ret ((val - small) /n (big - small) * (b - s) + s)
          | _, _ => Raise ValueError
          end
      | _, _ => Unknown
      end
  end.

(** QI.py 505-575, [QI.estimate_cem]; [logs] are the pairs (porosity, Vp) of the object. The seeds are assumed different
    (equal ones would share a data-frame column). *)
Definition QI_estimate_cem (logs : list (fl * fl)) (vcem_seeds : list fl) (seeds_list : bool)
  (Kqz Gqz Ksh Gsh phi_c Cn Kc Gc Db Kb : fl) (scheme : Z) (vsh Dsh Dqz Dc : fl) : outcome (list fl) :=
  call! rows := oseq (fun s : fl * fl =>
      call! vs := oseq (fun i => QI_cal_v_const Dqz Kqz Gqz Dsh Ksh Gsh Dc Kc Gc Db Kb (phi_c - i) phi_c vsh (fst s) scheme) vcem_seeds in
      Ret (map fst vs)) logs in
  oseq (fun p : fl * list fl => QI_cem_sample vcem_seeds seeds_list (snd p) (fst p)) (combine (map snd logs) rows).

(** QI.py 683-688, the numbers of [QI.plot_rpt] at one porosity and one saturation: (impedance, Vp/Vs). [x**-1] is
    [1/x]; porosities and saturations are NumPy arrays. *)
Definition QI_rpt_point (Kdry Gdry K0 D0 Kb Db Khc Dhc phi val : fl) : outcome (fl * fl) :=
  let! Kf := #1 /n (val /n Kb + (#1 - val) /n Khc) in
  let! Df := val * Db + (#1 - val) * Dhc in
  call! (vp, vs, rho) := Fluid_vels NumPy Kdry Gdry K0 D0 Kf Df phi in
  let! IP := vp * rho in
  let! PS := vp /n vs in
  Ret (IP, PS).
