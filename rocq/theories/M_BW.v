(** * Model of rockphypy/BW.py (class BW). *)
From Verif Require Import Fl M_Fluid.
Open Scope fl_scope.

Section BW.
Variable m : mode.
Local Infix "/" := (fdiv m) : fl_scope.

(** BW.py 20 and 85/118: the exponent shared by the compressibility factor and its derivative, without the
    sign. *)
Definition BW_gas_k (T_pr : fl) : fl := #(45/100) + #8 * (#(56/100) - #1 / T_pr) ^^ 2.

(** BW.py 16-24, [BW.dz_dp]. *)
Definition BW_dz_dp (P_pr T_pr : fl) : outcome fl :=
  let! dzdp := (#(3/100) + #(527/100000) * (#(35/10) - T_pr) ^^ 3)
    + #(109/1000) * (#(385/100) - T_pr) ^^ 2 * #(12/10) * fpow m P_pr #(2/10) * (- BW_gas_k T_pr) / T_pr
      * fexp (- BW_gas_k T_pr * fpow m P_pr #(12/10) / T_pr) in
  Ret dzdp.

(** BW.py 28-52, [BW.pseudo_p_t]. *)
Definition BW_pseudo_p_t (P T G : fl) : outcome (fl * fl * fl) :=
  let! Ta := T + #(27315/100) in
  let! P_pr := P / (#(4892/1000) - #(4048/10000) * G) in
  let! T_pr := Ta / (#(9472/100) + #(17075/100) * G) in
  Ret (Ta, P_pr, T_pr).

(** BW.py 85-93 and 118-126: the part common to [rho_K_co2] and [rho_K_gas]. [np.exp] makes Z, r_0 and dzdp
    NumPy numbers. *)
Definition BW_gas_tail (P Ta P_pr T_pr G : fl) : outcome (fl * fl) :=
  let! E := #(109/1000) * (#(385/100) - T_pr) ^^ 2 * fexp (- BW_gas_k T_pr * fpow m P_pr #(12/10) / T_pr) in
  let! Z := (#(3/100) + #(527/100000) * (#(35/10) - T_pr) ^^ 3) * P_pr
            + (#(642/1000) * T_pr - #(7/1000) * T_pr ^^ 4 - #(52/100)) + E in
  let! rho := #(288/10) * G * P /n (Z * #(83145/10000) * Ta) in
  let! r_0 := #(85/100) + #(56/10) / (P_pr + #2) + #(271/10) / (P_pr + #(35/10)) ^^ 2
              - #(87/10) * fexp (#(- (65/100)) * (P_pr + #1)) in
  call! dzdp := BW_dz_dp P_pr T_pr in
  let! K := P /n (#1 - P_pr * dzdp /n Z) * r_0 in
  let! K' := K /n #1000 in
  Ret (rho, K').

(** BW.py 56-93, [BW.rho_K_co2]. *)
Definition BW_rho_K_co2 (P T G : fl) : outcome (fl * fl) :=
  let! Ta := T + #(27315/100) in
  let! P_pr := P / #(74/10) in
  let! T_pr := Ta / (#(311/10) + #(2735/10)) in
  BW_gas_tail P Ta P_pr T_pr G.

(** BW.py 97-126, [BW.rho_K_gas]. *)
Definition BW_rho_K_gas (P T G : fl) : outcome (fl * fl) :=
  call! (Ta, P_pr, T_pr) := BW_pseudo_p_t P T G in
  BW_gas_tail P Ta P_pr T_pr G.

(** BW.py 130-153, [BW.rho_K_oil]. *)
Definition BW_rho_K_oil (P T den : fl) : outcome (fl * fl) :=
  let! rho_p := den + (#(277/100000) * P - #(171/100) * #(1/10000000) * P ^^ 3) * (den - #(115/100)) ^^ 2
                + #(349/100) * #(1/10000) * P in
  let! rho := rho_p / (#(972/1000) + #(381/100) * #(1/10000) * fpow m (T + #(1778/100)) #(1175/1000)) in
  let! v := #2096 * fpow m (den / (#(26/10) - den)) #(1/2) - #(37/10) * T + #(464/100) * P
            + #(115/10000) * (#(412/100) * fpow m (#(108/100) / den - #1) #(1/2) - #1) * T * P in
  let! K := rho * v ^^ 2 in
  let! K' := K / #1000000 in
  Ret (rho, K').

(** BW.py 157-190, [BW.rho_K_go]. [Rg = None] asks for the saturated gas-oil ratio. [x**-1] is [1/x]. *)
Definition BW_rho_K_go (P T den G : fl) (Rg : option fl) : outcome (fl * fl) :=
  let! Rg := match Rg with
             | None => #(2123/100000) * G * fpow m (P * fexp (#(4072/1000) / den - #(377/100000) * T)) #(1205/1000)
             | Some r => r
             end in
  let! B := #(972/1000) + #(38/100000) * fpow m (#(24/10) * Rg * fpow m (G / den) #(1/2) + T + #(178/10)) #(1175/1000) in
  let! rho_p := den * (#1 / (#1 + #(1/1000) * Rg)) * (#1 / B) in
  let! v := #2096 * fpow m (rho_p / (#(26/10) - rho_p)) #(1/2) - #(37/10) * T + #(464/100) * P
            + #(115/10000) * (#(412/100) * fpow m (#(108/100) / rho_p - #1) #(1/2) - #1) * T * P in
  let! rho_g := (den + #(12/10000) * G * Rg) / B in
  let! K := rho_g * v ^^ 2 in
  let! K' := K / #1000000 in
  Ret (rho_g, K').

(** BW.py 243-247: the coefficient table of [v_water]. *)
Definition BW_w : list (list R) :=
  [[140285/100; 1524/1000; 3437/1000000; - (1197/100000000)];
   [4871/1000; - (111/10000); 1739/10000000; - (1628/1000000000)];
   [- (4783/100000); 2747/10000000; - (2135/1000000000); 1237/100000000000];
   [1487/10000000; - (6503/10000000000); - (1455/100000000000); 1327/10000000000000];
   [- (2197/10000000000); 7987/10000000000000; 523/10000000000000; - (4614/10000000000000000)]]%R.

(** BW.py 222-250, [BW.v_water]; [sum] over rows (power of T) then columns (power of P). The warning above
    100 MPa is not modelled. *)
Definition BW_v_water (T P : fl) : outcome fl :=
  let terms := flat_map (fun i => map (fun j => Fin (nth j (nth i BW_w []) 0%R) * T ^^ i * P ^^ j) (seq 0 4)) (seq 0 5) in
  let! v_w := fold_left fadd terms #0 in
  Ret v_w.

(** BW.py 195-219, [BW.rho_K_water]. *)
Definition BW_rho_K_water (T P : fl) : outcome (fl * fl) :=
  let! rho_w := #1 + #(1/1000000) * (#(-80) * T - #(33/10) * T ^^ 2 + #(175/100000) * T ^^ 3 + #489 * P - #2 * T * P
                 + #(16/1000) * P * T ^^ 2 - #(13/1000000) * T ^^ 3 * P - #(333/1000) * P ^^ 2 - #(2/1000) * T * P ^^ 2) in
  call! v_w := BW_v_water T P in
  let! K_w := rho_w * v_w ^^ 2 * #(1/1000000) in
  Ret (rho_w, K_w).

(** BW.py 280-303, [BW.v_brine]. *)
Definition BW_v_brine (T P S : fl) : outcome fl :=
  call! v_w := BW_v_water T P in
  let! s1 := #1170 - #(96/10) * T + #(55/1000) * T ^^ 2 - #(85/1000000) * T ^^ 3 + #(26/10) * P - #(29/10000) * T * P
             - #(476/10000) * P ^^ 2 in
  let! s15 := #780 - #10 * P + #(16/100) * P ^^ 2 in
  let! v_b := v_w + s1 * S + s15 * fpow m S #(3/2) + #(-820) * S ^^ 2 in
  Ret v_b.

(** BW.py 253-277, [BW.rho_K_brine]. *)
Definition BW_rho_K_brine (T P S : fl) : outcome (fl * fl) :=
  call! (rho_w, _) := BW_rho_K_water T P in
  let! x := #300 * P - #2400 * P * S + T * (#80 + #3 * T - #3300 * S - #13 * P + #47 * P * S) in
  let! rho_b := rho_w + S * (#(668/1000) + #(44/100) * S + #(1/1000000) * x) in
  call! v_b := BW_v_brine T P S in
  let! K_b := rho_b * v_b ^^ 2 * #(1/1000000) in
  Ret (rho_b, K_b).

(** BW.py 306-340, [BW.co2_brine]. Both moduli are NumPy numbers, so Wood's formula divides as NumPy. *)
Definition BW_co2_brine (temperature pressure salinity Sco2 : fl) (brie_component : option fl) (bw : bool) : outcome (fl * fl) :=
  call! (rho_co2, K_co2) := (if bw then BW_rho_K_gas pressure temperature #(15349/10000)
                             else BW_rho_K_co2 pressure temperature #(15349/10000)) in
  call! (rho_brine, K_b) := BW_rho_K_brine temperature pressure salinity in
  let! den_mix := (#1 - Sco2) * rho_brine + Sco2 * rho_co2 in
  match brie_component with
  | None =>
      let! Kf_mix := #1 /n ((#1 - Sco2) /n K_b + Sco2 /n K_co2) in
      Ret (den_mix, Kf_mix)
  | Some e =>
      call! Kf_mix := Fluid_Brie m K_b K_co2 (#1 - Sco2) e in
      Ret (den_mix, Kf_mix)
  end.
End BW.
