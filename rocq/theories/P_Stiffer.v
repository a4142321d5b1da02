(** * P_Stiffer: stiffer constituents make a stiffer rock (C83). *)
From Verif Require Import Fl M_Utils M_EM M_GM M_Fluid Spec RealLemmas L_EM1 L_GM1 L_Stiffer.
Open Scope R_scope.

(** [stiffer r r']: both calls return moduli, and those of the second are not below those of the first. *)
Definition stiffer (r r' : outcome (fl * fl)) : Prop := exists K G K' G',
  r = Ret (Fin K, Fin G) /\ r' = Ret (Fin K', Fin G') /\ K <= K' /\ G <= G'.

(** Mixtures: both Hashin-Shtrikman bounds and the Mori-Tanaka average do not decrease when any modulus of a phase
    (or of the host) increases. *)
Theorem C83_mixtures : forall m f K1 K2 G1 G2 K1' K2' G1' G2', 0 <= f <= 1 ->
  0 < K1 <= K1' -> 0 < K2 <= K2' -> 0 < G1 <= G1' -> 0 < G2 <= G2' ->
  (K1 <> K2 -> G1 <> G2 -> K1' <> K2' -> G1' <> G2' -> forall bound,
    stiffer (EM_HS m (Fin f) (Fin K1) (Fin K2) (Fin G1) (Fin G2) bound)
            (EM_HS m (Fin f) (Fin K1') (Fin K2') (Fin G1') (Fin G2') bound)) /\
  (forall Km Km' Gm Gm', 0 < Km <= Km' -> 0 < Gm <= Gm' ->
    stiffer (EM_MT_average m (Fin f) (Fin Km) (Fin Gm) (Fin K1) (Fin G1) (Fin K2) (Fin G2))
            (EM_MT_average m (Fin f) (Fin Km') (Fin Gm') (Fin K1') (Fin G1') (Fin K2') (Fin G2'))).
Proof. intros. split; intros; [apply HS_le; lra|apply MT_le; lra]. Qed.
Print Assumptions C83_mixtures.

(** Porous solids: the Swiss-cheese model and the self-consistent iteration, after any number of rounds, give moduli that
    do not decrease when the mineral is stiffer and the porosity smaller. *)
Theorem C83_porous_solids : forall m Ks Ks' Gs Gs' phi phi' n, 0 < Ks <= Ks' -> 0 < Gs <= Gs' -> 0 <= phi' <= phi ->
  stiffer (EM_Swiss_cheese m (Fin Ks) (Fin Gs) (Fin phi)) (EM_Swiss_cheese m (Fin Ks') (Fin Gs') (Fin phi')) /\
  stiffer (EM_SC m (Fin phi) (Fin Ks) (Fin Gs) (Z.of_nat n)) (EM_SC m (Fin phi') (Fin Ks') (Fin Gs') (Z.of_nat n)).
Proof. intros. split; [apply Swiss_le; lra|apply SC_le; lra]. Qed.
Print Assumptions C83_porous_solids.

(** Grain packs: stiffer grains, a denser pack, more contacts, more pressure, rougher contacts. *)
Theorem C83_grain_packs : forall m K0 K0' G0 G0' phic phic' Cn Cn' sg sg' f f',
  0 < K0 <= K0' -> 0 < G0 <= G0' -> 0 <= phic' <= phic -> phic < 1 -> 0 < Cn <= Cn' -> 0 <= sg <= sg' -> 0 <= f -> f <= f' -> f' <= 1 ->
  stiffer (GM_hertzmindlin m (Fin K0) (Fin G0) (Fin phic) (Fin Cn) (Fin sg) (Fin f))
          (GM_hertzmindlin m (Fin K0') (Fin G0') (Fin phic') (Fin Cn') (Fin sg') (Fin f')) /\
  stiffer (GM_Walton m (Fin K0) (Fin G0) (Fin phic) (Fin Cn) (Fin sg) (Fin f))
          (GM_Walton m (Fin K0') (Fin G0') (Fin phic') (Fin Cn') (Fin sg') (Fin f')).
Proof. intros. split; [apply hm_le; lra|apply walton_le; lra]. Qed.
Print Assumptions C83_grain_packs.

(** Cemented sands: if the cemented pack at the well-sorted end is not softer, neither is the sand of lower porosity. *)
Theorem C83_cemented_sands : forall m K0 G0 K0' G0' Kc Gc Kc' Gc' phi phi_b phic phic' Cn Cn' s s' Kb Gb Kb' Gb',
  GM_contactcement m (Fin K0) (Fin G0) (Fin Kc) (Fin Gc) (Fin phi_b) (Fin phic) (Fin Cn) s = Ret (Fin Kb, Fin Gb) ->
  GM_contactcement m (Fin K0') (Fin G0') (Fin Kc') (Fin Gc') (Fin phi_b) (Fin phic') (Fin Cn') s' = Ret (Fin Kb', Fin Gb') ->
  0 < K0 <= K0' -> 0 < G0 <= G0' -> 0 < Kb <= Kb' -> 0 < Gb <= Gb' -> 0 < phi_b -> 0 <= phi <= phi_b ->
  stiffer (GM_constantcement m (Fin phi_b) (Fin K0) (Fin G0) (Fin Kc) (Fin Gc) (Fin phi) (Fin phic) (Fin Cn) s)
          (GM_constantcement m (Fin phi_b) (Fin K0') (Fin G0') (Fin Kc') (Fin Gc') (Fin phi) (Fin phic') (Fin Cn') s') /\
  stiffer (GM_MUHS m (Fin K0) (Fin G0) (Fin Kc) (Fin Gc) (Fin phi) (Fin phi_b) (Fin phic) (Fin Cn) s)
          (GM_MUHS m (Fin K0') (Fin G0') (Fin Kc') (Fin Gc') (Fin phi) (Fin phi_b) (Fin phic') (Fin Cn') s').
Proof. intros. split; [eapply constantcement_le; eauto|eapply MUHS_le; eauto]. Qed.
Print Assumptions C83_cemented_sands.

(** Saturation: Gassmann's modulus in the mineral, frame and fluid moduli together; Brie's fluid mixture in the moduli of
    both fluids, the water saturation and (downwards) the exponent. *)
Theorem C83_saturation : forall m,
  (forall Kd Kd' Gd Gd' K0 K0' Kf Kf' phi, 0 < K0 <= K0' -> 0 < Kf <= Kf' -> Kf < K0 -> Kf' < K0' ->
    0 <= Kd <= Kd' -> Kd < K0 -> Kd' < K0' -> Gd <= Gd' -> 0 < phi <= 1 ->
    stiffer (Fluid_Gassmann m (Fin Kd) (Fin Gd) (Fin K0) (Fin Kf) (Fin phi))
            (Fluid_Gassmann m (Fin Kd') (Fin Gd') (Fin K0') (Fin Kf') (Fin phi))) /\
  (forall Kw Kw' Kg Kg' S S' e e', 0 < Kg <= Kg' -> Kw <= Kw' -> Kg <= Kw -> Kg' <= Kw' -> 0 <= S <= S' -> S' <= 1 -> 0 < e' <= e ->
    exists K K', Fluid_Brie m (Fin Kw) (Fin Kg) (Fin S) (Fin e) = Ret (Fin K) /\
                 Fluid_Brie m (Fin Kw') (Fin Kg') (Fin S') (Fin e') = Ret (Fin K') /\ K <= K').
Proof.
  intros m. split; [|intros; apply Brie_le; lra].
  intros Kd Kd' Gd Gd' K0 K0' Kf Kf' phi H1 H2 H3 H4 H5 H6 H7 H8 H9.
  destruct (gassmann_le m Kd Kd' Gd Gd' K0 K0' Kf Kf' phi) as (K & K' & E & E' & L); try lra.
  exists K, Gd, K', Gd'. repeat split; auto; lra.
Qed.
Print Assumptions C83_saturation.

(** End to end: the velocities of a brine- or gas-filled sand. Both sand models, then Gassmann and the velocities of the
    saturated rock, at one porosity and one density of the grains and of the fluid. *)
Theorem C83_saturated_sand : forall m sand, sand = GM_softsand m \/ sand = GM_stiffsand m ->
  forall K0 K0' G0 G0' phi phic Cn Cn' sg sg' f f' Kf Kf' D0 Df,
  0 < K0 <= K0' -> 0 < G0 <= G0' -> 0 < phi <= phic -> phic < 1 -> 0 < Cn <= Cn' -> 0 < sg <= sg' -> 0 <= f -> f <= f' -> f' <= 1 ->
  0 < Kf <= Kf' -> Kf < K0 -> Kf' < K0' -> 0 < D0 -> 0 < Df ->
  exists K G K' G',
  sand (Fin K0) (Fin G0) (Fin phi) (Fin phic) (Fin Cn) (Fin sg) (Fin f) = Ret (Fin K, Fin G) /\
  sand (Fin K0') (Fin G0') (Fin phi) (Fin phic) (Fin Cn') (Fin sg') (Fin f') = Ret (Fin K', Fin G') /\
  0 < K <= K' /\ 0 < G <= G' /\
  (K < K0 -> K' < K0' -> exists vp vs vp' vs' rho,
    Fluid_vels m (Fin K) (Fin G) (Fin K0) (Fin D0) (Fin Kf) (Fin Df) (Fin phi) = Ret (Fin vp, Fin vs, Fin rho) /\
    Fluid_vels m (Fin K') (Fin G') (Fin K0') (Fin D0) (Fin Kf') (Fin Df) (Fin phi) = Ret (Fin vp', Fin vs', Fin rho) /\
    0 < vp <= vp' /\ 0 < vs <= vs').
Proof.
  intros m sand HS K0 K0' G0 G0' phi phic Cn Cn' sg sg' f f' Kf Kf' D0 Df. intros.
  assert (W : 0 < D0 * (1 - phi) + Df * phi).
  { assert (0 <= D0 * (1 - phi)) by (apply Rmult_le_pos; lra). assert (0 < Df * phi) by (apply Rmult_lt_0_compat; lra). lra. }
  assert (X : exists K G K' G', sand (Fin K0) (Fin G0) (Fin phi) (Fin phic) (Fin Cn) (Fin sg) (Fin f) = Ret (Fin K, Fin G) /\
    sand (Fin K0') (Fin G0') (Fin phi) (Fin phic) (Fin Cn') (Fin sg') (Fin f') = Ret (Fin K', Fin G') /\ 0 < K <= K' /\ 0 < G <= G').
  { destruct HS as [-> | ->]; [apply softsand_le; lra|apply stiffsand_le; lra]. }
  destruct X as (K & G & K' & G' & E & E' & A & B). exists K, G, K', G'. repeat split; auto; try lra.
  intros. apply vels_le; lra.
Qed.
Print Assumptions C83_saturated_sand.

(** A pack of stiffer grains is not stiffer in proportion: doubling the moduli of the grains multiplies the moduli of the
    pack by the cube root of four, so the modulus of the pack relative to the grain falls. *)
Theorem C83_in_proportion_refuted : ~ (forall m K0 G0 phic Cn sg f, 0 < K0 -> 0 < G0 -> 0 <= phic < 1 -> 0 < Cn -> 0 < sg -> 0 <= f <= 1 ->
  exists K G K' G',
  GM_hertzmindlin m (Fin K0) (Fin G0) (Fin phic) (Fin Cn) (Fin sg) (Fin f) = Ret (Fin K, Fin G) /\
  GM_hertzmindlin m (Fin (2 * K0)) (Fin (2 * G0)) (Fin phic) (Fin Cn) (Fin sg) (Fin f) = Ret (Fin K', Fin G') /\ K / K0 <= K' / (2 * K0)).
Proof.
  intros H. destruct (H PyFloat 37 44 (2/5) 9 20 1) as (K & G & K' & G' & E & E' & L); try lra.
  rewrite hertzmindlin_fin in E, E' by lra. cbv zeta in E, E'. injection E as EK _. injection E' as EK' _.
  assert (P : 0 < hmK 37 44 (2/5) 9 20) by (apply hmK_pos; lra). unfold hmK in P. rewrite EK in P.
  assert (C1 : K^3 = Spec3.hertz_K3 37 44 (2/5) 9 (20/1000)) by (rewrite <- EK; apply cbrt_cube, K3_nonneg; lra).
  assert (C2 : K'^3 = Spec3.hertz_K3 (2*37) (2*44) (2/5) 9 (20/1000)) by (rewrite <- EK'; apply cbrt_cube, K3_nonneg; lra).
  assert (E : K'^3 = 4 * K^3).
  { rewrite C1, C2. unfold Spec3.hertz_K3, Spec3.poisson. 
    replace ((3 * (2 * 37) - 2 * (2 * 44)) / (6 * (2 * 37) + 2 * (2 * 44))) with ((3 * 37 - 2 * 44) / (6 * 37 + 2 * 44)) by lra.
    set (nu := (3 * 37 - 2 * 44) / (6 * 37 + 2 * 44)). assert (N : 1 - nu <> 0) by (unfold nu; lra). clearbody nu.
    assert (X := PI_RGT_0). field. lra. }
  assert (2 * K <= K') by lra. assert ((2 * K)^3 <= K'^3) by (apply pow_incr; lra).
  rewrite E, Rpow_mult_distr in H1. assert (0 < K^3) by (apply pow_lt; lra). lra.
Qed.
Print Assumptions C83_in_proportion_refuted.

(** A quartz sand and a sand of softer, smoother, less loaded grains. *)
Example C83_nonvacuous :
  stiffer (GM_hertzmindlin PyFloat (Fin 30) (Fin 40) (Fin (2/5)) (Fin 6) (Fin 10) (Fin 0))
          (GM_hertzmindlin PyFloat (Fin 37) (Fin 44) (Fin (1/3)) (Fin 9) (Fin 20) (Fin 1)) /\
  stiffer (EM_HS PyFloat (Fin (1/2)) (Fin 37) (Fin 20) (Fin 44) (Fin 8) "lower")
          (EM_HS PyFloat (Fin (1/2)) (Fin 77) (Fin 37) (Fin 45) (Fin 44) "lower") /\
  stiffer (EM_SC PyFloat (Fin (1/5)) (Fin 30) (Fin 40) 10) (EM_SC PyFloat (Fin (1/5)) (Fin 37) (Fin 44) 10) /\
  stiffer (Fluid_Gassmann PyFloat (Fin 10) (Fin 9) (Fin 30) (Fin 2) (Fin (1/5)))
          (Fluid_Gassmann PyFloat (Fin 11) (Fin 9) (Fin 37) (Fin 3) (Fin (1/5))).
Proof.
  split; [apply C83_grain_packs; lra|]. split; [apply C83_mixtures; lra|].
  split; [apply (C83_porous_solids PyFloat 30 37 40 44 (1/5) (1/5) 10); lra|apply C83_saturation; lra].
Qed.
(** The quartz sand: both sand models keep the dry modulus below that of the grains at these inputs. *)
Example C83_sand_nonvacuous : exists K G, GM_stiffsand PyFloat (Fin 37) (Fin 44) (Fin (1/5)) (Fin (2/5)) (Fin 9) (Fin 20) (Fin 1) = Ret (Fin K, Fin G) /\ 0 < K < 37.
Proof.
  rewrite stiffsand_fin by lra. cbv zeta. do 2 eexists. split; [reflexivity|].
  change (cbrt _) with (hmK 37 44 (2/5) 9 20). 
  assert (P : 0 < hmK 37 44 (2/5) 9 20) by (apply hmK_pos; lra).
  assert (U : hmK 37 44 (2/5) 9 20 < 3).
  { destruct (Rlt_dec (hmK 37 44 (2/5) 9 20) 3) as [|N]; [assumption|exfalso].
    assert (27 <= hmK 37 44 (2/5) 9 20 ^ 3) by (replace 27 with (3^3) by ring; apply pow_incr; lra).
    rewrite hmK_cube in H by lra. revert H. rewrite K3_x by lra.
    assert (X : 44 / xnu 37 44 = 44 * 310 / 287) by (unfold xnu, Spec3.poisson; field_simplify; lra).
    rewrite X. assert (PI_RGT_0 := PI_RGT_0). assert (P3 : 3 < PI) by (assert (Z := PI2_3_2); lra).
    assert (9 < PI^2) by nra. apply Rlt_not_le.
    replace (9^2 * (1 - 2/5)^2 * (20/1000) / (18 * PI^2) * (44 * 310 / 287)^2) with ((9^2 * (1 - 2/5)^2 * (20/1000) / 18 * (44 * 310 / 287)^2) / PI^2) by (field; lra).
    apply div_lt_iff; lra. }
  set (k := hmK 37 44 (2/5) 9 20) in *. clearbody k. assert (Z := zK_pos 44 ltac:(lra)).
  assert (A := walpole_le_voigt (zK 44) (1/5/(2/5)) k 37 ltac:(lra) ltac:(lra) ltac:(lra)).
  split; [|lra]. assert (B := walpole_mono (zK 44) (1/5/(2/5)) k k k 37 ltac:(lra) ltac:(lra) ltac:(lra) ltac:(lra) ltac:(lra)).
  rewrite walpole_same in B by lra. lra.
Qed.
