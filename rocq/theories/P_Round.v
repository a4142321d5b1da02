(** * P_Round: floating-point results (C81). *)
From Verif Require Import Fl M_Utils M_EM M_Fluid M_GM M_Perm M_Array M_ArrayFns M_Round Spec16 Spec18
  L_ArrayFns L_Round L_Round2 L_RoundRel L_RoundFns L_RoundFns2.
Open Scope R_scope.

(** Without rounding, the floating-point run is the exact run. *)
Theorem C81_no_rounding : forall m p xs, inside p xs ->
  exists rs, run m p (map Fin xs) = Ret (map Fin rs) /\ forall ys, fprog 0 p xs ys <-> ys = Some rs.
Proof.
  intros m p xs H. exists (rrun p xs). split; [apply run_fin; auto|]. intros ys; split.
  - intros F.
    assert (K : forall eps, 0 < eps -> exists ys', ys = Some ys' /\ close eps (rrun p xs) ys').
    { intros eps He. destruct (prog_close p xs H eps He) as (d & Hd & K). apply (K 0 xs ys); auto; [lra|apply close_refl; lra]. }
    destruct (K 1 ltac:(lra)) as (ys' & -> & _). f_equal. symmetry. apply close_eq. intros eps He.
    destruct (K eps He) as (ys2 & E & C). congruence.
  - intros ->. apply fprog_exact; auto; lra.
Qed.
Print Assumptions C81_no_rounding.

(** Every function of M_ArrayFns.v: as the rounding unit and the errors of the inputs go to zero, the computed results go to
    the exact ones. *)
Theorem C81_rounding_vanishes : forall m p xs, inside p xs ->
  exists rs, run m p (map Fin xs) = Ret (map Fin rs) /\
  forall eps, 0 < eps -> exists d, 0 < d /\
    forall u xs' ys, 0 <= u <= d -> close d xs xs' -> fprog u p xs' ys -> exists rs', ys = Some rs' /\ close eps rs rs'.
Proof.
  intros m p xs H. exists (rrun p xs). split; [apply run_fin; auto|]. apply prog_close; auto.
Qed.
Print Assumptions C81_rounding_vanishes.

(** A run exists, whatever the rounding unit: the claims on all runs are not empty. *)
Theorem C81_runs_exist : forall m u p xs, 0 <= u -> inside p xs ->
  exists rs, run m p (map Fin xs) = Ret (map Fin rs) /\ fprog u p xs (Some rs).
Proof. intros m u p xs Hu H. exists (rrun p xs). split; [apply run_fin; auto|apply fprog_exact; auto]. Qed.
Print Assumptions C81_runs_exist.

(** Whatever the arguments: a run always exists (perhaps without a claim); numbers computed without rounding are the exact
    result; a smaller rounding unit allows no new results. *)
Theorem C81_every_input : forall u v p xs, 0 <= u <= v ->
  (exists ys, fprog u p xs ys) /\
  (forall ys, fprog u p xs ys -> fprog v p xs ys) /\
  (forall m rs, closed (length xs) p -> fprog 0 p xs (Some rs) -> run m p (map Fin xs) = Ret (map Fin rs)).
Proof.
  intros u v p xs Hu. split; [apply fprog_total; lra|]. split; [intros ys; apply fprog_mono; lra|intros m rs; apply run_sound].
Qed.
Print Assumptions C81_every_input.

(** Relative errors, in units of rounding (u is 2^-53 = 1.1e-16 in double precision). *)
Theorem C81_velocities : forall m u K G rho ys, 0 <= u <= / 1000000 -> 0 < K -> 0 < G -> 0 < rho ->
  fprog u arr_utils_V [K; G; rho] ys -> accurate u (out2 (utils_V m #K #G #rho)%fl) [8; 5]%nat ys.
Proof. intros; apply V_acc; auto. Qed.
Print Assumptions C81_velocities.
Theorem C81_moduli_from_velocities : forall m u den vp vs ys, 0 <= u <= / 1000000 ->
  0 < den -> 0 < vp -> 0 < vs -> 8 * vs ^ 2 <= 3 * vp ^ 2 ->
  fprog u arr_utils_M_from_V [den; vp; vs] ys -> accurate u (out2 (utils_M_from_V m #den #vp #vs)%fl) [12; 5]%nat ys.
Proof. intros; apply M_from_V_acc; auto. Qed.
Print Assumptions C81_moduli_from_velocities.
Theorem C81_poisson_lame : forall m u K G ys, 0 <= u <= / 1000000 -> 0 < K -> 0 < G ->
  (4 * G <= 5 * K -> fprog u arr_utils_poi [K; G] ys -> accurate u (out1 (utils_poi m #K #G)%fl) [17]%nat ys) /\
  (4 * G <= 3 * K -> fprog u arr_utils_lame [K; G] ys -> accurate u (out1 (utils_lame m #K #G)%fl) [5]%nat ys).
Proof. intros; split; intros; [apply poi_acc|apply lame_acc]; auto. Qed.
Print Assumptions C81_poisson_lame.
Theorem C81_crack_porosity : forall m u crd alpha ys, 0 <= u <= / 1000000 ->
  fprog u arr_utils_crack_por [crd; alpha] ys -> accurate u (out1 (utils_crack_por m #crd #alpha)%fl) [6]%nat ys.
Proof. intros; apply crack_por_acc; auto. Qed.
Print Assumptions C81_crack_porosity.
Theorem C81_hs_lower : forall m u f K1 K2 G1 G2 ys, 0 <= u <= / 1000000 -> 0 <= f <= 1 -> 0 < K2 < K1 -> 0 < G2 < G1 ->
  fprog u arr_EM_HS_lower [f; K1; K2; G1; G2] ys -> accurate u (out2 (EM_HS m #f #K1 #K2 #G1 #G2 "lower")%fl) [13; 20]%nat ys.
Proof. intros; apply HS_lower_acc; auto. Qed.
Print Assumptions C81_hs_lower.
Theorem C81_critical_porosity : forall m u K0 G0 phi phic ys, 0 <= u <= / 1000000 -> 0 <= phi -> 0 < phic -> 4 * phi <= 3 * phic ->
  fprog u arr_EM_cripor [K0; G0; phi; phic] ys -> accurate u (out2 (EM_cripor m #K0 #G0 #phi #phic)%fl) [7; 7]%nat ys.
Proof. intros; apply cripor_acc; auto. Qed.
Print Assumptions C81_critical_porosity.
Theorem C81_gassmann : forall m u Kd Gd Km Kf phi ys, 0 <= u <= / 1000000 ->
  0 < Kd -> 0 < Kf <= Km -> 0 <= phi <= 1 -> 4 * Kd <= 3 * Km ->
  fprog u arr_Fluid_Gassmann [Kd; Gd; Km; Kf; phi] ys -> accurate u (out2 (Fluid_Gassmann m #Kd #Gd #Km #Kf #phi)%fl) [34; 1]%nat ys.
Proof. intros; apply Gassmann_acc; auto. Qed.
Print Assumptions C81_gassmann.
Theorem C81_saturated_velocities : forall m u Kd Gd K0 D0 Kf Df phi ys, 0 <= u <= / 1000000 ->
  0 < Kd -> 0 < Gd -> 0 < Kf <= K0 -> 0 < D0 -> 0 < Df -> 0 <= phi <= 1 -> 4 * Kd <= 3 * K0 ->
  fprog u arr_Fluid_vels [Kd; Gd; K0; D0; Kf; Df; phi] ys ->
  accurate u (out3 (Fluid_vels m #Kd #Gd #K0 #D0 #Kf #Df #phi)%fl) [42; 7; 4]%nat ys.
Proof. intros; apply vels_acc; auto. Qed.
Print Assumptions C81_saturated_velocities.
Theorem C81_geertsma_smit : forall m u Vp0 Vpinf freq phi rhofl kapa eta ys, 0 <= u <= / 1000000 ->
  0 < Vp0 -> 0 < Vpinf -> 0 < freq -> 0 < phi -> 0 < rhofl -> 0 < kapa -> 0 < eta ->
  fprog u arr_Fluid_Geertsma_Smit_LF [Vp0; Vpinf; freq; phi; rhofl; kapa; eta] ys ->
  accurate u (out1 (Fluid_Geertsma_Smit_LF m #Vp0 #Vpinf #freq #phi #rhofl #kapa #eta)%fl) [43]%nat ys.
Proof. intros; apply Geertsma_Smit_LF_acc; auto. Qed.
Print Assumptions C81_geertsma_smit.
Theorem C81_permeability : forall m u phi d ys, 0 <= u <= / 1000000 -> 0 < phi < 1 ->
  (fprog u arr_Perm_Kozeny_Carman [phi; d] ys -> accurate u (out1 (Perm_Kozeny_Carman m #phi #d)%fl) [10]%nat ys) /\
  (forall C S tau, 0 < C -> 0 < S -> 0 < tau -> fprog u arr_Perm_Panda_Lake [d; C; S; tau; phi] ys ->
     accurate u (out1 (Perm_Panda_Lake m #d #C #S #tau #phi)%fl) [29]%nat ys) /\
  (forall b, 0 < d -> 0 < b -> fprog u arr_Perm_Fredrich [phi; d; b] ys ->
     accurate u (out1 (Perm_Fredrich m #phi #d #b)%fl) [18]%nat ys).
Proof.
  intros m u phi d ys Hu Hp; split; [|split]; intros; [apply Kozeny_Carman_acc|apply Panda_Lake_acc|apply Fredrich_acc]; auto.
Qed.
Print Assumptions C81_permeability.
Theorem C81_hertzmindlin : forall m u K0 G0 phic Cn sigma f K G ys, 0 <= u <= / 1000000 ->
  0 < K0 -> 0 < G0 -> 4 * G0 <= 5 * K0 -> 0 <= phic < 1 -> 0 < Cn -> 0 < sigma -> 0 <= f ->
  GM_hertzmindlin m #K0 #G0 #phic #Cn #sigma #f = Ret (#K, #G)%fl -> Rabs (ln K) <= 20 ->
  fprog u arr_GM_hertzmindlin [K0; G0; phic; Cn; sigma; f] ys ->
  accurate u (out2 (GM_hertzmindlin m #K0 #G0 #phic #Cn #sigma #f)%fl) [75; 124]%nat ys.
Proof. intros; eapply hertzmindlin_acc; eauto. Qed.
Print Assumptions C81_hertzmindlin.

Ltac go N := first [ reflexivity | exact I | apply N | simpl; lra ].
(** The bulk modulus of M_from_V is a difference of squared velocities: no fixed number of rounding units bounds its relative
    error. *)
Theorem C81_bulk_modulus_cancellation_refuted : forall u n, 0 < u ->
  exists den vp vs K G K' G', 0 < den /\ 0 < vp /\ 0 < vs /\
    (forall m, utils_M_from_V m #den #vp #vs = Ret (#K, #G)%fl) /\ 0 < K /\
    fprog u arr_utils_M_from_V [den; vp; vs] (Some [K'; G']) /\ ~ rounded u n K K'.
Proof.
  intros u n Hu. pose proof (pos_INR n) as Pn. set (d := / (INR n + 2)).
  assert (Hd : 0 < d <= / 2) by (unfold d; split; [apply Rinv_0_lt_compat; lra|apply Rinv_le_contravar; lra]).
  set (vs := sqrt (3 / 4 * (1 - d))).
  assert (V2 : vs ^ 2 = 3 / 4 * (1 - d)) by (unfold vs; rewrite <- Rsqr_pow2; apply Rsqr_sqrt; lra).
  assert (Pv : 0 < vs) by (apply sqrt_lt_R0; lra).
  set (q := 4 * vs ^ 2 / 3). assert (Q : q = 1 - d) by (unfold q; rewrite V2; field).
  exists 1, 1, vs, (1 * 1000 * (1 ^ 2 - 4 * vs ^ 2 / 3) / 1000000000), (1 * 1000 * vs ^ 2 / 1000000000),
    (1 * 1000 * (1 ^ 2 * (1 + u) - 4 * vs ^ 2 / 3) / 1000000000), (1 * 1000 * vs ^ 2 / 1000000000).
  repeat split; try lra.
  - intros m. unfold utils_M_from_V. repeat (first [fl1 | rewrite fdiv_fin by lra]; cbv beta zeta). reflexivity.
  - assert (L : forall z, (Z.abs z <= 2 ^ 53)%Z -> lit u (IZR z) (IZR z)) by (intros; split; auto; apply near_refl; lra).
    assert (N : forall x, near u x x) by (intros; apply near_refl; lra).
    assert (N2 : near u (1 ^ 2) (1 ^ 2 * (1 + u))).
    { unfold near. replace (1 ^ 2 * (1 + u) - 1 ^ 2) with u by ring. rewrite !Rabs_right by lra. lra. }
    assert (Lx : forall env r, fev u env (ELit r) (Some r)) by (intros; exists r; split; auto; split; auto).
    assert (Vx : forall env k x, nth k env 0 = x -> fev u env (EVar k) (Some x)) by (intros env k x <-; reflexivity).
    assert (O2 : forall env o e1 e2 x1 x2 y, fev u env e1 (Some x1) -> fev u env e2 (Some x2) -> def2 o x1 x2 ->
       round2 u o x1 x2 y -> fev u env (EOp2 o e1 e2) (Some y)).
    { intros env o e1 e2 x1 x2 y A B D R. exists (Some x1), (Some x2). repeat split; auto. left; split; eauto. }
    assert (O1 : forall env o e1 x1 y, fev u env e1 (Some x1) -> def1 o x1 ->
       round1 u o x1 y -> fev u env (EOp1 o e1) (Some y)).
    { intros env o e1 x1 y A D R. exists (Some x1). repeat split; auto. left; split; eauto. }
    unfold arr_utils_M_from_V.
    exists (Some (1 * 1000 * (1 ^ 2 * (1 + u) - 4 * vs ^ 2 / 3))). split.
    { eapply O2; [eapply O2; [apply Vx; reflexivity|apply Lx|go N|go N]| |go N|go N].
      eapply O2; [eapply O1; [apply Vx; reflexivity|go N|exact N2]| |go N|go N].
      eapply O2; [eapply O2; [apply Lx|eapply O1; [apply Vx; reflexivity|go N|go N]|go N|go N]|apply Lx|go N|go N]. }
    cbn [app]. exists (Some (1 * 1000 * vs ^ 2)). split.
    { eapply O2; [eapply O2; [apply Vx; reflexivity|apply Lx|go N|go N]| |go N|go N].
      eapply O1; [apply Vx; reflexivity|go N|go N]. }
    cbn [app]. eexists (Some _). split.
    { eapply O2; [apply Vx; reflexivity|apply Lx| |apply N]. simpl; lra. }
    cbn [app]. eexists (Some _). split.
    { eapply O2; [apply Vx; reflexivity|apply Lx| |apply N]. simpl; lra. }
    cbn [app]. eexists (Some _), (Some _). split; [apply Vx; reflexivity|]. split.
    { eexists (Some _), (Some _). split; [apply Vx; reflexivity|]. split; [reflexivity|]. reflexivity. }
    reflexivity.
  - unfold rounded. fold q. rewrite Q. intros R.
    replace (1 * 1000 * (1 ^ 2 * (1 + u) - (1 - d)) / 1000000000 - 1 * 1000 * (1 ^ 2 - (1 - d)) / 1000000000)
      with (u / 1000000) in R by field.
    replace (1 * 1000 * (1 ^ 2 - (1 - d)) / 1000000000) with (d / 1000000) in R by field.
    rewrite !Rabs_right in R by (apply Rle_ge; lra).
    assert (D : INR n * d < 1).
    { unfold d. apply (Rmult_lt_reg_r (INR n + 2)); [lra|]. rewrite Rmult_assoc, Rinv_l by lra. lra. }
    assert (INR n * u * (d / 1000000) = INR n * d * (u / 1000000)) by field. nra.
Qed.
Print Assumptions C81_bulk_modulus_cancellation_refuted.

(** The rounding unit of double precision is covered; quartz and a sandstone meet the hypotheses. *)
Example C81_double : 0 <= (/ 2) ^ 53 <= / 1000000.
Proof.
  rewrite pow_inv. split; [left; apply Rinv_0_lt_compat, pow_lt; lra|].
  apply Rinv_le_contravar; [lra|]. rewrite pow_IZR. change (2 ^ Z.of_nat 53)%Z with 9007199254740992%Z. lra.
Qed.
Example C81_quartz_inside : inside arr_utils_V [36; 45; 2.65].
Proof.
  unfold arr_utils_V. cbn -[Rdiv Rplus Rmult sqrt].
  repeat split; try lia; try lra; try (intros e [<-|[<-|[]]]; simpl; lia).
Qed.
Example C81_gassmann_case : 0 < 12 /\ 0 < 2.25 <= 36 /\ 0 <= 0.2 <= 1 /\ 4 * 12 <= 3 * 36.
Proof. lra. Qed.
Example C81_hertzmindlin_case : exists K G,
  GM_hertzmindlin NumPy #36 #45 #(0.4) #9 #20 #1 = Ret (#K, #G)%fl /\ Rabs (ln K) <= 20 /\ 4 * 45 <= 5 * 36.
Proof.
  rewrite (L_GM1.hertzmindlin_fin NumPy 36 45 0.4 9) by lra. cbv zeta. do 2 eexists; split; [reflexivity|]. split; [|lra].
  pose proof PI_RGT_0 as PP. pose proof PI_4 as P4. pose proof PI2_3_2 as P3.
  assert (B : 1 <= Spec3.hertz_K3 36 45 0.4 9 (20 / 1000) <= 61).
  { unfold Spec3.hertz_K3, Spec3.poisson.
    replace (9 ^ 2 * (1 - 0.4) ^ 2 * 45 ^ 2 * (20 / 1000)) with 1180.98 by lra.
    replace (18 * PI ^ 2 * (1 - (3 * 36 - 2 * 45) / (6 * 36 + 2 * 45)) ^ 2) with (18 * (16 / 17) ^ 2 * PI ^ 2) by field.
    assert (9 <= PI ^ 2 <= 16) by (split; [nra|]; replace 16 with (4 ^ 2) by ring; apply pow_incr; lra).
    split; [apply RealLemmas.le_div_iff; lra|apply RealLemmas.div_le_iff; lra]. }
  set (x := Spec3.hertz_K3 36 45 0.4 9 (20 / 1000)) in *. unfold L_GM1.cbrt. destruct Rlt_dec; [|lra].
  unfold Rpower. rewrite ln_exp.
  assert (0 <= ln x) by (rewrite <- ln_1; destruct (proj1 B) as [L|<-]; [left; apply ln_increasing; lra|lra]).
  assert (ln x <= 60).
  { rewrite <- (ln_exp 60). left. apply ln_increasing; [lra|]. pose proof (exp_ineq1 60 ltac:(lra)). lra. }
  rewrite Rabs_right; lra.
Qed.
(** The 85 programs have no name but their arguments and the names they assign. *)
Example C81_closed : Forall (fun q => closed (fst q) (snd q)) [
   (3, arr_utils_V); (2, arr_utils_poi); (2, arr_utils_lame); (3, arr_utils_M_from_V);
   (2, arr_utils_crack_por); (4, arr_EM_cripor); (5, arr_EM_HS_upper); (5, arr_EM_HS_lower);
   (6, arr_EM_hudson_rand); (3, arr_EM_Dilute_crack); (3, arr_EM_OConnell_Budiansky); (5, arr_EM_SC_dilute_stress);
   (5, arr_EM_SC_dilute_strain); (7, arr_EM_MT_average); (7, arr_Anis_Thomsen); (9, arr_Anis_Thomsen_Tsvankin);
   (4, arr_Fluid_Brie); (8, arr_Fluid_Biot_HF); (8, arr_Fluid_Geertsma_Smit_HF); (7, arr_Fluid_Geertsma_Smit_LF);
   (5, arr_Fluid_Gassmann); (5, arr_Fluid_Gassmann_sub); (7, arr_Fluid_vels); (9, arr_Fluid_Gassmann_vels);
   (5, arr_Fluid_Gassmann_approx); (9, arr_Fluid_Mavko_Jizba); (3, arr_GM_ThomasStieber); (5, arr_GM_silty_shale);
   (6, arr_GM_shaly_sand); (7, arr_GM_contactcement_1); (7, arr_GM_contactcement_2); (6, arr_GM_hertzmindlin);
   (7, arr_GM_softsand); (6, arr_GM_Walton); (7, arr_GM_stiffsand); (8, arr_GM_constantcement_1);
   (8, arr_GM_constantcement_2); (8, arr_GM_MUHS_1); (8, arr_GM_MUHS_2); (2, arr_Perm_Kozeny_Carman);
   (4, arr_Perm_Kozeny_Carman_Percolation); (2, arr_Perm_Owolabi); (2, arr_Perm_Perm_logs); (5, arr_Perm_Panda_Lake);
   (2, arr_Perm_Panda_Lake_cem); (2, arr_Perm_Revil); (3, arr_Perm_Fredrich); (3, arr_Perm_Bloch);
   (4, arr_Perm_Bernabe); (3, arr_Emp_krief); (2, arr_Emp_esti_VS); (2, arr_Emp_han);
   (1, arr_Emp_ehrenberg); (1, arr_Emp_ramm_porosity_true); (1, arr_Emp_ramm_porosity_false); (1, arr_Emp_StPeter_1);
   (1, arr_Emp_StPeter_2); (1, arr_Emp_Scherbaum); (1, arr_Emp_Sclater); (1, arr_Emp_Storvoll);
   (1, arr_Emp_Hillis); (1, arr_Emp_hjelstuen); (1, arr_Emp_Cp); (2, arr_BW_dz_dp);
   (3, arr_BW_pseudo_p_t); (3, arr_BW_rho_K_co2); (3, arr_BW_rho_K_gas); (3, arr_BW_rho_K_oil);
   (4, arr_BW_rho_K_go_sat); (2, arr_BW_v_water); (2, arr_BW_rho_K_water); (3, arr_BW_v_brine);
   (3, arr_BW_rho_K_brine); (4, arr_BW_co2_brine_true); (4, arr_BW_co2_brine_false); (7, arr_AVO_zoeppritz);
   (6, arr_AVO_AVO_abe); (17, arr_AVO_AVO_ortho); (12, arr_GM_pcm_stiff_1); (12, arr_GM_pcm_stiff_2);
   (12, arr_GM_pcm_soft_1); (12, arr_GM_pcm_soft_2); (13, arr_GM_vpcm_1); (13, arr_GM_vpcm_2);
   (6, arr_QI_matrix_modulus)]%nat.
Proof.
  repeat (constructor; [cbv [fst snd]; match goal with |- closed _ ?p => unfold p end; cbn [closed closed_expr];
    repeat match goal with |- _ /\ _ => split | |- forall e, In e _ -> _ => intros e HIn; repeat (destruct HIn as [<-|HIn]; [cbn [closed_expr]|]); [..|destruct HIn] end;
    solve [exact I | lia]|]); constructor.
Qed.
