(** * Property theorems about exact phase velocities and Thomsen's parameters (C75). *)
From Coq Require Import Lra Lia.
From Verif Require Import Fl M_Utils M_EM M_Anis Spec RealLemmas L_Lists L_Utils L_Anis L_VtiExact.
Open Scope R_scope.

(** ** C75 *)
(** What the three parameters of [Thomsen] say about the exact velocities of [vel_azi_VTI], without assuming weak
    anisotropy. gamma describes SH at every angle. Near the symmetry axis delta is the slope of Vp^2 against sin^2 and
    (epsilon - delta) c33/c44 that of Vsv^2, with an error of fourth order. epsilon is the horizontal Vp. *)
Theorem C75_thomsen_parameters_exact c11 c33 c13 c44 c66 : exists C,
  utils_write_VTI_matrix (Fin c11) (Fin c33) (Fin c13) (Fin c44) (Fin c66) = Ret (finmat C) /\
  forall m den th, pos_def C -> 0 < den -> c44 < c33 -> exists tp tsv tsh e g d M x0 vp vsh vsv,
  Anis_Thomsen m (Fin c11) (Fin c33) (Fin c13) (Fin c44) (Fin c66) (Fin den) (Fin th) =
    Ret (Fin tp, Fin tsv, Fin tsh, Fin e, Fin g, Fin d) /\
  (forall az, Anis_vel_azi_VTI m (finmat C) (Fin den) (Fin az) = Ret (Fin (vp az), Fin (vsh az), Fin (vsv az))) /\
  (forall az, den * vsh az ^ 2 = c44 * (1 + 2 * g * sin (rad az) ^ 2)) /\
  0 < x0 /\
  (forall az, sin (rad az) ^ 2 <= x0 ->
     Rabs (den * vp az ^ 2 - c33 * (1 + 2 * d * sin (rad az) ^ 2)) <= M * sin (rad az) ^ 4 /\
     Rabs (den * vsv az ^ 2 - c44 * (1 + 2 * (c33 / c44 * (e - d)) * sin (rad az) ^ 2)) <= M * sin (rad az) ^ 4) /\
  (c44 <= c11 -> den * vp 90 ^ 2 = c33 * (1 + 2 * e) /\ den * vsv 90 ^ 2 = c44).
Proof.
  eexists. split; [apply write_VTI_eval|]. intros m den th HC Hd HA.
  assert (H44 : 0 < c44).
  { specialize (HC (fun i => nth i [0;0;0;1;0;0] 0)). unfold energy, sum6, vti, ofrows in HC; cbn [nth] in HC.
    eapply Rlt_le_trans; [apply HC; exists 3%nat; split; [lia | cbn; lra] | right; ring]. }
  apply vti_posdef_stable in HC.
  set (v := Anis_vel_azi_VTI m (finmat (vti c11 c33 c13 c44 c66)) (Fin den)).
  set (vp := fun az => match v (Fin az) with Ret (Fin a, _, _) => a | _ => 0 end).
  set (vsh := fun az => match v (Fin az) with Ret (_, Fin a, _) => a | _ => 0 end).
  set (vsv := fun az => match v (Fin az) with Ret (_, _, Fin a) => a | _ => 0 end).
  assert (EV : forall az, let x := (sin (rad az))^2 in v (Fin az) = Ret (Fin (vp az), Fin (vsh az), Fin (vsv az)) /\
    den * vp az ^2 = Lv c11 c33 c13 c44 x /\ den * vsh az ^2 = c66 * x + c44 * (1 - x) /\
    den * vsv az ^2 = Pv c11 c44 x + Qv c33 c44 x - Lv c11 c33 c13 c44 x).
  { intros az x. destruct (vti_sq m c11 c33 c13 c44 c66 den az HC Hd) as (a & b & c & E & _ & _ & _ & E1 & E2 & E3).
    unfold vp, vsh, vsv, v. rewrite E. auto. }
  clearbody vp vsh vsv.
  set (A := c33 - c44). assert (PA : 0 < A) by (unfold A; lra). assert (Pa := Rabs_pos (c11 - c44)).
  rewrite (Thomsen_eval m c11 c33 c13 c44 c66 den th) by lra. cbv zeta.
  do 6 eexists.
  exists (2 * (c13 + c44)^2 / A^2 * (Rabs (c11 - c44) + 2 * (c13 + c44)^2 / A)), (Rmin 1 (A / (2 * (Rabs (c11 - c44) + A)))).
  exists vp, vsh, vsv. split; [reflexivity|].
  split; [intros az; apply EV|].
  split. { intros az. destruct (EV az) as (_ & _ & -> & _). field. lra. }
  split. { apply Rmin_glb_lt; [lra|]. apply Rdiv_lt_0_compat; lra. }
  split.
  - intros az Hx. destruct (EV az) as (_ & E1 & _ & E3). set (x := sin (rad az) ^ 2) in *.
    assert (E4 : sin (rad az) ^ 4 = x^2) by (unfold x; ring). rewrite E4.
    assert (Px : 0 <= x) by apply pow2_ge_0.
    assert (X1 : x <= 1) by (eapply Rle_trans; [exact Hx|apply Rmin_l]).
    assert (X2 : x <= A / (2 * (Rabs (c11 - c44) + A))) by (eapply Rle_trans; [exact Hx|apply Rmin_r]).
    assert (X3 : x * (2 * (Rabs (c11 - c44) + A)) <= A) by (apply le_div_iff; [lra|exact X2]).
    assert (T := Lv_taylor c11 c33 c13 c44 x HA (conj Px X1) ltac:(lra) X3). fold A in T.
    fold A. change (((c13 + c44) ^ 2 - A ^ 2) / (2 * c33 * A)) with (dv c33 c13 c44).
    split; [rewrite E1; exact T|]. rewrite E3.
    replace (Pv c11 c44 x + Qv c33 c44 x - Lv c11 c33 c13 c44 x - c44 * (1 + 2 * (c33 / c44 * ((c11 - c33) / (2 * c33) - dv c33 c13 c44)) * x))
      with (- (Lv c11 c33 c13 c44 x - c33 * (1 + 2 * dv c33 c13 c44 * x))) by (unfold Pv, Qv; field; lra).
    rewrite Rabs_Ropp. exact T.
  - intros H. destruct (EV 90) as (_ & E1 & _ & E3). rewrite rad90, sin_PI2 in E1, E3. replace (1^2) with 1 in E1, E3 by ring.
    rewrite E1, E3, Lv_horizontal by exact H. unfold Pv, Qv. split; [field; lra|ring].
Qed.
Print Assumptions C75_thomsen_parameters_exact.

(** When epsilon = delta the P wavefront is an ellipse and Vsv does not depend on the angle. *)
Theorem C75_elliptical c11 c33 c13 c44 c66 : exists C,
  utils_write_VTI_matrix (Fin c11) (Fin c33) (Fin c13) (Fin c44) (Fin c66) = Ret (finmat C) /\
  forall m den th tp tsv tsh e g, pos_def C -> 0 < den -> c44 < c33 -> c44 <= c11 ->
  Anis_Thomsen m (Fin c11) (Fin c33) (Fin c13) (Fin c44) (Fin c66) (Fin den) (Fin th) =
    Ret (Fin tp, Fin tsv, Fin tsh, Fin e, Fin g, Fin e) ->
  forall az, exists vp vsh vsv, Anis_vel_azi_VTI m (finmat C) (Fin den) (Fin az) = Ret (Fin vp, Fin vsh, Fin vsv) /\
    den * vp^2 = c11 * sin (rad az)^2 + c33 * cos (rad az)^2 /\ den * vsv^2 = c44.
Proof.
  eexists. split; [apply write_VTI_eval|]. intros m den th tp tsv tsh e g HC Hd HA HB ET az.
  assert (H44 : 0 < c44).
  { specialize (HC (fun i => nth i [0;0;0;1;0;0] 0)). unfold energy, sum6, vti, ofrows in HC; cbn [nth] in HC.
    eapply Rlt_le_trans; [apply HC; exists 3%nat; split; [lia | cbn; lra] | right; ring]. }
  apply vti_posdef_stable in HC.
  rewrite (Thomsen_eval m c11 c33 c13 c44 c66 den th) in ET by lra. cbv zeta in ET. injection ET as _ _ _ E1 _ E2.
  rewrite <- E1 in E2. change (((c13 + c44) ^ 2 - (c33 - c44) ^ 2) / (2 * c33 * (c33 - c44)) = (c11 - c33) / (2 * c33)) in E2.
  assert (EE : (c13 + c44)^2 = (c33 - c44) * (c11 - c44)).
  { apply (Rmult_eq_compat_l (2 * c33 * (c33 - c44))) in E2.
    replace (2 * c33 * (c33 - c44) * (((c13 + c44) ^ 2 - (c33 - c44) ^ 2) / (2 * c33 * (c33 - c44)))) with ((c13 + c44) ^ 2 - (c33 - c44) ^ 2) in E2 by (field; lra).
    replace (2 * c33 * (c33 - c44) * ((c11 - c33) / (2 * c33))) with ((c33 - c44) * (c11 - c33)) in E2 by (field; lra).
    apply (Rplus_eq_reg_r (- (c33 - c44)^2)). transitivity ((c13 + c44) ^ 2 - (c33 - c44) ^ 2); [ring|]. rewrite E2. ring. }
  destruct (vti_sq m c11 c33 c13 c44 c66 den az HC Hd) as (a & b & c & E & _ & _ & _ & V1 & V2 & V3).
  exists a, b, c. split; [exact E|]. rewrite V1, V3.
  assert (Q := cs1 az). cbv zeta in Q. 
  assert (Hx : 0 <= (sin (rad az))^2 <= 1) by (split; [apply pow2_ge_0|]; assert (0 <= (cos (rad az))^2) by apply pow2_ge_0; lra).
  rewrite Lv_ellipse by (assumption || lra).
  replace (cos (rad az)^2) with (1 - sin (rad az)^2) by lra. unfold Pv, Qv. split; ring.
Qed.
Print Assumptions C75_elliptical.

(** Only the angle to the symmetry axis matters. *)
Theorem C75_mirror_angles m C den az : 
  Anis_vel_azi_VTI m (finmat C) (Fin den) (Fin (- az)) = Anis_vel_azi_VTI m (finmat C) (Fin den) (Fin az) /\
  Anis_vel_azi_VTI m (finmat C) (Fin den) (Fin (180 - az)) = Anis_vel_azi_VTI m (finmat C) (Fin den) (Fin az) /\
  Anis_vel_azi_HTI m (finmat C) (Fin den) (Fin (- az)) = Anis_vel_azi_HTI m (finmat C) (Fin den) (Fin az) /\
  Anis_vel_azi_HTI m (finmat C) (Fin den) (Fin (180 - az)) = Anis_vel_azi_HTI m (finmat C) (Fin den) (Fin az).
Proof.
  assert (E1 : rad (- az) = - rad az) by (unfold rad; field).
  assert (E2 : rad (180 - az) = PI - rad az) by (unfold rad; field).
  assert (N : forall a, fpown (Fin (- a)) 2 = fpown (Fin a) 2) by (intros; rewrite !fpown_fin; f_equal; ring).
  assert (S1 : forall a, fpown (fsin (Fin (- a))) 2 = fpown (fsin (Fin a)) 2) by (intros; rewrite !fsin_fin, sin_neg; apply N).
  assert (S2 : forall a, fpown (fsin (fmul (Fin 2) (Fin (- a)))) 2 = fpown (fsin (fmul (Fin 2) (Fin a))) 2).
  { intros. rewrite !fmul_fin. replace (2 * - a) with (- (2 * a)) by ring. apply S1. }
  assert (S3 : forall a, fcos (Fin (- a)) = fcos (Fin a)) by (intros; rewrite !fcos_fin, cos_neg; reflexivity).
  assert (T1 : forall a, fsin (Fin (PI - a)) = fsin (Fin a)) by (intros; rewrite !fsin_fin; f_equal; apply sin_PI_x).
  assert (T2 : forall a, fpown (fsin (fmul (Fin 2) (Fin (PI - a)))) 2 = fpown (fsin (fmul (Fin 2) (Fin a))) 2).
  { intros. rewrite !fmul_fin. replace (2 * (PI - a)) with (- (2 * a) + 2 * 1 * PI) by ring. rewrite !fsin_fin.
    change 1 with (INR 1) at 1. rewrite sin_period, sin_neg. apply N. }
  assert (T3 : forall a, fpown (fcos (Fin (PI - a))) 2 = fpown (fcos (Fin a)) 2).
  { intros. rewrite !fcos_fin. replace (PI - a) with (- a + PI) by ring. rewrite neg_cos, cos_neg. apply N. }
  unfold Anis_vel_azi_VTI, Anis_vel_azi_HTI. rewrite !fdeg2rad_fin, !bind_fin. cbv beta. fold (rad (- az)) (rad (180 - az)) (rad az).
  rewrite E1, E2, !S1, !S2, !S3, !T1, !T2, !T3. repeat split; reflexivity.
Qed.
Print Assumptions C75_mirror_angles.

(** A medium with a horizontal symmetry axis is the vertical one turned over: same angles to the axis, same velocities. *)
Theorem C75_hti_is_rotated_vti c11 c33 c13 c44 c55 : exists H V,
  utils_write_HTI_matrix (Fin c11) (Fin c33) (Fin c13) (Fin c44) (Fin c55) = Ret (finmat H) /\
  utils_write_VTI_matrix (Fin c33) (Fin c11) (Fin c13) (Fin c55) (Fin c44) = Ret (finmat V) /\
  forall m den az, pos_def H -> 0 < den -> exists vp v_in v_out,
    Anis_vel_azi_HTI m (finmat H) (Fin den) (Fin az) = Ret (Fin vp, Fin v_in, Fin v_out) /\
    Anis_vel_azi_VTI m (finmat V) (Fin den) (Fin az) = Ret (Fin vp, Fin v_out, Fin v_in).
Proof.
  do 2 eexists. split; [apply write_HTI_eval|]. split; [apply write_VTI_eval|]. intros m den az HC Hd.
  apply hti_posdef_stable in HC. do 3 eexists. split; [apply hti_vel_eval; assumption|].
  rewrite vti_vel_eval; [|destruct HC as (A & B & C & D & E); unfold vti_stable; repeat split; lra|exact Hd].
  set (s := sin (rad az)). set (c := cos (rad az)).
  f_equal. f_equal; [f_equal|]; f_equal.
  - f_equal. f_equal. f_equal; [ring|]. f_equal. ring.
  - f_equal. f_equal. ring.
  - f_equal. f_equal. f_equal; [ring|]. f_equal. ring.
Qed.
Print Assumptions C75_hti_is_rotated_vti.

(** A shale: the hypotheses hold, and an elliptical medium exists. *)
Example C75_nonvacuous : 0 < 2.5 /\ 8 < 30 /\ 8 <= 40 /\ pos_def (vti 40 30 10 8 12).
Proof. split; [lra|]. split; [lra|]. split; [lra|]. apply vti_posdef; lra. Qed.
Example C75_nonvacuous_elliptical : pos_def (vti 40 26 16 8 12) /\ (16 + 8)^2 = (26 - 8) * (40 - 8).
Proof. split; [apply vti_posdef; lra|lra]. Qed.
