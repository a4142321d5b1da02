From Verif Require Import Fl M_Utils M_EM M_Anis Spec RealLemmas L_Lists L_Utils.
Open Scope R_scope.

Lemma mget_finmat C i j : (i < 6)%nat -> (j < 6)%nat -> mget (finmat C) i j = Fin (C i j).
Proof. intros Hi Hj. fin6 i Hi; fin6 j Hj; reflexivity. Qed.

(** The 2x2 block eigenvalue computation shared by the two velocity functions:
    matrix [[a, b], [b, d]] with a, d >= 0 and b^2 <= a d. *)
Lemma block_eig a b d : 0 <= a -> 0 <= d -> b^2 <= a * d ->
  let R := sqrt ((a - d)^2 + 4 * b^2) in
  0 <= a + d - R /\ R^2 = (a - d)^2 + 4*b^2 /\ 0 <= R.
Proof.
  intros Ha Hd Hb R.
  assert (HR : R^2 = (a - d)^2 + 4*b^2) by (apply pow2_sqrt; pos).
  assert (H0 : 0 <= R) by apply sqrt_pos. clearbody R.
  split; [|split; assumption]. assert (R <= a + d) by (apply sq_le; nra). lra.
Qed.

(** Stability conditions of a VTI matrix. *)
Definition vti_stable (c11 c33 c13 c44 c66 : R) : Prop :=
  0 <= c11 /\ 0 <= c33 /\ 0 <= c44 /\ 0 <= c66 /\ c13^2 <= c11 * c33.

Lemma vti_posdef_stable c11 c33 c13 c44 c66 :
  pos_def (vti c11 c33 c13 c44 c66) -> vti_stable c11 c33 c13 c44 c66.
Proof.
  intros H.
  assert (H11 : 0 < c11).
  { specialize (H (fun i => nth i [1;0;0;0;0;0] 0)).
    unfold energy, sum6, vti, ofrows in H; cbn [nth] in H.
    assert (0 < 1 * c11 * 1 + 0) by (eapply Rlt_le_trans; [apply H; exists 0%nat; split; [lia | cbn; lra] | right; ring]). lra. }
  assert (H33 : 0 < c33).
  { specialize (H (fun i => nth i [0;0;1;0;0;0] 0)).
    unfold energy, sum6, vti, ofrows in H; cbn [nth] in H.
    assert (0 < c33) by (eapply Rlt_le_trans; [apply H; exists 2%nat; split; [lia | cbn; lra] | right; ring]). lra. }
  assert (H44 : 0 < c44).
  { specialize (H (fun i => nth i [0;0;0;1;0;0] 0)).
    unfold energy, sum6, vti, ofrows in H; cbn [nth] in H.
    eapply Rlt_le_trans; [apply H; exists 3%nat; split; [lia | cbn; lra] | right; ring]. }
  assert (H66 : 0 < c66).
  { specialize (H (fun i => nth i [0;0;0;0;0;1] 0)).
    unfold energy, sum6, vti, ofrows in H; cbn [nth] in H.
    eapply Rlt_le_trans; [apply H; exists 5%nat; split; [lia | cbn; lra] | right; ring]. }
  assert (H13 : 0 < c33 * (c11 * c33 - c13^2)).
  { specialize (H (fun i => nth i [c33;0;-c13;0;0;0] 0)).
    unfold energy, sum6, vti, ofrows in H; cbn [nth] in H.
    eapply Rlt_le_trans; [apply H; exists 0%nat; split; [lia | cbn; lra] | right; ring]. }
  unfold vti_stable. repeat split; try lra. nra.
Qed.

Section VTI.
Variables (m : mode) (c11 c33 c13 c44 c66 den az : R).
Hypothesis Hst : vti_stable c11 c33 c13 c44 c66.
Hypothesis Hden : 0 < den.
Let s := sin (rad az).
Let c := cos (rad az).
Let aa := c11 * s^2 + c44 * c^2.
Let dd := c44 * s^2 + c33 * c^2.
Let bb := (c13 + c44) * s * c.
Let RR := sqrt ((aa - dd)^2 + 4 * bb^2).

Lemma vti_block : 0 <= aa /\ 0 <= dd /\ bb^2 <= aa * dd.
Proof.
  destruct Hst as (H1 & H3 & H4 & H6 & H13).
  assert (Hs : 0 <= s^2) by apply pow2_ge_0. assert (Hc : 0 <= c^2) by apply pow2_ge_0.
  unfold aa, dd, bb. repeat split.
  - pos.
  - pos.
  - replace (((c13 + c44) * s * c)^2) with ((c13 + c44)^2 * (s^2 * c^2)) by ring.
    set (x := s^2) in *. set (y := c^2) in *.
    replace ((c11 * x + c44 * y) * (c44 * x + c33 * y))
      with (c44 * (c11 * (x*x) + c33 * (y*y)) + (c11 * c33 + c44^2) * (x*y)) by ring.
    assert (K : 2 * (c13 * (x * y)) <= c11 * (x*x) + c33 * (y*y)).
    { apply (mean_le_sqrt (c11 * (x*x)) (c33 * (y*y)) (c13 * (x*y))); try pos.
      replace ((c13 * (x * y))^2) with (c13^2 * ((x*y)^2)) by ring.
      replace (c11 * (x*x) * (c33 * (y*y))) with (c11 * c33 * ((x*y)^2)) by ring.
      apply Rmult_le_compat_r; [apply pow2_ge_0 | exact H13]. }
    assert (K2 : c44 * (2 * (c13 * (x * y))) <= c44 * (c11 * (x*x) + c33 * (y*y)))
      by (apply Rmult_le_compat_l; assumption).
    assert (K3 : c13^2 * (x*y) <= c11 * c33 * (x*y))
      by (apply Rmult_le_compat_r; [pos | exact H13]).
    lra.
Qed.

Lemma cs1 : s^2 + c^2 = 1.
Proof. unfold s, c. generalize (sin2_cos2 (rad az)). unfold Rsqr. lra. Qed.

Lemma vti_vel_eval :
  Anis_vel_azi_VTI m (finmat (vti c11 c33 c13 c44 c66)) (Fin den) (Fin az) =
  Ret (Fin (sqrt ((aa + dd + RR) / (2 * den))), Fin (sqrt ((c66 * s^2 + c44 * c^2) / den)),
       Fin (sqrt ((aa + dd - RR) / (2 * den)))).
Proof.
  destruct vti_block as (Ha & Hd & Hb).
  pose proof (block_eig aa bb dd Ha Hd Hb) as HB. cbv zeta in HB. fold RR in HB.
  destruct HB as (HR1 & HR2 & HR3).
  destruct Hst as (H1 & H3 & H4 & H6 & H13).
  pose proof cs1 as E.
  assert (Hs : 0 <= s^2) by apply pow2_ge_0. assert (Hc : 0 <= c^2) by apply pow2_ge_0.
  unfold Anis_vel_azi_VTI. rewrite fdeg2rad_fin, bind_fin. cbv beta.
  rewrite !mget_finmat by lia. unfold vti, ofrows; cbn [nth]. rewrite !bind_fin. cbv beta.
  repeat fl1.
  fold (rad az). rewrite sin_2a. fold s; fold c.
  replace (((c11 - c44) * s ^ 2 - (c33 - c44) * c ^ 2) ^ 2 + (c13 + c44) ^ 2 * (2 * s * c) ^ 2)
    with ((aa - dd)^2 + 4 * bb^2) by (unfold aa, dd, bb; ring).
  rewrite fsqrt_fin by pos. fold RR. fls.
  replace (1/2/den * (c11 * s^2 + c33 * c^2 + c44 + RR)) with ((aa + dd + RR) / (2 * den)).
  2:{ unfold aa, dd. replace (c11 * s ^ 2 + c44 * c ^ 2 + (c44 * s ^ 2 + c33 * c ^ 2) + RR)
        with (c11 * s^2 + c33 * c^2 + c44 * (s^2 + c^2) + RR) by ring.
      rewrite E. field. lra. }
  replace (1/2/den * (c11 * s^2 + c33 * c^2 + c44 - RR)) with ((aa + dd - RR) / (2 * den)).
  2:{ unfold aa, dd. replace (c11 * s ^ 2 + c44 * c ^ 2 + (c44 * s ^ 2 + c33 * c ^ 2) - RR)
        with (c11 * s^2 + c33 * c^2 + c44 * (s^2 + c^2) - RR) by ring.
      rewrite E. field. lra. }
  replace (1/den * (c66 * s^2 + c44 * c^2)) with ((c66 * s^2 + c44 * c^2) / den) by (field; lra).
  rewrite !fsqrt_fin by pos. fls. reflexivity.
Qed.

Lemma vti_vel_christoffel :
  exists vp vsh vsv,
    Anis_vel_azi_VTI m (finmat (vti c11 c33 c13 c44 c66)) (Fin den) (Fin az)
      = Ret (Fin vp, Fin vsh, Fin vsv) /\
    phase_velocities (vti c11 c33 c13 c44 c66) den (dir13 (rad az)) vp vsh vsv /\ vsv <= vp.
Proof.
  destruct vti_block as (Ha & Hd & Hb).
  pose proof (block_eig aa bb dd Ha Hd Hb) as HB. cbv zeta in HB. fold RR in HB.
  destruct HB as (HR1 & HR2 & HR3).
  assert (Hs : 0 <= s^2) by apply pow2_ge_0. assert (Hc : 0 <= c^2) by apply pow2_ge_0.
  destruct Hst as (H1 & H3 & H4 & H6 & H13).
  assert (Hi : 0 < / (2*den)) by (apply Rinv_0_lt_compat; lra).
  do 3 eexists; split; [apply vti_vel_eval|]. split.
  2:{ apply sqrt_le_1; [pos | pos | apply Rmult_le_compat_r; lra]. }
  repeat split; try apply sqrt_pos. intros x.
  rewrite !pow2_sqrt by pos.
  replace (den * ((aa + dd + RR) / (2 * den))) with ((aa + dd + RR)/2) by (field; lra).
  replace (den * ((aa + dd - RR) / (2 * den))) with ((aa + dd - RR)/2) by (field; lra).
  replace (den * ((c66 * s^2 + c44 * c^2) / den)) with (c66 * s^2 + c44 * c^2) by (field; lra).
  replace (((aa + dd + RR) / 2 - x) * (c66 * s ^ 2 + c44 * c ^ 2 - x) * ((aa + dd - RR) / 2 - x))
    with ((c66 * s ^ 2 + c44 * c ^ 2 - x) * (((aa + dd)/2 - x)^2 - RR^2/4)) by field.
  rewrite HR2.
  unfold det3, christoffel, sum3, dir13. tens. fold s; fold c. unfold kron; cbn [Nat.eqb].
  unfold aa, bb, dd. field.
Qed.
End VTI.

(** ** HTI velocities *)
Section HTI.
Variables (m : mode) (c11 c33 c13 c44 c55 den az : R).
Hypothesis Hst : vti_stable c11 c33 c13 c55 c44.
Hypothesis Hden : 0 < den.
Let s := sin (rad az).
Let c := cos (rad az).
Let aa := c11 * c^2 + c55 * s^2.
Let dd := c55 * c^2 + c33 * s^2.
Let bb := (c13 + c55) * s * c.
Let RR := sqrt ((aa - dd)^2 + 4 * bb^2).

Lemma hti_block : 0 <= aa /\ 0 <= dd /\ bb^2 <= aa * dd.
Proof.
  destruct Hst as (H1 & H3 & H4 & H6 & H13).
  assert (Hs : 0 <= s^2) by apply pow2_ge_0. assert (Hc : 0 <= c^2) by apply pow2_ge_0.
  unfold aa, dd, bb. repeat split.
  - pos.
  - pos.
  - replace (((c13 + c55) * s * c)^2) with ((c13 + c55)^2 * (s^2 * c^2)) by ring.
    set (y := s^2) in *. set (x := c^2) in *.
    replace ((c11 * x + c55 * y) * (c55 * x + c33 * y))
      with (c55 * (c11 * (x*x) + c33 * (y*y)) + (c11 * c33 + c55^2) * (x*y)) by ring.
    assert (K : 2 * (c13 * (x * y)) <= c11 * (x*x) + c33 * (y*y)).
    { apply (mean_le_sqrt (c11 * (x*x)) (c33 * (y*y)) (c13 * (x*y))); try pos.
      replace ((c13 * (x * y))^2) with (c13^2 * ((x*y)^2)) by ring.
      replace (c11 * (x*x) * (c33 * (y*y))) with (c11 * c33 * ((x*y)^2)) by ring.
      apply Rmult_le_compat_r; [apply pow2_ge_0 | exact H13]. }
    assert (K2 : c55 * (2 * (c13 * (x * y))) <= c55 * (c11 * (x*x) + c33 * (y*y)))
      by (apply Rmult_le_compat_l; assumption).
    assert (K3 : c13^2 * (x*y) <= c11 * c33 * (x*y))
      by (apply Rmult_le_compat_r; [pos | exact H13]).
    lra.
Qed.

Lemma hti_vel_eval :
  Anis_vel_azi_HTI m (finmat (hti c11 c33 c13 c44 c55)) (Fin den) (Fin az) =
  Ret (Fin (sqrt ((aa + dd + RR) / (2 * den))), Fin (sqrt ((aa + dd - RR) / (2 * den))),
       Fin (sqrt ((c55 * c^2 + c44 * s^2) / den))).
Proof.
  destruct hti_block as (Ha & Hd & Hb).
  pose proof (block_eig aa bb dd Ha Hd Hb) as HB. cbv zeta in HB. fold RR in HB.
  destruct HB as (HR1 & HR2 & HR3).
  destruct Hst as (H1 & H3 & H4 & H6 & H13).
  pose proof (cs1 az) as E. fold s in E; fold c in E.
  assert (Hs : 0 <= s^2) by apply pow2_ge_0. assert (Hc : 0 <= c^2) by apply pow2_ge_0.
  unfold Anis_vel_azi_HTI. rewrite fdeg2rad_fin, bind_fin. cbv beta.
  rewrite !mget_finmat by lia. unfold hti, ofrows; cbn [nth]. rewrite !bind_fin. cbv beta.
  repeat fl1.
  fold (rad az). fold s; fold c.
  replace (((c33 - c55) * s ^ 2 - (c11 - c55) * c ^ 2) ^ 2 + 4 * (c13 + c55) ^ 2 * s ^ 2 * c ^ 2)
    with ((aa - dd)^2 + 4 * bb^2) by (unfold aa, dd, bb; ring).
  rewrite fsqrt_fin by pos. fold RR. fls.
  replace (1/2/den * ((c33 + c55) * s^2 + (c11 + c55) * c^2 + RR)) with ((aa + dd + RR) / (2 * den))
    by (unfold aa, dd; field; lra).
  replace (1/2/den * ((c33 + c55) * s^2 + (c11 + c55) * c^2 - RR)) with ((aa + dd - RR) / (2 * den))
    by (unfold aa, dd; field; lra).
  replace (1/den * (c55 + (c44 - c55) * s^2)) with ((c55 * c^2 + c44 * s^2) / den).
  2:{ replace (c55 * c^2 + c44 * s^2) with (c55 * (s^2 + c^2) + (c44 - c55) * s^2) by ring.
      rewrite E. field. lra. }
  rewrite !fsqrt_fin by pos. fls. reflexivity.
Qed.

Lemma hti_vel_christoffel :
  exists vp vsh vsv,
    Anis_vel_azi_HTI m (finmat (hti c11 c33 c13 c44 c55)) (Fin den) (Fin az)
      = Ret (Fin vp, Fin vsh, Fin vsv) /\
    phase_velocities (hti c11 c33 c13 c44 c55) den (dir12 (rad az)) vp vsh vsv /\ vsh <= vp.
Proof.
  destruct hti_block as (Ha & Hd & Hb).
  pose proof (block_eig aa bb dd Ha Hd Hb) as HB. cbv zeta in HB. fold RR in HB.
  destruct HB as (HR1 & HR2 & HR3).
  assert (Hs : 0 <= s^2) by apply pow2_ge_0. assert (Hc : 0 <= c^2) by apply pow2_ge_0.
  destruct Hst as (H1 & H3 & H4 & H6 & H13).
  assert (Hi : 0 < / (2*den)) by (apply Rinv_0_lt_compat; lra).
  do 3 eexists; split; [apply hti_vel_eval|]. split.
  2:{ apply sqrt_le_1; [pos | pos | apply Rmult_le_compat_r; lra]. }
  repeat split; try apply sqrt_pos. intros x.
  rewrite !pow2_sqrt by pos.
  replace (den * ((aa + dd + RR) / (2 * den))) with ((aa + dd + RR)/2) by (field; lra).
  replace (den * ((aa + dd - RR) / (2 * den))) with ((aa + dd - RR)/2) by (field; lra).
  replace (den * ((c55 * c^2 + c44 * s^2) / den)) with (c55 * c^2 + c44 * s^2) by (field; lra).
  replace (((aa + dd + RR) / 2 - x) * ((aa + dd - RR) / 2 - x) * (c55 * c ^ 2 + c44 * s ^ 2 - x))
    with ((c55 * c ^ 2 + c44 * s ^ 2 - x) * (((aa + dd)/2 - x)^2 - RR^2/4)) by field.
  rewrite HR2.
  unfold det3, christoffel, sum3, dir12. tens. fold s; fold c. unfold kron; cbn [Nat.eqb].
  unfold aa, bb, dd. field.
Qed.
End HTI.

Lemma hti_posdef_stable c11 c33 c13 c44 c55 :
  pos_def (hti c11 c33 c13 c44 c55) -> vti_stable c11 c33 c13 c55 c44.
Proof.
  intros H.
  assert (H11 : 0 < c11).
  { specialize (H (fun i => nth i [1;0;0;0;0;0] 0)).
    unfold energy, sum6, hti, ofrows in H; cbn [nth] in H.
    eapply Rlt_le_trans; [apply H; exists 0%nat; split; [lia | cbn; lra] | right; ring]. }
  assert (H33 : 0 < c33).
  { specialize (H (fun i => nth i [0;0;1;0;0;0] 0)).
    unfold energy, sum6, hti, ofrows in H; cbn [nth] in H.
    eapply Rlt_le_trans; [apply H; exists 2%nat; split; [lia | cbn; lra] | right; ring]. }
  assert (H44 : 0 < c44).
  { specialize (H (fun i => nth i [0;0;0;1;0;0] 0)).
    unfold energy, sum6, hti, ofrows in H; cbn [nth] in H.
    eapply Rlt_le_trans; [apply H; exists 3%nat; split; [lia | cbn; lra] | right; ring]. }
  assert (H66 : 0 < c55).
  { specialize (H (fun i => nth i [0;0;0;0;0;1] 0)).
    unfold energy, sum6, hti, ofrows in H; cbn [nth] in H.
    eapply Rlt_le_trans; [apply H; exists 5%nat; split; [lia | cbn; lra] | right; ring]. }
  assert (H13 : 0 < c33 * (c11 * c33 - c13^2)).
  { specialize (H (fun i => nth i [c33;0;-c13;0;0;0] 0)).
    unfold energy, sum6, hti, ofrows in H; cbn [nth] in H.
    eapply Rlt_le_trans; [apply H; exists 0%nat; split; [lia | cbn; lra] | right; ring]. }
  unfold vti_stable. repeat split; try lra. nra.
Qed.

(** ** Velocities determine the stiffness *)
Lemma v_to_c_eval den vp0 vp45 vp90 vs0 vsh90 c11 c33 c13 c44 c66 :
  den * vp90^2 = c11 -> den * vp0^2 = c33 -> den * vs0^2 = c44 -> den * vsh90^2 = c66 ->
  0 <= c13 + c44 ->
  (2 * den * vp45^2 - (c11 + c44)) * (2 * den * vp45^2 - (c33 + c44)) = (c13 + c44)^2 ->
  utils_v_to_c_VTI (Fin vp0) (Fin vp45) (Fin vp90) (Fin vs0) (Fin vsh90) (Fin den)
  = Ret (finmat (vti c11 c33 c13 c44 c66)).
Proof.
  intros E11 E33 E44 E66 Hp HM. unfold utils_v_to_c_VTI. repeat (fl1; cbv beta).
  rewrite E11, E33, E44.
  replace (4 * den ^ 2 * vp45 ^ 4 - 2 * den * vp45 ^ 2 * (c11 + c33 + 2 * c44)
           + (c11 + c44) * (c33 + c44)) with ((c13 + c44)^2) by (rewrite <- HM; ring).
  rewrite fsqrt_fin by pos. fls. rewrite write_VTI_eval. f_equal. apply finmat_ext.
  rewrite sqrt_pow2 by assumption.
  intros i j Hi Hj. fin6 i Hi; fin6 j Hj; unfold vti, ofrows; cbn [nth]; try rewrite <- E66; try field.
Qed.

Lemma rad0 : rad 0 = 0. Proof. unfold rad; field. Qed.
Lemma rad90 : rad 90 = PI/2. Proof. unfold rad; field. Qed.
Lemma rad45 : rad 45 = PI/4. Proof. unfold rad; field. Qed.

Lemma v_to_c_roundtrip m c11 c33 c13 c44 c66 den :
  vti_stable c11 c33 c13 c44 c66 -> 0 < den -> c44 <= c11 -> c44 <= c33 -> 0 <= c13 + c44 ->
  exists vp0 vsh0 vsv0 vp45 vsh45 vsv45 vp90 vsh90 vsv90,
    Anis_vel_azi_VTI m (finmat (vti c11 c33 c13 c44 c66)) (Fin den) (Fin 0)
      = Ret (Fin vp0, Fin vsh0, Fin vsv0) /\
    Anis_vel_azi_VTI m (finmat (vti c11 c33 c13 c44 c66)) (Fin den) (Fin 45)
      = Ret (Fin vp45, Fin vsh45, Fin vsv45) /\
    Anis_vel_azi_VTI m (finmat (vti c11 c33 c13 c44 c66)) (Fin den) (Fin 90)
      = Ret (Fin vp90, Fin vsh90, Fin vsv90) /\
    vsh0 = vsv0 /\
    utils_v_to_c_VTI (Fin vp0) (Fin vp45) (Fin vp90) (Fin vsh0) (Fin vsh90) (Fin den)
      = Ret (finmat (vti c11 c33 c13 c44 c66)).
Proof.
  intros Hst Hd H1 H3 Hp.
  do 9 eexists.
  split; [apply vti_vel_eval; assumption|].
  split; [apply vti_vel_eval; assumption|].
  split; [apply vti_vel_eval; assumption|].
  destruct Hst as (P1 & P3 & P4 & P6 & P13).
  rewrite rad0, rad45, rad90, sin_0, cos_0, sin_PI2, cos_PI2, sin_PI4, cos_PI4.
  assert (S2 : (1 / sqrt 2)^2 = 1/2).
  { unfold Rdiv. rewrite Rmult_1_l, pow_inv. replace (sqrt 2 ^ 2) with 2 by (rewrite pow2_sqrt; lra). lra. }
  assert (R0 : sqrt ((c11 * 0 ^ 2 + c44 * 1 ^ 2 - (c44 * 0 ^ 2 + c33 * 1 ^ 2)) ^ 2
                     + 4 * ((c13 + c44) * 0 * 1) ^ 2) = c33 - c44).
  { replace (_ + _) with ((c33 - c44)^2) by ring. apply sqrt_pow2; lra. }
  assert (R90 : sqrt ((c11 * 1 ^ 2 + c44 * 0 ^ 2 - (c44 * 1 ^ 2 + c33 * 0 ^ 2)) ^ 2
                     + 4 * ((c13 + c44) * 1 * 0) ^ 2) = c11 - c44).
  { replace (_ + _) with ((c11 - c44)^2) by ring. apply sqrt_pow2; lra. }
  rewrite R0, R90.
  replace ((c13 + c44) * (1 / sqrt 2) * (1 / sqrt 2)) with ((c13 + c44) * (1 / sqrt 2)^2) by ring.
  rewrite S2.
  split.
  { f_equal. field. lra. }
  set (R45 := sqrt ((c11 * (1 / 2) + c44 * (1 / 2) - (c44 * (1 / 2) + c33 * (1 / 2))) ^ 2
                    + 4 * ((c13 + c44) * (1 / 2)) ^ 2)).
  assert (HR : R45^2 = (c11 * (1 / 2) + c44 * (1 / 2) - (c44 * (1 / 2) + c33 * (1 / 2))) ^ 2
                       + 4 * ((c13 + c44) * (1 / 2)) ^ 2) by (apply pow2_sqrt; pos).
  assert (R0' : 0 <= R45) by apply sqrt_pos. clearbody R45.
  apply v_to_c_eval; rewrite ?pow2_sqrt; try pos; try (field; lra).
  - replace (2 * den * ((c11 * (1 / 2) + c44 * (1 / 2) + (c44 * (1 / 2) + c33 * (1 / 2)) + R45) / (2 * den)))
      with (c11/2 + c44 + c33/2 + R45) by (field; lra).
    replace ((c11 / 2 + c44 + c33 / 2 + R45 - (c11 + c44)) * (c11 / 2 + c44 + c33 / 2 + R45 - (c33 + c44)))
      with (R45^2 - ((c11 - c33)/2)^2) by field.
    rewrite HR. field.
Qed.

(** ** Thomsen parameters *)
Lemma Thomsen_eval m c11 c33 c13 c44 c66 den th :
  0 < c33 -> 0 < c44 -> 0 < den -> c33 <> c44 ->
  Anis_Thomsen m (Fin c11) (Fin c33) (Fin c13) (Fin c44) (Fin c66) (Fin den) (Fin th) =
  let a := sqrt (c33 / den) * 1000 in
  let b := sqrt (c44 / den) * 1000 in
  let e := (c11 - c33) / (2 * c33) in
  let g := (c66 - c44) / (2 * c44) in
  let d := ((c13 + c44)^2 - (c33 - c44)^2) / (2 * c33 * (c33 - c44)) in
  let s := sin (rad th) in let c := cos (rad th) in
  Ret (Fin (a * (1 + d * s^2 * c^2 + e * s^4)),
       Fin (b * (1 + c33 / c44 * (e - d) * s^2 * c^2)),
       Fin (b * (1 + g * s^2)), Fin e, Fin g, Fin d).
Proof.
  intros H3 H4 Hd Hn. cbv zeta. unfold Anis_Thomsen.
  assert (Hb : 0 < sqrt (c44 / den)) by (apply sqrt_lt_R0; pos).
  assert (Hn' : c33 - c44 <> 0) by lra.
  assert (Hx : 2 * c33 * (c33 - c44) <> 0) by (apply Rmult_integral_contrapositive; split; lra).
  fls. fold (rad th). rewrite !Rpow_mult_distr, !pow2_sqrt by pos.
  reteq; try (field; repeat split; lra).
Qed.

Lemma Tsvankin_eval m c11 c22 c33 c12 c13 c23 c44 c55 c66 :
  c33 <> 0 -> c44 <> 0 -> c55 <> 0 -> c11 <> 0 -> c33 <> c44 -> c33 <> c55 -> c11 <> c66 ->
  Anis_Thomsen_Tsvankin m (Fin c11) (Fin c22) (Fin c33) (Fin c12) (Fin c13) (Fin c23)
    (Fin c44) (Fin c55) (Fin c66) =
  Ret (Fin ((c22 - c33) / (2 * c33)), Fin (((c23 + c44)^2 - (c33 - c44)^2) / (2 * c33 * (c33 - c44))),
       Fin ((c66 - c55) / (2 * c55)), Fin ((c11 - c33) / (2 * c33)),
       Fin (((c13 + c55)^2 - (c33 - c55)^2) / (2 * c33 * (c33 - c55))),
       Fin ((c66 - c44) / (2 * c44)),
       Fin (((c12 + c66)^2 - (c11 - c66)^2) / (2 * c11 * (c11 - c66)))).
Proof.
  intros. unfold Anis_Thomsen_Tsvankin.
  assert (c33 - c44 <> 0) by lra. assert (c33 - c55 <> 0) by lra. assert (c11 - c66 <> 0) by lra.
  assert (2 * c33 <> 0) by lra.
  assert (2 * c33 * (c33 - c44) <> 0) by (apply Rmult_integral_contrapositive; split; lra).
  assert (2 * c33 * (c33 - c55) <> 0) by (apply Rmult_integral_contrapositive; split; lra).
  fls. reteq; field; auto.
Qed.

(** ** Backus average *)
Definition backus_call (L : list layer) :=
  Anis_Backus (map (fun x => Fin (lv x)) L) (map (fun x => Fin (ll x)) L) (map (fun x => Fin (lg x)) L).
Lemma avg_pos h L : good_layers L -> Forall (fun x => 0 < h x) L -> 0 < avg h L.
Proof.
  intros (H1 & H2 & _ & _) Hh. unfold avg. apply Rdiv_lt_0_compat; [|assumption].
  apply sumf_pos_mul; assumption.
Qed.

Lemma np_dot_avg h L : 0 < sumf lv L ->
  np_dot (map (fun v => fdiv NumPy v (Fin (sumf lv L))) (map (fun x => Fin (lv x)) L))
         (map (fun x => Fin (h x)) L) = Ret (Fin (avg h L)).
Proof.
  intros Hs. unfold np_dot. rewrite !map_length, Nat.eqb_refl. f_equal.
  rewrite map_map.
  rewrite (map_fin_ext _ (fun x => lv x / sumf lv L)).
  2:{ apply Forall_forall. intros x _. apply fdiv_fin. lra. }
  rewrite fdot_map. apply fin_eq. unfold avg, Rdiv at 2. rewrite Rmult_comm, <- sumf_scal.
  apply sumf_ext_all. intros x. field. lra.
Qed.

Lemma Backus_eval L : good_layers L ->
  let H := avg (fun x => 1 / (ll x + 2 * lg x)) L in
  let A := avg (fun x => ll x / (ll x + 2 * lg x)) L in
  backus_call L =
  Ret (Fin (avg (fun x => 4 * lg x * (ll x + lg x) / (ll x + 2 * lg x)) L + A^2 / H),
       Fin (/ H), Fin (A / H), Fin (/ avg (fun x => 1 / lg x) L), Fin (avg lg L)).
Proof.
  intros HL. cbv zeta. pose proof HL as (H1 & H2 & H3 & H4). unfold backus_call, Anis_Backus.
  rewrite fsum_map, bind_fin. cbv beta.
  assert (Hne : Forall (fun x => ll x + 2 * lg x <> 0) L).
  { eapply Forall_impl; [|exact H4]. cbn; intros; lra. }
  unfold np_map2. rewrite !map_length, !Nat.eqb_refl.
  rewrite !fmap2_map, !call_ret.
  rewrite (map_fin_ext (fun x => fdiv NumPy (Fin 1) (Fin (ll x) + Fin 2 * Fin (lg x))%fl)
             (fun x => 1 / (ll x + 2 * lg x))).
  2:{ eapply Forall_impl; [|exact Hne]. cbn beta. intros x Hx. fls. reflexivity. }
  rewrite (map_fin_ext (fun x => fdiv NumPy (Fin (ll x)) (Fin (ll x) + Fin 2 * Fin (lg x))%fl)
             (fun x => ll x / (ll x + 2 * lg x))).
  2:{ eapply Forall_impl; [|exact Hne]. cbn beta. intros x Hx. fls. reflexivity. }
  rewrite (map_fin_ext (fun x => fdiv NumPy (Fin 4 * Fin (lg x) * (Fin (ll x) + Fin (lg x)))%fl
                                  (Fin (ll x) + Fin 2 * Fin (lg x))%fl)
             (fun x => 4 * lg x * (ll x + lg x) / (ll x + 2 * lg x))).
  2:{ eapply Forall_impl; [|exact Hne]. cbn beta. intros x Hx. fls. reflexivity. }
  rewrite (map_map (fun x => Fin (lg x)) (fun g => fdiv NumPy (Fin 1) g)).
  rewrite (map_fin_ext (fun x => fdiv NumPy (Fin 1) (Fin (lg x))) (fun x => 1 / lg x)).
  2:{ eapply Forall_impl; [|exact H3]. cbn beta. intros x Hx. fls. reflexivity. }
  rewrite !np_dot_avg by assumption.
  assert (P1 : 0 < avg (fun x => 1 / (ll x + 2 * lg x)) L).
  { apply avg_pos; [assumption|]. eapply Forall_impl; [|exact H4]. cbn; intros; pos. }
  assert (P2 : 0 < avg (fun x => 1 / lg x) L).
  { apply avg_pos; [assumption|]. eapply Forall_impl; [|exact H3]. cbn; intros; pos. }
  fls. reteq; field; lra.
Qed.

Lemma avg_plus f g L : avg (fun x => f x + g x) L = avg f L + avg g L.
Proof.
  unfold avg, Rdiv. rewrite <- Rmult_plus_distr_r, <- sumf_plus. f_equal.
  apply sumf_ext_all. intros; ring.
Qed.
Lemma avg_scal c f L : avg (fun x => c * f x) L = c * avg f L.
Proof.
  unfold avg, Rdiv. rewrite <- Rmult_assoc, <- sumf_scal. f_equal.
  apply sumf_ext_all. intros; ring.
Qed.
Lemma avg_ext f g L : Forall (fun x => f x = g x) L -> avg f L = avg g L.
Proof.
  intros H. unfold avg. f_equal. apply sumf_ext. eapply Forall_impl; [|exact H].
  cbn; intros a Ha; rewrite Ha; reflexivity.
Qed.
Lemma avg_const c L : 0 < sumf lv L -> avg (fun _ => c) L = c.
Proof.
  intros H. unfold avg.
  rewrite (sumf_ext_all _ (fun x => c * lv x)) by (intros; ring).
  rewrite sumf_scal. field. lra.
Qed.

Lemma Backus_mech L : good_layers L ->
  exists c11 c33 c13 c44 c66,
    backus_call L = Ret (Fin c11, Fin c33, Fin c13, Fin c44, Fin c66) /\
    (forall s33 e11 e22,
       s33 = c13 * (e11 + e22) + c33 * avg (lay_e33 s33 e11 e22) L /\
       avg (lay_s11 s33 e11 e22) L
         = c11 * e11 + (c11 - 2 * c66) * e22 + c13 * avg (lay_e33 s33 e11 e22) L) /\
    (forall s23, avg (fun x => s23 / lg x) L = s23 / c44) /\
    (forall g12, avg (fun x => lg x * g12) L = c66 * g12).
Proof.
  intros HL. pose proof HL as (H1 & H2 & H3 & H4).
  do 5 eexists. split; [apply Backus_eval; assumption|].
  set (H := avg (fun x => 1 / (ll x + 2 * lg x)) L).
  set (A := avg (fun x => ll x / (ll x + 2 * lg x)) L).
  assert (PH : 0 < H).
  { apply avg_pos; [assumption|]. eapply Forall_impl; [|exact H4]. cbn; intros; pos. }
  assert (P2 : 0 < avg (fun x => 1 / lg x) L).
  { apply avg_pos; [assumption|]. eapply Forall_impl; [|exact H3]. cbn; intros; pos. }
  split; [|split].
  - intros s33 e11 e22.
    assert (E33 : avg (lay_e33 s33 e11 e22) L = s33 * H - (e11 + e22) * A).
    { unfold H, A. unfold Rminus. rewrite Ropp_mult_distr_l, <- !avg_scal, <- avg_plus. apply avg_ext.
      eapply Forall_impl; [|exact H4]. cbn. intros x Hx. unfold lay_e33. field. lra. }
    rewrite E33. split; [field; lra|].
    assert (E11 : avg (lay_s11 s33 e11 e22) L =
      s33 * A + e11 * avg (fun x => 4 * lg x * (ll x + lg x) / (ll x + 2 * lg x)) L
      + e22 * (avg (fun x => 4 * lg x * (ll x + lg x) / (ll x + 2 * lg x)) L - 2 * avg lg L)).
    { replace (e22 * _) with (avg (fun x => e22 * (4 * lg x * (ll x + lg x) / (ll x + 2 * lg x) + (-2) * lg x)) L)
        by (rewrite avg_scal, avg_plus, (avg_scal (-2) lg); ring).
      unfold A. rewrite <- !avg_scal, <- !avg_plus. apply avg_ext.
      eapply Forall_impl; [|exact H4]. cbn. intros x Hx. unfold lay_s11, lay_e33. field. lra. }
    rewrite E11. field. lra.
  - intros s23. rewrite (avg_ext _ (fun x => s23 * (1 / lg x))).
    + rewrite avg_scal. field. lra.
    + eapply Forall_impl; [|exact H3]. cbn. intros x Hx. field. lra.
  - intros g12. rewrite Rmult_comm, <- avg_scal. apply avg_ext. apply Forall_forall. intros; ring.
Qed.

Lemma Backus_homogeneous L lam G : L <> [] -> good_layers L -> Forall (fun x => ll x = lam /\ lg x = G) L ->
  backus_call L = Ret (Fin (lam + 2*G), Fin (lam + 2*G), Fin lam, Fin G, Fin G).
Proof.
  intros Hne HL HH. pose proof HL as (H1 & H2 & H3 & H4).
  assert (0 < G /\ 0 < lam + 2 * G) as [HG HM].
  { destruct L as [|x L]; [congruence|]. inversion HH; subst. inversion H3; subst. inversion H4; subst.
    destruct H5 as [E1 E2]. rewrite E1, E2 in *. auto. }
  rewrite Backus_eval by assumption.
  rewrite (avg_ext (fun x => 4 * lg x * (ll x + lg x) / (ll x + 2 * lg x)) (fun _ => 4 * G * (lam + G) / (lam + 2 * G))).
  2:{ eapply Forall_impl; [|exact HH]. cbn. intros x [E1 E2]. rewrite E1, E2. reflexivity. }
  rewrite (avg_ext (fun x => 1 / (ll x + 2 * lg x)) (fun _ => 1 / (lam + 2 * G))).
  2:{ eapply Forall_impl; [|exact HH]. cbn. intros x [E1 E2]. rewrite E1, E2. reflexivity. }
  rewrite (avg_ext (fun x => ll x / (ll x + 2 * lg x)) (fun _ => lam / (lam + 2 * G))).
  2:{ eapply Forall_impl; [|exact HH]. cbn. intros x [E1 E2]. rewrite E1, E2. reflexivity. }
  rewrite (avg_ext (fun x => 1 / lg x) (fun _ => 1 / G)).
  2:{ eapply Forall_impl; [|exact HH]. cbn. intros x [E1 E2]. rewrite E2. reflexivity. }
  rewrite (avg_ext lg (fun _ => G)).
  2:{ eapply Forall_impl; [|exact HH]. cbn. intros x [E1 E2]. exact E2. }
  rewrite !avg_const by assumption.
  reteq; field; lra.
Qed.

From Coq Require Import Permutation.
Lemma avg_perm h L L' : Permutation L L' -> avg h L = avg h L'.
Proof. intros P. unfold avg. rewrite (sumf_perm _ _ _ P), (sumf_perm lv _ _ P). reflexivity. Qed.
Lemma good_layers_perm L L' : Permutation L L' -> good_layers L -> good_layers L'.
Proof.
  intros P (H1 & H2 & H3 & H4). unfold good_layers. rewrite <- (sumf_perm lv _ _ P).
  repeat split; try assumption; eapply Permutation_Forall; eassumption.
Qed.
Lemma Backus_perm L L' : good_layers L -> Permutation L L' -> backus_call L = backus_call L'.
Proof.
  intros HL P. rewrite !Backus_eval by (try assumption; eapply good_layers_perm; eassumption).
  rewrite !(avg_perm _ _ _ P). reflexivity.
Qed.

(** Same averages: splitting a layer or rescaling all thicknesses changes nothing. *)
Lemma Backus_split L1 L2 v1 v2 l g : 0 <= v1 -> 0 <= v2 ->
  good_layers (L1 ++ (v1 + v2, l, g) :: L2) ->
  backus_call (L1 ++ (v1 + v2, l, g) :: L2) = backus_call (L1 ++ (v1, l, g) :: (v2, l, g) :: L2).
Proof.
  intros Hv1 Hv2 HL.
  assert (ES : forall h, sumf (fun x => lv x * h x) (L1 ++ (v1 + v2, l, g) :: L2) =
                         sumf (fun x => lv x * h x) (L1 ++ (v1, l, g) :: (v2, l, g) :: L2)
                         + v1 * (h (v1 + v2, l, g) - h (v1, l, g)) + v2 * (h (v1 + v2, l, g) - h (v2, l, g))).
  { intros h. rewrite !sumf_app, !sumf_cons. unfold lv; cbn [fst snd]. ring. }
  assert (EV : sumf lv (L1 ++ (v1 + v2, l, g) :: L2) = sumf lv (L1 ++ (v1, l, g) :: (v2, l, g) :: L2)).
  { rewrite !sumf_app, !sumf_cons. unfold lv; cbn [fst snd]. ring. }
  assert (HL' : good_layers (L1 ++ (v1, l, g) :: (v2, l, g) :: L2)).
  { destruct HL as (H1 & H2 & H3 & H4). unfold good_layers. rewrite <- EV.
    apply Forall_app in H1, H3, H4. destruct H1 as [? H1], H3 as [? H3], H4 as [? H4].
    inversion H1; subst. inversion H3; subst. inversion H4; subst.
    repeat split; try assumption; apply Forall_app; split; try assumption; try (apply Forall_cons; [|apply Forall_cons; [|assumption]]);
    unfold lv, ll, lg in *; cbn [fst snd] in *; assumption. }
  rewrite !Backus_eval by assumption. unfold avg. rewrite !ES, EV. unfold ll, lg; cbn [fst snd].
  reteq; f_equal; try ring; repeat (f_equal; try ring).
Qed.

Lemma Backus_scale L k : 0 < k -> good_layers L ->
  backus_call (map (fun x => (k * lv x, ll x, lg x)) L) = backus_call L.
Proof.
  intros Hk HL.
  assert (EV : forall h : layer -> R, (forall a b c, h (k * a, b, c) = h (a, b, c)) ->
     sumf (fun x => lv x * h x) (map (fun x => (k * lv x, ll x, lg x)) L) = k * sumf (fun x => lv x * h x) L).
  { intros h Hh. unfold sumf. rewrite map_map. fold (sumf (fun x => lv (k * lv x, ll x, lg x) * h (k * lv x, ll x, lg x)) L).
    fold (sumf (fun x => lv x * h x) L).
    rewrite <- sumf_scal. apply sumf_ext_all. intros [[a b] c]. rewrite Hh. unfold lv, ll, lg; cbn. ring. }
  assert (EV' : sumf lv (map (fun x => (k * lv x, ll x, lg x)) L) = k * sumf lv L).
  { rewrite (sumf_ext_all lv (fun x => lv x * 1)) by (intros; ring). rewrite EV by reflexivity.
    f_equal. apply sumf_ext_all. intros; ring. }
  assert (HL' : good_layers (map (fun x => (k * lv x, ll x, lg x)) L)).
  { destruct HL as (H1 & H2 & H3 & H4). unfold good_layers. rewrite EV'.
    repeat split; try pos; apply Forall_map.
    - eapply Forall_impl; [|exact H1]. unfold lv at 2; cbn [fst snd]. intros a Ha; pos.
    - exact H3.
    - exact H4. }
  rewrite !Backus_eval by assumption. destruct HL as (H1 & H2 & H3 & H4).
  unfold avg. rewrite !EV by (intros; reflexivity). rewrite EV'.
  assert (EQ : forall a, k * a / (k * sumf lv L) = a / sumf lv L) by (intros; field; lra).
  rewrite !EQ. reflexivity.
Qed.

Lemma Backus_C44_le_C66 L : good_layers L ->
  exists c11 c33 c13 c44 c66,
    backus_call L = Ret (Fin c11, Fin c33, Fin c13, Fin c44, Fin c66) /\ 0 < c44 <= c66.
Proof.
  intros HL. pose proof HL as (H1 & H2 & H3 & H4).
  do 5 eexists; split; [apply Backus_eval; assumption|].
  assert (P2 : 0 < avg (fun x => 1 / lg x) L).
  { apply avg_pos; [assumption|]. eapply Forall_impl; [|exact H3]. cbn; intros; pos. }
  split; [pos|].
  pose proof (cauchy_harm lv lg L H1 H2 H3) as C.
  assert (1 <= avg lg L * avg (fun x => 1 / lg x) L).
  { unfold avg. replace 1 with ((sumf lv L)^2 / (sumf lv L)^2) at 1 by (field; lra).
    replace (_ * _) with (sumf (fun x => lv x * lg x) L * sumf (fun x => lv x * (1 / lg x)) L / (sumf lv L)^2)
      by (field; lra).
    apply Rmult_le_compat_r; [pos | exact C]. }
  apply Rmult_le_reg_r with (avg (fun x => 1 / lg x) L); [assumption|].
  rewrite Rinv_l by lra. assumption.
Qed.

Lemma vti_posdef c11 c33 c13 c44 c66 :
  0 < c44 -> 0 < c66 -> 0 < c33 -> 0 < c11 - c66 - c13^2/c33 -> pos_def (vti c11 c33 c13 c44 c66).
Proof.
  intros H4 H6 H3 HD e [i [Hi He]].
  assert (E : energy (vti c11 c33 c13 c44 c66) e =
    c33 * (e 2%nat + c13/c33 * (e 0%nat + e 1%nat))^2
    + (c11 - c66 - c13^2/c33) * (e 0%nat + e 1%nat)^2
    + c66 * ((e 0%nat - e 1%nat)^2 + (e 5%nat)^2) + c44 * ((e 3%nat)^2 + (e 4%nat)^2)).
  { unfold energy, sum6, vti, ofrows; cbn [nth]. field. lra. }
  rewrite E. set (D := c11 - c66 - c13^2/c33) in *. clearbody D. clear E.
  set (x0 := e 0%nat) in *. set (x1 := e 1%nat) in *. set (x2 := e 2%nat) in *.
  set (x3 := e 3%nat) in *. set (x4 := e 4%nat) in *. set (x5 := e 5%nat) in *.
  set (k := c13 / c33) in *. clearbody k.
  assert (N1 : 0 <= c33 * (x2 + k * (x0 + x1))^2) by pos.
  assert (N2 : 0 <= D * (x0 + x1)^2) by pos.
  assert (N3 : 0 <= c66 * ((x0 - x1)^2 + x5^2)) by pos.
  assert (N4 : 0 <= c44 * (x3^2 + x4^2)) by pos.
  destruct (Rlt_dec 0 (c33 * (x2 + k * (x0 + x1))^2 + D * (x0 + x1)^2
            + c66 * ((x0 - x1)^2 + x5^2) + c44 * (x3^2 + x4^2))) as [|Hn]; [assumption|].
  exfalso.
  assert (Z1 : c33 * (x2 + k * (x0 + x1))^2 = 0) by lra.
  assert (Z2 : D * (x0 + x1)^2 = 0) by lra.
  assert (Z3 : c66 * ((x0 - x1)^2 + x5^2) = 0) by lra.
  assert (Z4 : c44 * (x3^2 + x4^2) = 0) by lra.
  assert (Q : forall a b, 0 < a -> a * b = 0 -> b = 0).
  { intros a b Ha Hab. apply Rmult_integral in Hab. lra. }
  assert (S2 : forall a, a^2 = 0 -> a = 0) by (intros a Ha; nra).
  apply Q in Z1, Z2, Z3, Z4; try assumption.
  apply S2 in Z1, Z2.
  assert (x0 - x1 = 0) by (apply S2; nra). assert (x5 = 0) by (apply S2; nra).
  assert (x3 = 0) by (apply S2; nra). assert (x4 = 0) by (apply S2; nra).
  assert (x0 = 0) by lra. assert (x1 = 0) by lra.
  assert (x2 = 0) by (rewrite Z2 in Z1; lra).
  fin6 i Hi; apply He; assumption.
Qed.

Lemma Backus_stable L : good_layers L -> Forall (fun x => 0 < 3 * ll x + 2 * lg x) L ->
  exists c11 c33 c13 c44 c66,
    backus_call L = Ret (Fin c11, Fin c33, Fin c13, Fin c44, Fin c66) /\
    pos_def (vti c11 c33 c13 c44 c66).
Proof.
  intros HL HK. pose proof HL as (H1 & H2 & H3 & H4).
  do 5 eexists; split; [apply Backus_eval; assumption|].
  set (H := avg (fun x => 1 / (ll x + 2 * lg x)) L).
  set (A := avg (fun x => ll x / (ll x + 2 * lg x)) L).
  assert (PH : 0 < H).
  { apply avg_pos; [assumption|]. eapply Forall_impl; [|exact H4]. cbn; intros; pos. }
  assert (P2 : 0 < avg (fun x => 1 / lg x) L).
  { apply avg_pos; [assumption|]. eapply Forall_impl; [|exact H3]. cbn; intros; pos. }
  apply vti_posdef; try pos.
  - apply avg_pos; assumption.
  - replace (avg (fun x => 4 * lg x * (ll x + lg x) / (ll x + 2 * lg x)) L + A ^ 2 / H - avg lg L
             - (A / H) ^ 2 / / H)
      with (avg (fun x => (3 * ll x + 2 * lg x) * (lg x / (ll x + 2 * lg x))) L).
    + apply avg_pos; [assumption|]. rewrite Forall_forall in *. intros x Hx.
      specialize (H3 x Hx); specialize (H4 x Hx); specialize (HK x Hx); cbn in *. pos.
    + replace (avg (fun x => (3 * ll x + 2 * lg x) * (lg x / (ll x + 2 * lg x))) L)
        with (avg (fun x => 4 * lg x * (ll x + lg x) / (ll x + 2 * lg x)) L + (-1) * avg lg L).
      * field. lra.
      * rewrite <- avg_scal, <- avg_plus. apply avg_ext. eapply Forall_impl; [|exact H4].
        cbn. intros x Hx. field. lra.
Qed.

(** ** Backus_log *)
Fixpoint diffs (z : list R) : list R :=
  match z with a :: ((b :: _) as t) => (b - a) :: diffs t | _ => [] end.
Lemma np_diff_fin z : np_diff (map Fin z) = map Fin (diffs z).
Proof.
  induction z as [|a [|b z] IH]; try reflexivity.
  change (np_diff (map Fin (a :: b :: z))) with (Fin (b - a) :: np_diff (map Fin (b :: z))).
  rewrite IH. reflexivity.
Qed.
Lemma diffs_shift k z : diffs (map (Rplus k) z) = diffs z.
Proof.
  induction z as [|a [|b z] IH]; try reflexivity.
  change (diffs (map (Rplus k) (a :: b :: z))) with ((k + b - (k + a)) :: diffs (map (Rplus k) (b :: z))).
  rewrite IH. change (diffs (a :: b :: z)) with ((b - a) :: diffs (b :: z)). f_equal. ring.
Qed.
Lemma Backus_log_shift vp vs den z k :
  Anis_Backus_log vp vs den (map Fin (map (Rplus k) z)) = Anis_Backus_log vp vs den (map Fin z).
Proof. unfold Anis_Backus_log. rewrite !np_diff_fin, diffs_shift. reflexivity. Qed.

Definition log_call (top : R) (L : list logrec) :=
  Anis_Backus_log (map (fun x => Fin (l_vp x)) L) (map (fun x => Fin (l_vs x)) L)
    (map (fun x => Fin (l_den x)) L) (map Fin (depths top L)).

Lemma depths_diffs top L : diffs (depths top L) = map l_t L.
Proof.
  revert top; induction L as [|x L IH]; intros top; [reflexivity|].
  cbn [depths map]. rewrite <- (IH (top + l_t x)).
  destruct L as [|y L]; cbn [depths diffs]; f_equal; try ring.
Qed.

Lemma Backus_log_eval top L : good_layers (map log_layer L) ->
  exists c11 c33 c13 c44 c66,
    backus_call (map log_layer L) = Ret (Fin c11, Fin c33, Fin c13, Fin c44, Fin c66) /\
    log_call top L = Ret (Fin c11, Fin c33, Fin c13, Fin c44, Fin c66,
                          Fin (sumf (fun x => l_t x * l_den x) L / sumf l_t L)).
Proof.
  intros HL. do 5 eexists. split; [apply Backus_eval; assumption|].
  set (S := sumf l_t L).
  assert (ES : sumf lv (map log_layer L) = S) by (unfold sumf; rewrite map_map; reflexivity).
  assert (HS : 0 < S) by (rewrite <- ES; apply HL).
  unfold log_call, Anis_Backus_log, np_map2.
  rewrite !map_length, !Nat.eqb_refl, !fmap2_map, !call_ret.
  rewrite !map_length, !Nat.eqb_refl, !fmap2_map, !call_ret. cbv beta.
  rewrite np_diff_fin, depths_diffs.
  rewrite (map_map l_t Fin). rewrite fsum_map. fold S. rewrite bind_fin. cbv beta.
  rewrite (map_map (fun x => Fin (l_t x))).
  rewrite (map_fin_ext (fun x => fdiv NumPy (Fin (l_t x)) (Fin S)) (fun x => l_t x / S)).
  2:{ apply Forall_forall. intros x _. apply fdiv_fin. lra. }
  pose (L' := map (fun x => (/ S * lv x, ll x, lg x)) (map log_layer L)).
  assert (EB : Anis_Backus (map (fun x => Fin (l_t x / S)) L)
     (map (fun x => (Fin (l_den x) * Fin (l_vp x) ^^ 2 - Fin 2 * (Fin (l_den x) * Fin (l_vs x) ^^ 2)))%fl L)
     (map (fun x => (Fin (l_den x) * Fin (l_vs x) ^^ 2)%fl) L) = backus_call (map log_layer L)).
  { rewrite <- (Backus_scale _ (/ S)) by (try assumption; apply Rinv_0_lt_compat; assumption).
    unfold backus_call. rewrite !map_map. f_equal; apply map_ext; intros x; unfold log_layer, lv, ll, lg; cbn [fst snd]; cbn.
    apply fin_eq. field. lra. }
  rewrite EB, Backus_eval by assumption. rewrite call_ret. cbv beta iota.
  unfold np_dot. rewrite !map_length, Nat.eqb_refl, fdot_map, call_ret. cbv beta.
  do 2 apply f_equal. apply fin_eq. unfold Rdiv at 2. rewrite Rmult_comm, <- sumf_scal.
  apply sumf_ext_all. intros x. field. lra.
Qed.

(** ** Bond transformation *)
Definition bondM (b11 b12 b13 b21 b22 b23 b31 b32 b33 : R) : rmat := ofrows
  [[b11^2; b12^2; b13^2; b12*b13; b13*b11; b11*b12];
   [b21^2; b22^2; b23^2; b22*b23; b23*b21; b21*b22];
   [b31^2; b32^2; b33^2; b32*b33; b33*b31; b31*b32];
   [b21*b31; b22*b32; b23*b33; b22*b33+b23*b32; b21*b33+b23*b31; b22*b31+b21*b32];
   [b31*b11; b32*b12; b33*b13; b12*b33+b13*b32; b11*b33+b13*b31; b11*b32+b12*b31];
   [b11*b21; b12*b22; b13*b23; b22*b13+b12*b23; b11*b23+b13*b21; b22*b11+b12*b21]].
Definition transp (A : rmat) : rmat := fun i j => A j i.
Lemma fmatmul_fin A B : fmatmul (finmat A) (finmat B) = finmat (mmul A B).
Proof.
  unfold fmatmul, finmat at 3, tab6. apply map_ext_in. intros i Hi. apply map_ext_in. intros j Hj.
  apply in_seq in Hi, Hj. unfold fsum6. rewrite !mget_finmat by lia. reflexivity.
Qed.
Lemma ftrans_fin A : ftrans (finmat A) = finmat (transp A).
Proof.
  unfold ftrans, finmat at 2, tab6. apply map_ext_in. intros i Hi. apply map_ext_in. intros j Hj.
  apply in_seq in Hi, Hj. rewrite !mget_finmat by lia. reflexivity.
Qed.
Lemma Bond_M_fin b11 b12 b13 b21 b22 b23 b31 b32 b33 :
  Anis_Bond_M (Fin b11) (Fin b12) (Fin b13) (Fin b21) (Fin b22) (Fin b23) (Fin b31) (Fin b32) (Fin b33)
  = finmat (bondM b11 b12 b13 b21 b22 b23 b31 b32 b33).
Proof. reflexivity. Qed.

Definition bond_axis (axis : Z) (t : R) : rmat :=
  if Z.eqb axis 3 then bondM (cos t) (sin t) 0 (- sin t) (cos t) 0 0 0 1
  else bondM 1 0 0 0 (cos t) (- sin t) 0 (sin t) (cos t).

Lemma cos_PI2_plus t : cos (t + PI/2) = - sin t.
Proof. rewrite Rplus_comm. rewrite sin_cos. ring. Qed.

Lemma Bond_eval C th axis : (axis = 3 \/ axis = 1)%Z ->
  Anis_Bond_trans (finmat C) (Fin th) axis =
  Ret (finmat (mmul (mmul (bond_axis axis (rad th)) C) (transp (bond_axis axis (rad th))))).
Proof.
  intros [-> | ->]; unfold Anis_Bond_trans, bond_axis; cbn [Z.eqb Pos.eqb]; fls; cbv zeta;
  fold (rad th); repeat fl1; rewrite cos_PI2_plus, cos_shift, Bond_M_fin, ftrans_fin, !fmatmul_fin; reflexivity.
Qed.
Lemma Bond_axis_error C th axis : (axis <> 3 -> axis <> 1 ->
  Anis_Bond_trans C (Fin th) axis = Raise UnboundLocalError)%Z.
Proof.
  intros H3 H1. unfold Anis_Bond_trans. rewrite fdeg2rad_fin, bind_fin.
  apply Z.eqb_neq in H3, H1. rewrite H3, H1. reflexivity.
Qed.

Lemma bond0 axis : meq6 (bond_axis axis 0) ident.
Proof.
  intros i j Hi Hj. unfold bond_axis. rewrite sin_0, cos_0.
  destruct (Z.eqb axis 3); fin6 i Hi; fin6 j Hj; unfold bondM, ofrows, ident; cbn [nth Nat.eqb]; ring.
Qed.
Lemma Bond_zero C axis : (axis = 3 \/ axis = 1)%Z -> Anis_Bond_trans (finmat C) (Fin 0) axis = Ret (finmat C).
Proof.
  intros H. rewrite Bond_eval, rad0 by assumption. f_equal. apply finmat_ext.
  eapply meq6_trans.
  - apply mmul_ext; [apply mmul_ext; [apply bond0 | apply meq6_refl] |].
    instantiate (1 := ident). intros i j Hi Hj. unfold transp. rewrite bond0 by assumption.
    unfold ident. rewrite Nat.eqb_sym. reflexivity.
  - eapply meq6_trans; [apply mmul_1_r | apply mmul_1_l].
Qed.
Lemma Bond_symmetric C th axis : (axis = 3 \/ axis = 1)%Z -> symmetric C ->
  exists C', Anis_Bond_trans (finmat C) (Fin th) axis = Ret (finmat C') /\ symmetric C'.
Proof.
  intros H HC. eexists; split; [apply Bond_eval; assumption|].
  intros i j Hi Hj. rewrite !mmul_assoc. generalize (bond_axis axis (rad th)). intros M.
  unfold mmul, transp, sum6.
  rewrite (HC 1 0)%nat, (HC 2 0)%nat, (HC 3 0)%nat, (HC 4 0)%nat, (HC 5 0)%nat,
    (HC 2 1)%nat, (HC 3 1)%nat, (HC 4 1)%nat, (HC 5 1)%nat,
    (HC 3 2)%nat, (HC 4 2)%nat, (HC 5 2)%nat, (HC 4 3)%nat, (HC 5 3)%nat, (HC 5 4)%nat by lia.
  ring.
Qed.

(** The exact discrepancy on an isotropic stiffness. *)
Lemma Bond_iso K G th :
  exists C3 C1, Anis_Bond_trans (finmat (iso K G)) (Fin th) 3 = Ret (finmat C3) /\
    Anis_Bond_trans (finmat (iso K G)) (Fin th) 1 = Ret (finmat C1) /\
    C3 0%nat 0%nat = iso K G 0%nat 0%nat - 3/4 * G * sin (2 * rad th)^2 /\
    C1 2%nat 2%nat = iso K G 2%nat 2%nat - 3/4 * G * sin (2 * rad th)^2.
Proof.
  do 2 eexists. split; [apply Bond_eval; auto|]. split; [apply Bond_eval; auto|].
  rewrite !sin_2a. pose proof (cs2 (rad th)) as E.
  unfold bond_axis; cbn [Z.eqb Pos.eqb].
  generalize dependent (sin (rad th)). generalize (cos (rad th)). intros c s E.
  assert (E4 : s^4 = (1 - c*c)^2) by (replace (s^4) with ((s*s)^2) by ring; rewrite E; reflexivity).
  assert (E2 : s^2 = 1 - c*c) by (rewrite <- E; ring).
  split; unfold mmul, sum6, transp, bondM, iso, vti, ofrows; cbn [nth];
  field_simplify; rewrite ?E4, ?E2; field.
Qed.

(** ** Packaged statements *)
Lemma vti_vel_package c11 c33 c13 c44 c66 :
  exists C, utils_write_VTI_matrix (Fin c11) (Fin c33) (Fin c13) (Fin c44) (Fin c66) = Ret (finmat C) /\
  forall m den az, pos_def C -> 0 < den ->
  exists vp vsh vsv,
    Anis_vel_azi_VTI m (finmat C) (Fin den) (Fin az) = Ret (Fin vp, Fin vsh, Fin vsv) /\
    phase_velocities C den (dir13 (rad az)) vp vsh vsv /\ vsv <= vp /\
    den * vsh^2 = christoffel C (dir13 (rad az)) 1 1.
Proof.
  eexists; split; [apply write_VTI_eval|]. intros m den az Hp Hd.
  apply vti_posdef_stable in Hp.
  destruct (vti_vel_christoffel m c11 c33 c13 c44 c66 den az Hp Hd) as (vp & vsh & vsv & E & H & L).
  exists vp, vsh, vsv; repeat (split; [assumption|]).
  rewrite (vti_vel_eval m c11 c33 c13 c44 c66 den az Hp Hd) in E. injection E as _ <- _.
  destruct Hp as (? & ? & ? & ? & _).
  rewrite pow2_sqrt by (apply Rmult_le_pos; [nra | left; apply Rinv_0_lt_compat; lra]).
  unfold christoffel, tensor, dir13, sum3, vti, ofrows; cbn [vgt nth]. field; lra.
Qed.
Lemma hti_vel_package c11 c33 c13 c44 c55 :
  exists C, utils_write_HTI_matrix (Fin c11) (Fin c33) (Fin c13) (Fin c44) (Fin c55) = Ret (finmat C) /\
  forall m den az, pos_def C -> 0 < den ->
  exists vp vsh vsv,
    Anis_vel_azi_HTI m (finmat C) (Fin den) (Fin az) = Ret (Fin vp, Fin vsh, Fin vsv) /\
    phase_velocities C den (dir12 (rad az)) vp vsh vsv /\ vsh <= vp /\
    den * vsv^2 = christoffel C (dir12 (rad az)) 2 2.
Proof.
  eexists; split; [apply write_HTI_eval|]. intros m den az Hp Hd.
  apply hti_posdef_stable in Hp.
  destruct (hti_vel_christoffel m c11 c33 c13 c44 c55 den az Hp Hd) as (vp & vsh & vsv & E & H & L).
  exists vp, vsh, vsv; repeat (split; [assumption|]).
  rewrite (hti_vel_eval m c11 c33 c13 c44 c55 den az Hp Hd) in E. injection E as _ _ <-.
  destruct Hp as (? & ? & ? & ? & _).
  rewrite pow2_sqrt by (apply Rmult_le_pos; [nra | left; apply Rinv_0_lt_compat; lra]).
  unfold christoffel, tensor, dir12, sum3, hti, ofrows; cbn [vgt nth]. field; lra.
Qed.
Lemma v_to_c_package c11 c33 c13 c44 c66 :
  exists C, utils_write_VTI_matrix (Fin c11) (Fin c33) (Fin c13) (Fin c44) (Fin c66) = Ret (finmat C) /\
  forall m den, pos_def C -> 0 < den -> c44 <= c11 -> c44 <= c33 -> 0 <= c13 + c44 ->
  exists vp0 vsh0 vsv0 vp45 vsh45 vsv45 vp90 vsh90 vsv90,
    Anis_vel_azi_VTI m (finmat C) (Fin den) (Fin 0) = Ret (Fin vp0, Fin vsh0, Fin vsv0) /\
    Anis_vel_azi_VTI m (finmat C) (Fin den) (Fin 45) = Ret (Fin vp45, Fin vsh45, Fin vsv45) /\
    Anis_vel_azi_VTI m (finmat C) (Fin den) (Fin 90) = Ret (Fin vp90, Fin vsh90, Fin vsv90) /\
    vsh0 = vsv0 /\
    utils_v_to_c_VTI (Fin vp0) (Fin vp45) (Fin vp90) (Fin vsh0) (Fin vsh90) (Fin den) = Ret (finmat C).
Proof.
  eexists; split; [apply write_VTI_eval|]. intros m den Hp Hd A B D.
  apply vti_posdef_stable in Hp. apply v_to_c_roundtrip; assumption.
Qed.
Lemma Backus_stable_package L : good_layers L -> Forall (fun x => 0 < 3 * ll x + 2 * lg x) L ->
  exists c11 c33 c13 c44 c66 C,
    backus_call L = Ret (Fin c11, Fin c33, Fin c13, Fin c44, Fin c66) /\
    utils_write_VTI_matrix (Fin c11) (Fin c33) (Fin c13) (Fin c44) (Fin c66) = Ret (finmat C) /\
    pos_def C.
Proof.
  intros H1 H2. destruct (Backus_stable L H1 H2) as (a & b & c & d & e & E & P).
  exists a, b, c, d, e, (vti a b c d e). split; [exact E|]. split; [apply write_VTI_eval | exact P].
Qed.
Lemma Bond_zero_package C axis : (axis = 3 \/ axis = 1)%Z ->
  Anis_Bond_trans (finmat C) (Fin 0) axis = Ret (finmat C).
Proof. exact (Bond_zero C axis). Qed.
Lemma Bond_iso_refuted : ~ (forall m K G th axis C, (axis = 3 \/ axis = 1)%Z -> 0 < K -> 0 < G ->
  utils_write_iso m (Fin K) (Fin G) = Ret (finmat C) ->
  Anis_Bond_trans (finmat C) (Fin th) axis = Ret (finmat C)).
Proof.
  intros H.
  specialize (H PyFloat 1 1 45 3%Z (iso 1 1) (or_introl eq_refl) ltac:(lra) ltac:(lra) (write_iso_eval _ _ _)).
  destruct (Bond_iso 1 1 45) as (C3 & _ & E & _ & E00 & _).
  rewrite E in H. injection H as H00.
  rewrite E00 in H00. replace (2 * rad 45) with (PI/2) in H00 by (unfold rad; field).
  rewrite sin_PI2 in H00. lra.
Qed.
Lemma Bond_iso_defect m K G th :
  exists C C3 C1, utils_write_iso m (Fin K) (Fin G) = Ret (finmat C) /\
    Anis_Bond_trans (finmat C) (Fin th) 3 = Ret (finmat C3) /\
    Anis_Bond_trans (finmat C) (Fin th) 1 = Ret (finmat C1) /\
    C3 0%nat 0%nat = C 0%nat 0%nat - 3/4 * G * sin (2 * rad th)^2 /\
    C1 2%nat 2%nat = C 2%nat 2%nat - 3/4 * G * sin (2 * rad th)^2.
Proof.
  destruct (Bond_iso K G th) as (C3 & C1 & A & B & D & E).
  exists (iso K G), C3, C1. split; [apply write_iso_eval|]. auto.
Qed.
Lemma Tsvankin_VTI m c11 c33 c13 c44 c66 den th :
  0 < c33 -> 0 < c44 -> 0 < den -> c33 <> c44 -> c11 <> 0 -> c11 <> c66 ->
  exists vp vsv vsh eps gam del,
    Anis_Thomsen m (Fin c11) (Fin c33) (Fin c13) (Fin c44) (Fin c66) (Fin den) (Fin th)
      = Ret (Fin vp, Fin vsv, Fin vsh, Fin eps, Fin gam, Fin del) /\
    Anis_Thomsen_Tsvankin m (Fin c11) (Fin c11) (Fin c33) (Fin (c11 - 2 * c66)) (Fin c13) (Fin c13)
      (Fin c44) (Fin c44) (Fin c66)
      = Ret (Fin eps, Fin del, Fin gam, Fin eps, Fin del, Fin gam, Fin 0).
Proof.
  intros. rewrite Thomsen_eval, Tsvankin_eval by (assumption || lra). cbv zeta.
  do 6 eexists. split; [reflexivity|]. reteq. field; lra.
Qed.
Lemma Thomsen_isotropic m K G den th : 0 < K -> 0 < G -> 0 < den ->
  exists vp vs, utils_V m (Fin K) (Fin G) (Fin den) = Ret (Fin vp, Fin vs) /\
    Anis_Thomsen m (Fin (K + 4/3*G)) (Fin (K + 4/3*G)) (Fin (K - 2/3*G)) (Fin G) (Fin G) (Fin den) (Fin th)
    = Ret (Fin vp, Fin vs, Fin vs, Fin 0, Fin 0, Fin 0).
Proof.
  intros. do 2 eexists. split; [apply V_eval; lra|].
  rewrite Thomsen_eval by lra. cbv zeta.
  assert (E1 : (K + 4/3*G - (K + 4/3*G)) / (2 * (K + 4/3*G)) = 0) by (field; lra).
  assert (E2 : (G - G) / (2*G) = 0) by (field; lra).
  assert (E3 : ((K - 2/3*G + G)^2 - (K + 4/3*G - G)^2) / (2 * (K + 4/3*G) * (K + 4/3*G - G)) = 0) by (field; lra).
  rewrite E1, E2, E3. reteq; ring.
Qed.
