(** * Fluid.py: the full Biot model is defined at low frequency and tends to Gassmann. *)
From Verif Require Import Fl Cx M_Utils M_EM M_Anis M_Fluid Spec Spec2 RealLemmas L_Utils L_Anis L_Fluid1 L_Fluid2 L_Fluid4 L_Fluid7.
Open Scope R_scope.

Lemma csqrt_repos u v : u <> 0 -> (v = 0 -> 0 < u) -> exists a b, csqrt (CFin u v) = CFin a b /\ 0 < a /\ a^2 - b^2 = u /\ 2 * a * b = v.
Proof.
  intros Hu Hv. destruct (csqrt (CFin u v)) as [a b|] eqn:E.
  - exists a, b. split; [reflexivity|]. assert (S := csqrt_sq _ _ _ E). destruct S as (S & P). rewrite cmul_fin in S. injection S as S1 S2.
    assert (0 < a).
    { destruct P as [P|P]; [exact P|]. exfalso. subst a. cbn [csqrt] in E. destruct (Req_EM_T v 0) as [->|Nv].
      - specialize (Hv eq_refl). destruct (Rle_dec 0 u); [|lra]. injection E as E _. apply sqrt_eq_0 in E; lra.
      - apply Nv. rewrite <- S2. ring. }
    repeat split; [auto|rewrite <- S1; ring|rewrite <- S2; ring].
  - exfalso. cbn [csqrt] in E. destruct (Req_EM_T v 0) as [->|Nv]; [|discriminate]. specialize (Hv eq_refl).
    destruct (Rle_dec 0 u); [discriminate|lra].
Qed.
Lemma vel_def u v : u <> 0 -> (v = 0 -> 0 < u) -> exists a b iq,
  fdiv NumPy (Fin 1) (creal (csqrt (CFin u v))) = Fin (1 / a) /\
  fdiv NumPy (cimag (cdiv (CFin 1 0) (CFin u v))) (creal (cdiv (CFin 1 0) (CFin u v))) = Fin iq /\
  0 < a /\ a^2 - b^2 = u /\ 2 * a * b = v.
Proof.
  intros Hu Hv. destruct (csqrt_repos u v Hu Hv) as (a & b & E & P & E1 & E2). 
  assert (N : u^2 + v^2 <> 0) by (intros X; apply sumsq_0 in X; tauto).
  rewrite E, cdiv_fin by exact N. cbn [creal cimag]. 
  assert (N2 : (1 * u + 0 * v) / (u^2 + v^2) <> 0).
  { replace (1 * u + 0 * v) with u by ring. unfold Rdiv. apply Rmult_integral_contrapositive. split; [auto|apply Rinv_neq_0_compat; auto]. }
  exists a, b. eexists. rewrite !fdiv_fin by (lra || exact N2). repeat split; auto.
Qed.

Section Root.
Variables (H C M rho rf qr qi : R).
Hypotheses (HH : 0 < H) (HM : 0 < M) (Hrho : 0 < rho) (Hrf : 0 < rf) (Hqr : 0 < qr) (Hqi : 0 < qi)
  (HP : rf^2 < rho * qr) (HT : C^2 < M * H).
Let E := H * qr + M * rho - 2 * C * rf.
Let W := H^2 * qr - M * H * rho - 2 * C * H * rf + 2 * C^2 * rho.
Let Ta := C^2 - M * H.
Lemma E_pos : 0 < E.
Proof.
  assert (A : (2 * C * rf)^2 < (H * qr + M * rho)^2).
  { assert (X : C^2 * rf^2 < M * H * (rho * qr)).
    { apply Rle_lt_trans with (C^2 * (rho * qr)); [apply Rmult_le_compat_l; [apply pow2_ge_0|lra]|].
      apply Rmult_lt_compat_r; [|lra]. apply Rmult_lt_0_compat; lra. }
    assert (Y := pow2_ge_0 (H * qr - M * rho)). nra. }
  unfold E. apply Rnot_le_lt. intros L. assert (0 < H * qr) by (apply Rmult_lt_0_compat; lra).
  assert (0 < M * rho) by (apply Rmult_lt_0_compat; lra).
  assert ((H * qr + M * rho)^2 <= (2 * C * rf)^2); [|lra]. apply pow_incr; lra.
Qed.
Lemma root_eqs u v : biot_P_slowness2 H C M rho rf (CFin qr (- qi)) (CFin u v) ->
  (H * u - rho) * (qr - M * u) - (H * v) * (- qi - M * v) + ((C * u - rf)^2 - (C * v)^2) = 0 /\
  (H * u - rho) * (- qi - M * v) + (H * v) * (qr - M * u) + 2 * (C * u - rf) * (C * v) = 0.
Proof.
  unfold biot_P_slowness2. repeat first [rewrite cmul_fin | rewrite csub_fin | rewrite cadd_fin].
  intros X. injection X as X1 X2. split; [rewrite <- X1|rewrite <- X2]; ring.
Qed.
Lemma root_u_nz u v : biot_P_slowness2 H C M rho rf (CFin qr (- qi)) (CFin u v) -> u <> 0.
Proof.
  intros X ->. apply root_eqs in X. destruct X as (X1 & X2).
  assert (I : rho * qi = - E * v) by (unfold E; lra).
  assert (R1 : v^2 * (rho * (M * H - C^2) - H * E) = rho * (rho * qr - rf^2)).
  { assert (Z : rho * (- rho * qr + H * v * qi + H * M * v^2 + rf^2 - C^2 * v^2) = 0) by (rewrite <- (Rmult_0_r rho); f_equal; lra).
    replace (rho * (- rho * qr + H * v * qi + H * M * v^2 + rf^2 - C^2 * v^2)) with
      (H * v * (rho * qi) - rho * (rho * qr - rf^2) + rho * (M * H - C^2) * v^2) in Z by ring. rewrite I in Z. lra. }
  assert (Q : rho * (M * H - C^2) - H * E <= 0).
  { assert (A : rho * (rho * (M * H - C^2) - H * E) = - ((rho * C - rf * H)^2 + (rho * qr - rf^2) * H^2)) by (unfold E; ring).
    assert (0 <= (rho * C - rf * H)^2) by apply pow2_ge_0.
    assert (0 <= (rho * qr - rf^2) * H^2) by (apply Rmult_le_pos; [lra|apply pow2_ge_0]).
    apply Rmult_le_reg_l with rho; [auto|]. lra. }
  assert (0 < rho * (rho * qr - rf^2)) by (apply Rmult_lt_0_compat; lra).
  assert (0 <= v^2) by apply pow2_ge_0. assert (v^2 * (rho * (M * H - C^2) - H * E) <= 0); [|lra].
  rewrite <- (Rmult_0_r (v^2)). apply Rmult_le_compat_l; auto.
Qed.
Lemma root_real u : biot_P_slowness2 H C M rho rf (CFin qr (- qi)) (CFin u 0) -> 0 < u.
Proof.
  intros X. apply root_eqs in X. destruct X as (_ & X2).
  assert (qi * (H * u - rho) = 0) by lra. apply Rmult_integral in H0. destruct H0; [lra|].
  replace u with (rho / H); [apply Rdiv_lt_0_compat; auto|]. apply Rmult_eq_reg_l with H; [|lra]. field_simplify; lra.
Qed.
Let tb := csub (cadd (cmul (CFin H 0) (CFin qr (- qi))) (CFin (M * rho) 0)) (CFin (2 * C * rf) 0).
Let tc := csub (CFin (rf^2) 0) (cmul (CFin rho 0) (CFin qr (- qi))).
Let rt := csqrt (csub (cmul tb tb) (cmul (cmul (CFin 4 0) (CFin Ta 0)) tc)).
Let x1 := cdiv (cadd (cneg tb) rt) (CFin (2 * Ta) 0).
Let x2 := cdiv (csub (cneg tb) rt) (CFin (2 * Ta) 0).
Lemma tb_eq : tb = CFin E (- H * qi).
Proof. unfold tb. repeat first [rewrite cmul_fin | rewrite csub_fin | rewrite cadd_fin]. apply cfin_eq; unfold E; ring. Qed.
Lemma tc_eq : tc = CFin (rf^2 - rho * qr) (rho * qi).
Proof. unfold tc. repeat first [rewrite cmul_fin | rewrite csub_fin | rewrite cadd_fin]. apply cfin_eq; ring. Qed.
Hypothesis HW : W <> 0.
Lemma rt_eq : exists r1 r2, rt = CFin r1 r2 /\ 0 < r1 /\ r1^2 - r2^2 = E^2 - H^2 * qi^2 + 4 * Ta * (rho * qr - rf^2) /\ r1 * r2 = - qi * W.
Proof.
  unfold rt. rewrite tb_eq, tc_eq. repeat first [rewrite cmul_fin | rewrite csub_fin | rewrite cadd_fin].
  match goal with |- context [csqrt (CFin ?a ?b)] => set (d1 := a); set (d2 := b) end.
  assert (D2 : d2 = -2 * qi * W) by (unfold d2, W, E, Ta; ring).
  assert (N : d2 <> 0). { rewrite D2. apply Rmult_integral_contrapositive; split; [lra|auto]. }
  cbn [csqrt]. destruct (csqrt (CFin d1 d2)) as [r1 r2|] eqn:X.
  - assert (S := csqrt_sq _ _ _ X). destruct S as (S & P). rewrite cmul_fin in S. injection S as S1 S2.
    cbn [csqrt] in X. rewrite X. exists r1, r2. split; [reflexivity|].
    assert (r1 <> 0) by (intros ->; apply N; rewrite <- S2; ring).
    split; [lra|]. split; [|lra]. transitivity d1; [rewrite <- S1; ring|unfold d1; ring].
  - exfalso. cbn [csqrt] in X. destruct (Req_EM_T d2 0); [auto|discriminate].
Qed.
Lemma Ta_nz : Ta <> 0. Proof. unfold Ta. lra. Qed.
Lemma xs_def : exists u1 v1 u2 v2, x1 = CFin u1 v1 /\ x2 = CFin u2 v2 /\
  biot_P_slowness2 H C M rho rf (CFin qr (- qi)) (CFin u1 v1) /\ biot_P_slowness2 H C M rho rf (CFin qr (- qi)) (CFin u2 v2).
Proof.
  assert (T := Ta_nz). destruct rt_eq as (r1 & r2 & Er & _).
  assert (N : (2 * Ta)^2 + 0^2 <> 0) by (apply sumsq_nz; left; lra).
  destruct x1 as [u1 v1|] eqn:E1; unfold x1 in E1.
  2:{ exfalso. rewrite Er, tb_eq in E1. cbn [cneg] in E1. rewrite cadd_fin, cdiv_fin in E1 by exact N. discriminate. }
  destruct x2 as [u2 v2|] eqn:E2; unfold x2 in E2.
  2:{ exfalso. rewrite Er, tb_eq in E2. cbn [cneg] in E2. rewrite csub_fin, cdiv_fin in E2 by exact N. discriminate. }
  exists u1, v1, u2, v2. repeat split; auto.
  - apply dispersion_of_quad; try discriminate. apply (quad_root Ta tb tc rt); [exact T|reflexivity|left; exact E1|discriminate].
  - apply dispersion_of_quad; try discriminate. apply (quad_root Ta tb tc rt); [exact T|reflexivity|right; exact E2|discriminate].
Qed.
Lemma S_def : exists u3 v3, cdiv (csub (cmul (CFin rho 0) (CFin qr (- qi))) (CFin (rf^2) 0)) (cmul (CFin H 0) (CFin qr (- qi))) = CFin u3 v3
  /\ 0 < u3 /\ u3 = rho / H - rf^2 * qr / (H * (qr^2 + qi^2)) /\ v3 = - rf^2 * qi / (H * (qr^2 + qi^2)).
Proof.
  assert (P : 0 < qr^2 + qi^2) by (assert (0 < qr^2) by (apply pow_lt; auto); assert (0 < qi^2) by (apply pow_lt; auto); lra).
  rewrite !cmul_fin, csub_fin, cdiv_fin by (apply sumsq_nz; left; replace (H * qr - 0 * - qi) with (H * qr) by ring; apply Rmult_integral_contrapositive; lra).
  do 2 eexists. split; [reflexivity|].
  match goal with |- 0 < ?u /\ _ /\ ?v = _ => assert (EU : u = rho / H - rf^2 * qr / (H * (qr^2 + qi^2))); 
     [|assert (EV : v = - rf^2 * qi / (H * (qr^2 + qi^2)))] end.
  { replace ((H * qr - 0 * - qi)^2 + (H * - qi + 0 * qr)^2) with (H^2 * (qr^2 + qi^2)) by ring. field. lra. }
  { replace ((H * qr - 0 * - qi)^2 + (H * - qi + 0 * qr)^2) with (H^2 * (qr^2 + qi^2)) by ring. field. lra. }
  rewrite EU, EV. repeat split; auto.
  replace (rho / H - rf^2 * qr / (H * (qr^2 + qi^2))) with ((rho * qi^2 + qr * (rho * qr - rf^2)) / (H * (qr^2 + qi^2))) by (field; lra).
  apply Rdiv_lt_0_compat; [|apply Rmult_lt_0_compat; lra].
  assert (0 < rho * qi^2) by (apply Rmult_lt_0_compat; [lra|apply pow_lt; lra]).
  assert (0 < qr * (rho * qr - rf^2)) by (apply Rmult_lt_0_compat; lra). lra.
Qed.
End Root.

(** ** Bounds on the roots *)
Lemma vel_lim s0 eps : 0 < s0 -> 0 < eps -> exists d, 0 < d /\ forall a, 0 < a -> Rabs (a^2 - s0^2) <= d -> Rabs (1 / a - 1 / s0) < eps.
Proof.
  intros Hs He. assert (S2 : 0 < s0^2) by (apply pow_lt; auto). assert (S3 : 0 < s0^3) by (apply pow_lt; auto).
  exists (Rmin (s0^2 / 2) (eps * s0^3 / 4)). split; [apply Rmin_pos; [lra|apply Rdiv_lt_0_compat; [apply Rmult_lt_0_compat|]; lra]|].
  intros a Ha D. assert (M1 := Rmin_l (s0^2/2) (eps * s0^3 / 4)). assert (M2 := Rmin_r (s0^2/2) (eps * s0^3 / 4)).
  set (d := Rmin (s0^2/2) (eps * s0^3 / 4)) in *.
  assert (A2 : (s0 / 2)^2 <= a^2). { assert (X := Rle_abs (- (a^2 - s0^2))). rewrite Rabs_Ropp in X. nra. }
  assert (A : s0 / 2 <= a) by (apply Rnot_lt_le; intros L; assert (a^2 < (s0/2)^2) by nra; lra).
  replace (1 / a - 1 / s0) with ((s0^2 - a^2) / (a * s0 * (a + s0))) by (field; lra).
  assert (P : 0 < a * s0 * (a + s0)) by (apply Rmult_lt_0_compat; [apply Rmult_lt_0_compat|]; lra).
  unfold Rdiv. rewrite Rabs_mult, (Rabs_right (/ _)) by (left; apply Rinv_0_lt_compat; auto). apply div_lt_iff; [auto|].
  rewrite Rabs_minus_sym. apply Rle_lt_trans with (1 := D).
  assert (Q : s0^3 / 2 <= a * s0 * (a + s0)).
  { replace (s0^3 / 2) with (s0 / 2 * s0 * s0) by field. assert (s0 / 2 * s0 <= a * s0) by (apply Rmult_le_compat_r; lra).
    assert (0 < s0 / 2 * s0) by (apply Rmult_lt_0_compat; lra). apply Rmult_le_compat; lra. }
  assert (eps * (s0^3 / 2) <= eps * (a * s0 * (a + s0))) by (apply Rmult_le_compat_l; lra).
  assert (0 < eps * s0^3) by (apply Rmult_lt_0_compat; lra). lra.
Qed.
Lemma sq_abs x y : 0 <= y -> x^2 <= y^2 -> Rabs x <= y.
Proof. intros Hy L. apply Rabs_le. nra. Qed.
(** The squared real slowness is as close to [x0] as the complex squared slowness. *)
Lemma re_close a b x0 d : 0 <= d -> 0 <= x0 -> (a^2 - b^2 - x0)^2 + (2 * a * b)^2 <= d^2 -> Rabs (a^2 - x0) <= d.
Proof.
  intros Hd H0 L. set (u := a^2 - b^2) in *. set (s := a^2 + b^2).
  assert (S : s^2 = u^2 + (2 * a * b)^2) by (unfold s, u; ring).
  assert (s >= u) by (unfold s, u; assert (0 <= b^2) by apply pow2_ge_0; lra).
  assert (L1 : Rabs (u - x0) <= d) by (apply sq_abs; [auto|]; assert (0 <= (2*a*b)^2) by apply pow2_ge_0; lra).
  assert (L2 : Rabs (s - x0) <= d) by (apply sq_abs; [auto|]; nra).
  replace (a^2 - x0) with ((s - x0) / 2 + (u - x0) / 2) by (unfold s, u; field).
  apply Rle_trans with (1 := Rabs_triang _ _). unfold Rdiv. rewrite !Rabs_mult, (Rabs_right (/2)) by lra. lra.
Qed.

Section Bound.
Variables (H C M rho rf qr : R).
Hypotheses (HH : 0 < H) (HM : 0 < M) (Hrho : 0 < rho) (Hrf : 0 < rf) (Hqr : 0 < qr)
  (HP : rf^2 < rho * qr) (HT : C^2 < M * H) (HW : 0 < biot_branch H C M rho rf qr).
Let E := H * qr + M * rho - 2 * C * rf.
Let Ta := C^2 - M * H.
Let x1 qi := let q := CFin qr (- qi) in
  let tb := csub (cadd (cmul (CFin H 0) q) (CFin (M * rho) 0)) (CFin (2 * C * rf) 0) in
  let tc := csub (CFin (rf^2) 0) (cmul (CFin rho 0) q) in
  cdiv (cadd (cneg tb) (csqrt (csub (cmul tb tb) (cmul (cmul (CFin 4 0) (CFin Ta 0)) tc)))) (CFin (2 * Ta) 0).
Let x2 qi := let q := CFin qr (- qi) in
  let tb := csub (cadd (cmul (CFin H 0) q) (CFin (M * rho) 0)) (CFin (2 * C * rf) 0) in
  let tc := csub (CFin (rf^2) 0) (cmul (CFin rho 0) q) in
  cdiv (csub (cneg tb) (csqrt (csub (cmul tb tb) (cmul (cmul (CFin 4 0) (CFin Ta 0)) tc)))) (CFin (2 * Ta) 0).
Lemma root_forms qi : 0 < qi -> exists r1 r2 u1 v1 u2 v2, x1 qi = CFin u1 v1 /\ x2 qi = CFin u2 v2 /\
   0 < r1 /\ r2 < 0 /\ r1^2 - r2^2 = E^2 - H^2 * qi^2 + 4 * Ta * (rho * qr - rf^2) /\ r1 * r2 = - qi * biot_branch H C M rho rf qr /\
   2 * Ta * u1 = - E + r1 /\ 2 * Ta * v1 = H * qi + r2 /\ 2 * Ta * u2 = - E - r1 /\ 2 * Ta * v2 = H * qi - r2 /\
  biot_P_slowness2 H C M rho rf (CFin qr (- qi)) (CFin u1 v1) /\ biot_P_slowness2 H C M rho rf (CFin qr (- qi)) (CFin u2 v2).
Proof.
  intros Hqi. destruct (rt_eq H C M rho rf qr qi Hqi ltac:(unfold biot_branch in HW; lra)) as (r1 & r2 & Er & P1 & R1 & R2).
  destruct (xs_def H C M rho rf qr qi Hqi HT ltac:(unfold biot_branch in HW; lra)) as (u1 & v1 & u2 & v2 & E1 & E2 & D1 & D2).
  assert (Et := tb_eq H C M rho rf qr qi).
  exists r1, r2, u1, v1, u2, v2. split; [exact E1|split; [exact E2|split; [auto|split; [|split; [exact R1|split; [exact R2|]]]]]].
  { assert (0 < qi * biot_branch H C M rho rf qr) by (apply Rmult_lt_0_compat; lra).
    change (r1 * r2 = - qi * biot_branch H C M rho rf qr) in R2. apply Rnot_le_lt. intros X.
    assert (0 <= r1 * r2) by (apply Rmult_le_pos; lra). lra. }
  rewrite Et in E1, E2. rewrite Et in Er. rewrite Er in E1, E2. cbn [cneg] in E1, E2. rewrite cadd_fin in E1. rewrite csub_fin in E2.
  apply cdiv_inv in E1. destruct E1 as (p1 & p2 & p3 & p4 & A1 & A2 & _ & A3 & A4). injection A1 as A1 A1'. injection A2 as A2 A2'.
  apply cdiv_inv in E2. destruct E2 as (s1 & s2 & s3 & s4 & B1 & B2 & _ & B3 & B4). injection B1 as B1 B1'. injection B2 as B2 B2'.
  subst p1 p2 p3 p4 s1 s2 s3 s4. unfold E, Ta. do 4 (split; [cbn [pow]; lra|]). split; auto.
Qed.
Definition bB2 := 4 * ((rho * qr - rf^2)^2 + rho^2) / H^2.
Lemma x1_bounded qi u v : 1 <= qi -> x1 qi = CFin u v -> u^2 + v^2 <= bB2.
Proof.
  intros Hq X. destruct (root_forms qi ltac:(lra)) as (r1 & r2 & u1 & v1 & u2 & v2 & E1 & E2 & P1 & P2 & R1 & R2 & F1 & F2 & _).
  rewrite X in E1. injection E1 as <- <-.
  assert (T := Ta_nz H C M HT). fold Ta in T.
  (* x1 (rt + tb) = -2 tc *)
  assert (G1 : u * (E + r1) - v * (r2 - H * qi) = 2 * (rho * qr - rf^2)).
  { apply Rmult_eq_reg_l with (2 * Ta); [|lra]. 
    transitivity ((2 * Ta * u) * (E + r1) - (2 * Ta * v) * (r2 - H * qi)); [ring|]. rewrite F1, F2.
    transitivity (r1^2 - r2^2 - E^2 + H^2 * qi^2); [ring|]. rewrite R1. ring. }
  assert (G2 : u * (r2 - H * qi) + v * (E + r1) = - 2 * (rho * qi)).
  { apply Rmult_eq_reg_l with (2 * Ta); [|lra].
    transitivity ((2 * Ta * u) * (r2 - H * qi) + (2 * Ta * v) * (E + r1)); [ring|]. rewrite F1, F2.
    transitivity (2 * (r1 * r2) + 2 * E * H * qi); [ring|]. rewrite R2. unfold biot_branch, E, Ta. ring. }
  assert (N : (u^2 + v^2) * ((E + r1)^2 + (r2 - H * qi)^2) = 4 * ((rho * qr - rf^2)^2 + (rho * qi)^2)).
  { transitivity ((u * (E + r1) - v * (r2 - H * qi))^2 + (u * (r2 - H * qi) + v * (E + r1))^2); [ring|]. rewrite G1, G2. ring. }
  unfold bB2. assert (H2 : 0 < H^2) by (apply pow_lt; auto). apply le_div_iff; [auto|].
  assert (Q1 : 1 <= qi^2) by nra.
  assert (Hq2 : 0 < H * qi) by (apply Rmult_lt_0_compat; lra).
  assert (L1 : H^2 * qi^2 <= (E + r1)^2 + (r2 - H * qi)^2).
  { assert (0 <= (E + r1)^2) by apply pow2_ge_0. assert ((H * qi)^2 <= (r2 - H * qi)^2) by nra. nra. }
  assert (U0 : 0 <= u^2 + v^2) by (assert (0 <= u^2) by apply pow2_ge_0; assert (0 <= v^2) by apply pow2_ge_0; lra).
  assert (L2 : (u^2 + v^2) * (H^2 * qi^2) <= 4 * ((rho * qr - rf^2)^2 + (rho * qi)^2)) by (rewrite <- N; apply Rmult_le_compat_l; auto).
  assert (L3 : (rho * qr - rf^2)^2 <= (rho * qr - rf^2)^2 * qi^2).
  { rewrite <- (Rmult_1_r ((rho * qr - rf^2)^2)) at 1. apply Rmult_le_compat_l; [apply pow2_ge_0|auto]. }
  apply Rmult_le_reg_r with (qi^2); [lra|]. 
  replace ((rho * qi)^2) with (rho^2 * qi^2) in L2 by ring. lra.
Qed.
Definition bB := bB2 + 1.
Lemma bB_ok u v : u^2 + v^2 <= bB2 -> 0 < bB /\ Rabs v <= bB /\ u^2 + v^2 <= bB^2.
Proof.
  intros L. assert (0 <= bB2) by (assert (0 <= u^2) by apply pow2_ge_0; assert (0 <= v^2) by apply pow2_ge_0; lra).
  unfold bB. split; [lra|]. assert (bB2 <= (bB2 + 1)^2) by nra. split; [|lra]. apply sq_abs; [lra|]. assert (0 <= u^2) by apply pow2_ge_0. lra.
Qed.
Lemma x1_close eps : 0 < eps -> exists Q, 1 <= Q /\ forall qi u v, Q <= qi -> x1 qi = CFin u v -> (u - rho / H)^2 + v^2 <= eps^2.
Proof.
  intros He. set (L := 2 * (C^2 * bB^2 + rf^2)).
  assert (L0 : 0 < L). { unfold L. assert (0 <= C^2 * bB^2) by (apply Rmult_le_pos; apply pow2_ge_0). assert (0 < rf^2) by (apply pow_lt; auto). lra. }
  assert (B0 : 0 < bB). { unfold bB, bB2. assert (0 <= 4 * ((rho * qr - rf^2)^2 + rho^2) / H^2); [|lra].
     apply Rmult_le_pos; [|left; apply Rinv_0_lt_compat, pow_lt; auto]. assert (0 <= (rho * qr - rf^2)^2) by apply pow2_ge_0. assert (0 <= rho^2) by apply pow2_ge_0. lra. }
  assert (HE : 0 < H * eps) by (apply Rmult_lt_0_compat; lra).
  assert (LE : 0 < L / (H * eps)) by (apply Rdiv_lt_0_compat; auto).
  assert (MB : 0 < M * bB) by (apply Rmult_lt_0_compat; auto).
  exists (1 + M * bB + L / (H * eps)). split; [lra|]. intros qi u v Hq X.
  assert (Bd := x1_bounded qi u v ltac:(lra) X). destruct (bB_ok u v Bd) as (_ & BV & BU).
  destruct (root_forms qi ltac:(lra)) as (r1 & r2 & u1 & v1 & u2 & v2 & E1 & E2 & P1 & P2 & R1 & R2 & F1 & F2 & F3 & F4 & D1 & _).
  rewrite X in E1. injection E1 as <- <-.
  apply root_eqs in D1. destruct D1 as (G1 & G2).
  assert (N : ((H * u - rho)^2 + (H * v)^2) * ((qr - M * u)^2 + (- qi - M * v)^2) = ((C * u - rf)^2 + (C * v)^2)^2).
  { transitivity (((H * u - rho) * (qr - M * u) - (H * v) * (- qi - M * v))^2 + ((H * u - rho) * (- qi - M * v) + (H * v) * (qr - M * u))^2); [ring|].
    replace ((H * u - rho) * (qr - M * u) - (H * v) * (- qi - M * v)) with (- ((C * u - rf)^2 - (C * v)^2)) by lra.
    replace ((H * u - rho) * (- qi - M * v) + (H * v) * (qr - M * u)) with (- (2 * (C * u - rf) * (C * v))) by lra. ring. }
  assert (NR : (C * u - rf)^2 + (C * v)^2 <= L).
  { unfold L. assert (Y := pow2_ge_0 (C * u + rf)). assert (Z : C^2 * (u^2 + v^2) <= C^2 * bB^2) by (apply Rmult_le_compat_l; [apply pow2_ge_0|auto]).
    assert (0 <= (C * v)^2) by apply pow2_ge_0. nra. }
  assert (VL : - bB <= v) by (assert (Y := Rle_abs (- v)); rewrite Rabs_Ropp in Y; lra).
  assert (MV : M * - bB <= M * v) by (apply Rmult_le_compat_l; lra).
  assert (Y : L / (H * eps) <= qi + M * v) by lra.
  assert (Y2 : L <= (qi + M * v) * (H * eps)) by (apply (div_le_iff L (H * eps)) in Y; auto).
  assert (Z : L^2 <= ((qi + M * v) * (H * eps))^2) by (apply pow_incr; lra).
  assert (NL : ((C * u - rf)^2 + (C * v)^2)^2 <= L^2).
  { apply pow_incr. split; [|auto]. assert (0 <= (C * u - rf)^2) by apply pow2_ge_0. assert (0 <= (C * v)^2) by apply pow2_ge_0. lra. }
  assert (Dpos : 0 < (qi + M * v)^2) by (apply pow_lt; lra).
  assert (X0 : 0 <= (H * u - rho)^2 + (H * v)^2) by (assert (0 <= (H * u - rho)^2) by apply pow2_ge_0; assert (0 <= (H * v)^2) by apply pow2_ge_0; lra).
  assert (X1 : ((H * u - rho)^2 + (H * v)^2) * (qi + M * v)^2 <= L^2).
  { apply Rle_trans with (2 := NL). rewrite <- N. apply Rmult_le_compat_l; [auto|]. 
    replace ((- qi - M * v)^2) with ((qi + M * v)^2) by ring. assert (0 <= (qr - M * u)^2) by apply pow2_ge_0. lra. }
  assert (X2 : (H * u - rho)^2 + (H * v)^2 <= (H * eps)^2).
  { apply Rmult_le_reg_r with ((qi + M * v)^2); [auto|]. replace ((H * eps)^2 * (qi + M * v)^2) with (((qi + M * v) * (H * eps))^2) by ring. lra. }
  apply Rmult_le_reg_l with (H^2); [apply pow_lt; auto|]. 
  replace (H^2 * ((u - rho / H)^2 + v^2)) with ((H * u - rho)^2 + (H * v)^2) by (field; lra). lra.
Qed.
(** The slow root grows without bound, with positive real part. *)
Lemma x2_large B : 0 < B -> exists Q, 1 <= Q /\ forall qi u v, Q <= qi -> x2 qi = CFin u v -> 0 < u /\ B <= Rabs v.
Proof.
  intros HB. assert (T : Ta < 0) by (unfold Ta; lra). assert (EP := E_pos H C M rho rf qr HH HM Hrho Hqr HP HT). fold E in EP.
  assert (0 < 2 * - Ta * B / H) by (apply Rdiv_lt_0_compat; [apply Rmult_lt_0_compat|]; lra).
  exists (1 + 2 * - Ta * B / H). split; [lra|]. intros qi u v Hq X.
  destruct (root_forms qi ltac:(lra)) as (r1 & r2 & u1 & v1 & u2 & v2 & E1 & E2 & P1 & P2 & R1 & R2 & F1 & F2 & F3 & F4 & _).
  rewrite X in E2. injection E2 as <- <-. split.
  - apply Rnot_le_lt. intros L. assert (0 <= Ta * u) by nra. lra.
  - assert (Y : 2 * - Ta * B <= qi * H) by (apply (div_le_iff (2 * - Ta * B) H); lra).
    assert (V : 2 * - Ta * B <= 2 * - Ta * - v) by lra.
    assert (B <= - v) by (apply Rmult_le_reg_l with (2 * - Ta); lra).
    apply Rle_trans with (- v); [auto|]. rewrite <- Rabs_Ropp. apply Rle_abs.
Qed.
End Bound.

Section BiotLow.
Variables (m : mode) (jv : nat -> cx -> cx) (Kd Gd K0 Kf r0 rf eta phi kap a al : R).
Hypotheses (HK : 0 < K0) (HKf : 0 < Kf <= K0) (Hd : 0 < Kd < K0) (HG : 0 < Gd) (Hp : 0 < phi < 1)
 (He : 0 < eta) (Ha : a <> 0) (Hr0 : 0 < r0) (Hrf : 0 < rf) (Hk : 0 < kap) (Hal : 1 <= al).
Let N := biot_N K0 Kd Kf phi.
Let b := biot_b K0 Kd.
Let H := Kd + 4/3 * Gd + b^2 * N.
Let C := b * N.
Let rho := (1 - phi) * r0 + phi * rf.
Let qr := al * rf / phi.
Let Ta := C^2 - N * H.
Let x1 qi := let q := CFin qr (- qi) in
  let tb := csub (cadd (cmul (CFin H 0) q) (CFin (N * rho) 0)) (CFin (2 * C * rf) 0) in
  let tc := csub (CFin (rf^2) 0) (cmul (CFin rho 0) q) in
  cdiv (cadd (cneg tb) (csqrt (csub (cmul tb tb) (cmul (cmul (CFin 4 0) (CFin Ta 0)) tc)))) (CFin (2 * Ta) 0).
Let x2 qi := let q := CFin qr (- qi) in
  let tb := csub (cadd (cmul (CFin H 0) q) (CFin (N * rho) 0)) (CFin (2 * C * rf) 0) in
  let tc := csub (CFin (rf^2) 0) (cmul (CFin rho 0) q) in
  cdiv (csub (cneg tb) (csqrt (csub (cmul tb tb) (cmul (cmul (CFin 4 0) (CFin Ta 0)) tc)))) (CFin (2 * Ta) 0).
Let x3 qi := cdiv (csub (cmul (CFin rho 0) (CFin qr (- qi))) (CFin (rf^2) 0)) (cmul (CFin Gd 0) (CFin qr (- qi))).
Let vel x := fdiv NumPy (Fin 1) (creal (csqrt x)).
Let iq x := fdiv NumPy (cimag (cdiv (CFin 1 0) x)) (creal (cdiv (CFin 1 0) x)).
Lemma Biot_low f : 0 < f -> a^2 * (2 * PI * f) * rf / eta < 1/100 ->
  let qi := eta / (2 * PI * f * kap) in
  Fluid_Biot m jv (Fin Kd) (Fin Gd) (Fin K0) (Fin Kf) (Fin r0) (Fin rf) (Fin eta) (Fin phi) (Fin kap) (Fin a) (Fin al) (Fin f) =
  bind (vel (x1 qi)) (fun v1 => bind (vel (x2 qi)) (fun v2 => bind (vel (x3 qi)) (fun v3 =>
  bind (iq (x1 qi)) (fun q1 => bind (iq (x2 qi)) (fun q2 => bind (iq (x3 qi)) (fun q3 => Ret (v1, v2, v3, q1, q2, q3))))))).
Proof.
  intros Hf Hlow qi.
  assert (bX : (biot_b K0 Kd - phi) / K0 + phi / Kf = gB Kd K0 Kf phi) by (unfold biot_b, gB; field; lra).
  assert (g : 0 < gB Kd K0 Kf phi).
  { assert (x := gb_pos Kd K0 HK ltac:(lra)). assert (y := gB_pos Kd K0 Kf phi HK HKf ltac:(lra)). lra. }
  assert (EN : N = 1 / gB Kd K0 Kf phi) by (unfold N, biot_N; rewrite bX; reflexivity).
  assert (NP : 0 < N) by (rewrite EN; apply Rdiv_lt_0_compat; lra).
  set (D := K0 * (1 + phi * (K0 / Kf - 1))).
  assert (ED : D - Kd = K0^2 * gB Kd K0 Kf phi) by (unfold D, gB; field; lra).
  assert (K2 : 0 < K0^2) by (apply pow_lt; lra).
  assert (DP : 0 < D - Kd) by (rewrite ED; apply Rmult_lt_0_compat; lra).
  assert (EM : K0^2 / (D - Kd) = N) by (rewrite ED, EN; field; lra).
  assert (EC : (K0 - Kd) * K0 / (D - Kd) = C) by (unfold C, b, biot_b; rewrite ED, EN; field; lra).
  assert (EH : Kd + 4 * Gd / 3 + (K0 - Kd)^2 / (D - Kd) = H) by (unfold H, b, biot_b; rewrite ED, EN; field; lra).
  assert (Pi := PI_RGT_0).
  set (w := 2 * PI * f) in *. assert (Hw : 0 < w) by (unfold w; apply Rmult_lt_0_compat; lra).
  assert (a2 : 0 < a^2) by (assert (X := pow2_ge_0 a); destruct X as [|X]; [auto|symmetry in X; exfalso; apply (pow_nonzero a 2 Ha); auto]).
  assert (Hz : 0 < w * a^2 * rf / eta) by (apply Rdiv_lt_0_compat; [|lra]; apply Rmult_lt_0_compat; [apply Rmult_lt_0_compat|]; lra).
  unfold Fluid_Biot.
  repeat (first [fl1 | rewrite fdiv_fin by (assumption || lra)]; cbv beta zeta). fold rho. fold D. 
  repeat (first [fl1 | rewrite fdiv_fin by (assumption || lra)]; cbv beta zeta). rewrite EM, EC, EH. fold w.
  repeat (first [fl1 | rewrite fdiv_fin by (assumption || lra)]; cbv beta zeta).
  rewrite fsqrt_fin by lra. rewrite bind_fin. cbv beta.
  set (zeta := sqrt (w * a^2 * rf / eta)).
  assert (L : zeta < 1/10).
  { unfold zeta. rewrite <- (sqrt_pow2 (1/10)) by lra. apply sqrt_lt_1_alt. split; [lra|].
      replace (w * a^2 * rf / eta) with (a^2 * w * rf / eta) by (field; lra). lra. }
  rewrite (fltb_fin zeta), Rltb_true by exact L.
  cbn [cof]. assert (0 < w * kap) by (apply Rmult_lt_0_compat; lra).
  replace (csub (CFin (al * rf / phi) 0) (cdiv (cmul (cmul cI (CFin eta 0)) (CFin 1 0)) (CFin (w * kap) 0))) with (CFin qr (- qi)).
  2:{ unfold cI. rewrite !cmul_fin, cdiv_fin, csub_fin by (apply sumsq_nz; left; lra). unfold qr, qi. fold w. apply cfin_eq; field; lra. }
  repeat (first [fl1]; cbv beta zeta). fold Ta. cbn [cof]. reflexivity.
Qed.
Lemma Bpos : 0 < N /\ 0 < H /\ 0 < rho /\ 0 < qr /\ rf^2 < rho * qr /\ C^2 < N * H.
Proof.
  assert (NP : 0 < N) by (apply (bN_pos Kd K0 Kf phi); lra).
  assert (0 <= b^2 * N) by (apply Rmult_le_pos; [apply pow2_ge_0|lra]).
  assert (0 < (1 - phi) * r0) by (apply Rmult_lt_0_compat; lra). assert (0 < phi * rf) by (apply Rmult_lt_0_compat; lra).
  assert (0 < qr) by (unfold qr; apply Rdiv_lt_0_compat; [apply Rmult_lt_0_compat|]; lra).
  split; [auto|]. split; [unfold H; lra|]. split; [unfold rho; lra|]. split; [auto|]. split.
  - unfold rho, qr. replace (((1 - phi) * r0 + phi * rf) * (al * rf / phi)) with (al * rf^2 + al * ((1 - phi) * r0 * rf / phi)) by (field; lra).
    assert (0 < (1 - phi) * r0 * rf / phi) by (apply Rdiv_lt_0_compat; [apply Rmult_lt_0_compat|]; lra).
    assert (0 < rf^2) by (apply pow_lt; auto). nra.
  - unfold C, H. assert (0 < N * (Kd + 4/3*Gd)) by (apply Rmult_lt_0_compat; lra).
    replace ((b * N)^2) with (N * (b^2 * N)) by ring. lra.
Qed.
Let qi_of f := eta / (2 * PI * f * kap).
Lemma low_freq Q : exists f0, 0 < f0 /\ forall f, 0 < f < f0 -> a^2 * (2 * PI * f) * rf / eta < 1/100 /\ Q <= qi_of f /\ 0 < qi_of f.
Proof.
  assert (Pi := PI_RGT_0). assert (a2 : 0 < a^2) by (assert (X := pow2_ge_0 a); destruct X as [|X]; [auto|symmetry in X; exfalso; apply (pow_nonzero a 2 Ha); auto]).
  assert (D1 : 0 < 200 * a^2 * PI * rf) by (apply Rmult_lt_0_compat; [apply Rmult_lt_0_compat; [lra|]|]; lra).
  assert (D2 : 0 < 2 * PI * kap * (1 + Rabs Q)) by (assert (0 <= Rabs Q) by apply Rabs_pos; apply Rmult_lt_0_compat; [apply Rmult_lt_0_compat|]; lra).
  exists (Rmin (eta / (200 * a^2 * PI * rf)) (eta / (2 * PI * kap * (1 + Rabs Q)))).
  split; [apply Rmin_pos; apply Rdiv_lt_0_compat; auto|]. intros f Hf.
  assert (M1 := Rmin_l (eta / (200 * a^2 * PI * rf)) (eta / (2 * PI * kap * (1 + Rabs Q)))).
  assert (M2 := Rmin_r (eta / (200 * a^2 * PI * rf)) (eta / (2 * PI * kap * (1 + Rabs Q)))).
  assert (F1 : f < eta / (200 * a^2 * PI * rf)) by lra. assert (F2 : f < eta / (2 * PI * kap * (1 + Rabs Q))) by lra.
  apply lt_div_iff in F1; [|auto]. apply lt_div_iff in F2; [|auto].
  assert (W : 0 < 2 * PI * f * kap) by (apply Rmult_lt_0_compat; [apply Rmult_lt_0_compat|]; lra).
  split; [apply div_lt_iff; lra|]. unfold qi_of. split; [|apply Rdiv_lt_0_compat; auto]. apply le_div_iff; [auto|].
  assert (Q <= Rabs Q) by apply Rle_abs. assert (0 < f * (2 * PI * kap)) by lra. nra.
Qed.
Hypothesis HW : 0 < biot_branch H C N rho rf qr.
(** At low enough frequency the call returns six finite numbers; the fast wave tends to the Gassmann
    velocity and the shear wave to sqrt(G/rho), both without attenuation; the slow wave stops. *)
Lemma Biot_low_limit eps : 0 < eps -> exists f0, 0 < f0 /\ forall f, 0 < f < f0 -> exists V1 V2 V3 q1 q2 q3,
  Fluid_Biot m jv (Fin Kd) (Fin Gd) (Fin K0) (Fin Kf) (Fin r0) (Fin rf) (Fin eta) (Fin phi) (Fin kap) (Fin a) (Fin al) (Fin f) =
    Ret (Fin V1, Fin V2, Fin V3, Fin q1, Fin q2, Fin q3) /\
  Rabs (V1 - sqrt (H / rho)) < eps /\ 0 < V2 < eps /\ Rabs (V3 - sqrt (Gd / rho)) < eps /\ Rabs q1 < eps /\ Rabs q3 < eps.
Proof.
  intros Heps. destruct Bpos as (P1 & P2 & P3 & P4 & P5 & P6).
  assert (SQ : forall M, 0 < M -> 0 < sqrt (rho / M) /\ sqrt (rho / M)^2 = rho / M /\ sqrt (M / rho) = 1 / sqrt (rho / M)).
  { intros M HM. assert (0 < rho / M) by (apply Rdiv_lt_0_compat; auto). assert (0 < sqrt (rho / M)) by (apply sqrt_lt_R0; auto).
    split; [auto|]. split; [apply pow2_sqrt; lra|]. replace (M / rho) with (/ (rho / M)) by (field; lra).
    rewrite sqrt_inv by lra. field. lra. }
  destruct (SQ H P2) as (S1 & S2 & S3). destruct (SQ Gd HG) as (T1 & T2 & T3). rewrite S3, T3.
  assert (X0 : 0 < rho / H) by (apply Rdiv_lt_0_compat; auto). assert (Y0 : 0 < rho / Gd) by (apply Rdiv_lt_0_compat; auto).
  (* tolerance on the squared slowness *)
  assert (Att : forall u v x0, 0 < x0 -> (u - x0)^2 + v^2 <= (Rmin (x0 / 2) (eps * x0 / 4))^2 -> 0 < u /\ Rabs (- v / u) < eps).
  { intros u v x0 H0 L. assert (M1 := Rmin_l (x0/2) (eps * x0 / 4)). assert (M2 := Rmin_r (x0/2) (eps * x0 / 4)).
    assert (D0 : 0 < Rmin (x0/2) (eps * x0 / 4)) by (apply Rmin_pos; [lra|apply Rdiv_lt_0_compat; [apply Rmult_lt_0_compat|]; lra]).
    set (d := Rmin (x0/2) (eps * x0 / 4)) in *.
    assert (A1 : Rabs (u - x0) <= d) by (apply sq_abs; [lra|]; assert (0 <= v^2) by apply pow2_ge_0; lra).
    assert (A2 : Rabs v <= d) by (apply sq_abs; [lra|]; assert (0 <= (u - x0)^2) by apply pow2_ge_0; lra).
    assert (U : x0 / 2 <= u). { assert (X := Rle_abs (- (u - x0))). rewrite Rabs_Ropp in X. lra. }
    split; [lra|]. unfold Rdiv. rewrite Rabs_mult, Rabs_Ropp, (Rabs_right (/ u)) by (left; apply Rinv_0_lt_compat; lra).
    apply div_lt_iff; [lra|]. apply Rle_lt_trans with (1 := A2). assert (eps * (x0 / 2) <= eps * u) by (apply Rmult_le_compat_l; lra).
    assert (0 < eps * x0) by (apply Rmult_lt_0_compat; lra). lra. }
  destruct (vel_lim (sqrt (rho / H)) eps S1 Heps) as (d1 & D1 & V1). destruct (vel_lim (sqrt (rho / Gd)) eps T1 Heps) as (d3 & D3 & V3).
  rewrite S2 in V1. rewrite T2 in V3.
  set (e1 := Rmin d1 (Rmin (rho / H / 2) (eps * (rho / H) / 4))). set (e3 := Rmin d3 (Rmin (rho / Gd / 2) (eps * (rho / Gd) / 4))).
  assert (E1 : 0 < e1) by (repeat apply Rmin_pos; try lra; apply Rdiv_lt_0_compat; [apply Rmult_lt_0_compat|]; lra).
  assert (E3 : 0 < e3) by (repeat apply Rmin_pos; try lra; apply Rdiv_lt_0_compat; [apply Rmult_lt_0_compat|]; lra).
  destruct (x1_close H C N rho rf qr P2 P1 Hrf P6 HW e1 E1) as (Q1 & QQ1 & C1).
  assert (B0 : 0 < 4 / eps^2) by (apply Rdiv_lt_0_compat; [lra|apply pow_lt; auto]).
  destruct (x2_large H C N rho rf qr P2 P1 P3 P4 P5 P6 HW (4 / eps^2) B0) as (Q2 & QQ2 & C2).
  assert (Q30 : 0 < rf^2 / (Gd * e3)) by (apply Rdiv_lt_0_compat; [apply pow_lt; lra|apply Rmult_lt_0_compat; lra]).
  destruct (low_freq (Q1 + Q2 + rf^2 / (Gd * e3))) as (f0 & F0 & FF). exists f0. split; [auto|]. intros f Hf.
  destruct (FF f Hf) as (L1 & L2 & L3). rewrite Biot_low by (try apply Hf; exact L1). fold (qi_of f). set (qi := qi_of f) in *.
  destruct (root_forms H C N rho rf qr P6 HW qi L3) as (r1 & r2 & u1 & v1 & u2 & v2 & Ex1 & Ex2 & _ & _ & _ & _ & _ & _ & _ & _ & B1 & B2).
  destruct (S_def Gd rho rf qr qi HG P3 P4 L3 P5) as (u3 & v3 & Ex3 & U3 & EU3 & EV3).
  assert (Cl1 := C1 qi u1 v1 ltac:(lra) Ex1). destruct (C2 qi u2 v2 ltac:(lra) Ex2) as (U2 & BV2).
  assert (Cl3 : (u3 - rho / Gd)^2 + v3^2 <= e3^2).
  { assert (0 < qr^2) by (apply pow_lt; auto). assert (0 < qi^2) by (apply pow_lt; auto).
    replace ((u3 - rho / Gd)^2 + v3^2) with ((rf^2 / Gd)^2 / (qr^2 + qi^2)) by (rewrite EU3, EV3; field; lra).
    apply div_le_iff; [lra|]. assert (Y : rf^2 / (Gd * e3) <= qi) by lra.
    assert (Y2 : (rf^2 / Gd) <= e3 * qi).
    { replace (rf^2 / Gd) with (e3 * (rf^2 / (Gd * e3))) by (field; lra). apply Rmult_le_compat_l; lra. }
    assert (Z : 0 <= rf^2 / Gd) by (apply Rmult_le_pos; [apply pow2_ge_0|left; apply Rinv_0_lt_compat; auto]).
    assert ((rf^2 / Gd)^2 <= (e3 * qi)^2) by (apply pow_incr; lra). assert (0 <= e3^2) by apply pow2_ge_0. nra. }
  change (x1 qi = CFin u1 v1) in Ex1. change (x2 qi = CFin u2 v2) in Ex2. change (x3 qi = CFin u3 v3) in Ex3. rewrite Ex1, Ex2, Ex3.
  assert (Pow : forall x y, 0 <= x -> x <= y -> x^2 <= y^2) by (intros; apply pow_incr; lra).
  assert (A1 := Att u1 v1 (rho / H) X0). assert (A3 := Att u3 v3 (rho / Gd) Y0).
  destruct A1 as (A1 & A1'); [apply Rle_trans with (1 := Cl1); apply Pow; [lra|unfold e1; apply Rmin_r]|].
  destruct A3 as (A3 & A3'); [apply Rle_trans with (1 := Cl3); apply Pow; [lra|unfold e3; apply Rmin_r]|].
  destruct (vel_def u1 v1 ltac:(lra) ltac:(lra)) as (a1 & b1 & i1 & G1 & I1 & PA1 & R1 & R1').
  destruct (vel_def u2 v2 ltac:(lra) ltac:(lra)) as (a2 & b2 & i2 & G2 & I2 & PA2 & R2 & R2').
  destruct (vel_def u3 v3 ltac:(lra) ltac:(lra)) as (a3 & b3 & i3 & G3 & I3 & PA3 & R3 & R3').
  unfold vel, iq. rewrite G1, G2, G3, I1, I2, I3. cbn [bind].
  exists (1 / a1), (1 / a2), (1 / a3), i1, i2, i3. split; [reflexivity|].
  assert (IQ : forall u v i, 0 < u -> fdiv NumPy (cimag (cdiv (CFin 1 0) (CFin u v))) (creal (cdiv (CFin 1 0) (CFin u v))) = Fin i -> i = - v / u).
  { intros u v i Hu X. assert (P : 0 < u^2 + v^2) by (assert (0 < u^2) by (apply pow_lt; auto); assert (0 <= v^2) by apply pow2_ge_0; lra).
    rewrite cdiv_fin in X by lra. cbn [creal cimag] in X. rewrite fdiv_fin in X.
    - injection X as <-. field. lra.
    - assert (0 < (1 * u + 0 * v) / (u^2 + v^2)) by (apply Rdiv_lt_0_compat; lra). lra. }
  split; [|split; [|split; [|split]]].
  - apply V1; [auto|]. apply Rle_trans with e1; [|unfold e1; apply Rmin_l]. apply (re_close a1 b1); try lra. rewrite R1, R1'. exact Cl1.
  - split; [apply Rdiv_lt_0_compat; lra|]. 
    assert (S4 : (2 * a2^2) >= Rabs v2).
    { rewrite <- R2'. assert (Rabs (2 * a2 * b2) <= a2^2 + b2^2) by (apply Rabs_le; split; nra). lra. }
    assert (A2 : 2 / eps^2 <= a2^2) by (unfold Rdiv in *; lra).
    assert (Y : (1 / eps)^2 < a2^2). { replace ((1/eps)^2) with (1 / eps^2) by (field; lra). unfold Rdiv in *. assert (0 < / eps^2) by (apply Rinv_0_lt_compat, pow_lt; auto). lra. }
    assert (0 < 1 / eps) by (apply Rdiv_lt_0_compat; lra).
    assert (Z : 1 / eps < a2) by (apply Rnot_le_lt; intros L; assert (a2^2 <= (1/eps)^2) by (apply pow_incr; lra); lra).
    apply div_lt_iff; [auto|]. apply div_lt_iff in Z; [|auto]. lra.
  - apply V3; [auto|]. apply Rle_trans with e3; [|unfold e3; apply Rmin_l]. apply (re_close a3 b3); try lra. rewrite R3, R3'. exact Cl3.
  - rewrite (IQ u1 v1 i1 A1 I1). exact A1'.
  - rewrite (IQ u3 v3 i3 A3 I3). exact A3'.
Qed.
End BiotLow.

(** The same limit against [vels], the Gassmann velocities (m/s there, km/s here). *)
Lemma Biot_low_vels m jv Kd Gd K0 Kf r0 rf eta phi kap a al :
  0 < K0 -> 0 < Kf <= K0 -> 0 < Kd < K0 -> 0 < Gd -> 0 < phi < 1 -> 0 < eta -> a <> 0 -> 0 < r0 -> 0 < rf -> 0 < kap -> 1 <= al ->
  let N := biot_N K0 Kd Kf phi in let b := biot_b K0 Kd in
  0 < biot_branch (Kd + 4/3 * Gd + b^2 * N) (b * N) N ((1 - phi) * r0 + phi * rf) rf (al * rf / phi) ->
  exists Vp Vs rho, Fluid_vels m (Fin Kd) (Fin Gd) (Fin K0) (Fin r0) (Fin Kf) (Fin rf) (Fin phi) = Ret (Fin Vp, Fin Vs, Fin rho) /\
  forall eps, 0 < eps -> exists f0, 0 < f0 /\ forall f, 0 < f < f0 -> exists V1 V2 V3 q1 q2 q3,
    Fluid_Biot m jv (Fin Kd) (Fin Gd) (Fin K0) (Fin Kf) (Fin r0) (Fin rf) (Fin eta) (Fin phi) (Fin kap) (Fin a) (Fin al) (Fin f) =
      Ret (Fin V1, Fin V2, Fin V3, Fin q1, Fin q2, Fin q3) /\
    Rabs (1000 * V1 - Vp) < eps /\ 0 < V2 < eps /\ Rabs (1000 * V3 - Vs) < eps /\ Rabs q1 < eps /\ Rabs q3 < eps.
Proof.
  intros HK HKf Hd HG Hp He Ha Hr0 Hrf Hk Hal N b HW.
  assert (0 < (1 - phi) * r0) by (apply Rmult_lt_0_compat; lra). assert (0 < phi * rf) by (apply Rmult_lt_0_compat; lra).
  rewrite (vels_eval m Kd Gd K0 phi HK ltac:(lra) ltac:(lra) Kf r0 rf ltac:(lra) ltac:(lra) ltac:(lra)).
  do 3 eexists. split; [reflexivity|]. intros eps Heps.
  destruct (Biot_low_limit m jv Kd Gd K0 Kf r0 rf eta phi kap a al HK HKf Hd HG Hp He Ha Hr0 Hrf Hk Hal HW (eps / 1000) ltac:(lra)) as (f0 & F0 & FF).
  exists f0. split; [auto|]. intros f Hf. destruct (FF f Hf) as (V1 & V2 & V3 & q1 & q2 & q3 & E & A1 & A2 & A3 & A4 & A5).
  exists V1, V2, V3, q1, q2, q3. split; [exact E|].
  assert (EH : gK Kd K0 Kf phi + 4/3 * Gd = Kd + 4/3 * Gd + b^2 * N).
  { unfold gK, N, biot_N, b, biot_b. replace ((1 - Kd / K0 - phi) / K0 + phi / Kf) with (gB Kd K0 Kf phi) by (unfold gB; field; lra).
    assert (g : 0 < gB Kd K0 Kf phi).
    { assert (x := gb_pos Kd K0 HK ltac:(lra)). assert (y := gB_pos Kd K0 Kf phi HK HKf ltac:(lra)). lra. }
    field. lra. }
  rewrite EH. replace (r0 * (1 - phi) + rf * phi) with ((1 - phi) * r0 + phi * rf) by ring.
  assert (Sc : forall x y, Rabs (x - y) < eps / 1000 -> Rabs (1000 * x - y * 1000) < eps).
  { intros x y L. replace (1000 * x - y * 1000) with (1000 * (x - y)) by ring. rewrite Rabs_mult, (Rabs_right 1000) by lra. lra. }
  repeat split; try (apply Sc; assumption); try lra.
Qed.
