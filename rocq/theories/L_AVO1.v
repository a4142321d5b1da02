(** * Lemmas about AVO.py: evaluation. *)
From Verif Require Import Fl M_Utils M_Anis M_AVO Spec Spec5 RealLemmas.
Open Scope R_scope.

Ltac ev := repeat (first [fl1 | rewrite fdiv_fin by (assumption || lra || nz)]; cbv beta zeta).

Lemma cos_deg th : -90 < th < 90 -> 0 < cos (radians th).
Proof.
  intros H. assert (P := PI_RGT_0). unfold radians. apply cos_gt_0.
  - apply Rmult_lt_reg_r with 180; [lra|]. unfold Rdiv. rewrite !Rmult_assoc. replace (/ 180 * 180) with 1 by field. nra.
  - apply Rmult_lt_reg_r with 180; [lra|]. unfold Rdiv. rewrite !Rmult_assoc. replace (/ 180 * 180) with 1 by field. nra.
Qed.
Lemma sc2 x : (sin x)^2 + (cos x)^2 = 1.
Proof. assert (H := sin2_cos2 x). unfold Rsqr in H. nra. Qed.
Lemma sin_le1 x : (sin x)^2 <= 1.
Proof. assert (H := sc2 x). assert (0 <= (cos x)^2) by apply pow2_ge_0. lra. Qed.

Section Aki.
Variables (m : mode) (th vp1 vp2 vs1 vs2 r1 r2 : R).
Hypotheses (Hth : -90 < th < 90) (H1 : 0 < vp1) (H2 : 0 < vp2) (H3 : 0 < vs1) (H4 : 0 < vs2) (H5 : 0 < r1) (H6 : 0 < r2)
  (Hv : vs1 < vp1).
Let i := radians th.
Definition akiM := - 2 * (mean2 vs1 vs2 / mean2 vp1 vp2)^2 * (2 * contrast vs1 vs2 + contrast r1 r2).
Definition akiA := 1/2 * (contrast r1 r2 + contrast vp1 vp2).
Definition akiN := 1/2 * contrast vp1 vp2.
Lemma cj_pos : 0 < 1 - (sin i)^2 * (vs1^2 / vp1^2).
Proof.
  assert (S := sin_le1 i). assert (0 <= (sin i)^2) by apply pow2_ge_0.
  assert (vs1^2 / vp1^2 < 1) by (apply div_lt_iff; nra).
  assert (0 <= vs1^2 / vp1^2) by (apply le_div_iff; nra). nra.
Qed.
Lemma aki_fin : AVO_Aki_Richards m (Fin th) (Fin vp1) (Fin vp2) (Fin vs1) (Fin vs2) (Fin r1) (Fin r2) =
  Ret (Fin (aki_pp i vp1 vp2 vs1 vs2 r1 r2), Fin (aki_ps i vp1 vp2 vs1 vs2 r1 r2), Fin akiA, Fin (akiM + akiN)).
Proof.
  assert (C := cos_deg th Hth). assert (S := sc2 i). assert (J := cj_pos).
  assert (JS : 0 < sqrt (1 - (sin i)^2 * (vs1^2 / vp1^2))) by (apply sqrt_lt_R0, J).
  assert (0 < vp1^2) by (apply pow_lt; auto). assert (vp1^2 <> 0) by lra.
  unfold AVO_Aki_Richards. rewrite fdeg2rad_fin, bind_fin. change (th * PI / 180) with i in *.
  change (radians th) with i in C. assert (C0 : cos i <> 0) by lra.
  rewrite fsin_fin, fcos_fin, ftan_fin by exact C0.
  assert (1/2 * (r1 + r2) <> 0) by lra. assert (1/2 * (vp1 + vp2) <> 0) by lra. assert (1/2 * (vs1 + vs2) <> 0) by lra.
  assert (sqrt (1 - (sin i)^2 * (vs1^2 / vp1^2)) <> 0) by lra. assert (vp1 <> 0) by lra.
  repeat (first [rewrite fsqrt_fin by lra | fl1 | rewrite fdiv_fin by assumption]; cbv beta zeta).
  unfold aki_pp, aki_ps, akiA, akiM, akiN, contrast, mean2. cbv zeta.
  replace (1 - (sin i / vp1 * vs1)^2) with (1 - (sin i)^2 * (vs1^2 / vp1^2)) by (field; lra).
  assert (T : (tan i)^2 = 1 / (cos i)^2 - 1).
  { unfold tan. replace 1 with ((sin i)^2 + (cos i)^2) at 1. field. lra. }
  reteq.
  - rewrite T. field. lra.
  - set (q := sqrt _) in *. field. repeat split; lra.
  - field. lra.
  - field. lra.
Qed.
End Aki.

Section HTI.
Variables (D1 D2 : R) (C1 C2 : mat).
Variables (a11 a13 a33 a44 a55 a66 b11 b13 b33 b44 b55 b66 : R).
Hypotheses (A11 : mget C1 0 0 = Fin a11) (A13 : mget C1 0 2 = Fin a13) (A33 : mget C1 2 2 = Fin a33)
  (A44 : mget C1 3 3 = Fin a44) (A55 : mget C1 4 4 = Fin a55) (A66 : mget C1 5 5 = Fin a66)
  (B11 : mget C2 0 0 = Fin b11) (B13 : mget C2 0 2 = Fin b13) (B33 : mget C2 2 2 = Fin b33)
  (B44 : mget C2 3 3 = Fin b44) (B55 : mget C2 4 4 = Fin b55) (B66 : mget C2 5 5 = Fin b66)
  (P1 : 0 < D1) (P2 : 0 < D2) (P3 : 0 < a33) (P4 : 0 < b33) (P5 : 0 < a44) (P6 : 0 < b44) (P7 : 0 < a66) (P8 : 0 < b66)
  (N1 : a55 < a33) (N2 : b55 < b33).
Let ep1 := (a11 - a33) / (2 * a33).
Let ep2 := (b11 - b33) / (2 * b33).
Let de1 := ((a13 + a55)^2 - (a33 - a55)^2) / (2 * a33 * (a33 - a55)).
Let de2 := ((b13 + b55)^2 - (b33 - b55)^2) / (2 * b33 * (b33 - b55)).
Let ga1 := (a44 - a66) / (2 * a66).
Let ga2 := (b44 - b66) / (2 * b66).
Lemma hti_elem th w : -90 < th < 90 ->
  AVO_HTI_elem (Fin D1) (Fin D2) C1 C2 (Fin th) (Fin w) =
  Ret (Fin (ruger D1 (sqrt (a33 / D1)) (sqrt (a44 / D1)) D2 (sqrt (b33 / D2)) (sqrt (b44 / D2))
              (ep2 - ep1) (de2 - de1) (ga2 - ga1) (radians th) (radians w))).
Proof.
  intros Hth. assert (C := cos_deg th Hth). assert (C0 : cos (radians th) <> 0) by lra.
  unfold AVO_HTI_elem. rewrite A11, A13, A33, A44, A55, A66, B11, B13, B33, B44, B55, B66.
  rewrite !fdeg2rad_fin, !bind_fin. change (th * PI / 180) with (radians th). change (w * PI / 180) with (radians w).
  set (i := radians th) in *. set (z := radians w) in *.
  rewrite !fsin_fin, !fcos_fin, ftan_fin by exact C0.
  assert (0 < a33 / D1) by (apply Rdiv_lt_0_compat; lra). assert (0 < b33 / D2) by (apply Rdiv_lt_0_compat; lra).
  assert (0 < a44 / D1) by (apply Rdiv_lt_0_compat; lra). assert (0 < b44 / D2) by (apply Rdiv_lt_0_compat; lra).
  assert (D1 <> 0) by lra. assert (D2 <> 0) by lra.
  assert (2 * a66 <> 0) by lra. assert (2 * b66 <> 0) by lra. assert (2 * a33 <> 0) by lra. assert (2 * b33 <> 0) by lra.
  assert (0 < 2 * a33 * (a33 - a55)) by (apply Rmult_lt_0_compat; lra). assert (0 < 2 * b33 * (b33 - b55)) by (apply Rmult_lt_0_compat; lra).
  assert (2 * a33 * (a33 - a55) <> 0) by lra. assert (2 * b33 * (b33 - b55) <> 0) by lra.
  rewrite !fdiv_fin by assumption. rewrite !fsqrt_fin by lra. rewrite !bind_fin.
  assert (Q1 : 0 < sqrt (a33 / D1)) by (apply sqrt_lt_R0; auto). assert (Q2 : 0 < sqrt (b33 / D2)) by (apply sqrt_lt_R0; auto).
  assert (Q3 : 0 < sqrt (a44 / D1)) by (apply sqrt_lt_R0; auto). assert (Q4 : 0 < sqrt (b44 / D2)) by (apply sqrt_lt_R0; auto).
  set (v1 := sqrt (a33 / D1)) in *. set (v2 := sqrt (b33 / D2)) in *.
  set (s1 := sqrt (a44 / D1)) in *. set (s2 := sqrt (b44 / D2)) in *.
  assert (0 < D1 * v1) by (apply Rmult_lt_0_compat; lra). assert (0 < D2 * v2) by (apply Rmult_lt_0_compat; lra).
  assert (0 < D1 * s1^2) by pos. assert (0 < D2 * s2^2) by pos.
  assert ((D1 * v1 + D2 * v2) / 2 <> 0) by lra. assert ((v1 + v2) / 2 <> 0) by lra. assert ((D1 * s1^2 + D2 * s2^2) / 2 <> 0) by lra.
  repeat (first [fl1 | rewrite fdiv_fin by (assumption || lra)]; cbv beta zeta).
  reteq. unfold ruger, contrast, mean2. cbv zeta. fold ep1 ep2 de1 de2 ga1 ga2. unfold ep1, ep2, de1, de2, ga1, ga2. field. repeat split; lra.
Qed.
End HTI.

Lemma ortho_fin m a1 b1 e11 d11 e12 d12 g1 r1 a2 b2 e21 d21 e22 d22 g2 r2 th :
  -90 < th < 90 -> 0 < a1 -> 0 < a2 -> 0 < b1 -> 0 < b2 -> 0 < r1 -> 0 < r2 ->
  AVO_AVO_ortho m (Fin a1) (Fin b1) (Fin e11) (Fin d11) (Fin e12) (Fin d12) (Fin g1) (Fin r1)
    (Fin a2) (Fin b2) (Fin e21) (Fin d21) (Fin e22) (Fin d22) (Fin g2) (Fin r2) (Fin th) =
  Ret (Fin (ruger r1 a1 b1 r2 a2 b2 (e22 - e12) (d22 - d12) (g2 - g1) (radians th) 0),
       Fin (ruger r1 a1 b1 r2 a2 b2 (e21 - e11) (d21 - d11) 0 (radians th) 0)).
Proof.
  intros Hth H1 H2 H3 H4 H5 H6. assert (C := cos_deg th Hth). assert (C0 : cos (radians th) <> 0) by lra.
  unfold AVO_AVO_ortho.
  assert (0 < r1 * a1) by (apply Rmult_lt_0_compat; lra). assert (0 < r2 * a2) by (apply Rmult_lt_0_compat; lra).
  assert (0 < r1 * b1 * b1) by pos. assert (0 < r2 * b2 * b2) by pos.
  assert (r2 * a2 + r1 * a1 <> 0) by lra. assert ((a1 + a2) / 2 <> 0) by lra. assert ((r1 * b1 * b1 + r2 * b2 * b2) / 2 <> 0) by lra.
  repeat (first [fl1 | rewrite fdiv_fin by (assumption || lra)]; cbv beta zeta).
  change (th * PI / 180) with (radians th). rewrite ftan_fin by exact C0.
  repeat (first [fl1 | rewrite fdiv_fin by (assumption || lra)]; cbv beta zeta).
  unfold ruger, contrast, mean2. cbv zeta. rewrite cos_0, sin_0.
  assert (0 < r1 * b1^2) by pos. assert (0 < r2 * b2^2) by pos.
  reteq; field; repeat split; lra.
Qed.

Lemma mean2_comm x y : mean2 x y = mean2 y x.
Proof. unfold mean2. lra. Qed.
Lemma contrast_swap x y : contrast y x = - contrast x y.
Proof. unfold contrast. rewrite (mean2_comm y x). unfold Rdiv. ring. Qed.
Lemma contrast_same x : contrast x x = 0.
Proof. unfold contrast. replace (x - x) with 0 by ring. unfold Rdiv. ring. Qed.
Lemma ruger_swap r1 a1 b1 r2 a2 b2 de dd dg i w :
  ruger r2 a2 b2 r1 a1 b1 (- de) (- dd) (- dg) i w = - ruger r1 a1 b1 r2 a2 b2 de dd dg i w.
Proof.
  unfold ruger. cbv zeta. rewrite (contrast_swap (r1 * a1)), (contrast_swap a1), (contrast_swap (r1 * b1^2)), (mean2_comm b2), (mean2_comm a2). ring.
Qed.
Lemma ruger_same r a b i w : ruger r a b r a b 0 0 0 i w = 0.
Proof. unfold ruger. cbv zeta. rewrite !contrast_same. ring. Qed.
Lemma aki_pp_swap i vp1 vp2 vs1 vs2 r1 r2 : aki_pp i vp2 vp1 vs2 vs1 r2 r1 = - aki_pp i vp1 vp2 vs1 vs2 r1 r2.
Proof.
  unfold aki_pp. cbv zeta. rewrite (contrast_swap r1), (contrast_swap vp1), (contrast_swap vs1), (mean2_comm vs2), (mean2_comm vp2). ring.
Qed.
