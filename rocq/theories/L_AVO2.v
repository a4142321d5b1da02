(** * Lemmas about AVO.py: Zoeppritz, AVO_abe, elastic impedance. *)
From Verif Require Import Fl M_Utils M_EM M_Anis M_AVO Spec Spec5 RealLemmas L_Lists L_AVO1.
Open Scope R_scope.

(** ** Zoeppritz *)
Lemma zoeppritz_normal vp1 vs1 r1 vp2 vs2 r2 :
  0 < vp1 -> 0 < vs1 -> 0 < r1 -> 0 < vp2 -> 0 < vs2 -> 0 < r2 ->
  AVO_zoeppritz (Fin vp1) (Fin vs1) (Fin r1) (Fin vp2) (Fin vs2) (Fin r2) (Fin 0) =
  Ret (Fin (normal_reflection (r1 * vp1) (r2 * vp2)), Fin 0).
Proof.
  intros. unfold AVO_zoeppritz. assert (vp1 <> 0) by lra. assert (vp2 <> 0) by lra. assert (vs1 <> 0) by lra. assert (vs2 <> 0) by lra.
  rewrite fdeg2rad_fin, bind_fin, fsin_fin, sin_0, fdiv_fin, bind_fin by auto.
  replace (0 / vp1) with 0 by (field; auto). rewrite !fmul_fin, !Rmult_0_l. rewrite farcsin_fin, asin_0, !bind_fin by lra.
  rewrite !fsin_fin, !fcos_fin. replace (0 / 180) with 0 by field. rewrite sin_0, cos_0.
  assert (D : 0 < (r2 / vp1 + r1 / vp2) * (r2 / vs1 + r1 / vs2)).
  { apply Rmult_lt_0_compat; apply Rplus_lt_0_compat; apply Rdiv_lt_0_compat; lra. }
  repeat (first [fl1 | rewrite (fdiv_fin NumPy _ vp1) by auto | rewrite (fdiv_fin NumPy _ vp2) by auto
     | rewrite (fdiv_fin NumPy _ vs1) by auto | rewrite (fdiv_fin NumPy _ vs2) by auto]; cbv beta zeta).
  match goal with |- context [fdiv NumPy _ (Fin (?E * ?F + ?G))] => assert (X : E * F + G = (r2 / vp1 + r1 / vp2) * (r2 / vs1 + r1 / vs2)) by (field; lra) end.
  rewrite X. assert (0 < vs1 * ((r2 / vp1 + r1 / vp2) * (r2 / vs1 + r1 / vs2))) by (apply Rmult_lt_0_compat; lra).
  repeat (first [fl1 | rewrite fdiv_fin by lra]; cbv beta zeta).
  assert (0 < r1 * vp1) by (apply Rmult_lt_0_compat; lra). assert (0 < r2 * vp2) by (apply Rmult_lt_0_compat; lra).
  assert (0 < r1 * vs1) by (apply Rmult_lt_0_compat; lra). assert (0 < r2 * vs2) by (apply Rmult_lt_0_compat; lra).
  unfold normal_reflection. reteq.
  - field. repeat split; lra.
  - unfold Rdiv. ring.
Qed.
Lemma deg_small th : 0 < th < PI / 2 -> cos th < cos (radians th).
Proof.
  intros [A B]. assert (P := PI_RGT_0). assert (P4 := PI_4). unfold radians.
  assert (th * PI / 180 < th) by nra. assert (0 < th * PI / 180) by (apply Rdiv_lt_0_compat; nra).
  apply cos_decreasing_1; lra.
Qed.
Lemma zoeppritz_same vp vs r th : 0 < vs -> vs < vp -> 0 < r -> 0 < th < PI / 2 ->
  AVO_zoeppritz (Fin vp) (Fin vs) (Fin r) (Fin vp) (Fin vs) (Fin r) (Fin th) =
  Ret (Fin ((cos (radians th) - cos th) / (cos (radians th) + cos th)), Fin 0).
Proof.
  intros Hs Hv Hr Ht. assert (P := PI_RGT_0). assert (D := deg_small th Ht).
  assert (C : 0 < cos th) by (apply cos_gt_0; lra). assert (S : 0 < sin th) by (apply sin_gt_0; lra). assert (S1 := sc2 th).
  assert (S2 : sin th < 1) by nra.
  unfold AVO_zoeppritz. assert (vp <> 0) by lra. assert (vs <> 0) by lra.
  rewrite fdeg2rad_fin, bind_fin, fsin_fin, fdiv_fin, bind_fin by auto. change (th * PI / 180) with (radians th).
  rewrite !fmul_fin. replace (sin th / vp * vp) with (sin th) by (field; auto).
  assert (V1 : vs / vp < 1) by (apply div_lt_iff; lra). assert (V0 : 0 < vs / vp) by (apply Rdiv_lt_0_compat; lra).
  assert (VV : 0 < sin th / vp * vs < 1) by (replace (sin th / vp * vs) with (sin th * (vs / vp)) by (field; auto); split; nra).
  rewrite !farcsin_fin by lra. rewrite !bind_fin. rewrite asin_sin by lra.
  set (f := asin (sin th / vp * vs)).
  assert (F : sin f = sin th / vp * vs) by (apply sin_asin; lra).
  assert (Fb : -(PI/2) < f < PI/2) by (apply asin_bound_lt; lra).
  assert (Fc : 0 < cos f) by (apply cos_gt_0; lra). assert (F2 := sc2 f).
  rewrite !fsin_fin, !fcos_fin.
  assert (Q : 0 < r * (cos (radians th) + cos th) * (r * cos f) / (vp * vs) * 2).
  { apply Rmult_lt_0_compat; [|lra]. apply Rdiv_lt_0_compat; repeat apply Rmult_lt_0_compat; lra. }
  repeat (first [fl1 | rewrite (fdiv_fin NumPy _ vp) by auto | rewrite (fdiv_fin NumPy _ vs) by auto ]; cbv beta zeta).
  match goal with |- context [fdiv NumPy _ (Fin (?E * ?F + ?G))] =>
    assert (X : E * F + G = r * (cos (radians th) + cos th) * (r * cos f) / (vp * vs) * 2) by (field; lra) end.
  rewrite X. assert (0 < vs * (r * (cos (radians th) + cos th) * (r * cos f) / (vp * vs) * 2)) by (apply Rmult_lt_0_compat; lra).
  repeat (first [fl1 | rewrite fdiv_fin by lra]; cbv beta zeta). reteq.
  - field. repeat split; lra.
  - unfold Rdiv. ring.
Qed.
Lemma nan_div y : y <> 0 -> fdiv NumPy NaN (Fin y) = NaN.
Proof. intros. cbn. destruct Req_EM_T; [contradiction|reflexivity]. Qed.
Lemma nan_add_l x : fadd NaN (Fin x) = NaN. Proof. reflexivity. Qed.
Lemma nan_add_r x : fadd (Fin x) NaN = NaN. Proof. reflexivity. Qed.
Lemma nan_sub_l x : fsub NaN (Fin x) = NaN. Proof. reflexivity. Qed.
Lemma nan_sub_r x : fsub (Fin x) NaN = NaN. Proof. reflexivity. Qed.
Lemma nan_mul_l x : fmul NaN (Fin x) = NaN. Proof. reflexivity. Qed.
Lemma nan_mul_r x : fmul (Fin x) NaN = NaN. Proof. reflexivity. Qed.
Lemma bind_nan {A} (k : fl -> outcome A) : bind NaN k = k NaN. Proof. reflexivity. Qed.
Lemma nan_pow n : fpown NaN (S n) = NaN. Proof. reflexivity. Qed.
Ltac nans := repeat (first [rewrite bind_nan | rewrite nan_add_l | rewrite nan_add_r | rewrite nan_sub_l | rewrite nan_sub_r
   | rewrite nan_mul_l | rewrite nan_mul_r | rewrite nan_pow | rewrite nan_div by assumption
   | progress change (fadd NaN NaN) with NaN | progress change (fsub NaN NaN) with NaN | progress change (fmul NaN NaN) with NaN
   | progress change (fcos NaN) with NaN | progress change (fsin NaN) with NaN
   | progress change (fdiv NumPy NaN NaN) with NaN | fl1 | rewrite fdiv_fin by assumption ]; cbv beta zeta).
Lemma farcsin_dom x : farcsin (Fin x) = Fin (asin x) \/ farcsin (Fin x) = NaN.
Proof. unfold farcsin. repeat destruct Rle_dec; auto. Qed.
Lemma zoeppritz_nan vp1 vs1 r1 vp2 vs2 r2 : 0 < vp1 -> vp1 < vp2 -> 0 < vs1 -> 0 < vs2 ->
  AVO_zoeppritz (Fin vp1) (Fin vs1) (Fin r1) (Fin vp2) (Fin vs2) (Fin r2) (Fin (PI / 2)) = Ret (NaN, NaN).
Proof.
  intros H L S1 S2. unfold AVO_zoeppritz. assert (vp1 <> 0) by lra. assert (vp2 <> 0) by lra.
  assert (vs1 <> 0) by lra. assert (vs2 <> 0) by lra.
  rewrite fdeg2rad_fin, bind_fin, fsin_fin, sin_PI2, fdiv_fin, bind_fin by auto. rewrite fmul_fin.
  assert (1 < 1 / vp1 * vp2).
  { replace (1 / vp1 * vp2) with (vp2 / vp1) by (field; auto). apply lt_div_iff; lra. }
  assert (A : farcsin (Fin (1 / vp1 * vp2)) = NaN). { unfold farcsin. repeat destruct Rle_dec; try lra; reflexivity. }
  rewrite A, bind_nan, !fmul_fin.
  destruct (farcsin_dom (1 / vp1 * vs1)) as [-> | ->], (farcsin_dom (1 / vp1 * vs2)) as [-> | ->]; nans; reflexivity.
Qed.

(** ** AVO_abe *)
Section Abe.
Variables (m : mode) (vp1 vs1 r1 vp2 vs2 r2 : R).
Hypotheses (H1 : 0 < vs1) (H2 : vs1 < vp1) (H3 : 0 < vs2) (H4 : vs2 < vp2) (H5 : 0 < r1) (H6 : 0 < r2).
Let g := mean2 vs1 vs2 / mean2 vp1 vp2.
Let cr := contrast r1 r2.
Let cp := contrast vp1 vp2.
Let cs := contrast vs1 vs2.
Let s1 := poisson_v vp1 vs1.
Let s2 := poisson_v vp2 vs2.
Let sa := mean2 s1 s2.
Lemma s_lt vp vs : 0 < vs -> vs < vp -> poisson_v vp vs < 1/2.
Proof. intros. unfold poisson_v. apply div_lt_iff; nra. Qed.
Lemma abe_fin : cr + cp <> 0 ->
  AVO_AVO_abe m (Fin vp1) (Fin vs1) (Fin r1) (Fin vp2) (Fin vs2) (Fin r2) =
  Ret (Fin (1/2 * (cr + cp)), Fin (shuey_gradient vp1 vs1 r1 vp2 vs2 r2), Fin (aki_gradient vp1 vs1 r1 vp2 vs2 r2),
       Fin (ps_slope vp1 vs1 r1 vp2 vs2 r2 + g^3 * (1/2 * cr + cs)),
       Fin ((vs1 / vp1) / g * ps_slope vp1 vs1 r1 vp2 vs2 r2)).
Proof.
  intros N. unfold AVO_AVO_abe.
  assert (E1 : s1 < 1/2) by (apply s_lt; auto). assert (E2 : s2 < 1/2) by (apply s_lt; auto).
  assert (M1 : (r1 + r2) / 2 <> 0) by lra. assert (M2 : (vp1 + vp2) / 2 <> 0) by lra. assert (M3 : (vs1 + vs2) / 2 <> 0) by lra.
  assert (N1 : vs1 <> 0) by lra. assert (N2 : vs2 <> 0) by lra. assert (N3 : vp1 <> 0) by lra.
  assert (R1 : 0 < (vp1 / vs1)^2 - 1). { assert (1 < vp1 / vs1) by (apply lt_div_iff; lra). nra. }
  assert (R2 : 0 < (vp2 / vs2)^2 - 1). { assert (1 < vp2 / vs2) by (apply lt_div_iff; lra). nra. }
  assert (V1 : 0 < vp1^2 - vs1^2) by nra. assert (V2 : 0 < vp2^2 - vs2^2) by nra.
  assert (X1 : (1/2 * (vp1 / vs1)^2 - 1) / ((vp1 / vs1)^2 - 1) = s1) by (unfold s1, poisson_v; field; repeat split; lra).
  assert (X2 : (1/2 * (vp2 / vs2)^2 - 1) / ((vp2 / vs2)^2 - 1) = s2) by (unfold s2, poisson_v; field; repeat split; lra).
  do 9 (repeat fl1; repeat (rewrite fdiv_fin by (assumption || lra)); cbv beta zeta).
  rewrite ?X1, ?X2.
  do 9 (repeat fl1; repeat (rewrite fdiv_fin by (assumption || lra)); cbv beta zeta).
  match goal with |- context [fdiv m (Fin (?P / _)) (Fin ?y)] => assert (Y : y = cr + cp) by (unfold cr, cp, contrast, mean2; ring) end.
  rewrite Y. 
  change ((s1 + s2) / 2) with sa. assert (SA : sa < 1/2) by (unfold sa, mean2; lra). 
  assert (SB : (1 - sa)^2 <> 0) by (apply pow_nonzero; lra).
  assert (VP : 0 < ((vp1 + vp2) / 2)^2). { assert (0 < (vp1 + vp2) / 2) by lra. apply pow_lt; auto. }
  assert (VR : 0 < ((vp1 + vp2) / 2)^2 * ((r1 + r2) / 2)) by (apply Rmult_lt_0_compat; lra).
  do 20 (repeat fl1; repeat (rewrite fdiv_fin by (assumption || lra)); cbv beta zeta).
  reteq.
  - unfold shuey_gradient. cbv zeta. fold s1 s2 sa cp cr. change ((vp2 - vp1) / ((vp1 + vp2) / 2)) with cp. field. split; lra.
  - unfold aki_gradient, contrast, mean2. cbv zeta. field. lra.
  - unfold ps_slope, g, cr, cs, contrast, mean2. cbv zeta. field. lra.
  - unfold ps_slope, g, contrast, mean2. cbv zeta. field. lra.
Qed.
(** The intermediate ratio Bx divides by the sum of the two contrasts. *)
Lemma abe_zero : cr + cp = 0 ->
  AVO_AVO_abe PyFloat (Fin vp1) (Fin vs1) (Fin r1) (Fin vp2) (Fin vs2) (Fin r2) = Raise ZeroDivisionError.
Proof.
  intros N. unfold AVO_AVO_abe.
  assert (M1 : (r1 + r2) / 2 <> 0) by lra. assert (M2 : (vp1 + vp2) / 2 <> 0) by lra. assert (M3 : (vs1 + vs2) / 2 <> 0) by lra.
  assert (N1 : vs1 <> 0) by lra. assert (N2 : vs2 <> 0) by lra. assert (N3 : vp1 <> 0) by lra.
  assert (R1 : 0 < (vp1 / vs1)^2 - 1). { assert (1 < vp1 / vs1) by (apply lt_div_iff; lra). nra. }
  assert (R2 : 0 < (vp2 / vs2)^2 - 1). { assert (1 < vp2 / vs2) by (apply lt_div_iff; lra). nra. }
  do 20 (repeat fl1; repeat (rewrite fdiv_fin by (assumption || lra)); cbv beta zeta).
  match goal with |- context [fdiv _ (Fin (?P / _)) (Fin ?y)] => assert (Y : y = 0) by (rewrite <- N; unfold cr, cp, contrast, mean2; ring) end.
  rewrite Y, fdiv_zero_py_fin. reflexivity.
Qed.
Lemma shuey_same_ratio : vp1 / vs1 = vp2 / vs2 -> shuey_gradient vp1 vs1 r1 vp2 vs2 r2 = aki_gradient vp1 vs1 r1 vp2 vs2 r2.
Proof.
  intros E. assert (E' : vp1 * vs2 = vp2 * vs1).
  { replace vp1 with (vp1 / vs1 * vs1) by (field; lra). rewrite E. field. lra. }
  set (k := vs1 / vp1). assert (K1 : vs1 = k * vp1) by (unfold k; field; lra).
  assert (K2 : vs2 = k * vp2). { unfold k. apply Rmult_eq_reg_l with vp1; [|lra]. rewrite E'. field. lra. }
  assert (K : 0 < k < 1). { unfold k. split; [apply Rdiv_lt_0_compat; lra | apply div_lt_iff; lra]. }
  assert (0 < 1 - k^2) by nra.
  assert (S : forall v, 0 < v -> poisson_v v (k * v) = (1 - 2 * k^2) / (2 * (1 - k^2))).
  { intros v Hv. unfold poisson_v. field. split; [lra|]. replace (v^2 - (k*v)^2) with (v^2 * (1 - k^2)) by ring.
    apply Rmult_integral_contrapositive; split; [apply pow_nonzero|]; lra. }
  unfold shuey_gradient, aki_gradient. cbv zeta. rewrite K1, K2, !S by lra. unfold contrast, mean2.
  field. repeat split; lra.
Qed.
End Abe.

(** ** Elastic impedance *)
Lemma tan_sec i : cos i <> 0 -> 1 + (tan i)^2 = 1 / (cos i)^2.
Proof. intros C. unfold tan. replace 1 with ((sin i)^2 + (cos i)^2) at 2 by apply sc2. field. auto. Qed.
Ltac pows := rewrite ?Rmult_assoc; f_equal; try (apply fin_eq);
  repeat first [ apply (f_equal (Rmult _)) | apply f_equal2; [apply (f_equal (Rpower _))|] | apply (f_equal (Rpower _)) ].
Section EI.
Variables (m : mode) (ipn isn vp0 vs0 vp vs rho th SP : R).
Hypotheses (Hth : -90 < th < 90) (V0 : 0 < vs0) (V1 : vs0 < vp0) (V2 : 0 < vp) (V3 : 0 < vs) (V4 : 0 < rho) (HS : 0 < SP < 1).
Let i := radians th.
Let j := asin (sin i / vp0 * vs0).
Lemma sinj : sin j = sin i / vp0 * vs0 /\ -1 < sin j < 1 /\ 0 < cos j.
Proof.
  assert (S := sc2 i). assert (C := cos_deg th Hth). fold i in C.
  assert (Q : 0 < vs0 / vp0 < 1) by (split; [apply Rdiv_lt_0_compat; lra | apply div_lt_iff; lra]).
  assert (B : -1 < sin i < 1) by nra.
  assert (B' : -1 < sin i / vp0 * vs0 < 1). { replace (sin i / vp0 * vs0) with (sin i * (vs0 / vp0)) by (field; lra). nra. }
  assert (Fb := asin_bound_lt _ B'). fold j in Fb. assert (J : sin j = sin i / vp0 * vs0) by (apply sin_asin; lra).
  repeat split; try lra. apply cos_gt_0; lra.
Qed.
Lemma ei_fin : (sin j / SP)^2 < 1 ->
  AVO_EI_sample m (Fin ipn) (Fin isn) (Fin vp0) (Fin vs0) (Fin vp) (Fin vs) (Fin rho) (Fin th) (Fin SP) =
  Ret {| EI_pp := Fin (ipn * ei_pp vp vs rho SP i); EI_psv := Fin (ipn * ei_psv vs rho SP i);
         EI_svp := Fin (isn * ei_svp vs rho SP j); EI_svsv := Fin (isn * ei_svsv vs rho j); EI_shsh := Fin (isn * ei_shsh vs rho j) |}.
Proof.
  intros HJ. unfold AVO_EI_sample. destruct sinj as (J1 & J2 & J3). assert (C := cos_deg th Hth). fold i in C.
  assert (S := sc2 i). assert (C0 : cos i <> 0) by lra. assert (CJ0 : cos j <> 0) by lra. assert (N : vp0 <> 0) by lra.
  rewrite fdeg2rad_fin, bind_fin. change (th * PI / 180) with i. rewrite fsin_fin, fdiv_fin, bind_fin by auto.
  rewrite fmul_fin, farcsin_fin by lra. rewrite bind_fin. change (asin (sin i / vp0 * vs0)) with j.
  rewrite !ftan_fin, !fsin_fin, !fcos_fin by assumption.
  assert (Q : 0 < 1 - SP^2 * (sin i)^2) by nra.
  assert (QJ : 0 < 1 - 1 / SP^2 * (sin j)^2). { replace (1 / SP^2 * (sin j)^2) with ((sin j / SP)^2) by (field; lra). lra. }
  assert (SQ : 0 < sqrt (1 - SP^2 * (sin i)^2)) by (apply sqrt_lt_R0; auto).
  assert (SJ : 0 < sqrt (1 - 1 / SP^2 * (sin j)^2)) by (apply sqrt_lt_R0; auto).
  assert (SP2 : SP^2 <> 0) by (apply pow_nonzero; lra). assert (CC : (cos j)^2 <> 0) by (apply pow_nonzero; lra).
  repeat (first [fl1 | rewrite fdiv_fin by (assumption || lra) | rewrite fsqrt_fin by lra | rewrite fpow_fin by lra]; cbv beta zeta).
  apply f_equal. unfold ei_pp, ei_psv, ei_svp, ei_svsv, ei_shsh, ei_pp_P, ei_pp_S, ei_pp_R, ei_psv_S, ei_psv_R, ei_svp_S, ei_svp_R, ei_svsv_S, ei_svsv_R, ei_shsh_S.
  cbv zeta. replace ((sin j / SP)^2) with (1 / SP^2 * (sin j)^2) by (field; lra).
  set (q := sqrt (1 - SP^2 * (sin i)^2)) in *. set (qj := sqrt (1 - 1 / SP^2 * (sin j)^2)) in *.
  pows; try (field; lra). rewrite <- tan_sec by auto. ring.
Qed.
(** Past the critical S angle the SV-P exponents are the square root of a negative number. *)
Lemma ei_nan : 1 < (sin j / SP)^2 -> vs <> 1 ->
  AVO_EI_sample m (Fin ipn) (Fin isn) (Fin vp0) (Fin vs0) (Fin vp) (Fin vs) (Fin rho) (Fin th) (Fin SP) =
  Ret {| EI_pp := Fin (ipn * ei_pp vp vs rho SP i); EI_psv := Fin (ipn * ei_psv vs rho SP i);
         EI_svp := NaN; EI_svsv := Fin (isn * ei_svsv vs rho j); EI_shsh := Fin (isn * ei_shsh vs rho j) |}.
Proof.
  intros HJ Hv1. unfold AVO_EI_sample. destruct sinj as (J1 & J2 & J3). assert (C := cos_deg th Hth). fold i in C.
  assert (S := sc2 i). assert (C0 : cos i <> 0) by lra. assert (CJ0 : cos j <> 0) by lra. assert (N : vp0 <> 0) by lra.
  rewrite fdeg2rad_fin, bind_fin. change (th * PI / 180) with i. rewrite fsin_fin, fdiv_fin, bind_fin by auto.
  rewrite fmul_fin, farcsin_fin by lra. rewrite bind_fin. change (asin (sin i / vp0 * vs0)) with j.
  rewrite !ftan_fin, !fsin_fin, !fcos_fin by assumption.
  assert (Q : 0 < 1 - SP^2 * (sin i)^2) by nra.
  assert (QJ : 1 - 1 / SP^2 * (sin j)^2 < 0). { replace (1 / SP^2 * (sin j)^2) with ((sin j / SP)^2) by (field; lra). lra. }
  assert (SQ : 0 < sqrt (1 - SP^2 * (sin i)^2)) by (apply sqrt_lt_R0; auto).
  assert (SJ : fsqrt (Fin (1 - 1 / SP^2 * (sin j)^2)) = NaN) by (unfold fsqrt; destruct Rle_dec; [lra|reflexivity]).
  assert (SP2 : SP^2 <> 0) by (apply pow_nonzero; lra). assert (CC : (cos j)^2 <> 0) by (apply pow_nonzero; lra).
  assert (SQ0 : sqrt (1 - SP^2 * (sin i)^2) <> 0) by lra.
  assert (PN : fpow NumPy (Fin vs) NaN = NaN) by (cbn; destruct Req_EM_T; [contradiction|reflexivity]).
  assert (PR : fmul NaN (fpow NumPy (Fin rho) NaN) = NaN) by (cbn; destruct Req_EM_T; reflexivity).
  assert (DN : forall m' a, fdiv m' (Fin a) NaN = NaN) by reflexivity.
  repeat (first [rewrite SJ | rewrite PN | rewrite PR | rewrite DN | rewrite fsqrt_fin by lra | rewrite fpow_fin by lra
     | progress nans ]; cbv beta zeta).
  apply f_equal; unfold ei_pp, ei_psv, ei_svp, ei_svsv, ei_shsh, ei_pp_P, ei_pp_S, ei_pp_R, ei_psv_S, ei_psv_R, ei_svp_S, ei_svp_R, ei_svsv_S, ei_svsv_R, ei_shsh_S;
  cbv zeta; set (q := sqrt (1 - SP^2 * (sin i)^2)) in *; pows; try (field; lra); rewrite <- tan_sec by auto; ring.
Qed.
End EI.
