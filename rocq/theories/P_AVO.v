(** * Property theorems about AVO.py (C50-C54). *)
From Coq Require Import Lra.
From Verif Require Import Fl M_Utils M_EM M_Anis M_AVO Spec Spec5 RealLemmas L_Lists L_AVO1 L_AVO2 L_AVO3.
Open Scope R_scope.

(** The six entries of a 6x6 stiffness that [AVO_HTI] reads, and what makes them a physical layer. *)
Record hti_entries (C : mat) (c11 c13 c33 c44 c55 c66 : R) : Prop := {
  e11 : mget C 0 0 = Fin c11; e13 : mget C 0 2 = Fin c13; e33 : mget C 2 2 = Fin c33;
  e44 : mget C 3 3 = Fin c44; e55 : mget C 4 4 = Fin c55; e66 : mget C 5 5 = Fin c66;
  p44 : 0 < c44; p66 : 0 < c66; p55 : c55 < c33; p33 : 0 < c33 }.
(** Thomsen-type parameters with respect to the vertical. *)
Definition eps_v (c11 c33 : R) := (c11 - c33) / (2 * c33).
Definition del_v (c13 c33 c55 : R) := ((c13 + c55)^2 - (c33 - c55)^2) / (2 * c33 * (c33 - c55)).
Definition gam_v (c44 c66 : R) := (c44 - c66) / (2 * c66).

Lemma hti_eval D1 D2 C1 C2 a11 a13 a33 a44 a55 a66 b11 b13 b33 b44 b55 b66 th w :
  hti_entries C1 a11 a13 a33 a44 a55 a66 -> hti_entries C2 b11 b13 b33 b44 b55 b66 -> 0 < D1 -> 0 < D2 -> -90 < th < 90 ->
  AVO_HTI_elem (Fin D1) (Fin D2) C1 C2 (Fin th) (Fin w) =
  Ret (Fin (ruger D1 (sqrt (a33 / D1)) (sqrt (a44 / D1)) D2 (sqrt (b33 / D2)) (sqrt (b44 / D2))
      (eps_v b11 b33 - eps_v a11 a33) (del_v b13 b33 b55 - del_v a13 a33 a55) (gam_v b44 b66 - gam_v a44 a66) (radians th) (radians w))).
Proof. intros [ ] [ ] H1 H2 Ht. apply (hti_elem D1 D2 C1 C2 a11 a13 a33 a44 a55 a66 b11 b13 b33 b44 b55 b66); auto. Qed.
Lemma hti_list D1 D2 C1 C2 a11 a13 a33 a44 a55 a66 b11 b13 b33 b44 b55 b66 ths ws :
  hti_entries C1 a11 a13 a33 a44 a55 a66 -> hti_entries C2 b11 b13 b33 b44 b55 b66 -> 0 < D1 -> 0 < D2 ->
  (forall th, In th ths -> -90 < th < 90) ->
  AVO_HTI (Fin D1) (Fin D2) C1 C2 (map Fin ths) (map Fin ws) =
  Ret (map (fun w => map (fun th => Fin (ruger D1 (sqrt (a33 / D1)) (sqrt (a44 / D1)) D2 (sqrt (b33 / D2)) (sqrt (b44 / D2))
      (eps_v b11 b33 - eps_v a11 a33) (del_v b13 b33 b55 - del_v a13 a33 a55) (gam_v b44 b66 - gam_v a44 a66) (radians th) (radians w))) ths) ws).
Proof.
  intros E1 E2 H1 H2 Ht. unfold AVO_HTI. apply omap_map. intros w _. cbv beta.
  apply omap_map. intros th I. apply hti_eval; auto.
Qed.
Lemma omap_ret {A B} (f : A -> outcome B) (h : A -> B) L : (forall s, In s L -> f s = Ret (h s)) -> omap f L = Ret (map h L).
Proof. intros H. rewrite <- (map_id L) at 1. apply omap_map. exact H. Qed.

(** ** C50: no reflection without contrast; antisymmetry. *)
Theorem C50_identical :
  (forall m th vp vs r, -90 < th < 90 -> 0 < vs -> vs < vp -> 0 < r ->
     AVO_Aki_Richards m (Fin th) (Fin vp) (Fin vp) (Fin vs) (Fin vs) (Fin r) (Fin r) = Ret (Fin 0, Fin 0, Fin 0, Fin 0)) /\
  (forall D C c11 c13 c33 c44 c55 c66 ths ws, hti_entries C c11 c13 c33 c44 c55 c66 -> 0 < D ->
     (forall th, In th ths -> -90 < th < 90) ->
     AVO_HTI (Fin D) (Fin D) C C (map Fin ths) (map Fin ws) = Ret (map (fun _ => map (fun _ => Fin 0) ths) ws)) /\
  (forall m a b e1 d1 e2 d2 g r th, -90 < th < 90 -> 0 < a -> 0 < b -> 0 < r ->
     AVO_AVO_ortho m (Fin a) (Fin b) (Fin e1) (Fin d1) (Fin e2) (Fin d2) (Fin g) (Fin r)
                     (Fin a) (Fin b) (Fin e1) (Fin d1) (Fin e2) (Fin d2) (Fin g) (Fin r) (Fin th) = Ret (Fin 0, Fin 0)).
Proof.
  split; [|split].
  - intros m th vp vs r Ht Hs Hv Hr. rewrite aki_fin by lra.
    unfold aki_pp, aki_ps, akiA, akiM, akiN. cbv zeta. rewrite !contrast_same. reteq; unfold Rdiv; ring.
  - intros D C c11 c13 c33 c44 c55 c66 ths ws E HD Ht. rewrite (hti_list D D C C c11 c13 c33 c44 c55 c66 c11 c13 c33 c44 c55 c66) by auto.
    apply f_equal, map_ext. intros w. apply map_ext. intros th.
    rewrite !Rminus_eq_0, ruger_same. reflexivity.
  - intros m a b e1 d1 e2 d2 g r th Ht Ha Hb Hr. rewrite ortho_fin by auto. rewrite !Rminus_eq_0, ruger_same. reflexivity.
Qed.
Print Assumptions C50_identical.
Theorem C50_swap :
  (forall m th vp1 vp2 vs1 vs2 r1 r2, -90 < th < 90 -> 0 < vs1 -> vs1 < vp1 -> 0 < vs2 -> vs2 < vp2 -> 0 < r1 -> 0 < r2 ->
     exists pp ps i g ps', 
     AVO_Aki_Richards m (Fin th) (Fin vp1) (Fin vp2) (Fin vs1) (Fin vs2) (Fin r1) (Fin r2) = Ret (Fin pp, ps, Fin i, Fin g) /\
     AVO_Aki_Richards m (Fin th) (Fin vp2) (Fin vp1) (Fin vs2) (Fin vs1) (Fin r2) (Fin r1) = Ret (Fin (- pp), ps', Fin (- i), Fin (- g))) /\
  (forall D1 D2 C1 C2 a11 a13 a33 a44 a55 a66 b11 b13 b33 b44 b55 b66 ths ws,
     hti_entries C1 a11 a13 a33 a44 a55 a66 -> hti_entries C2 b11 b13 b33 b44 b55 b66 -> 0 < D1 -> 0 < D2 ->
     (forall th, In th ths -> -90 < th < 90) ->
     exists R, AVO_HTI (Fin D1) (Fin D2) C1 C2 (map Fin ths) (map Fin ws) = Ret (map (map Fin) R) /\
               AVO_HTI (Fin D2) (Fin D1) C2 C1 (map Fin ths) (map Fin ws) = Ret (map (map (fun x => Fin (- x))) R)) /\
  (forall m a1 b1 e11 d11 e12 d12 g1 r1 a2 b2 e21 d21 e22 d22 g2 r2 th,
     -90 < th < 90 -> 0 < a1 -> 0 < a2 -> 0 < b1 -> 0 < b2 -> 0 < r1 -> 0 < r2 ->
     exists x y,
     AVO_AVO_ortho m (Fin a1) (Fin b1) (Fin e11) (Fin d11) (Fin e12) (Fin d12) (Fin g1) (Fin r1)
       (Fin a2) (Fin b2) (Fin e21) (Fin d21) (Fin e22) (Fin d22) (Fin g2) (Fin r2) (Fin th) = Ret (Fin x, Fin y) /\
     AVO_AVO_ortho m (Fin a2) (Fin b2) (Fin e21) (Fin d21) (Fin e22) (Fin d22) (Fin g2) (Fin r2)
       (Fin a1) (Fin b1) (Fin e11) (Fin d11) (Fin e12) (Fin d12) (Fin g1) (Fin r1) (Fin th) = Ret (Fin (- x), Fin (- y))).
Proof.
  split; [|split].
  - intros. rewrite !aki_fin by lra. do 5 eexists. split; [reflexivity|]. rewrite (aki_pp_swap _ vp1 vp2 vs1 vs2 r1 r2).
    unfold akiA, akiM, akiN. rewrite (contrast_swap r1), (contrast_swap vp1), (contrast_swap vs1), (mean2_comm vs2), (mean2_comm vp2).
    reteq; ring.
  - intros D1 D2 C1 C2 a11 a13 a33 a44 a55 a66 b11 b13 b33 b44 b55 b66 ths ws E1 E2 H1 H2 Ht.
    rewrite (hti_list D1 D2 C1 C2 a11 a13 a33 a44 a55 a66 b11 b13 b33 b44 b55 b66),
            (hti_list D2 D1 C2 C1 b11 b13 b33 b44 b55 b66 a11 a13 a33 a44 a55 a66) by auto.
    exists (map (fun w => map (fun th => ruger D1 (sqrt (a33 / D1)) (sqrt (a44 / D1)) D2 (sqrt (b33 / D2)) (sqrt (b44 / D2))
      (eps_v b11 b33 - eps_v a11 a33) (del_v b13 b33 b55 - del_v a13 a33 a55) (gam_v b44 b66 - gam_v a44 a66) (radians th) (radians w)) ths) ws).
    rewrite !map_map. split; apply f_equal, map_ext; intros w; rewrite map_map; [reflexivity|].
    apply map_ext. intros th. rewrite <- ruger_swap. apply fin_eq. f_equal; ring.
  - intros. rewrite !ortho_fin by auto. do 2 eexists. split; [reflexivity|]. rewrite <- !ruger_swap.
    reteq; f_equal; ring.
Qed.
Print Assumptions C50_swap.
(** [AVO_abe] divides by the sum of the P-velocity and density contrasts, so two identical layers, or any two
    layers whose contrasts cancel, raise an exception. *)
Theorem C50_abe_refuted :
  (forall vp vs r, 0 < vs -> vs < vp -> 0 < r ->
    AVO_AVO_abe PyFloat (Fin vp) (Fin vs) (Fin r) (Fin vp) (Fin vs) (Fin r) = Raise ZeroDivisionError) /\
  (forall vp1 vs1 r1 vp2 vs2 r2, 0 < vs1 -> vs1 < vp1 -> 0 < vs2 -> vs2 < vp2 -> 0 < r1 -> 0 < r2 -> r1 * vp1 = r2 * vp2 ->
    AVO_AVO_abe PyFloat (Fin vp1) (Fin vs1) (Fin r1) (Fin vp2) (Fin vs2) (Fin r2) = Raise ZeroDivisionError).
Proof.
  assert (X : forall vp1 vs1 r1 vp2 vs2 r2, 0 < vs1 -> vs1 < vp1 -> 0 < vs2 -> vs2 < vp2 -> 0 < r1 -> 0 < r2 -> r1 * vp1 = r2 * vp2 ->
    AVO_AVO_abe PyFloat (Fin vp1) (Fin vs1) (Fin r1) (Fin vp2) (Fin vs2) (Fin r2) = Raise ZeroDivisionError).
  { intros. apply abe_zero; auto. unfold contrast, mean2. apply Rmult_eq_reg_r with ((r1 + r2) * (vp1 + vp2)); [|nra].
    replace (((r2 - r1) / ((r1 + r2) / 2) + (vp2 - vp1) / ((vp1 + vp2) / 2)) * ((r1 + r2) * (vp1 + vp2)))
     with (4 * (r2 * vp2 - r1 * vp1)) by (field; lra). rewrite H5. ring. }
  split; [intros; apply X; auto; lra | exact X].
Qed.
Print Assumptions C50_abe_refuted.

(** ** C51: Zoeppritz *)
Theorem C51_normal_incidence :
  forall vp1 vs1 r1 vp2 vs2 r2, 0 < vp1 -> 0 < vs1 -> 0 < r1 -> 0 < vp2 -> 0 < vs2 -> 0 < r2 ->
  AVO_zoeppritz (Fin vp1) (Fin vs1) (Fin r1) (Fin vp2) (Fin vs2) (Fin r2) (Fin 0) =
  Ret (Fin (normal_reflection (r1 * vp1) (r2 * vp2)), Fin 0).
Proof. apply zoeppritz_normal. Qed.
Print Assumptions C51_normal_incidence.
(** Between 0 and 1.57 degrees two identical layers reflect: the ray parameter takes the sine of an angle
    in degrees while the cosines take it in radians. *)
Theorem C51_identical_refuted :
  forall vp vs r th, 0 < vs -> vs < vp -> 0 < r -> 0 < th < PI / 2 ->
  exists x, AVO_zoeppritz (Fin vp) (Fin vs) (Fin r) (Fin vp) (Fin vs) (Fin r) (Fin th) = Ret (Fin x, Fin 0) /\
    x = (cos (radians th) - cos th) / (cos (radians th) + cos th) /\ 0 < x.
Proof.
  intros vp vs r th Hs Hv Hr Ht. exists ((cos (radians th) - cos th) / (cos (radians th) + cos th)).
  split; [apply zoeppritz_same; auto|]. split; [reflexivity|]. assert (D := deg_small th Ht).
  assert (0 < cos th) by (apply cos_gt_0; lra). apply Rdiv_lt_0_compat; lra.
Qed.
Print Assumptions C51_identical_refuted.
(** Any layer over a faster one is reported past critical (not a number) at pi/2 = 1.57 degrees. *)
Theorem C51_critical_refuted :
  forall vp1 vs1 r1 vp2 vs2 r2, 0 < vp1 -> vp1 < vp2 -> 0 < vs1 -> 0 < vs2 ->
  AVO_zoeppritz (Fin vp1) (Fin vs1) (Fin r1) (Fin vp2) (Fin vs2) (Fin r2) (Fin (PI / 2)) = Ret (NaN, NaN).
Proof. apply zoeppritz_nan. Qed.
Print Assumptions C51_critical_refuted.

(** ** C52: first-order isotropic reflectivity *)
Theorem C52_aki_richards :
  forall m th vp1 vp2 vs1 vs2 r1 r2, -90 < th < 90 -> 0 < vp2 -> 0 < vs1 -> 0 < vs2 -> 0 < r1 -> 0 < r2 -> vs1 < vp1 ->
  let i := radians th in
  exists pp ps A G,
  AVO_Aki_Richards m (Fin th) (Fin vp1) (Fin vp2) (Fin vs1) (Fin vs2) (Fin r1) (Fin r2) = Ret (Fin pp, Fin ps, Fin A, Fin G) /\
  pp = aki_pp i vp1 vp2 vs1 vs2 r1 r2 /\ ps = aki_ps i vp1 vp2 vs1 vs2 r1 r2 /\
  A = 1/2 * (contrast r1 r2 + contrast vp1 vp2) /\ G = aki_gradient vp1 vs1 r1 vp2 vs2 r2 /\
  pp = A + G * (sin i)^2 + 1/2 * contrast vp1 vp2 * (sin i)^2 * (tan i)^2 /\
  A = normal_reflection (r1 * vp1) (r2 * vp2) * (1 + contrast r1 r2 * contrast vp1 vp2 / 4) /\
  (th = 0 -> pp = A /\ ps = 0).
Proof.
  intros m th vp1 vp2 vs1 vs2 r1 r2 Ht H2 H3 H4 H5 H6 Hv i. rewrite aki_fin by lra. do 4 eexists. split; [reflexivity|]. do 2 (split; [reflexivity|]).
  assert (C := cos_deg th Ht). fold i in C. unfold akiA, akiM, akiN, aki_gradient.
  split; [reflexivity|]. split; [cbv zeta; ring|]. fold i.
  assert (E : aki_pp i vp1 vp2 vs1 vs2 r1 r2 = 1/2 * (contrast r1 r2 + contrast vp1 vp2) +
    (- 2 * (mean2 vs1 vs2 / mean2 vp1 vp2) ^ 2 * (2 * contrast vs1 vs2 + contrast r1 r2) + 1/2 * contrast vp1 vp2) * (sin i)^2 +
    1/2 * contrast vp1 vp2 * (sin i)^2 * (tan i)^2).
  { unfold aki_pp. cbv zeta. assert (T := tan_sec i ltac:(lra)). assert (S := sc2 i).
    replace (1 / (2 * (cos i)^2)) with (1/2 * (1 / (cos i)^2)) by (field; lra).
    assert (X : (sin i)^2 * (1 + (tan i)^2) = (tan i)^2). { unfold tan. replace ((sin i)^2) with (1 - (cos i)^2) by lra.
      replace ((sin i / cos i)^2) with ((1 - (cos i)^2) / (cos i)^2) by (replace (1 - (cos i)^2) with ((sin i)^2) by lra; field; lra). field. lra. }
    rewrite <- T. set (t2 := (tan i)^2) in *. set (s2 := (sin i)^2) in *. set (cp := contrast vp1 vp2).
    set (g := mean2 vs1 vs2 / mean2 vp1 vp2).
    assert (Y : s2 * t2 = t2 - s2) by lra. rewrite (Rmult_assoc (1/2 * cp)), Y. field. }
  split; [exact E|]. split.
  - unfold normal_reflection, contrast, mean2. assert (0 < r1 * vp1) by (apply Rmult_lt_0_compat; lra). assert (0 < r2 * vp2) by (apply Rmult_lt_0_compat; lra).
    field. lra.
  - intros ->. assert (I0 : i = 0) by (unfold i, radians; field). rewrite I0 in *. split.
    + rewrite E, sin_0. ring.
    + unfold aki_ps. cbv zeta. rewrite sin_0. unfold Rdiv. ring.
Qed.
Print Assumptions C52_aki_richards.
(** The five linear terms, whenever the P-velocity and density contrasts do not cancel. *)
Theorem C52_abe :
  forall m vp1 vs1 r1 vp2 vs2 r2, 0 < vs1 -> vs1 < vp1 -> 0 < vs2 -> vs2 < vp2 -> 0 < r1 -> 0 < r2 -> r1 * vp1 <> r2 * vp2 ->
  exists A B1 B2 E1 E2,
  AVO_AVO_abe m (Fin vp1) (Fin vs1) (Fin r1) (Fin vp2) (Fin vs2) (Fin r2) = Ret (Fin A, Fin B1, Fin B2, Fin E1, Fin E2) /\
  (forall th, -90 < th < 90 -> exists pp ps,
     AVO_Aki_Richards m (Fin th) (Fin vp1) (Fin vp2) (Fin vs1) (Fin vs2) (Fin r1) (Fin r2) = Ret (pp, ps, Fin A, Fin B2)) /\
  B1 = shuey_gradient vp1 vs1 r1 vp2 vs2 r2 /\ (vp1 / vs1 = vp2 / vs2 -> B1 = B2) /\
  (let g := mean2 vs1 vs2 / mean2 vp1 vp2 in
   E1 = ps_slope vp1 vs1 r1 vp2 vs2 r2 + g^3 * (1/2 * contrast r1 r2 + contrast vs1 vs2) /\
   E2 = (vs1 / vp1) / g * ps_slope vp1 vs1 r1 vp2 vs2 r2).
Proof.
  intros m vp1 vs1 r1 vp2 vs2 r2 H1 H2 H3 H4 H5 H6 N.
  rewrite abe_fin; auto.
  - do 5 eexists. split; [reflexivity|]. split; [|split; [reflexivity|split; [intros; apply shuey_same_ratio; auto|split; reflexivity]]].
    intros th Ht. rewrite aki_fin by lra. do 2 eexists. unfold akiA, akiM, akiN, aki_gradient. cbv zeta. reteq. ring.
  - intros E. apply N. apply Rminus_diag_uniq. unfold contrast, mean2 in E.
    replace (r1 * vp1 - r2 * vp2) with (- ((r2 - r1) / ((r1 + r2) / 2) + (vp2 - vp1) / ((vp1 + vp2) / 2)) * ((r1 + r2) * (vp1 + vp2) / 4)) by (field; lra).
    rewrite E. ring.
Qed.
Print Assumptions C52_abe.
(** The converted wave divided by the sine of the angle tends to [ps_slope] scaled by mean over upper P velocity. *)
Theorem C52_converted_slope :
  forall m vp1 vp2 vs1 vs2 r1 r2, 0 < vp2 -> 0 < vs1 -> 0 < vs2 -> 0 < r1 -> 0 < r2 -> vs1 < vp1 ->
  forall eps, 0 < eps -> exists del, 0 < del /\
  forall th, 0 < Rabs th < del -> exists pp ps A G,
    AVO_Aki_Richards m (Fin th) (Fin vp1) (Fin vp2) (Fin vs1) (Fin vs2) (Fin r1) (Fin r2) = Ret (Fin pp, Fin ps, Fin A, Fin G) /\
    Rabs (ps / sin (radians th) - mean2 vp1 vp2 / vp1 * ps_slope vp1 vs1 r1 vp2 vs2 r2) < eps.
Proof.
  intros m vp1 vp2 vs1 vs2 r1 r2 A4 A2 A5 A3 A6 A7 eps He. assert (A1 : 0 < vp1) by lra. 
  destruct (aki_ps_eps vp1 vs1 r1 vp2 vs2 r2 A1 A2 A3 A4 A5 A6 A7 eps He) as (d & Dp & Hd).
  exists (Rmin 1 d). split; [apply Rmin_glb_lt; [lra|exact Dp]|].
  intros th Hth. assert (Rabs th < 1) by (eapply Rlt_le_trans; [apply Hth|apply Rmin_l]). assert (Rabs th < d) by (eapply Rlt_le_trans; [apply Hth|apply Rmin_r]).
  assert (-1 < th < 1) by (apply Rabs_def2 in H; lra).
  rewrite aki_fin by lra. do 4 eexists. split; [reflexivity|]. apply Hd.
  - unfold radians. intros Z. assert (th = 0). { apply Rmult_eq_reg_r with (PI / 180); [|assert (P := PI_RGT_0); lra]. rewrite Rmult_0_l, <- Z. field. }
    subst. rewrite Rabs_R0 in Hth. lra.
  - assert (P := PI_RGT_0). assert (P4 := PI_4). unfold radians. replace (th * PI / 180) with (th * (PI / 180)) by field.
    rewrite Rabs_mult, (Rabs_right (PI/180)) by lra. assert (0 <= Rabs th) by apply Rabs_pos. nra.
Qed.
Print Assumptions C52_converted_slope.

(** ** C53: elastic impedance *)
Definition layer_ok (s : R * R * R) : Prop := 0 < lvs s /\ lvs s < lvp s /\ 0 < lrho s.
(** S angle of a layer by Snell's law. *)
Definition s_angle (th : R) (s : R * R * R) : R := asin (sin (radians th) / lvp s * lvs s).
Theorem C53_exponents :
  forall m L th SP, -90 < th < 90 -> 0 < SP < 1 -> (forall s, In s L -> layer_ok s) ->
  (forall s, In s L -> Rabs (sin (radians th)) * lvs s < SP * lvp s) -> L <> [] ->
  let i := radians th in let P := average lvp L in let S := average lvs L in let D := average lrho L in
  AVO_EI_ref m (map fin3 L) (Fin th) (Fin SP) false = Ret (map (fun s => let j := s_angle th s in
    {| EI_pp := Fin (ei_pp (lvp s) (lvs s) (lrho s) SP i); EI_psv := Fin (ei_psv (lvs s) (lrho s) SP i);
       EI_svp := Fin (ei_svp (lvs s) (lrho s) SP j); EI_svsv := Fin (ei_svsv (lvs s) (lrho s) j); EI_shsh := Fin (ei_shsh (lvs s) (lrho s) j) |}) L) /\
  AVO_EI_ref m (map fin3 L) (Fin th) (Fin SP) true = Ret (map (fun s => let j := s_angle th s in
    {| EI_pp := Fin (P * D * ei_pp (lvp s / P) (lvs s / S) (lrho s / D) SP i); EI_psv := Fin (P * D * ei_psv (lvs s / S) (lrho s / D) SP i);
       EI_svp := Fin (S * D * ei_svp (lvs s / S) (lrho s / D) SP j); EI_svsv := Fin (S * D * ei_svsv (lvs s / S) (lrho s / D) j);
       EI_shsh := Fin (S * D * ei_shsh (lvs s / S) (lrho s / D) j) |}) L).
Proof. intros. split; [apply ei_ref_raw; auto | apply ei_ref_norm; auto]. Qed.
Print Assumptions C53_exponents.
Theorem C53_normal_incidence :
  forall m L SP, 0 < SP < 1 -> (forall s, In s L -> layer_ok s) -> L <> [] ->
  let P := average lvp L in let S := average lvs L in let D := average lrho L in
  AVO_EI_ref m (map fin3 L) (Fin 0) (Fin SP) false = Ret (map (fun s =>
    {| EI_pp := Fin (lvp s * lrho s); EI_psv := Fin 1; EI_svp := Fin 1;
       EI_svsv := Fin (/ (lvs s * lrho s)); EI_shsh := Fin (/ (lvs s * lrho s)) |}) L) /\
  AVO_EI_ref m (map fin3 L) (Fin 0) (Fin SP) true = Ret (map (fun s =>
    {| EI_pp := Fin (lvp s * lrho s); EI_psv := Fin (P * D); EI_svp := Fin (S * D);
       EI_svsv := Fin ((S * D)^2 / (lvs s * lrho s)); EI_shsh := Fin ((S * D)^2 / (lvs s * lrho s)) |}) L).
Proof.
  intros m L SP HS HL NE P S D.
  assert (R0 : radians 0 = 0) by (unfold radians; field).
  assert (J0 : forall s, In s L -> s_angle 0 s = 0).
  { intros s I. destruct (HL s I) as (A & B & C). unfold s_angle. rewrite R0, sin_0. unfold Rdiv. rewrite !Rmult_0_l. apply asin_0. }
  assert (P0 : 0 < P) by (apply average_pos; auto; intros s I; destruct (HL s I) as (? & ? & ?); lra).
  assert (S0 : 0 < S) by (apply average_pos; auto; intros s I; destruct (HL s I) as (? & ? & ?); lra).
  assert (D0 : 0 < D) by (apply average_pos; auto; intros s I; destruct (HL s I) as (? & ? & ?); lra).
  destruct (C53_exponents m L 0 SP) as (E1 & E2); auto; [lra| |].
  { intros s I. destruct (HL s I) as (A & B & C). rewrite R0, sin_0, Rabs_R0, Rmult_0_l. apply Rmult_lt_0_compat; lra. }
  cbv zeta in E1, E2. rewrite R0 in E1, E2. fold P S D in E2.
  assert (V1 : forall a b c, 0 < a -> 0 < b -> 0 < c -> ei_pp a b c SP 0 = a * c).
  { intros a b c Ha Hb Hc. unfold ei_pp, ei_pp_P, ei_pp_S, ei_pp_R. rewrite sin_0, cos_0.
    replace (1 / 1^2) with 1 by field. replace (-8 * SP^2 * 0^2) with 0 by ring. replace (1 - 4 * SP^2 * 0^2) with 1 by ring.
    rewrite Rpower_O, !Rpower_1 by auto. ring. }
  assert (V2 : forall b c, 0 < b -> 0 < c -> ei_psv b c SP 0 = 1).
  { intros b c Hb Hc. unfold ei_psv, ei_psv_S, ei_psv_R. cbv zeta. rewrite sin_0. unfold Rdiv. rewrite !Rmult_0_l, Ropp_0, Rmult_0_l, !Rpower_O by auto. ring. }
  assert (V3 : forall b c, 0 < b -> 0 < c -> ei_svp b c SP 0 = 1).
  { intros b c Hb Hc. unfold ei_svp, ei_svp_S, ei_svp_R. cbv zeta. rewrite sin_0. unfold Rdiv. rewrite !Rmult_0_l, Ropp_0, Rmult_0_l, !Rpower_O by auto. ring. }
  assert (V0 : forall b, 0 < b -> Rpower b (- (1)) = / b) by (intros b Hb; rewrite Rpower_Ropp, Rpower_1 by auto; reflexivity).
  assert (V4 : forall b c, 0 < b -> 0 < c -> ei_svsv b c 0 = / (b * c)).
  { intros b c Hb Hc. unfold ei_svsv, ei_svsv_S, ei_svsv_R. rewrite sin_0, cos_0.
    replace (- (1 / 1^2 - 8 * 0^2)) with (- (1)) by field. replace (- (1 - 4 * 0^2)) with (- (1)) by field. rewrite !V0 by auto. field. lra. }
  assert (V5 : forall b c, 0 < b -> 0 < c -> ei_shsh b c 0 = / (b * c)).
  { intros b c Hb Hc. unfold ei_shsh, ei_shsh_S. rewrite tan_0. replace (- (1 - 0^2)) with (- (1)) by field.
    replace (-1) with (- (1)) by field. rewrite !V0 by auto. field. lra. }
  split; [rewrite E1 | rewrite E2]; apply f_equal, map_ext_in; intros s I; destruct (HL s I) as (A & B & C); rewrite (J0 s I).
  - rewrite V1, V2, V3, V4, V5 by lra. reflexivity.
  - assert (0 < lvp s / P) by (apply Rdiv_lt_0_compat; lra). assert (0 < lvs s / S) by (apply Rdiv_lt_0_compat; lra). assert (0 < lrho s / D) by (apply Rdiv_lt_0_compat; lra).
    rewrite V1, V2, V3, V4, V5 by auto. f_equal; apply fin_eq; field; repeat split; lra.
Qed.
Print Assumptions C53_normal_incidence.
(** Two layers: the PP impedance ratio does not depend on the normalisation, and its logarithm is twice the
    Aki-Richards reflection coefficient up to third order in the contrasts. *)
Definition third_order (x1 x2 : R) : R := Rabs (contrast x1 x2) ^ 3 / (12 * (1 - contrast x1 x2 ^ 2 / 4)).
Theorem C53_reflectivity :
  forall m m' th s1 s2, -90 < th < 90 -> layer_ok s1 -> layer_ok s2 ->
  let SP := mean2 (lvs s1) (lvs s2) / mean2 (lvp s1) (lvp s2) in let i := radians th in
  (forall s, In s [s1; s2] -> Rabs (sin i) * lvs s < SP * lvp s) ->
  exists a1 a2 b1 b2 pp ps A G,
    AVO_EI_ref m (map fin3 [s1; s2]) (Fin th) (Fin SP) false = Ret [a1; a2] /\
    AVO_EI_ref m (map fin3 [s1; s2]) (Fin th) (Fin SP) true = Ret [b1; b2] /\
    AVO_Aki_Richards m' (Fin th) (Fin (lvp s1)) (Fin (lvp s2)) (Fin (lvs s1)) (Fin (lvs s2)) (Fin (lrho s1)) (Fin (lrho s2))
      = Ret (Fin pp, ps, A, G) /\
    exists x1 x2 y1 y2, EI_pp a1 = Fin x1 /\ EI_pp a2 = Fin x2 /\ EI_pp b1 = Fin y1 /\ EI_pp b2 = Fin y2 /\
    0 < x1 /\ 0 < x2 /\ 0 < y1 /\ 0 < y2 /\ y2 / y1 = x2 / x1 /\
    Rabs (ln (x2 / x1) - 2 * pp) <= 1 / (cos i)^2 * third_order (lvp s1) (lvp s2)
      + 8 * SP^2 * (sin i)^2 * third_order (lvs s1) (lvs s2) + Rabs (1 - 4 * SP^2 * (sin i)^2) * third_order (lrho s1) (lrho s2).
Proof.
  intros m m' th s1 s2 Ht K1 K2 SP i HC. destruct K1 as (A1 & B1 & C1'). destruct K2 as (A2 & B2 & C2').
  assert (HS : 0 < SP < 1). { unfold SP, mean2. split; [apply Rdiv_lt_0_compat; lra | apply div_lt_iff; lra]. }
  assert (HL : forall s, In s [s1; s2] -> layer_ok s) by (intros s [<- | [<- | []]]; repeat split; auto).
  destruct (C53_exponents m [s1; s2] th SP Ht HS HL HC ltac:(discriminate)) as (E1 & E2). cbv zeta in E1, E2. cbn [map] in E1, E2.
  assert (C := cos_deg th Ht). fold i in C, E1, E2.
  set (P := average lvp [s1; s2]) in *. set (S := average lvs [s1; s2]) in *. set (D := average lrho [s1; s2]) in *.
  assert (P0 : 0 < P) by (apply average_pos; [discriminate|]; intros s I; destruct (HL s I) as (? & ? & ?); lra).
  assert (S0 : 0 < S) by (apply average_pos; [discriminate|]; intros s I; destruct (HL s I) as (? & ? & ?); lra).
  assert (D0 : 0 < D) by (apply average_pos; [discriminate|]; intros s I; destruct (HL s I) as (? & ? & ?); lra).
  do 8 eexists. split; [exact E1|]. split; [exact E2|]. split; [rewrite aki_fin by lra; reflexivity|].
  do 4 eexists. cbn [EI_pp]. do 4 (split; [reflexivity|]).
  assert (PD : 0 < P * D) by (apply Rmult_lt_0_compat; lra).
  assert (X := ei_pp_pos). do 2 (split; [apply X|]). do 2 (split; [apply Rmult_lt_0_compat; [exact PD|apply X]|]). split.
  - apply ln_inv; [apply Rdiv_lt_0_compat; [apply Rmult_lt_0_compat; [exact PD|apply X]|apply Rmult_lt_0_compat; [exact PD|apply X]]|apply Rdiv_lt_0_compat; apply X|].
    rewrite !ln_ratio by (try apply X; apply Rmult_lt_0_compat; [exact PD|apply X]).
    rewrite !ln_mult by (auto; apply X). rewrite !ln_ei_pp. rewrite !ln_ratio by (lra || apply X). rewrite !ln_ei_pp. ring.
  - change (radians th) with i. eapply Rle_trans; [apply ei_aki; lra|]. fold SP. right. unfold cub, third_order, ei_pp_P, ei_pp_S, ei_pp_R.
    apply (f_equal (fun z => _ + z * _ + _)). rewrite Rabs_left1; [ring|]. assert (0 <= SP^2 * (sin i)^2) by (apply Rmult_le_pos; apply pow2_ge_0). lra.
Qed.
Print Assumptions C53_reflectivity.
(** A single layer, normalised, is its own reference: its PP impedance is the acoustic impedance at every angle. *)
Theorem C53_single_layer :
  forall m s th SP, -90 < th < 90 -> 0 < SP < 1 -> layer_ok s -> Rabs (sin (radians th)) * lvs s < SP * lvp s ->
  AVO_EI_ref m [fin3 s] (Fin th) (Fin SP) true =
  Ret [{| EI_pp := Fin (lvp s * lrho s); EI_psv := Fin (lvp s * lrho s); EI_svp := Fin (lvs s * lrho s);
          EI_svsv := Fin (lvs s * lrho s); EI_shsh := Fin (lvs s * lrho s) |}].
Proof.
  intros m s th SP Ht HS K HC. destruct (C53_exponents m [s] th SP Ht HS) as (_ & E); try discriminate.
  { intros x [<- | []]; auto. } { intros x [<- | []]; auto. }
  cbv zeta in E. cbn [map] in E. rewrite E. destruct K as (A & B & C).
  assert (V : forall f : R * R * R -> R, average f [s] = f s) by (intros f; unfold average, sumf; cbn; field).
  rewrite !V. assert (U : forall x, 0 < x -> x / x = 1) by (intros; field; lra). rewrite !U by lra.
  assert (O : forall x, Rpower 1 x = 1) by (intros x; unfold Rpower; rewrite ln_1, Rmult_0_r; apply exp_0).
  unfold ei_pp, ei_psv, ei_svp, ei_svsv, ei_shsh. rewrite !O. do 3 f_equal; apply fin_eq; ring.
Qed.
Print Assumptions C53_single_layer.
(** [SP] is a constant, usually the mean of Vs/Vp: a layer with a larger ratio has no SV-P impedance at the
    angles where sin(theta) Vs/Vp exceeds it, though nothing is critical there. *)
Theorem C53_svp_refuted :
  forall m s th SP, -90 < th < 90 -> 0 < SP < 1 -> layer_ok s -> lvs s <> 1 -> SP * lvp s < Rabs (sin (radians th)) * lvs s ->
  exists r, AVO_EI_ref m [fin3 s] (Fin th) (Fin SP) false = Ret [r] /\ EI_svp r = NaN /\
    (exists x, EI_pp r = Fin x) /\ (exists x, EI_psv r = Fin x) /\ (exists x, EI_svsv r = Fin x) /\ (exists x, EI_shsh r = Fin x).
Proof.
  intros m s th SP Ht HS (A & B & C) N HC.
  assert (Q : 1 < (sin (s_angle th s) / SP)^2).
  { destruct (sinj (lvp s) (lvs s) th Ht A B) as (J1 & J2 & J3). unfold s_angle. rewrite J1. rewrite <- pow2_abs.
    assert (E : 1 < Rabs (sin (radians th) / lvp s * lvs s / SP)).
    { unfold Rdiv. rewrite !Rabs_mult, !Rabs_inv, (Rabs_right (lvp s)), (Rabs_right (lvs s)), (Rabs_right SP) by lra.
      replace (Rabs (sin (radians th)) * / lvp s * lvs s * / SP) with ((Rabs (sin (radians th)) * lvs s) / (SP * lvp s)) by (field; lra).
      apply lt_div_iff; [apply Rmult_lt_0_compat; lra|lra]. }
    nra. }
  unfold AVO_EI_ref. cbn [map omap fin3]. cbv beta iota zeta. unfold fin3.
  rewrite (ei_nan m 1 1 (lvp s) (lvs s) (lvp s) (lvs s) (lrho s) th SP Ht A B ltac:(lra) A C HS Q N).
  eexists. split; [reflexivity|]. split; [reflexivity|]. repeat split; eexists; reflexivity.
Qed.
Print Assumptions C53_svp_refuted.

(** ** C54: azimuthal AVO *)
Theorem C54_hti :
  forall D1 D2 C1 C2 a11 a13 a33 a44 a55 a66 b11 b13 b33 b44 b55 b66 ths ws,
  hti_entries C1 a11 a13 a33 a44 a55 a66 -> hti_entries C2 b11 b13 b33 b44 b55 b66 -> 0 < D1 -> 0 < D2 ->
  (forall th, In th ths -> -90 < th < 90) ->
  AVO_HTI (Fin D1) (Fin D2) C1 C2 (map Fin ths) (map Fin ws) =
  Ret (map (fun w => map (fun th => Fin (ruger D1 (sqrt (a33 / D1)) (sqrt (a44 / D1)) D2 (sqrt (b33 / D2)) (sqrt (b44 / D2))
      (eps_v b11 b33 - eps_v a11 a33) (del_v b13 b33 b55 - del_v a13 a33 a55) (gam_v b44 b66 - gam_v a44 a66) (radians th) (radians w))) ths) ws).
Proof. exact hti_list. Qed.
Print Assumptions C54_hti.
(** Symmetry-axis plane and isotropy plane against [AVO_ortho]; normal incidence. *)
Theorem C54_planes :
  forall m D1 D2 C1 C2 a11 a13 a33 a44 a55 a66 b11 b13 b33 b44 b55 b66 th,
  hti_entries C1 a11 a13 a33 a44 a55 a66 -> hti_entries C2 b11 b13 b33 b44 b55 b66 -> 0 < D1 -> 0 < D2 -> -90 < th < 90 ->
  let vp1 := sqrt (a33 / D1) in let vs1 := sqrt (a44 / D1) in let vp2 := sqrt (b33 / D2) in let vs2 := sqrt (b44 / D2) in
  exists Rxz Ryz,
  AVO_AVO_ortho m (Fin vp1) (Fin vs1) (Fin 0) (Fin 0) (Fin (eps_v a11 a33)) (Fin (del_v a13 a33 a55)) (Fin (gam_v a44 a66)) (Fin D1)
    (Fin vp2) (Fin vs2) (Fin 0) (Fin 0) (Fin (eps_v b11 b33)) (Fin (del_v b13 b33 b55)) (Fin (gam_v b44 b66)) (Fin D2) (Fin th) = Ret (Fin Rxz, Fin Ryz) /\
  AVO_HTI (Fin D1) (Fin D2) C1 C2 [Fin th] [Fin 0; Fin 90; Fin 180] = Ret [[Fin Rxz]; [Fin Ryz]; [Fin Rxz]] /\
  (th = 0 -> forall ws, Rxz = normal_reflection (D1 * vp1) (D2 * vp2) /\
     AVO_HTI (Fin D1) (Fin D2) C1 C2 [Fin 0] (map Fin ws) = Ret (map (fun _ => [Fin Rxz]) ws)).
Proof.
  intros m D1 D2 C1 C2 a11 a13 a33 a44 a55 a66 b11 b13 b33 b44 b55 b66 th E1 E2 H1 H2 Ht vp1 vs1 vp2 vs2.
  assert (Q1 : 0 < vp1) by (apply sqrt_lt_R0, Rdiv_lt_0_compat; [apply E1|auto]). assert (Q2 : 0 < vs1) by (apply sqrt_lt_R0, Rdiv_lt_0_compat; [apply E1|auto]).
  assert (Q3 : 0 < vp2) by (apply sqrt_lt_R0, Rdiv_lt_0_compat; [apply E2|auto]). assert (Q4 : 0 < vs2) by (apply sqrt_lt_R0, Rdiv_lt_0_compat; [apply E2|auto]).
  rewrite ortho_fin by auto. do 2 eexists. split; [reflexivity|]. 
  assert (L := fun ths ws => hti_list D1 D2 C1 C2 a11 a13 a33 a44 a55 a66 b11 b13 b33 b44 b55 b66 ths ws E1 E2 H1 H2). fold vp1 vs1 vp2 vs2 in L.
  assert (W0 : radians 0 = 0) by (unfold radians; field). assert (W90 : radians 90 = PI / 2) by (unfold radians; field). assert (W180 : radians 180 = PI) by (unfold radians; field).
  split.
  - assert (L1 := L [th] [0; 90; 180]). cbn [map] in L1. rewrite L1 by (intros t [<- | []]; auto). rewrite W0, W90, W180.
    unfold ruger. cbv zeta. rewrite cos_0, sin_0, cos_PI2, sin_PI2, cos_PI, sin_PI. reteq; ring.
  - intros -> ws. rewrite W0. unfold ruger at 1. cbv zeta. rewrite sin_0. split.
    + unfold normal_reflection, contrast, mean2. assert (0 < D1 * vp1) by (apply Rmult_lt_0_compat; auto). assert (0 < D2 * vp2) by (apply Rmult_lt_0_compat; auto). assert (0 < D1 * vs1^2) by pos. assert (0 < D2 * vs2^2) by pos. field. repeat split; lra.
    + assert (L1 := L [0] ws). cbn [map] in L1. rewrite L1 by (intros t [<- | []]; lra). apply f_equal, map_ext. intros w. rewrite W0.
      unfold ruger. cbv zeta. rewrite sin_0. reteq. ring.
Qed.
Print Assumptions C54_planes.
(** Orthorhombic layers: each symmetry plane reflects as the symmetry-axis plane of an HTI medium with that plane's
    parameters; shear splitting only enters the plane of the second pair. *)
Theorem C54_orthorhombic_planes :
  forall m a1 b1 e11 d11 e12 d12 g1 r1 a2 b2 e21 d21 e22 d22 g2 r2 th,
  -90 < th < 90 -> 0 < a1 -> 0 < a2 -> 0 < b1 -> 0 < b2 -> 0 < r1 -> 0 < r2 ->
  AVO_AVO_ortho m (Fin a1) (Fin b1) (Fin e11) (Fin d11) (Fin e12) (Fin d12) (Fin g1) (Fin r1)
    (Fin a2) (Fin b2) (Fin e21) (Fin d21) (Fin e22) (Fin d22) (Fin g2) (Fin r2) (Fin th) =
  Ret (Fin (ruger r1 a1 b1 r2 a2 b2 (e22 - e12) (d22 - d12) (g2 - g1) (radians th) 0),
       Fin (ruger r1 a1 b1 r2 a2 b2 (e21 - e11) (d21 - d11) 0 (radians th) 0)).
Proof.
  intros. rewrite ortho_fin by auto. unfold ruger. cbv zeta. rewrite cos_0, sin_0. reteq; ring.
Qed.
Print Assumptions C54_orthorhombic_planes.
(** Isotropic layers: no azimuthal variation. *)
Theorem C54_isotropic :
  forall D1 D2 C1 C2 M1 l1 G1 M2 l2 G2 ths ws, 
  hti_entries C1 M1 l1 M1 G1 G1 G1 -> hti_entries C2 M2 l2 M2 G2 G2 G2 -> l1 = M1 - 2 * G1 -> l2 = M2 - 2 * G2 -> 0 < D1 -> 0 < D2 ->
  (forall th, In th ths -> -90 < th < 90) ->
  exists row, AVO_HTI (Fin D1) (Fin D2) C1 C2 (map Fin ths) (map Fin ws) = Ret (map (fun _ => row) ws) /\
    row = map (fun th => Fin (ruger D1 (sqrt (M1 / D1)) (sqrt (G1 / D1)) D2 (sqrt (M2 / D2)) (sqrt (G2 / D2)) 0 0 0 (radians th) 0)) ths.
Proof.
  intros D1 D2 C1 C2 M1 l1 G1 M2 l2 G2 ths ws E1 E2 -> -> H1 H2 Ht. eexists. split; [|reflexivity].
  rewrite (hti_list D1 D2 C1 C2 M1 (M1 - 2 * G1) M1 G1 G1 G1 M2 (M2 - 2 * G2) M2 G2 G2 G2) by auto.
  assert (Z : forall M G, eps_v M M = 0 /\ del_v (M - 2 * G) M G = 0 /\ gam_v G G = 0).
  { intros. unfold eps_v, del_v, gam_v. replace (M - 2 * G + G) with (M - G) by ring. rewrite !Rminus_eq_0. unfold Rdiv. rewrite !Rmult_0_l. auto. }
  destruct (Z M1 G1) as (-> & -> & ->). destruct (Z M2 G2) as (-> & -> & ->).
  apply f_equal, map_ext. intros w. apply map_ext. intros th. apply fin_eq. unfold ruger. cbv zeta. ring.
Qed.
Print Assumptions C54_isotropic.

(** Concrete cases. *)
Example AVO_nonvacuous_velocities :
  -90 < 30 < 90 /\ 0 < 1200 /\ 1200 < 2500 /\ 0 < 1600 /\ 1600 < 3000 /\ 0 < 2.2 /\ 0 < 2.4 /\ 2.2 * 2500 <> 2.4 * 3000 /\ 0 < 1 < PI / 2.
Proof. assert (P := PI2_1). repeat split; lra. Qed.
Example AVO_nonvacuous_hti :
  let C := [[Fin 20; #0; Fin 7; #0; #0; #0]; [#0; Fin 22; #0; #0; #0; #0]; [Fin 7; #0; Fin 22; #0; #0; #0];
            [#0; #0; #0; Fin 7; #0; #0]; [#0; #0; #0; #0; Fin 6; #0]; [#0; #0; #0; #0; #0; Fin 6]] in
  hti_entries C 20 7 22 7 6 6 /\ hti_entries C 20 7 22 7 6 6.
Proof. cbv zeta. split; constructor; try reflexivity; lra. Qed.
Example AVO_nonvacuous_layers :
  let L := [(2500, 1200, 2.2); (3000, 1600, 2.4)] in L <> [] /\ (forall s, In s L -> layer_ok s) /\
  (forall s, In s L -> Rabs (sin (radians 0)) * lvs s < 0.5 * lvp s).
Proof.
  cbv zeta. split; [discriminate|]. split.
  - intros s [<- | [<- | []]]; unfold layer_ok, lvs, lvp, lrho; cbn; lra.
  - intros s H. replace (radians 0) with 0 by (unfold radians; field). rewrite sin_0, Rabs_R0.
    destruct H as [<- | [<- | []]]; unfold lvs, lvp; cbn; lra.
Qed.
