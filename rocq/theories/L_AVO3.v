(** * Lemmas about AVO.py: lists of samples, logarithms of impedance ratios, small-angle converted wave. *)
From Coq Require Import Lra.
From Verif Require Import Fl M_Utils M_EM M_Anis M_AVO Spec Spec5 RealLemmas L_Lists L_AVO1 L_AVO2.
Open Scope R_scope.

Lemma omap_map {A B C} (f : B -> outcome C) (g : A -> B) (h : A -> C) L :
  (forall s, In s L -> f (g s) = Ret (h s)) -> omap f (map g L) = Ret (map h L).
Proof.
  induction L as [|x L IH]; intros H; [reflexivity|]. cbn [map omap]. rewrite H by (left; auto). rewrite IH by (intros; apply H; right; auto). reflexivity.
Qed.
Lemma np_mean_map {A} (f : A -> R) L : L <> [] -> np_mean (map (fun s => Fin (f s)) L) = Fin (average f L).
Proof.
  intros H. unfold np_mean, average. rewrite fsum_map, map_length. rewrite fdiv_fin; [reflexivity|].
  apply not_0_INR. destruct L; [contradiction|]. cbn. lia.
Qed.
Lemma average_pos {A} (f : A -> R) L : L <> [] -> (forall s, In s L -> 0 < f s) -> 0 < average f L.
Proof.
  intros H P. unfold average. apply Rdiv_lt_0_compat; [|apply lt_0_INR; destruct L; [contradiction|cbn; lia]].
  assert (X : L <> [] -> 0 < sumf f L); [|auto]. clear H.
  induction L as [|x L IH]; [contradiction|]. intros _. rewrite sumf_cons. assert (0 < f x) by (apply P; left; auto).
  destruct L as [|y L]; [unfold sumf; cbn; lra|]. assert (0 < sumf f (y :: L)) by (apply IH; [intros; apply P; right; auto|discriminate]). lra.
Qed.

Definition good3 (s : R * R * R) : Prop := 0 < lvs s /\ lvs s < lvp s /\ 0 < lrho s.
Definition sang (th : R) (s : R * R * R) : R := asin (sin (radians th) / lvp s * lvs s).
Section EIref.
Variables (m : mode) (L : list (R * R * R)) (th SP : R).
Hypotheses (Hth : -90 < th < 90) (HS : 0 < SP < 1) (HL : forall s, In s L -> good3 s)
  (HC : forall s, In s L -> Rabs (sin (radians th)) * lvs s < SP * lvp s).
Let i := radians th.
Lemma crit_ok s : In s L -> (sin (sang th s) / SP)^2 < 1.
Proof.
  intros I. destruct (HL s I) as (A & B & C). assert (Cc := HC s I).
  destruct (sinj (lvp s) (lvs s) th Hth A B) as (J1 & J2 & J3). unfold sang. rewrite J1. change (radians th) with i. change (radians th) with i in Cc.
  assert (V : 0 < lvp s) by lra.
  assert (E : Rabs (sin i / lvp s * lvs s / SP) < 1).
  { unfold Rdiv. rewrite !Rabs_mult, !Rabs_inv, (Rabs_right (lvp s)), (Rabs_right (lvs s)), (Rabs_right SP) by lra.
    replace (Rabs (sin i) * / lvp s * lvs s * / SP) with ((Rabs (sin i) * lvs s) / (SP * lvp s)) by (field; lra).
    apply div_lt_iff; [apply Rmult_lt_0_compat; lra|lra]. }
  rewrite <- pow2_abs. assert (0 <= Rabs (sin i / lvp s * lvs s / SP)) by apply Rabs_pos. nra.
Qed.
Lemma ei_ref_raw : AVO_EI_ref m (map fin3 L) (Fin th) (Fin SP) false =
  Ret (map (fun s => let j := sang th s in
    {| EI_pp := Fin (ei_pp (lvp s) (lvs s) (lrho s) SP i); EI_psv := Fin (ei_psv (lvs s) (lrho s) SP i);
       EI_svp := Fin (ei_svp (lvs s) (lrho s) SP j); EI_svsv := Fin (ei_svsv (lvs s) (lrho s) j); EI_shsh := Fin (ei_shsh (lvs s) (lrho s) j) |}) L).
Proof.
  unfold AVO_EI_ref. apply omap_map. intros s I. cbv beta iota zeta. unfold fin3 at 1. destruct (HL s I) as (A & B & C).
  rewrite ei_fin; try lra; [|apply (crit_ok s I)]. rewrite !Rmult_1_l. reflexivity.
Qed.
Lemma ei_ref_norm : L <> [] ->
  let P := average lvp L in let S := average lvs L in let D := average lrho L in
  AVO_EI_ref m (map fin3 L) (Fin th) (Fin SP) true =
  Ret (map (fun s => let j := sang th s in
    {| EI_pp := Fin (P * D * ei_pp (lvp s / P) (lvs s / S) (lrho s / D) SP i); EI_psv := Fin (P * D * ei_psv (lvs s / S) (lrho s / D) SP i);
       EI_svp := Fin (S * D * ei_svp (lvs s / S) (lrho s / D) SP j); EI_svsv := Fin (S * D * ei_svsv (lvs s / S) (lrho s / D) j);
       EI_shsh := Fin (S * D * ei_shsh (lvs s / S) (lrho s / D) j) |}) L).
Proof.
  intros NE P S D. unfold AVO_EI_ref. rewrite !map_map. cbn [fin3 fst snd].
  rewrite !np_mean_map by auto. fold P S D.
  assert (P0 : 0 < P) by (apply average_pos; auto; intros s I; destruct (HL s I) as (? & ? & ?); lra).
  assert (S0 : 0 < S) by (apply average_pos; auto; intros s I; destruct (HL s I) as (? & ? & ?); lra).
  assert (D0 : 0 < D) by (apply average_pos; auto; intros s I; destruct (HL s I) as (? & ? & ?); lra).
  apply omap_map. intros s I. cbv beta iota zeta. unfold fin3 at 1. destruct (HL s I) as (A & B & C).
  rewrite !fmul_fin, !fdiv_fin by lra.
  rewrite ei_fin; try lra; try (apply Rdiv_lt_0_compat; lra); [|apply (crit_ok s I)]. reflexivity.
Qed.
End EIref.

(** Logarithm of a ratio against the contrast. *)
Lemma mono0 (F F' : R -> R) t : 0 <= t -> F 0 = 0 -> (forall c, 0 <= c <= t -> derivable_pt_lim F c (F' c)) -> (forall c, 0 <= c <= t -> 0 <= F' c) -> 0 <= F t.
Proof.
  intros Ht F0 D P. destruct (Req_dec t 0) as [-> | N]; [lra|].
  destruct (MVT_cor2 F F' 0 t ltac:(lra)) as (c & E & Hc); [intros; apply D; auto|].
  assert (0 <= F' c) by (apply P; lra). nra.
Qed.
From Coquelicot Require Import Coquelicot.
Lemma artanh_lo u : 0 <= u < 1 -> 0 <= ln ((1 + u) / (1 - u)) - 2 * u.
Proof.
  intros H. apply (mono0 (fun u => ln ((1 + u) / (1 - u)) - 2 * u) (fun u => 2 * u^2 / (1 - u^2)) u); try lra.
  - replace ((1 + 0) / (1 - 0)) with 1 by field. rewrite ln_1. ring.
  - intros c Hc. apply is_derive_Reals. assert (0 < (1 + c) / (1 - c)) by (apply Rdiv_lt_0_compat; lra).
    assert (0 < 1 - c^2) by nra.
    auto_derive; [repeat split; try exact I; try exact H0; lra|]. field. repeat split; try lra.
  - intros c Hc. assert (0 < 1 - c^2) by nra. apply le_div_iff; nra.
Qed.
Lemma artanh_hi u : 0 <= u < 1 -> ln ((1 + u) / (1 - u)) - 2 * u <= 2/3 * u^3 / (1 - u^2).
Proof.
  intros H.
  assert (0 <= 2/3 * u^3 / (1 - u^2) - (ln ((1 + u) / (1 - u)) - 2 * u)); [|lra].
  apply (mono0 (fun u => 2/3 * u^3 / (1 - u^2) - (ln ((1 + u) / (1 - u)) - 2 * u)) (fun u => 4/3 * u^4 / (1 - u^2)^2) u); try lra.
  - replace ((1 + 0) / (1 - 0)) with 1 by field. rewrite ln_1. field.
  - intros c Hc. apply is_derive_Reals. assert (0 < (1 + c) / (1 - c)) by (apply Rdiv_lt_0_compat; lra).
    assert (0 < 1 - c^2) by nra.
    auto_derive; [repeat split; try exact I; try exact H0; lra|]. field. repeat split; try lra.
  - intros c Hc. assert (0 < 1 - c^2) by nra. apply le_div_iff; [apply pow_lt; lra|]. assert (0 <= c^4) by (apply pow_le; lra). lra.
Qed.
Lemma ln_contrast x1 x2 : 0 < x1 -> 0 < x2 -> let c := contrast x1 x2 in
  Rabs (ln (x2 / x1) - c) <= Rabs c ^ 3 / (12 * (1 - c^2 / 4)).
Proof.
  intros H1 H2 c. assert (C : -2 < c < 2).
  { unfold c, contrast, mean2. split; [apply lt_div_iff | apply div_lt_iff]; lra. }
  assert (X : x2 / x1 = (1 + c / 2) / (1 - c / 2)). { unfold c, contrast, mean2. field. lra. }
  assert (G : forall u, 0 <= u < 1 -> Rabs (ln ((1 + u) / (1 - u)) - 2 * u) <= 2/3 * u^3 / (1 - u^2)).
  { intros u Hu. rewrite Rabs_right by (apply Rle_ge, artanh_lo, Hu). apply artanh_hi, Hu. }
  rewrite X. destruct (Rle_dec 0 c) as [P|N].
  - assert (E := G (c/2) ltac:(lra)). rewrite (Rabs_right c) by lra. replace (2 * (c/2)) with c in E by field.
    replace (c ^ 3 / (12 * (1 - c ^ 2 / 4))) with (2 / 3 * (c / 2) ^ 3 / (1 - (c / 2) ^ 2)); [exact E|]. field; nra.
  - assert (E := G (-c/2) ltac:(lra)). rewrite (Rabs_left c) by lra. 
    replace ((1 + - c / 2) / (1 - - c / 2)) with (/ ((1 + c / 2) / (1 - c / 2))) in E by (field; lra).
    rewrite ln_Rinv in E by (apply Rdiv_lt_0_compat; lra).
    rewrite <- Rabs_Ropp. replace (- (ln ((1 + c / 2) / (1 - c / 2)) - c)) with (- ln ((1 + c / 2) / (1 - c / 2)) - 2 * (- c / 2)) by field.
    replace ((- c) ^ 3 / (12 * (1 - c ^ 2 / 4))) with (2 / 3 * (- c / 2) ^ 3 / (1 - (- c / 2) ^ 2)); [exact E|]. field; nra.
Qed.
Lemma ln_ratio x1 x2 : 0 < x1 -> 0 < x2 -> ln (x2 / x1) = ln x2 - ln x1.
Proof. intros. unfold Rdiv. rewrite ln_mult, ln_Rinv; auto. apply Rinv_0_lt_compat; auto. Qed.
Lemma ln_Rpower a b : ln (Rpower a b) = b * ln a.
Proof. unfold Rpower. apply ln_exp. Qed.
Lemma Rpower_pos a b : 0 < Rpower a b.
Proof. apply exp_pos. Qed.
Lemma ei_pp_pos a b c SP i : 0 < ei_pp a b c SP i.
Proof. unfold ei_pp. repeat apply Rmult_lt_0_compat; apply Rpower_pos. Qed.
Lemma ln_ei_pp a b c SP i : ln (ei_pp a b c SP i) = ei_pp_P i * ln a + ei_pp_S SP i * ln b + ei_pp_R SP i * ln c.
Proof. unfold ei_pp. rewrite !ln_mult, !ln_Rpower; auto using Rpower_pos. apply Rmult_lt_0_compat; apply Rpower_pos. Qed.
Definition cub (x1 x2 : R) := Rabs (contrast x1 x2) ^ 3 / (12 * (1 - contrast x1 x2 ^ 2 / 4)).
Lemma ei_aki i vp1 vs1 r1 vp2 vs2 r2 :
  0 < vp1 -> 0 < vs1 -> 0 < r1 -> 0 < vp2 -> 0 < vs2 -> 0 < r2 -> cos i <> 0 ->
  let SP := mean2 vs1 vs2 / mean2 vp1 vp2 in
  Rabs (ln (ei_pp vp2 vs2 r2 SP i / ei_pp vp1 vs1 r1 SP i) - 2 * aki_pp i vp1 vp2 vs1 vs2 r1 r2) <=
  ei_pp_P i * cub vp1 vp2 + Rabs (ei_pp_S SP i) * cub vs1 vs2 + Rabs (ei_pp_R SP i) * cub r1 r2.
Proof.
  intros A1 A2 A3 A4 A5 A6 C SP. rewrite ln_ratio, !ln_ei_pp by apply ei_pp_pos.
  assert (E : 2 * aki_pp i vp1 vp2 vs1 vs2 r1 r2 = ei_pp_P i * contrast vp1 vp2 + ei_pp_S SP i * contrast vs1 vs2 + ei_pp_R SP i * contrast r1 r2).
  { unfold aki_pp, ei_pp_P, ei_pp_S, ei_pp_R. cbv zeta. fold SP. field. auto. }
  rewrite E.
  assert (B1 := ln_contrast vp1 vp2 A1 A4). assert (B2 := ln_contrast vs1 vs2 A2 A5). assert (B3 := ln_contrast r1 r2 A3 A6). cbv zeta in B1, B2, B3.
  rewrite ln_ratio in B1, B2, B3 by auto.
  assert (PP : 0 < ei_pp_P i). { unfold ei_pp_P. apply Rdiv_lt_0_compat; [lra|]. apply pow2_gt_0. auto. }
  replace (ei_pp_P i * ln vp2 + ei_pp_S SP i * ln vs2 + ei_pp_R SP i * ln r2 -
     (ei_pp_P i * ln vp1 + ei_pp_S SP i * ln vs1 + ei_pp_R SP i * ln r1) -
     (ei_pp_P i * contrast vp1 vp2 + ei_pp_S SP i * contrast vs1 vs2 + ei_pp_R SP i * contrast r1 r2))
   with (ei_pp_P i * (ln vp2 - ln vp1 - contrast vp1 vp2) + ei_pp_S SP i * (ln vs2 - ln vs1 - contrast vs1 vs2) + ei_pp_R SP i * (ln r2 - ln r1 - contrast r1 r2)) by ring.
  eapply Rle_trans; [apply Rabs_triang|]. apply Rplus_le_compat; [eapply Rle_trans; [apply Rabs_triang|]; apply Rplus_le_compat|];
  rewrite Rabs_mult; [rewrite (Rabs_right (ei_pp_P i)) by lra| |]; apply Rmult_le_compat_l; auto using Rabs_pos; lra.
Qed.

(** ** Slope of the converted wave at small angles *)
Lemma sqrt_close x : 0 <= x <= 1 -> 1 - x <= sqrt (1 - x) <= 1.
Proof.
  intros H. assert (S := sqrt_sqrt (1 - x) ltac:(lra)). assert (0 <= sqrt (1 - x)) by apply sqrt_pos. split; nra.
Qed.
Lemma aki_ps_slope vp1 vs1 r1 vp2 vs2 r2 :
  0 < vp1 -> 0 < vs1 -> 0 < r1 -> 0 < vp2 -> 0 < vs2 -> 0 < r2 -> vs1 < vp1 ->
  is_lim (fun i => aki_ps i vp1 vp2 vs1 vs2 r1 r2 / sin i) 0 (mean2 vp1 vp2 / vp1 * ps_slope vp1 vs1 r1 vp2 vs2 r2).
Proof.
  intros A1 A2 A3 A4 A5 A6 A7.
  set (h := fun i => let vp := mean2 vp1 vp2 in let vs := mean2 vs1 vs2 in
  let p := sin i / vp1 in let cj := sqrt (1 - (p * vs1)^2) in
  - (/ vp1 * vp / (2 * cj)) *
    ((1 - 2 * vs^2 * p^2 + 2 * vs^2 * (cos i / vp) * (cj / vs)) * contrast r1 r2
     - (4 * vs^2 * p^2 - 4 * vs^2 * (cos i / vp) * (cj / vs)) * contrast vs1 vs2)).
  apply (is_lim_ext_loc h).
  - exists (mkposreal 1 ltac:(lra)). intros y Hy Ny. unfold ball in Hy. cbn in Hy. unfold AbsRing_ball, abs, minus, plus, opp in Hy. cbn in Hy.
    assert (sin y <> 0).
    { assert (P := PI2_1). destruct (Rlt_dec 0 y). assert (0 < sin y) by (apply sin_gt_0; apply Rabs_def2 in Hy; lra). lra.
      assert (0 < sin (- y)) by (apply sin_gt_0; apply Rabs_def2 in Hy; lra). rewrite sin_neg in H. lra. }
    unfold h, aki_ps. cbv zeta. set (cj := sqrt _). match goal with |- _ * ?T = _ => set (t := T) end. unfold Rdiv. set (q := / (2 * cj)). field. lra.
  - replace (mean2 vp1 vp2 / vp1 * ps_slope vp1 vs1 r1 vp2 vs2 r2) with (h 0).
    + apply is_lim_continuity. apply continuity_pt_filterlim. apply (ex_derive_continuous h). unfold h, mean2. 
      auto_derive. rewrite sin_0. replace (1 + - (0 * / vp1 * vs1 * (0 * / vp1 * vs1 * 1))) with 1 by (field; lra).
      rewrite sqrt_1. repeat split; try exact I; lra.
    + unfold h. cbv zeta. rewrite sin_0, cos_0. replace (1 - (0 / vp1 * vs1)^2) with 1 by (field; lra). rewrite sqrt_1.
      unfold ps_slope, mean2. cbv zeta. field. lra.
Qed.
Lemma aki_ps_eps vp1 vs1 r1 vp2 vs2 r2 :
  0 < vp1 -> 0 < vs1 -> 0 < r1 -> 0 < vp2 -> 0 < vs2 -> 0 < r2 -> vs1 < vp1 ->
  forall eps, 0 < eps -> exists d, 0 < d /\ forall i, i <> 0 -> Rabs i < d ->
  Rabs (aki_ps i vp1 vp2 vs1 vs2 r1 r2 / sin i - mean2 vp1 vp2 / vp1 * ps_slope vp1 vs1 r1 vp2 vs2 r2) < eps.
Proof.
  intros A1 A2 A3 A4 A5 A6 A7 eps He. assert (L := aki_ps_slope vp1 vs1 r1 vp2 vs2 r2 A1 A2 A3 A4 A5 A6 A7).
  apply is_lim_spec in L. destruct (L (mkposreal eps He)) as (d & Hd). cbn in Hd.
  exists d. split; [apply cond_pos|]. intros i Hi Li. apply Hd; [|exact Hi].
  unfold ball. cbn. unfold AbsRing_ball, abs, minus, plus, opp. cbn. replace (i + - 0) with i by ring. exact Li.
Qed.
