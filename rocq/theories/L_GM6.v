(** * GM.py: what [johnson] returns, against Norris and Johnson's theory. *)
From Verif Require Import Fl Cx M_Utils M_EM M_GM Spec Spec3 Spec4 RealLemmas L_EM1 L_GM1 L_GM2 L_GM5.
From Coquelicot Require Import Coquelicot.
Open Scope R_scope.

Section J.
Variables (m : mode) (K0 G0 n phi e ea : R).
Hypotheses (HK : 0 < K0) (HG : 0 < G0) (Hn : 0 < n) (Hp : 0 <= phi < 1) (He : e < 0) (Hea : ea < 0).
Let al := sqrt (e / ea).

Lemma nj_B_eq : 2 / (PI * (4 * G0 / (1 - poisson K0 G0))) = nj_B K0 G0.
Proof.
  unfold nj_B. assert (A := nu_1p K0 G0 HK HG). assert (0 < PI) by apply PI_RGT_0. field. repeat split; lra.
Qed.
Lemma nj_B_pos : 0 < nj_B K0 G0.
Proof. unfold nj_B. assert (A := nu_1p K0 G0 HK HG). assert (0 < PI) by apply PI_RGT_0. apply Rdiv_lt_0_compat; [lra|]. apply Rmult_lt_0_compat; lra. Qed.
Lemma nj_C_eq : 4 / PI * (1 / (8 * G0 / (2 - poisson K0 G0)) - 1 / (4 * G0 / (1 - poisson K0 G0))) = nj_C K0 G0.
Proof. exact (Cw_eq K0 G0 HK HG). Qed.
Lemma nj_gamma_pos : 0 < nj_gamma K0 G0 n phi e.
Proof. exact (gam_pos K0 G0 n phi e HK HG Hn Hp He). Qed.
Lemma nj_C_nonneg : 2 * G0 <= 3 * K0 -> 0 <= nj_C K0 G0.
Proof.
  intros. unfold nj_C. assert (0 < PI) by apply PI_RGT_0. assert (X := nu_nonneg K0 G0 HK HG H).
  apply Rmult_le_pos; [exact X|left; apply Rinv_0_lt_compat; apply Rmult_lt_0_compat; lra].
Qed.
Lemma nj_C_pos : 2 * G0 < 3 * K0 -> 0 < nj_C K0 G0.
Proof.
  intros. unfold nj_C. assert (0 < PI) by apply PI_RGT_0. apply Rdiv_lt_0_compat; [|apply Rmult_lt_0_compat; lra].
  unfold poisson. apply Rdiv_lt_0_compat; lra.
Qed.

(** Same mean stress for the two documented paths the code supports. *)
Lemma mean_same : js33 K0 G0 n phi e ea + 2 * js11 K0 G0 n phi e ea = js33u K0 G0 n phi e ea + 2 * js11u K0 G0 n phi e ea.
Proof.
  unfold js33, js11, js33u, js11u.
  generalize (- Rpower (- e) (3/2) * (1 - phi) * n / (4 * PI * sqrt (e / ea)^3)).
  generalize (4 * G0 / (1 - poisson K0 G0)) (8 * G0 / (2 - poisson K0 G0)) (jI0 (sqrt (e / ea))) (jI2 (sqrt (e / ea))) (jI4 (sqrt (e / ea))) (sqrt (e / ea)).
  intros. field.
Qed.

(** Nearly hydrostatic strain: the code's C13 has the wrong sign. *)
Lemma small_axial : 16 * (- ea) <= - e -> 4 <= al.
Proof.
  intros H. unfold al. replace 4 with (sqrt (4^2)) by (apply sqrt_pow2; lra). apply sqrt_le_1_alt.
  replace (e / ea) with ((- e) / (- ea)) by (field; lra). apply le_div_iff; lra.
Qed.
Lemma jI2_neg a : 4 <= a -> jI2 a < 0 /\ 0 < jI4 a.
Proof.
  intros H. set (s := sqrt (1 + a^2)). assert (A2 : 16 <= a^2) by nra.
  assert (S0 : 0 < s) by (apply sqrt_lt_R0; lra). assert (S2 : s^2 = 1 + a^2) by (apply pow2_sqrt; lra).
  assert (S : s <= 104/100 * a) by nra. assert (S' : a < s) by nra.
  assert (L : 1/2 <= ln (1 + s / a)).
  { apply Rle_trans with (ln 2).
    - assert (X : exp (1/2) <= 2).
      { assert (E1 := exp_le_3). apply Rnot_lt_le. intro Y.
        assert (exp (1/2) * exp (1/2) = exp 1) by (rewrite <- exp_plus; f_equal; field). nra. }
      rewrite <- (ln_exp (1/2)). destruct X as [X|X]; [left; apply ln_increasing; [apply exp_pos|exact X]|rewrite X; lra].
    - assert (1 < s / a) by (apply lt_div_iff; lra). left. apply ln_increasing; lra. }
  assert (J0 : 1/2 * (s + a^2 * (1/2)) <= jI0 a).
  { unfold jI0. fold s. apply Rmult_le_compat_l; [lra|]. apply Rplus_le_compat_l. apply Rmult_le_compat_l; lra. }
  assert (J2 : jI2 a < 0).
  { unfold jI2. fold s.
    assert (X : (1 + a^2) * s < a^2 * jI0 a); [|lra].
    apply Rlt_le_trans with (a^2 * (1/2 * (s + a^2 * (1/2)))); [|apply Rmult_le_compat_l; lra].
    assert (Y : (1 + a^2 / 2) * s < a^2 * a^2 / 4); [|lra].
    apply Rle_lt_trans with ((9/16 * a^2) * (104/100 * a)).
    - apply Rmult_le_compat; lra.
    - assert (0 < a^2 * a * (a / 4 - 9/16 * (104/100))); [|lra]. apply Rmult_lt_0_compat; [|lra]. apply Rmult_lt_0_compat; lra. }
  split; [exact J2|]. unfold jI4. fold s.
  assert (0 < (1 + a^2) * s) by (apply Rmult_lt_0_compat; lra).
  assert (0 < a^2 * - jI2 a) by (apply Rmult_lt_0_compat; lra). lra.
Qed.
Lemma j13_neg : 2 * G0 < 3 * K0 -> 16 * (- ea) <= - e -> j13 K0 G0 n phi e ea < 0.
Proof.
  intros Hnu Hs. assert (A4 := small_axial Hs). destruct (jI2_neg al A4) as [A B].
  unfold j13. fold al. rewrite nj_C_eq. change (3 / 32 * (4 * G0 / (1 - poisson K0 G0)) * (8 * G0 / (2 - poisson K0 G0)) * n * (1 - phi) * sqrt (- e)) with (nj_gamma K0 G0 n phi e).
  assert (0 < nj_gamma K0 G0 n phi e / al) by (apply Rdiv_lt_0_compat; [apply nj_gamma_pos|lra]).
  assert (0 < nj_gamma K0 G0 n phi e / al * nj_C K0 G0) by (apply Rmult_lt_0_compat; [lra|apply nj_C_pos; auto]).
  nra.
Qed.
Lemma nj_C13_pos a : 0 < a -> 2 * G0 < 3 * K0 -> 0 < nj_C13 K0 G0 n phi e a.
Proof.
  intros Ha Hnu. unfold nj_C13. assert (L := nj_lt a Ha 2).
  apply Rmult_lt_0_compat; [|lra]. apply Rmult_lt_0_compat; [|apply nj_C_pos; auto]. apply Rdiv_lt_0_compat; auto. apply nj_gamma_pos.
Qed.
(** C11 grows without bound where the theory's stays bounded. *)
Lemma nj_I0_le a : 1 <= a -> nj_I 0 a <= 2 * a.
Proof.
  intros Ha. apply Rle_trans with (RInt (fun _ => 2 * a) 0 1).
  - unfold nj_I. apply RInt_le; [lra|apply int_ex; lra|apply ex_RInt_const|].
    intros x Hx. rewrite pow_O, Rmult_1_l. rewrite <- (sqrt_pow2 (2 * a)) by lra. apply sqrt_le_1_alt. nra.
  - rewrite RInt_const. unfold scal; simpl; unfold mult; simpl. lra.
Qed.
Lemma nj_C11_bound a : 1 <= a -> 2 * G0 <= 3 * K0 ->
  nj_C11 K0 G0 n phi e a <= nj_gamma K0 G0 n phi e * (4 * nj_B K0 G0 + 3/2 * nj_C K0 G0).
Proof.
  intros Ha Hnu. unfold nj_C11. assert (P := nj_gamma_pos). assert (B := nj_B_pos). assert (C := nj_C_nonneg Hnu).
  assert (I0 := nj_I0_le a Ha). assert (I2 := nj_pos a ltac:(lra) 2). assert (L := nj_lt a ltac:(lra) 2).
  assert (I0p := nj_pos a ltac:(lra) 0).
  set (g := nj_gamma K0 G0 n phi e) in *. set (b := nj_B K0 G0) in *. set (c := nj_C K0 G0) in *.
  apply Rle_trans with (g / a * (2 * b * (2 * a) + 3/4 * c * (2 * a))).
  - apply Rmult_le_compat_l; [apply Rmult_le_pos; [lra|left; apply Rinv_0_lt_compat; lra]|].
    apply Rplus_le_compat; apply Rmult_le_compat_l; lra.
  - right. field. lra.
Qed.
Lemma j11_big : 2 * G0 <= 3 * K0 -> nj_gamma K0 G0 n phi e * al * (2 * nj_B K0 G0 / 15) <= j11 K0 G0 n phi e ea.
Proof.
  intros Hnu. unfold j11. fold al. rewrite nj_C_eq, nj_B_eq.
  change (3 / 32 * (4 * G0 / (1 - poisson K0 G0)) * (8 * G0 / (2 - poisson K0 G0)) * n * (1 - phi) * sqrt (- e)) with (nj_gamma K0 G0 n phi e).
  assert (P := nj_gamma_pos). assert (B := nj_B_pos). assert (C := nj_C_nonneg Hnu).
  set (g := nj_gamma K0 G0 n phi e) in *. set (b := nj_B K0 G0) in *. set (c := nj_C K0 G0) in *.
  assert (A : 0 < al) by (apply sqrt_lt_R0, q_pos; auto).
  assert (E : e / ea = al^2) by (symmetry; apply pow2_sqrt; left; apply q_pos; auto). rewrite E.
  assert (0 < al^2) by (apply pow_lt, A).
  apply Rle_trans with (g / al * (al^2 * (2 * b / 15))).
  - right. field. lra.
  - apply Rmult_le_compat_l; [apply Rmult_le_pos; [lra|left; apply Rinv_0_lt_compat; lra]|].
    assert (0 <= al^2 * (c / 35)) by (apply Rmult_le_pos; lra). lra.
Qed.
End J.

Lemma j11_unbounded K0 G0 n phi e k : 0 < K0 -> 0 < G0 -> 0 < n -> 0 <= phi < 1 -> e < 0 -> 2 * G0 <= 3 * K0 -> 0 < k ->
  exists d, 0 < d /\ forall ea, - d < ea < 0 -> k * nj_C11 K0 G0 n phi e (sqrt (e / ea)) < j11 K0 G0 n phi e ea.
Proof.
  intros HK HG Hn Hp He Hnu Hk.
  assert (P := nj_gamma_pos K0 G0 n phi e HK HG Hn Hp He). assert (B := nj_B_pos K0 G0 HK HG). assert (C := nj_C_nonneg K0 G0 HK HG Hnu).
  set (M := 4 * nj_B K0 G0 + 3/2 * nj_C K0 G0).
  set (L := k * M / (2 * nj_B K0 G0 / 15) + 1).
  assert (HM : 0 < M) by (unfold M; lra).
  assert (HL : 1 < L).
  { unfold L. assert (0 < k * M / (2 * nj_B K0 G0 / 15)) by (apply Rdiv_lt_0_compat; [apply Rmult_lt_0_compat; lra|lra]). lra. }
  assert (L2 : 0 < L^2) by (apply pow_lt; lra).
  exists ((- e) / L^2). split; [apply Rdiv_lt_0_compat; lra|]. intros ea [H1 H2].
  assert (A : L < sqrt (e / ea)).
  { rewrite <- (sqrt_pow2 L) by lra. apply sqrt_lt_1; [lra|left; apply q_pos; auto|].
    replace (e / ea) with ((- e) / (- ea)) by (field; lra). apply lt_div_iff; [lra|].
    assert (X : - ea < (- e) / L^2) by lra. apply (Rmult_lt_compat_r (L^2)) in X; [|exact L2].
    unfold Rdiv in X. rewrite Rmult_assoc, Rinv_l in X by lra. lra. }
  assert (X := nj_C11_bound K0 G0 n phi e HK HG Hn Hp He (sqrt (e / ea)) ltac:(lra) Hnu). fold M in X.
  assert (Y := j11_big K0 G0 n phi e ea HK HG Hn Hp He H2 Hnu).
  eapply Rlt_le_trans; [|exact Y].
  apply Rle_lt_trans with (k * (nj_gamma K0 G0 n phi e * M)); [apply Rmult_le_compat_l; lra|].
  set (g := nj_gamma K0 G0 n phi e) in *.
  apply Rlt_le_trans with (g * L * (2 * nj_B K0 G0 / 15)).
  - replace (g * L * (2 * nj_B K0 G0 / 15)) with (k * (g * M) + g * (2 * nj_B K0 G0 / 15)) by (unfold L; field; lra).
    assert (0 < g * (2 * nj_B K0 G0 / 15)) by (apply Rmult_lt_0_compat; lra). lra.
  - apply Rmult_le_compat_r; [lra|]. apply Rmult_le_compat_l; lra.
Qed.

(** Equal strains: the contact integrals are exact. *)
Lemma equal_alpha e : e < 0 -> sqrt (e / e) = 1.
Proof. intros. replace (e / e) with 1 by (field; lra). apply sqrt_1. Qed.
Lemma j_equal K0 G0 n phi e : 0 < K0 -> 0 < G0 -> e < 0 ->
  j33 K0 G0 n phi e e = nj_C33 K0 G0 n phi e 1 /\ j13 K0 G0 n phi e e = nj_C13 K0 G0 n phi e 1 /\
  j44 K0 G0 n phi e e = nj_C44 K0 G0 n phi e 1 /\ j66 K0 G0 n phi e e = nj_C66 K0 G0 n phi e 1.
Proof.
  intros HK HG He. unfold j33, j13, j44, j66. rewrite !(equal_alpha e He).
  rewrite (nj_C_eq K0 G0 HK HG), (nj_B_eq K0 G0 HK HG).
  rewrite (proj2 (jI0_exact 1 ltac:(lra)) eq_refl), jI2_exact, jI4_exact.
  split; [|split; [|split]]; reflexivity.
Qed.
(** The third path's stresses do not have the mean stress of the other two. *)
Lemma mean_iso K0 G0 n phi e : 0 < K0 -> 0 < G0 -> 0 < n -> 0 <= phi < 1 -> e < 0 ->
  js33i K0 G0 n phi e e + 2 * js11i K0 G0 n phi e e <> js33 K0 G0 n phi e e + 2 * js11 K0 G0 n phi e e.
Proof.
  intros HK HG Hn Hp He. unfold js33i, js11i, js33, js11. rewrite !(equal_alpha e He).
  rewrite (proj2 (jI0_exact 1 ltac:(lra)) eq_refl), jI2_exact, jI4_exact.
  assert (A := nj_lt 1 ltac:(lra) 0). assert (B := nj_lt 1 ltac:(lra) 2).
  set (i0 := nj_I 0 1) in *. set (i2 := nj_I 2 1) in *. set (i4 := nj_I 4 1) in *.
  assert (Cn := Cn_pos K0 G0 HK HG). assert (Ct := Ct_pos K0 G0 HK HG).
  set (cn := 4 * G0 / (1 - poisson K0 G0)) in *. set (ct := 8 * G0 / (2 - poisson K0 G0)) in *.
  set (T := - Rpower (- e) (3/2) * (1 - phi) * n / (4 * PI * 1^3)).
  assert (HT : T < 0).
  { unfold T. assert (0 < PI) by apply PI_RGT_0. assert (0 < Rpower (- e) (3/2)) by apply exp_pos.
    replace (- Rpower (- e) (3/2) * (1 - phi) * n / (4 * PI * 1^3)) with (- (Rpower (- e) (3/2) * (1 - phi) * n / (4 * PI))) by (field; lra).
    apply Ropp_lt_gt_0_contravar, Rdiv_lt_0_compat; [|lra]. apply Rmult_lt_0_compat; [apply Rmult_lt_0_compat|]; lra. }
  intro E. assert (X : T * cn * (1 + ct) * (i0 - i4) = 0) by (rewrite pow1 in E; lra).
  apply Rmult_integral in X. destruct X as [X|X]; [|lra]. apply Rmult_integral in X. destruct X as [X|X]; [|lra].
  apply Rmult_integral in X. lra.
Qed.
