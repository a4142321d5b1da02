(** * Thomsen's formulas are the first-order expansion of the exact phase velocities. *)
From Verif Require Import Fl M_Utils M_Anis Spec RealLemmas L_Utils L_Anis.
From Coquelicot Require Import Coquelicot.
Open Scope R_scope.

Section T.
Variables (m : mode) (M G rho th e g d : R).
Hypothesis HG : 0 < G.
Hypothesis HM : G < M.
Hypothesis Hr : 0 < rho.
Definition tc11 M e t := M * (1 + 2 * (t * e)).
Definition tc66 G g t := G * (1 + 2 * (t * g)).
Definition tc13 M G d t := sqrt ((M - G)^2 + 2 * M * (M - G) * (t * d)) - G.
Let s := sin (rad th).
Let c := cos (rad th).
Let aa t := tc11 M e t * s^2 + G * c^2.
Let dd := G * s^2 + M * c^2.
Let QQ t := (aa t - dd)^2 + 4 * (((M - G)^2 + 2 * M * (M - G) * (t * d)) * s^2 * c^2).
Let fp t := sqrt ((aa t + dd + sqrt (QQ t)) / (2 * rho)).
Let fsv t := sqrt ((aa t + dd - sqrt (QQ t)) / (2 * rho)).
Let fsh t := sqrt ((tc66 G g t * s^2 + G * c^2) / rho).

Lemma sc1 : s^2 + c^2 = 1.
Proof. unfold s, c. generalize (sin2_cos2 (rad th)). unfold Rsqr. lra. Qed.

Lemma near_stable : locally 0 (fun t => 0 < (M - G)^2 + 2 * M * (M - G) * (t * d) /\
   vti_stable (tc11 M e t) M (tc13 M G d t) G (tc66 G g t)).
Proof.
  assert (C1 : continuous (fun t => (M - G)^2 + 2 * M * (M - G) * (t * d)) 0).
  { apply (ex_derive_continuous (K:=R_AbsRing) (V:=R_NormedModule)). auto_derive. auto. }
  assert (C2 : continuous (tc11 M e) 0).
  { apply (ex_derive_continuous (K:=R_AbsRing) (V:=R_NormedModule)). unfold tc11. auto_derive. auto. }
  assert (C3 : continuous (tc66 G g) 0).
  { apply (ex_derive_continuous (K:=R_AbsRing) (V:=R_NormedModule)). unfold tc66. auto_derive. auto. }
  assert (P : 0 < (M - G)^2) by (apply pow_lt; lra).
  assert (C4 : continuous (fun t => tc11 M e t * M - (tc13 M G d t)^2) 0).
  { apply (ex_derive_continuous (K:=R_AbsRing) (V:=R_NormedModule)). unfold tc11, tc13. auto_derive.
    repeat split; auto. rewrite Rmult_0_l, Rmult_0_r, Rplus_0_r. nra. }
  assert (A : forall f : R -> R, continuous f 0 -> 0 < f 0 -> locally 0 (fun t => 0 < f t)).
  { intros f Hf H0. apply Hf. apply (open_gt 0). exact H0. }
  assert (L1 := A _ C1 ltac:(cbv beta; rewrite Rmult_0_l, Rmult_0_r, Rplus_0_r; exact P)).
  assert (L2 := A _ C2 ltac:(unfold tc11; rewrite Rmult_0_l; lra)).
  assert (L3 := A _ C3 ltac:(unfold tc66; rewrite Rmult_0_l; lra)).
  assert (L4 := A _ C4).
  assert (L4' : locally 0 (fun t => 0 < tc11 M e t * M - (tc13 M G d t)^2)).
  { apply L4. unfold tc11, tc13. rewrite !Rmult_0_l, !Rmult_0_r, !Rplus_0_r.
    replace (sqrt ((M - G)^2)) with (M - G) by (rewrite sqrt_pow2; lra). nra. }
  generalize (filter_and _ _ L1 (filter_and _ _ L2 (filter_and _ _ L3 L4'))).
  apply filter_imp. intros t (H1 & H2 & H3 & H4). split; [exact H1|].
  unfold vti_stable. repeat split; lra.
Qed.

Lemma vel_near t : 0 <= (M - G)^2 + 2 * M * (M - G) * (t * d) ->
  vti_stable (tc11 M e t) M (tc13 M G d t) G (tc66 G g t) ->
  Anis_vel_azi_VTI m (finmat (vti (tc11 M e t) M (tc13 M G d t) G (tc66 G g t))) (Fin rho) (Fin th)
  = Ret (Fin (fp t), Fin (fsh t), Fin (fsv t)).
Proof.
  intros H0 H. rewrite (vti_vel_eval m _ _ _ _ _ rho th H Hr).
  fold s c. unfold fp, fsh, fsv, QQ, aa, dd.
  assert (E : ((tc13 M G d t + G) * s * c)^2 = ((M - G)^2 + 2 * M * (M - G) * (t * d)) * s^2 * c^2).
  { unfold tc13. rewrite <- (pow2_sqrt ((M - G)^2 + 2 * M * (M - G) * (t * d))) at 2 by exact H0. ring. }
  rewrite E. reflexivity.
Qed.

Lemma QQ0 : QQ 0 = (M - G)^2.
Proof.
  unfold QQ, aa, dd, tc11. rewrite !Rmult_0_l, !Rmult_0_r, !Rplus_0_r, Rmult_1_r.
  replace (c^2) with (1 - s^2) by (generalize sc1; lra). ring.
Qed.
Lemma aa0 : aa 0 + dd = M + G.
Proof.
  unfold aa, dd, tc11. rewrite !Rmult_0_l, !Rmult_0_r, !Rplus_0_r, Rmult_1_r.
  replace (c^2) with (1 - s^2) by (generalize sc1; lra). ring.
Qed.
Lemma sQQ0 : sqrt (QQ 0) = M - G.
Proof. rewrite QQ0. apply sqrt_pow2; lra. Qed.

Lemma dQQ : is_derive QQ 0 (2 * (M - G) * ((s^2 - c^2) * (2 * M * e * s^2) + 4 * M * d * s^2 * c^2)).
Proof.
  unfold QQ, aa, dd, tc11. auto_derive; auto. ring.
Qed.
Lemma dsQQ : is_derive (fun t => sqrt (QQ t)) 0 ((s^2 - c^2) * (2 * M * e * s^2) + 4 * M * d * s^2 * c^2).
Proof.
  assert (P : 0 < QQ 0) by (rewrite QQ0; apply pow_lt; lra).
  evar_last. apply (is_derive_comp sqrt QQ 0 (/ (2 * sqrt (QQ 0)))).
  - apply is_derive_Reals. apply derivable_pt_lim_sqrt. exact P.
  - apply dQQ.
  - rewrite sQQ0. unfold scal; simpl; unfold mult; simpl. field. lra.
Qed.
Lemma sqrt_der (f : R -> R) f0 f' : is_derive f 0 f' -> f 0 = f0 -> 0 < f0 ->
  is_derive (fun t => sqrt (f t)) 0 (f' / (2 * sqrt f0)).
Proof.
  intros H E P. evar_last. apply (is_derive_comp sqrt f 0 (/ (2 * sqrt f0))).
  - rewrite E. apply is_derive_Reals. apply derivable_pt_lim_sqrt. exact P.
  - exact H.
  - unfold scal; simpl; unfold mult; simpl. field. apply Rgt_not_eq, sqrt_lt_R0, P.
Qed.
Lemma daa : is_derive aa 0 (2 * M * e * s^2).
Proof. unfold aa, tc11. auto_derive; auto. ring. Qed.

Lemma half_slope x y k : 0 < x -> y = 2 * x * k -> y / (2 * sqrt x) = sqrt x * k.
Proof.
  intros H ->. assert (0 < sqrt x) by (apply sqrt_lt_R0, H).
  replace x with (sqrt x * sqrt x) at 1 by (apply sqrt_sqrt; lra). field. lra.
Qed.

Lemma dfp : is_derive fp 0 (sqrt (M / rho) * (d * s^2 * c^2 + e * s^4)).
Proof.
  assert (0 < M / rho) by (apply Rdiv_lt_0_compat; lra).
  rewrite <- half_slope with (y := 2 * (M / rho) * (d * s^2 * c^2 + e * s^4)); auto.
  apply (sqrt_der (fun t => (aa t + dd + sqrt (QQ t)) / (2 * rho))); auto.
  - apply (is_derive_ext (fun t => / (2 * rho) * (aa t + (dd + sqrt (QQ t)))));
      [intros t; simpl; field; lra|].
    evar_last. apply is_derive_scal. apply (is_derive_plus (V:=R_NormedModule)); [apply daa|].
    apply (is_derive_plus (V:=R_NormedModule)); [apply is_derive_const | apply dsQQ].
    unfold plus, zero; simpl. replace (c * (c * 1)) with (1 - s * (s * 1)) by (generalize sc1; simpl; lra). field; lra.
  - rewrite aa0, sQQ0. field; lra.
Qed.
Lemma dfsv : is_derive fsv 0 (sqrt (G / rho) * (M / G * (e - d) * s^2 * c^2)).
Proof.
  assert (0 < G / rho) by (apply Rdiv_lt_0_compat; lra).
  rewrite <- half_slope with (y := 2 * (G / rho) * (M / G * (e - d) * s^2 * c^2)); auto.
  apply (sqrt_der (fun t => (aa t + dd - sqrt (QQ t)) / (2 * rho))); auto.
  - apply (is_derive_ext (fun t => / (2 * rho) * (aa t + (dd - sqrt (QQ t)))));
      [intros t; simpl; field; lra|].
    evar_last. apply is_derive_scal. apply (is_derive_plus (V:=R_NormedModule)); [apply daa|].
    apply (is_derive_minus (V:=R_NormedModule)); [apply is_derive_const | apply dsQQ].
    unfold plus, minus, opp, zero; simpl. unfold plus, opp; simpl.
    replace (c * (c * 1)) with (1 - s * (s * 1)) by (generalize sc1; simpl; lra). field; lra.
  - rewrite aa0, sQQ0. field; lra.
Qed.
Lemma dfsh : is_derive fsh 0 (sqrt (G / rho) * (g * s^2)).
Proof.
  assert (0 < G / rho) by (apply Rdiv_lt_0_compat; lra).
  rewrite <- half_slope with (y := 2 * (G / rho) * (g * s^2)); auto.
  apply (sqrt_der (fun t => (tc66 G g t * s^2 + G * c^2) / rho)); auto.
  - unfold tc66. auto_derive; auto. field; lra.
  - unfold tc66. replace (c^2) with (1 - s^2) by (generalize sc1; lra). field; lra.
Qed.
Lemma fp0 : fp 0 = sqrt (M / rho).
Proof. unfold fp. rewrite aa0, sQQ0. f_equal. field; lra. Qed.
Lemma fsv0 : fsv 0 = sqrt (G / rho).
Proof. unfold fsv. rewrite aa0, sQQ0. f_equal. field; lra. Qed.
Lemma fsh0 : fsh 0 = sqrt (G / rho).
Proof.
  unfold fsh, tc66. replace (c^2) with (1 - s^2) by (generalize sc1; lra). f_equal. field; lra.
Qed.

Lemma Thomsen_near t : 0 <= (M - G)^2 + 2 * M * (M - G) * (t * d) ->
  Anis_Thomsen m (Fin (tc11 M e t)) (Fin M) (Fin (tc13 M G d t)) (Fin G) (Fin (tc66 G g t)) (Fin rho) (Fin th)
  = Ret (Fin (1000 * (fp 0 + t * (sqrt (M / rho) * (d * s^2 * c^2 + e * s^4)))),
         Fin (1000 * (fsv 0 + t * (sqrt (G / rho) * (M / G * (e - d) * s^2 * c^2)))),
         Fin (1000 * (fsh 0 + t * (sqrt (G / rho) * (g * s^2)))), Fin (t * e), Fin (t * g), Fin (t * d)).
Proof.
  intros H0. rewrite Thomsen_eval by lra. fold s c. rewrite fp0, fsv0, fsh0.
  assert (E1 : (tc11 M e t - M) / (2 * M) = t * e) by (unfold tc11; field; lra).
  assert (E2 : (tc66 G g t - G) / (2 * G) = t * g) by (unfold tc66; field; lra).
  assert (E3 : ((tc13 M G d t + G)^2 - (M - G)^2) / (2 * M * (M - G)) = t * d).
  { unfold tc13. replace (sqrt ((M - G)^2 + 2 * M * (M - G) * (t * d)) - G + G)
      with (sqrt ((M - G)^2 + 2 * M * (M - G) * (t * d))) by ring.
    rewrite pow2_sqrt by exact H0. field; lra. }
  cbv zeta. rewrite E1, E2, E3. reteq; ring.
Qed.
End T.

(** The exact velocities of [vel_azi_VTI] along a one-parameter family of VTI media with
    Thomsen parameters t*e, t*g, t*d, and [Thomsen] on the same media. *)
Lemma Thomsen_first_order m M G rho th e g d : 0 < G -> G < M -> 0 < rho ->
  exists (C : R -> rmat) (c11 c13 c66 vp vsh vsv : R -> R) p' sh' sv' eta,
    0 < eta /\
    derivable_pt_lim vp 0 p' /\ derivable_pt_lim vsh 0 sh' /\ derivable_pt_lim vsv 0 sv' /\
    forall t, Rabs t < eta ->
      utils_write_VTI_matrix (Fin (c11 t)) (Fin M) (Fin (c13 t)) (Fin G) (Fin (c66 t)) = Ret (finmat (C t)) /\
    Anis_vel_azi_VTI m (finmat (C t)) (Fin rho) (Fin th) = Ret (Fin (vp t), Fin (vsh t), Fin (vsv t)) /\
    Anis_Thomsen m (Fin (c11 t)) (Fin M) (Fin (c13 t)) (Fin G) (Fin (c66 t)) (Fin rho) (Fin th)
      = Ret (Fin (1000 * (vp 0 + t * p')), Fin (1000 * (vsv 0 + t * sv')), Fin (1000 * (vsh 0 + t * sh')),
             Fin (t * e), Fin (t * g), Fin (t * d)).
Proof.
  intros HG HM Hr.
  destruct (near_stable M G e g d HG HM) as [[eta He] Hn]. simpl in Hn.
  exists (fun t => vti (tc11 M e t) M (tc13 M G d t) G (tc66 G g t)), (tc11 M e), (tc13 M G d), (tc66 G g).
  eexists. eexists. eexists. eexists. eexists. eexists. exists eta.
  split; [exact He|].
  split; [apply is_derive_Reals, (dfp M G rho th e d HG HM Hr)|].
  split; [apply is_derive_Reals, (dfsh G rho th g HG Hr)|].
  split; [apply is_derive_Reals, (dfsv M G rho th e d HG HM Hr)|].
  intros t Ht. destruct (Hn t) as [H1 H2].
  { unfold ball; simpl; unfold AbsRing_ball, abs, minus, plus, opp; simpl.
    rewrite Ropp_0, Rplus_0_r. exact Ht. }
  split; [apply write_VTI_eval|]. split; [apply vel_near; auto; lra | apply Thomsen_near; auto; lra].
Qed.
