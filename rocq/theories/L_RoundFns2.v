(** * L_RoundFns2: rounding errors of the granular-medium formulas (C81). *)
From Verif Require Import Fl RealLemmas M_Utils M_EM M_Fluid M_GM M_Perm M_Array M_ArrayFns M_Round Spec16 Spec18
  L_ArrayFns L_Round L_RoundRel L_RoundFns Spec3 L_GM1.
Open Scope R_scope.
Section Fns2.
Variables (m : mode) (u : R).
Hypothesis Hu : 0 <= u <= / 1000000.
Lemma hertzmindlin_acc K0 G0 phic Cn sg f K G ys :
  0 < K0 -> 0 < G0 -> 4 * G0 <= 5 * K0 -> 0 <= phic < 1 -> 0 < Cn -> 0 < sg -> 0 <= f ->
  GM_hertzmindlin m (Fin K0) (Fin G0) (Fin phic) (Fin Cn) (Fin sg) (Fin f) = Ret (Fin K, Fin G) -> Rabs (ln K) <= 20 ->
  fprog u arr_GM_hertzmindlin [K0; G0; phic; Cn; sg; f] ys ->
  accurate u (out2 (GM_hertzmindlin m (Fin K0) (Fin G0) (Fin phic) (Fin Cn) (Fin sg) (Fin f))) [75; 124]%nat ys.
Proof.
  intros HK HG H45 Hp HC Hs Hf E HL. accur GM_hertzmindlin_arr. {
  cbn [map]. plet. intros t1 T1. cbn [app].
  match goal with |- accp _ _ ?vs _ _ => destruct (nu_acc m u Hu vs (EVar 0) (EVar 1) K0 G0) as (B & BP); try assumption; try ac end.
  eapply accp_let; [exact Hu|exact B|]. intros t2 T2.
  rewrite (hertzmindlin_fin m K0 G0 phic Cn HK HG Hp HC) in E by lra. cbv zeta in E.
  pose proof (K3_pos K0 G0 phic Cn HK HG Hp HC (sg / 1000) ltac:(lra)) as K3.
  injection E as EK EG.
  set (nu := (3 * K0 - 2 * G0) / (6 * K0 + 2 * G0)) in *.
  assert (P1 : 0 < 1 - phic) by lra. assert (P2 : 0 < 1 - nu) by lra. assert (PP : 0 < PI) by apply PI_RGT_0.
  set (a := sg / 1000 * (Cn ^ 2 * (1 - phic) ^ 2 * G0 ^ 2) / (18 * PI ^ 2 * (1 - nu) ^ 2)).
  set (b := sg / 1000 * (3 * Cn ^ 2 * (1 - phic) ^ 2 * G0 ^ 2) / (2 * PI ^ 2 * (1 - nu) ^ 2)).
  assert (Ea : a = hertz_K3 K0 G0 phic Cn (sg / 1000)).
  { unfold a, hertz_K3. change (poisson K0 G0) with nu. field. repeat split; lra. }
  assert (Eb : b = 27 * a) by (unfold a, b; field; repeat split; lra).
  assert (Pa : 0 < a) by (rewrite Ea; auto).
  assert (La : ln K = 1 / 3 * ln a).
  { rewrite <- EK, <- Ea. unfold cbrt. destruct Rlt_dec; [|contradiction]. unfold Rpower. rewrite ln_exp; reflexivity. }
  assert (L3 : ln 27 <= 5).
  { rewrite <- (ln_exp 5). left. apply ln_increasing; [lra|].
    pose proof (exp_ineq1 1 ltac:(lra)) as E1. replace 5 with (1 + 1 + 1 + 1 + 1) by lra. rewrite !exp_plus.
    assert (2 * 2 < exp 1 * exp 1) by (apply Rmult_le_0_lt_compat; lra).
    assert (4 * 4 < (exp 1 * exp 1) * (exp 1 * exp 1)) by (apply Rmult_le_0_lt_compat; lra). nra. }
  assert (L30 : 0 <= ln 27) by (rewrite <- ln_1; left; apply ln_increasing; lra).
  cbn [map app]. eapply accp_let; [exact Hu| |].
  { eapply (acc_pow1 m u Hu 1 21); [left; reflexivity| |apply (acc_div m u Hu _ _ _ 0 0 1 3); [ac|ac|lra]|exact Pa| |].
    - ac; side; try pos.
      eapply (acc_subp m u Hu 2); [ac|ac|lra|simpl; lra|lia|simpl; lia].
    - simpl. rewrite Rabs_right; lra.
    - rewrite <- La. inr. lra. }
  intros t3 T3. cbn [map app]. eapply accp_let; [exact Hu| |].
  { eapply (acc_mul m u Hu).
    - eapply (acc_div m u Hu).
      + eapply (acc_subp m u Hu 2); [ac; side|ac; side|split|inr|lia|simpl; lia].
        * pos.
        * nra.
        * nra.
      + eapply (acc_mul m u Hu); [ac|]. eapply (acc_subp m u Hu 2); [ac|ac|lra|simpl; lra|lia|simpl; lia].
      + lra.
    - eapply (acc_pow1 m u Hu 1 23 _ _ _ _ _ b); [left; reflexivity| |apply (acc_div m u Hu _ _ _ 0 0 1 3); [ac|ac|lra]|rewrite Eb; lra| |].
      + ac; side; try pos.
        eapply (acc_subp m u Hu 2); [ac|ac|lra|simpl; lra|lia|simpl; lia].
      + simpl. rewrite Rabs_right; lra.
      + rewrite Eb, ln_mult by lra. inr. replace (1 / 3 * (ln 27 + ln a)) with (1 / 3 * ln 27 + ln K) by lra.
        apply rabs_le in HL. assert (Rabs (1 / 3 * ln 27 + ln K) <= 22) by (apply Rabs_le; lra). lra. }
  intros t4 T4. pretc. }
  cnt.
Qed.
End Fns2.
