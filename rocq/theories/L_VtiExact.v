(** * Exact phase velocities of a VTI medium near and on its symmetry directions. *)
From Coq Require Import Lra Lia.
From Verif Require Import Fl M_Utils M_EM M_Anis Spec RealLemmas L_Lists L_Utils L_Anis.
Open Scope R_scope.

(** The larger eigenvalue of [[aa, bb], [bb, dd]] close to the vertical. *)
Section V.
Variables (c11 c33 c13 c44 x : R).
Hypotheses (HA : c44 < c33) (Hx : 0 <= x <= 1).
Definition Pv := c11 * x + c44 * (1 - x).
Definition Qv := c44 * x + c33 * (1 - x).
Definition Ev := (c13 + c44)^2 * (x * (1 - x)).
Definition Rv := sqrt ((Pv - Qv)^2 + 4 * Ev).
Definition Lv := (Pv + Qv + Rv) / 2.
Let A := c33 - c44.
Definition dv := ((c13 + c44)^2 - (c33 - c44)^2) / (2 * c33 * (c33 - c44)).
Lemma Ev_nonneg : 0 <= Ev.
Proof. unfold Ev. apply Rmult_le_pos; [apply pow2_ge_0|apply Rmult_le_pos; lra]. Qed.
Lemma Rv_sq : Rv^2 = (Pv - Qv)^2 + 4 * Ev /\ 0 <= Rv.
Proof. split; [apply pow2_sqrt; assert (E := Ev_nonneg); assert (0 <= (Pv - Qv)^2) by apply pow2_ge_0; lra|apply sqrt_pos]. Qed.
Lemma Lv_prod : (Lv - Pv) * (Lv - Qv) = Ev.
Proof. destruct Rv_sq as (E & _). unfold Lv. replace (((Pv + Qv + Rv) / 2 - Pv) * ((Pv + Qv + Rv) / 2 - Qv)) with ((Rv^2 - (Pv - Qv)^2) / 4) by field. rewrite E. field. Qed.
Lemma Lv_ge : Pv <= Lv /\ Qv <= Lv.
Proof.
  destruct Rv_sq as (E & P). assert (Ev0 := Ev_nonneg).
  assert (Rabs (Pv - Qv) <= Rv). { apply sq_le; [exact P|]. rewrite pow2_abs. lra. }
  unfold Lv. split; unfold Rabs in H; destruct (Rcase_abs (Pv - Qv)); lra.
Qed.
Lemma Lv_taylor : c33 <> 0 -> x * (2 * (Rabs (c11 - c44) + A)) <= A ->
  Rabs (Lv - c33 * (1 + 2 * dv * x)) <= 2 * (c13 + c44)^2 / A^2 * (Rabs (c11 - c44) + 2 * (c13 + c44)^2 / A) * x^2.
Proof.
  intros H33 Hs. assert (PA : 0 < A) by (unfold A; lra). assert (E := Lv_prod). destruct Lv_ge as (_ & GQ).
  set (a := c11 - c44) in *. set (B2 := (c13 + c44)^2) in *. assert (PB : 0 <= B2) by apply pow2_ge_0.
  assert (Pa := Rabs_pos a).
  assert (QP : Qv - Pv = A * (1 - x) - a * x) by (unfold Qv, Pv, A, a; ring).
  assert (Hax : a * x <= Rabs a * x) by (apply Rmult_le_compat_r; [lra|apply Rle_abs]).
  assert (LP : A / 2 <= Lv - Pv) by nra.
  set (w := Lv - Pv) in *.
  assert (EQ : Lv - Qv = B2 * (x * (1 - x)) / w) by (apply (Rmult_eq_reg_l w); [rewrite E; unfold Ev; fold B2; field; lra|lra]).
  assert (EW : w = A * (1 - x) - a * x + B2 * (x * (1 - x)) / w) by (rewrite <- EQ, <- QP; unfold w; ring).
  assert (ER : Lv - c33 * (1 + 2 * dv * x) = B2 * x^2 * (a - B2 * (1 - x) / w) / (A * w)).
  { assert (E1 : Lv = Qv + B2 * (x * (1 - x)) / w) by lra.
    assert (E2 : c33 * (1 + 2 * dv * x) = c33 + (B2 - A^2) / A * x) by (unfold dv; fold B2; fold A; field; lra).
    rewrite E1, E2.
    assert (E3 : B2 * x^2 * (a - B2 * (1 - x) / w) / (A * w) = B2 * x * (A * (1 - x) - w) / (A * w)).
    { replace (A * (1 - x) - w) with (x * (a - B2 * (1 - x) / w)) by (rewrite EW at 2; field; lra). unfold Rdiv. ring. }
    rewrite E3. unfold Qv. replace c44 with (c33 - A) by (unfold A; ring). field. lra. }
  rewrite ER. unfold Rdiv at 1. rewrite !Rabs_mult, (Rabs_pos_eq B2), (Rabs_pos_eq (x^2)) by (try apply pow2_ge_0; exact PB).
  rewrite (Rabs_pos_eq (/ (A * w))) by (left; apply Rinv_0_lt_compat, Rmult_lt_0_compat; lra).
  assert (I1 : / w <= 2 / A).
  { replace (2 / A) with (/ (A / 2)) by (field; lra). apply Rinv_le_contravar; lra. }
  assert (I0 : 0 < / w) by (apply Rinv_0_lt_compat; lra).
  assert (T : Rabs (a - B2 * (1 - x) / w) <= Rabs a + 2 * B2 / A).
  { apply Rle_trans with (Rabs a + Rabs (- (B2 * (1 - x) / w))); [apply Rabs_triang|]. apply Rplus_le_compat_l.
    rewrite Rabs_Ropp. rewrite Rabs_pos_eq by (apply Rmult_le_pos; [apply Rmult_le_pos; lra|lra]).
    unfold Rdiv. apply Rle_trans with (B2 * 1 * (2 / A)).
    - apply Rmult_le_compat; [apply Rmult_le_pos; lra|lra|apply Rmult_le_compat_l; lra|exact I1].
    - right. field. lra. }
  assert (S2 : / (A * w) <= 2 / A^2).
  { rewrite Rinv_mult. apply Rle_trans with (/ A * (2 / A)).
    - apply Rmult_le_compat_l; [left; apply Rinv_0_lt_compat; lra|exact I1].
    - right. field. lra. }
  apply Rle_trans with (B2 * x^2 * (Rabs a + 2 * B2 / A) * (2 / A^2)).
  - apply Rmult_le_compat.
    + apply Rmult_le_pos; [apply Rmult_le_pos; [exact PB|apply pow2_ge_0]|apply Rabs_pos].
    + left. apply Rinv_0_lt_compat, Rmult_lt_0_compat; lra.
    + apply Rmult_le_compat_l; [apply Rmult_le_pos; [exact PB|apply pow2_ge_0]|exact T].
    + exact S2.
  - right. field. lra.
Qed.
End V.
Lemma vti_sq m c11 c33 c13 c44 c66 den az : vti_stable c11 c33 c13 c44 c66 -> 0 < den ->
  let x := (sin (rad az))^2 in exists vp vsh vsv,
  Anis_vel_azi_VTI m (finmat (vti c11 c33 c13 c44 c66)) (Fin den) (Fin az) = Ret (Fin vp, Fin vsh, Fin vsv) /\
  0 <= vp /\ 0 <= vsh /\ 0 <= vsv /\
  den * vp^2 = Lv c11 c33 c13 c44 x /\ den * vsh^2 = c66 * x + c44 * (1 - x) /\
  den * vsv^2 = Pv c11 c44 x + Qv c33 c44 x - Lv c11 c33 c13 c44 x.
Proof.
  intros Hst Hd x. do 3 eexists. split; [apply vti_vel_eval; assumption|].
  split; [apply sqrt_pos|]. split; [apply sqrt_pos|]. split; [apply sqrt_pos|].
  destruct (vti_block c11 c33 c13 c44 c66 az Hst) as (Ha & Hdd & Hb).
  pose proof (block_eig _ _ _ Ha Hdd Hb) as HB. cbv zeta in HB. destruct HB as (HR1 & HR2 & HR3).
  assert (E := cs1 az). cbv zeta in E. assert (Ec : (cos (rad az))^2 = 1 - x) by (unfold x; lra).
  assert (Hx : 0 <= x <= 1) by (split; [apply pow2_ge_0|]; assert (0 <= (cos (rad az))^2) by apply pow2_ge_0; lra).
  fold x in Ha, Hdd, HR1, HR3 |- *. rewrite Ec in Ha, Hdd, HR1, HR3 |- *.
  replace (((c13 + c44) * sin (rad az) * cos (rad az)) ^ 2) with (Ev c13 c44 x) in HR1, HR3 |- *
    by (unfold Ev; rewrite <- Ec; unfold x; ring).
  fold (Pv c11 c44 x) in Ha, HR1, HR3 |- *. fold (Qv c33 c44 x) in Hdd, HR1, HR3 |- *.
  fold (Rv c11 c33 c13 c44 x) in HR1, HR3 |- *.
  destruct Hst as (P1 & P3 & P4 & P6 & P13).
  assert (Hi : 0 < / (2*den)) by (apply Rinv_0_lt_compat; lra).
  assert (Hj : 0 < / den) by (apply Rinv_0_lt_compat; lra).
  assert (H6 : 0 <= c66 * x + c44 * (1 - x)) by (apply Rplus_le_le_0_compat; apply Rmult_le_pos; lra).
  split; [|split].
  - rewrite pow2_sqrt by (apply Rmult_le_pos; lra). unfold Lv. field. lra.
  - rewrite pow2_sqrt by (apply Rmult_le_pos; lra). field. lra.
  - rewrite pow2_sqrt by (apply Rmult_le_pos; lra). unfold Lv. field. lra.
Qed.
(** Elliptical media. *)
Lemma Lv_ellipse c11 c33 c13 c44 x : 0 <= x <= 1 -> c44 <= c11 -> c44 <= c33 -> (c13 + c44)^2 = (c33 - c44) * (c11 - c44) ->
  Lv c11 c33 c13 c44 x = c11 * x + c33 * (1 - x).
Proof.
  intros Hx H1 H3 E. assert (Q : Rv c11 c33 c13 c44 x = (c11 - c44) * x + (c33 - c44) * (1 - x)).
  { unfold Rv, Pv, Qv, Ev. rewrite E. replace (_ + _) with (((c11 - c44) * x + (c33 - c44) * (1 - x))^2) by ring.
    apply sqrt_pow2. apply Rplus_le_le_0_compat; apply Rmult_le_pos; lra. }
  unfold Lv. rewrite Q. unfold Pv, Qv. field.
Qed.
Lemma Lv_horizontal c11 c33 c13 c44 : c44 <= c11 -> Lv c11 c33 c13 c44 1 = c11.
Proof.
  intros H. unfold Lv, Rv, Pv, Qv, Ev. replace (_ + 4 * _) with ((c11 - c44)^2) by ring.
  rewrite sqrt_pow2 by lra. field.
Qed.
