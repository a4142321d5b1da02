(** * L_UnitsRef: functions whose results change with the units. *)
From Verif Require Import Spec Spec3 Spec5 Spec20 Fl M_Utils M_EM M_GM M_Perm M_AVO RealLemmas L_EM6 L_AVO1 L_AVO2 L_AVO3 L_GM5 L_Units L_UnitsFns L_UnitsFns4.
Open Scope R_scope.

(** Units of mass four times smaller. *)
Definition quarter_mass : units := {| ul := 1; uw := 4; ut := 1 |}.
Lemma Rpower_1l x : Rpower 1 x = 1.
Proof. unfold Rpower. rewrite ln_1, Rmult_0_r. apply exp_0. Qed.
Lemma qm_factor a b c : factor quarter_mass (a, b, c) = Rpower 4 (Q2R b).
Proof. unfold factor, quarter_mass; cbn [ul uw ut]. rewrite !Rpower_1l. ring. Qed.
Lemma qm_1 a c : factor quarter_mass (a, 1%Q, c) = 4.
Proof. rewrite qm_factor. replace (Q2R 1) with 1 by (unfold Q2R; cbn; lra). apply Rpower_1. lra. Qed.
Lemma qm_0 a c : factor quarter_mass (a, 0%Q, c) = 1.
Proof. rewrite qm_factor. replace (Q2R 0) with 0 by (unfold Q2R; cbn; lra). apply Rpower_O. lra. Qed.
(** Units of length twice smaller. *)
Definition half_length : units := {| ul := 2; uw := 1; ut := 1 |}.
Lemma hl_factor a b c : factor half_length (a, b, c) = Rpower 2 (Q2R a).
Proof. unfold factor, half_length; cbn [ul uw ut]. rewrite !Rpower_1l. ring. Qed.

Lemma SC_dilute_not_modulus m : ~ (forall u Km Gm Ki Gi f mode_,
  EM_SC_dilute m (inu u stress Km) (inu u stress Gm) (inu u stress Ki) (inu u stress Gi) f mode_
  = after (in2 u stress stress) (EM_SC_dilute m Km Gm Ki Gi f mode_)).
Proof.
  intros H. specialize (H quarter_mass (Fin 2) (Fin 2) (Fin 1) (Fin 1) (Fin 0) "strain"%string).
  rewrite units_EM_SC_dilute in H.
  rewrite (SC_dilute_strain m 2 2 1 1 ltac:(lra) ltac:(lra) ltac:(lra) ltac:(lra) 0 ltac:(lra) ltac:(lra)) in H.
  cbn [after call in2 inu] in H. unfold stress in H. rewrite qm_1 in H. injection H as H1 H2. lra.
Qed.
Lemma Fredrich_not_area m : ~ (forall u phi d b, Perm_Fredrich m phi (inu u length_d d) b = after (inu u area) (Perm_Fredrich m phi d b)).
Proof.
  intros H. specialize (H half_length (Fin (1/2)) (Fin 1) (Fin 1)). rewrite units_Perm_Fredrich in H.
  assert (E : Perm_Fredrich m (Fin (1/2)) (Fin 1) (Fin 1) = Ret (Fin (1/180))).
  { unfold Perm_Fredrich. repeat (first [fl1 | rewrite fdiv_fin by lra]; cbv beta). f_equal. f_equal. field. }
  rewrite E in H. cbn [after call inu] in H. unfold area in H. rewrite !hl_factor in H.
  replace (Q2R (-2)) with (- (1 + 1)) in H by (unfold Q2R; cbn; lra). replace (Q2R 2) with (1 + 1) in H by (unfold Q2R; cbn; lra).
  rewrite Rpower_Ropp, Rpower_plus, Rpower_1 in H by lra. injection H as H. lra.
Qed.
Lemma johnson_not_stress m : ~ (forall u K0 G0 n phi eps eps_axial,
  GM_johnson m (inu u stress K0) (inu u stress G0) n phi eps eps_axial "iso-uni"
  = after (fun '(C, s33, s11) => (inm u stress C, inu u stress s33, inu u stress s11)) (GM_johnson m K0 G0 n phi eps eps_axial "iso-uni")).
Proof.
  intros H. specialize (H quarter_mass (Fin 1) (Fin 1) (Fin 1) (Fin 0) (Fin (-1)) (Fin (-1))).
  cbn [inu] in H. unfold stress in H. rewrite !qm_1, !Rmult_1_r in H.
  rewrite !johnson_fin in H by lra. cbn [String.eqb Ascii.eqb Bool.eqb] in H. cbn [after call inu] in H.
  rewrite qm_1 in H.
  assert (E : forall (b c b' c' : fl) (M M' : mat), Ret (M, b, c) = Ret (M', b', c') -> c = c') by (intros; congruence).
  apply E in H. injection H as H. clear E.
  unfold js11i in H. replace (-1 / -1) with 1 in H by field. rewrite sqrt_1 in H.
  replace (- (-1)) with 1 in H by ring. rewrite Rpower_1l in H.
  replace (poisson 4 4) with (1/8) in H by (unfold poisson; field).
  replace (poisson 1 1) with (1/8) in H by (unfold poisson; field).
  assert (P := PI_RGT_0).
  assert (I : 0 < jI0 1 - jI4 1).
  { unfold jI4, jI2, jI0. replace (1 + 1 ^ 2) with 2 by ring.
    assert (S2 : 1 < sqrt 2) by (rewrite <- sqrt_1 at 1; apply sqrt_lt_1; lra).
    assert (L : 0 < ln (1 + sqrt 2)) by (rewrite <- ln_1; apply ln_increasing; lra).
    rewrite ?Rpower_3_2 by lra. replace (1 + sqrt 2 / 1) with (1 + sqrt 2) by field. lra. }
  assert (Q : forall x y z, x <> 0 -> x * (- y * (z)) = 4 * (x * (- (y / 4) * z)) ) by (intros; field).
  set (b := 1 ^ 2 * jI0 1 + (1 - 1 ^ 2) * jI2 1 - jI4 1) in H. assert (B : 0 < b) by (unfold b; lra).
  assert (X : - (1) * (1 - 0) * 1 / (4 * PI * 1 ^ 3) < 0).
  { replace (- (1) * (1 - 0) * 1 / (4 * PI * 1 ^ 3)) with (- (1 / (4 * PI))) by (field; lra).
    assert (0 < 1 / (4 * PI)) by (apply Rdiv_lt_0_compat; lra). lra. }
  set (t := - (1) * (1 - 0) * 1 / (4 * PI * 1 ^ 3)) in *. set (c := b - 2 * 1 ^ 3 / 3) in H.
  clearbody t c. clear Q. 
  assert (Y : t * (8 * 4 / (2 - 1 / 8)) * ((4 * 4 / (1 - 1/8)) * b - (4 * 1 / (1 - 1/8)) * b) = 0) by lra.
  assert (t * b < 0) by nra. lra.
Qed.
Lemma EI_raw_not_impedance m : ~ (forall u samples theta SP,
  AVO_EI_ref m (map (in3 u velocity velocity density) samples) theta SP false = after (map (inei u)) (AVO_EI_ref m samples theta SP false)).
Proof.
  intros H. specialize (H quarter_mass (map fin3 [(2, 1, 1)]) (Fin 30) (Fin (1/2))).
  assert (E : map (in3 quarter_mass velocity velocity density) (map fin3 [(2, 1, 1)]) = map fin3 [(2, 1, 4)]).
  { cbn [map in3 fin3 inu]. unfold velocity, density. rewrite qm_0, qm_1, !Rmult_1_l, Rmult_1_r. reflexivity. }
  rewrite E in H. clear E.
  assert (S : sin (radians 30) = 1/2) by (unfold radians; match goal with |- sin ?x = _ => replace x with (PI / 6) by field end; rewrite sin_PI6; lra).
  assert (S' : Rabs (sin (radians 30)) * 1 < 1/2 * 2) by (rewrite S, Rabs_right; lra).
  rewrite !ei_ref_raw in H; try lra;
    try (intros s [<-|[]]; unfold good3, lvp, lvs, lrho; cbn [fst snd]; repeat split; lra);
    try (intros s [<-|[]]; unfold lvp, lvs; cbn [fst snd]; exact S').
  cbn [map after call] in H. unfold inei in H. cbn [EI_pp EI_psv EI_svp EI_svsv EI_shsh inu] in H.
  unfold impedance in H. rewrite !qm_1 in H. injection H as H _ _ _ _. unfold ei_pp, lvp, lvs, lrho in H. cbn [fst snd] in H.
  unfold ei_pp_R, ei_pp_S in H. rewrite S in H. replace (1 - 4 * (1/2)^2 * (1/2)^2) with (3/4) in H by field.
  rewrite !Rpower_1l in H.
  assert (P : 0 < Rpower 2 (ei_pp_P (radians 30))) by apply exp_pos.
  assert (Q : Rpower 4 (3/4) < 4) by (apply Rlt_le_trans with (Rpower 4 1); [apply Rpower_lt; lra|rewrite Rpower_1; lra]). nra.
Qed.
