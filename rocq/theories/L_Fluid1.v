(** * Fluid.py: Gassmann, substitution, velocities, Brie. *)
From Verif Require Import Fl Cx M_Utils M_EM M_Anis M_Fluid Spec RealLemmas L_Utils L_Anis.
From Coq Require Import Classical_Prop.
Open Scope R_scope.

(** ** The inverse as an oracle: a function with the assumed property exists. *)
Lemma inverse_unique A A' B B' : meq6 A A' -> is_inverse A B -> is_inverse A' B' -> meq6 B B'.
Proof.
  intros E (H1 & H2) (H3 & H4) i j Hi Hj.
  assert (T : sum6 (fun k => sum6 (fun l => B i k * A k l * B' l j)) = B i j).
  { transitivity (sum6 (fun k => B i k * ident k j)).
    - unfold sum6 at 1. unfold sum6 at 7.
      assert (Q : forall k, (k < 6)%nat -> sum6 (fun l => B i k * A k l * B' l j) = B i k * ident k j).
      { intros k Hk. rewrite <- (H3 k j Hk Hj). unfold mmul, sum6.
        rewrite <- !(E k) by lia. ring. }
      rewrite !Q by lia. reflexivity.
    - unfold sum6, ident. fin6 j Hj; cbn; ring. }
  assert (T2 : sum6 (fun k => sum6 (fun l => B i k * A k l * B' l j)) = B' i j).
  { transitivity (sum6 (fun l => ident i l * B' l j)).
    - assert (Q : forall l, (l < 6)%nat -> sum6 (fun k => B i k * A k l * B' l j) = ident i l * B' l j).
      { intros l Hl. rewrite <- (H2 i l Hi Hl). unfold mmul, sum6. ring. }
      transitivity (sum6 (fun l => sum6 (fun k => B i k * A k l * B' l j))); [unfold sum6; ring|].
      unfold sum6 at 1. rewrite !Q by lia. reflexivity.
    - unfold sum6, ident. fin6 i Hi; cbn; ring. }
  congruence.
Qed.
Lemma finmat_ext A B : meq6 A B -> finmat A = finmat B.
Proof.
  intros H. unfold finmat, tab6. apply map_ext_in. intros i Hi. apply map_ext_in. intros j Hj.
  apply in_seq in Hi, Hj. rewrite (H i j) by lia. reflexivity.
Qed.
Lemma finmat_inj6 A B : finmat A = finmat B -> meq6 A B.
Proof.
  intros H i j Hi Hj. assert (E := mget_finmat A i j Hi Hj). rewrite H, mget_finmat in E by lia. congruence.
Qed.
Lemma np_inv_exists : exists inv, inverts inv.
Proof.
  assert (D : forall P : Prop, {P} + {~ P}).
  { intros P. destruct (ClassicalDedekindReals.sig_not_dec P) as [N|N]; [left|right; exact N].
    destruct (classic P); tauto. }
  pose (E := fun (M : list (list fl)) i j x => exists A B, M = finmat A /\ is_inverse A B /\ x = B i j).
  assert (L : forall M i j, (i < 6)%nat -> (j < 6)%nat -> (exists A B, M = finmat A /\ is_inverse A B) -> { x | is_lub (E M i j) x}).
  { intros M i j Hi Hj X. apply completeness.
    - destruct X as (A & B & -> & H). exists (B i j). intros x (A' & B' & E1 & H' & ->).
      right. apply finmat_inj6 in E1. symmetry. apply (inverse_unique A A' B B'); auto.
    - destruct X as (A & B & -> & H). exists (B i j), A, B. auto. }
  assert (LT : forall i, (Nat.min i 5 < 6)%nat) by (intros; lia).
  exists (fun M => match D (exists A B, M = finmat A /\ is_inverse A B) with
    | left X => Ret (finmat (fun i j => proj1_sig (L M (Nat.min i 5) (Nat.min j 5) (LT i) (LT j) X)))
    | right _ => Raise ValueError end).
  intros A B H. destruct (D _) as [X|N]; [|exfalso; apply N; eauto].
  f_equal. apply finmat_ext. intros i j Hi Hj.
  destruct (L (finmat A) (Nat.min i 5) (Nat.min j 5) (LT i) (LT j) X) as (x & U & V). cbn [proj1_sig].
  replace (Nat.min i 5) with i in * by lia. replace (Nat.min j 5) with j in * by lia.
  apply Rle_antisym.
  - apply V. intros y (A' & B' & E1 & H' & ->). right. apply finmat_inj6 in E1.
    symmetry. apply (inverse_unique A A' B B'); auto.
  - apply U. exists A, B. auto.
Qed.

(** ** Gassmann *)
Section G.
Variables (m : mode) (Kd Gd K0 Kf phi : R).
Definition gB := phi / Kf + (1 - phi) / K0 - Kd / K0^2.
Definition gK := Kd + (1 - Kd / K0)^2 / gB.
Lemma Gassmann_eval : K0 <> 0 -> Kf <> 0 -> gB <> 0 ->
  Fluid_Gassmann m (Fin Kd) (Fin Gd) (Fin K0) (Fin Kf) (Fin phi) = Ret (Fin gK, Fin Gd).
Proof.
  intros H0 Hf HB. unfold Fluid_Gassmann. assert (K0^2 <> 0) by (apply pow_nonzero; auto).
  repeat (first [fl1 | rewrite fdiv_fin by assumption]; cbv beta). 
  fold gB. try (rewrite fdiv_fin by assumption); fls; reflexivity.
Qed.
Hypotheses (HK : 0 < K0) (HKf : 0 < Kf <= K0) (Hd : 0 <= Kd < K0) (Hp : 0 < phi <= 1).
Lemma gB_pos : (1 - Kd / K0) / K0 <= gB.
Proof.
  unfold gB. assert (phi / K0 <= phi / Kf) by (apply Rmult_le_compat_l; [lra|apply inv_le; lra]).
  replace ((1 - Kd / K0) / K0) with (1 / K0 - Kd / K0^2) by (field; lra).
  replace ((1 - phi) / K0) with (1 / K0 - phi / K0) by (field; lra). lra.
Qed.
Lemma gb_pos : 0 < (1 - Kd / K0) / K0.
Proof. apply Rdiv_lt_0_compat; [|lra]. assert (Kd / K0 < 1); [|lra]. apply div_lt_iff; lra. Qed.
Lemma gK_range : Kd < gK <= K0.
Proof.
  assert (B := gB_pos). assert (b := gb_pos). unfold gK.
  assert (E : 1 - Kd / K0 = (1 - Kd / K0) / K0 * K0) by (field; lra).
  assert (A : 0 < 1 - Kd / K0) by (rewrite E; apply Rmult_lt_0_compat; lra).
  split.
  - assert (0 < (1 - Kd / K0)^2 / gB); [|lra]. apply Rdiv_lt_0_compat; [apply pow_lt; lra|lra].
  - assert ((1 - Kd / K0)^2 / gB <= K0 - Kd); [|lra]. apply div_le_iff; [lra|].
    replace ((1 - Kd / K0)^2) with ((K0 - Kd) * ((1 - Kd / K0) / K0)) by (field; lra).
    apply Rmult_le_compat_l; lra.
Qed.
Lemma gK_undrained : 0 < Kd -> forall s, 
  (exists p e, undrained K0 Kd Kf phi s p e) /\ (forall p e, undrained K0 Kd Kf phi s p e -> s = gK * e).
Proof.
  intros Hd0 s. assert (B := gB_pos). assert (b := gb_pos).
  set (D := phi * (1 / Kf - 1 / K0) + (1 / Kd - 1 / K0)).
  assert (ED : D = gB + (1 - Kd / K0)^2 / Kd) by (unfold D, gB; field; lra).
  assert (0 < D). { rewrite ED. assert (0 <= (1 - Kd / K0)^2 / Kd) by (apply Rmult_le_pos; [apply pow2_ge_0|left; apply Rinv_0_lt_compat; lra]). lra. }
  split.
  - exists (s * (1 / Kd - 1 / K0) / D). eexists. split; [reflexivity|].
    set (p := s * (1 / Kd - 1 / K0) / D).
    assert (p * D = s * (1 / Kd - 1 / K0)) by (unfold p; field; lra). unfold D in *.
    replace (phi * (p / Kf - p / K0)) with (p * (phi * (1 / Kf - 1 / K0))) by (field; lra). lra.
  - intros p e (E1 & E2).
    assert (Hp2 : p * D = s * (1 / Kd - 1 / K0)).
    { unfold D. replace (phi * (p / Kf - p / K0)) with (p * (phi * (1 / Kf - 1 / K0))) in E2 by (field; lra). lra. }
    assert (P : p = s * (1 / Kd - 1 / K0) / D) by (rewrite <- Hp2; field; lra).
    assert (E3 : e = s / Kd - p * (1 / Kd - 1 / K0)) by (rewrite E1; field; lra).
    assert (E4 : e * D = s / Kd * gB).
    { rewrite E3. replace ((s / Kd - p * (1 / Kd - 1 / K0)) * D) with (s / Kd * D - (p * D) * (1 / Kd - 1 / K0)) by ring.
      rewrite Hp2, ED. unfold Rdiv. field. lra. }
    assert (E5 : gK * gB = D * Kd) by (rewrite ED; unfold gK; field; split; lra).
    assert (gK * e * D = s * D); [|apply Rmult_eq_reg_r with D; lra].
    replace (gK * e * D) with (gK * (e * D)) by ring. rewrite E4.
    replace (gK * (s / Kd * gB)) with (s / Kd * (gK * gB)) by ring. rewrite E5. field. lra.
Qed.
Lemma gK_ratio : Kf < K0 -> gK < K0 /\ gK / (K0 - gK) = Kd / (K0 - Kd) + Kf / (phi * (K0 - Kf)).
Proof.
  intros HF. assert (b := gb_pos). assert (B := gB_pos).
  assert (EB : gB = phi * (K0 - Kf) / (Kf * K0) + (K0 - Kd) / K0^2) by (unfold gB; field; lra).
  assert (EK : gB * K0^2 * Kf = phi * (K0 - Kf) * K0 + (K0 - Kd) * Kf) by (rewrite EB; field; lra).
  assert (Q1 : 0 < phi * (K0 - Kf)) by (apply Rmult_lt_0_compat; lra).
  assert (EX : K0 - gK = (K0 - Kd) * (phi * (K0 - Kf)) / (K0 * Kf * gB)).
  { unfold gK. rewrite EB. field. repeat split; try lra.
    assert (0 < phi * (K0 - Kf) * K0) by (apply Rmult_lt_0_compat; lra).
    assert (0 < (K0 - Kd) * Kf) by (apply Rmult_lt_0_compat; lra). nra. }
  assert (PX : 0 < K0 - gK).
  { rewrite EX. apply Rdiv_lt_0_compat; repeat apply Rmult_lt_0_compat; lra. }
  split; [lra|].
  assert (E : gK / (K0 - gK) = K0 / (K0 - gK) - 1) by (field; lra).
  rewrite E, EX, EB. field. repeat split; try lra.
  assert (0 < phi * (K0 - Kf) * K0) by (apply Rmult_lt_0_compat; lra).
  assert (0 < (K0 - Kd) * Kf) by (apply Rmult_lt_0_compat; lra). nra.
Qed.
End G.

Lemma gK_mono_Kf Kd K0 Kf Kf' phi : 0 < K0 -> 0 < Kf -> Kf <= Kf' -> Kf' <= K0 -> 0 <= Kd < K0 -> 0 < phi <= 1 ->
  gK Kd K0 Kf phi <= gK Kd K0 Kf' phi.
Proof.
  intros HK H1 H2 H3 Hd Hp.
  assert (B := gB_pos Kd K0 Kf phi HK (conj H1 (Rle_trans _ _ _ H2 H3)) Hp).
  assert (b := gb_pos Kd K0 HK Hd).
  assert (B' := gB_pos Kd K0 Kf' phi HK (conj (Rlt_le_trans _ _ _ H1 H2) H3) Hp).
  unfold gK. apply Rplus_le_compat_l, Rmult_le_compat_l; [apply pow2_ge_0|]. apply inv_le; [lra|].
  unfold gB. assert (phi / Kf' <= phi / Kf) by (apply Rmult_le_compat_l; [lra|apply inv_le; lra]). lra.
Qed.
Lemma gK_strict_Kf Kd K0 Kf Kf' phi : 0 < K0 -> 0 < Kf -> Kf < Kf' -> Kf' <= K0 -> 0 <= Kd < K0 -> 0 < phi <= 1 ->
  gK Kd K0 Kf phi < gK Kd K0 Kf' phi.
Proof.
  intros HK H1 H2 H3 Hd Hp.
  assert (B := gB_pos Kd K0 Kf phi HK (conj H1 (Rle_trans _ _ _ (Rlt_le _ _ H2) H3)) Hp).
  assert (b := gb_pos Kd K0 HK Hd).
  assert (B' := gB_pos Kd K0 Kf' phi HK (conj (Rlt_trans _ _ _ H1 H2) H3) Hp).
  unfold gK. apply Rplus_lt_compat_l, Rmult_lt_compat_l.
  - apply pow_lt. assert (Kd / K0 < 1); [apply div_lt_iff; lra|lra].
  - apply inv_lt; [lra|]. unfold gB.
    assert (phi / Kf' < phi / Kf) by (apply Rmult_lt_compat_l; [lra|apply inv_lt; lra]). lra.
Qed.
(** More compliant frame, softer saturated rock. *)
Lemma gK_mono_Kd Kd Kd' K0 Kf phi : 0 < K0 -> 0 < Kf < K0 -> 0 <= Kd -> Kd <= Kd' -> Kd' < K0 -> 0 < phi <= 1 ->
  gK Kd K0 Kf phi <= gK Kd' K0 Kf phi.
Proof.
  intros HK Hf H1 H2 H3 Hp.
  destruct (gK_ratio Kd K0 Kf phi HK ltac:(lra) ltac:(lra) Hp ltac:(lra)) as (A & E).
  destruct (gK_ratio Kd' K0 Kf phi HK ltac:(lra) ltac:(lra) Hp ltac:(lra)) as (A' & E').
  assert (Kd / (K0 - Kd) <= Kd' / (K0 - Kd')) by (apply div_le_div; nra).
  assert (gK Kd K0 Kf phi / (K0 - gK Kd K0 Kf phi) <= gK Kd' K0 Kf phi / (K0 - gK Kd' K0 Kf phi)) by lra.
  set (x := gK Kd K0 Kf phi) in *. set (y := gK Kd' K0 Kf phi) in *.
  assert (X1 : x / (K0 - x) = K0 / (K0 - x) - 1) by (field; lra).
  assert (X2 : y / (K0 - y) = K0 / (K0 - y) - 1) by (field; lra).
  destruct (Rle_or_lt x y) as [|N]; [assumption|].
  assert (K0 / (K0 - y) < K0 / (K0 - x)); [|lra].
  apply Rmult_lt_compat_l; [lra|]. apply inv_lt; lra.
Qed.

(** ** Substitution *)
Section Sub.
Variables (m : mode) (phi K0 : R).
Hypotheses (Hp : phi <> 0) (H0 : K0 <> 0).
Definition rat (K : R) := K / (K0 - K).
Definition unrat (a : R) := a * K0 / (1 + a).
Lemma rat_unrat a : 1 + a <> 0 -> K0 - unrat a <> 0 /\ rat (unrat a) = a.
Proof.
  intros H. assert (E : K0 - unrat a = K0 / (1 + a)) by (unfold unrat; field; auto).
  assert (N : K0 / (1 + a) <> 0) by (apply Rmult_integral_contrapositive_currified; [auto|apply Rinv_neq_0_compat; auto]).
  split; [rewrite E; exact N|]. unfold rat. rewrite E. unfold unrat. field. split; auto.
Qed.
Lemma unrat_rat K : K0 - K <> 0 -> 1 + rat K <> 0 /\ unrat (rat K) = K.
Proof.
  intros H. assert (E : 1 + rat K = K0 / (K0 - K)) by (unfold rat; field; auto).
  split.
  - rewrite E. apply Rmult_integral_contrapositive_currified; [auto|apply Rinv_neq_0_compat; auto].
  - unfold unrat. rewrite E. unfold rat. field. split; auto.
Qed.
Definition subA (K f1 f2 : R) := rat K - f1 / (phi * (K0 - f1)) + f2 / (phi * (K0 - f2)).
Lemma Sub_eval K f1 f2 : K0 - K <> 0 -> K0 - f1 <> 0 -> K0 - f2 <> 0 -> 1 + subA K f1 f2 <> 0 ->
  Fluid_Gassmann_sub m (Fin phi) (Fin K0) (Fin K) (Fin f1) (Fin f2) = Ret (Fin (unrat (subA K f1 f2))).
Proof.
  intros A B C D. unfold Fluid_Gassmann_sub.
  assert (phi * (K0 - f1) <> 0) by (apply Rmult_integral_contrapositive_currified; auto).
  assert (phi * (K0 - f2) <> 0) by (apply Rmult_integral_contrapositive_currified; auto).
  repeat (first [fl1 | rewrite fdiv_fin by assumption]; cbv beta).
  fold (rat K). fold (subA K f1 f2). try (rewrite fdiv_fin by assumption). fls. reflexivity.
Qed.
Lemma Approx_eval K f1 f2 : 
  Fluid_Gassmann_approx m (Fin K) (Fin K0) (Fin f1) (Fin phi) (Fin f2) = Fluid_Gassmann_sub m (Fin phi) (Fin K0) (Fin K) (Fin f1) (Fin f2).
Proof. reflexivity. Qed.
Lemma Sub_self K f : K0 - K <> 0 -> K0 - f <> 0 ->
  Fluid_Gassmann_sub m (Fin phi) (Fin K0) (Fin K) (Fin f) (Fin f) = Ret (Fin K).
Proof.
  intros A B. assert (E : subA K f f = rat K) by (unfold subA; ring).
  destruct (unrat_rat K A) as (N & U). rewrite Sub_eval; auto; rewrite E; auto. rewrite U. reflexivity.
Qed.
Lemma Sub_trans K f1 f2 f3 : K0 - K <> 0 -> K0 - f1 <> 0 -> K0 - f2 <> 0 -> K0 - f3 <> 0 ->
  forall K2, Fluid_Gassmann_sub m (Fin phi) (Fin K0) (Fin K) (Fin f1) (Fin f2) = Ret (Fin K2) ->
  1 + subA K f1 f2 <> 0 -> 1 + subA K f1 f3 <> 0 ->
  Fluid_Gassmann_sub m (Fin phi) (Fin K0) (Fin K2) (Fin f2) (Fin f3) =
  Fluid_Gassmann_sub m (Fin phi) (Fin K0) (Fin K) (Fin f1) (Fin f3).
Proof.
  intros A B C D K2 E N1 N2. rewrite Sub_eval in E by auto. injection E as <-.
  destruct (rat_unrat _ N1) as (N3 & R). 
  assert (E : subA (unrat (subA K f1 f2)) f2 f3 = subA K f1 f3) by (unfold subA at 1; rewrite R; unfold subA; ring).
  rewrite !Sub_eval by (auto; rewrite E; auto). rewrite E. reflexivity.
Qed.
End Sub.
(** A Python-float call whose first fluid (or the rock) is as stiff as the mineral raises. *)
Lemma Sub_pole phi K0 f1 f2 : Fluid_Gassmann_sub PyFloat (Fin phi) (Fin K0) (Fin K0) (Fin f1) (Fin f2) = Raise ZeroDivisionError.
Proof. unfold Fluid_Gassmann_sub. rewrite fsub_fin. replace (K0 - K0) with 0 by ring. rewrite fdiv_zero_py_fin. reflexivity. Qed.

(** ** Substitution against Gassmann *)
Section SubG.
Variables (m : mode) (Kd Gd K0 phi : R).
Hypotheses (HK : 0 < K0) (Hd : 0 <= Kd < K0) (Hp : 0 < phi <= 1).
Lemma Sub_Gassmann f1 f2 : 0 < f1 < K0 -> 0 < f2 < K0 -> exists K1 K2,
  Fluid_Gassmann m (Fin Kd) (Fin Gd) (Fin K0) (Fin f1) (Fin phi) = Ret (Fin K1, Fin Gd) /\
  Fluid_Gassmann m (Fin Kd) (Fin Gd) (Fin K0) (Fin f2) (Fin phi) = Ret (Fin K2, Fin Gd) /\
  Fluid_Gassmann_sub m (Fin phi) (Fin K0) (Fin K1) (Fin f1) (Fin f2) = Ret (Fin K2).
Proof.
  intros H1 H2. exists (gK Kd K0 f1 phi), (gK Kd K0 f2 phi).
  assert (b := gb_pos Kd K0 HK Hd).
  assert (B1 := gB_pos Kd K0 f1 phi HK ltac:(lra) Hp). assert (B2 := gB_pos Kd K0 f2 phi HK ltac:(lra) Hp).
  split; [apply Gassmann_eval; lra|]. split; [apply Gassmann_eval; lra|].
  destruct (gK_ratio Kd K0 f1 phi HK ltac:(lra) Hd Hp ltac:(lra)) as (A1 & E1).
  destruct (gK_ratio Kd K0 f2 phi HK ltac:(lra) Hd Hp ltac:(lra)) as (A2 & E2).
  assert (E : subA phi K0 (gK Kd K0 f1 phi) f1 f2 = rat K0 (gK Kd K0 f2 phi)).
  { unfold subA, rat. rewrite E1, E2. ring. }
  destruct (unrat_rat K0 ltac:(lra) (gK Kd K0 f2 phi) ltac:(lra)) as (N & U).
  rewrite Sub_eval by (try lra; rewrite E; exact N). rewrite E, U. reflexivity.
Qed.
(** Velocities in, velocities out. Moduli in GPa for [vels], so in 1e-6 GPa for [Gassmann_vels]
    fed with m/s and g/cc. *)
Lemma vels_eval Kf D0 Df : 0 < Kf <= K0 -> 0 <= Gd -> 0 < D0 * (1 - phi) + Df * phi ->
  Fluid_vels m (Fin Kd) (Fin Gd) (Fin K0) (Fin D0) (Fin Kf) (Fin Df) (Fin phi) =
  Ret (Fin (sqrt ((gK Kd K0 Kf phi + 4/3*Gd) / (D0 * (1 - phi) + Df * phi)) * 1000),
       Fin (sqrt (Gd / (D0 * (1 - phi) + Df * phi)) * 1000), Fin (D0 * (1 - phi) + Df * phi)).
Proof.
  intros Hf HG Hr. assert (b := gb_pos Kd K0 HK Hd). assert (B := gB_pos Kd K0 Kf phi HK Hf Hp).
  destruct (gK_range Kd K0 Kf phi HK Hf Hd Hp). unfold Fluid_vels. rewrite !fsub_fin, !fmul_fin, fadd_fin, bind_fin. cbv beta.
  rewrite Gassmann_eval by lra. rewrite call_ret. cbv beta iota.
  set (rho := D0 * (1 - phi) + Df * phi) in *.
  assert (0 <= (gK Kd K0 Kf phi + 4/3*Gd) / rho) by (apply Rmult_le_pos; [lra|left; apply Rinv_0_lt_compat; lra]).
  assert (0 <= Gd / rho) by (apply Rmult_le_pos; [lra|left; apply Rinv_0_lt_compat; lra]).
  rewrite fadd_fin, !fdiv_fin by lra. rewrite !fsqrt_fin by assumption.
  fls. reflexivity.
Qed.
Lemma vels_V Kf D0 Df : 0 < Kf <= K0 -> 0 <= Gd -> 0 < D0 * (1 - phi) + Df * phi -> exists Ks Vp Vs rho,
  rho = (1 - phi) * D0 + phi * Df /\
  Fluid_Gassmann m (Fin Kd) (Fin Gd) (Fin K0) (Fin Kf) (Fin phi) = Ret (Fin Ks, Fin Gd) /\
  Fluid_vels m (Fin Kd) (Fin Gd) (Fin K0) (Fin D0) (Fin Kf) (Fin Df) (Fin phi) = Ret (Fin Vp, Fin Vs, Fin rho) /\
  utils_V m (Fin Ks) (Fin Gd) (Fin rho) = Ret (Fin Vp, Fin Vs).
Proof.
  intros Hf HG Hr. do 4 eexists. split; [reflexivity|].
  assert (b := gb_pos Kd K0 HK Hd). assert (B := gB_pos Kd K0 Kf phi HK Hf Hp).
  destruct (gK_range Kd K0 Kf phi HK Hf Hd Hp).
  replace ((1 - phi) * D0 + phi * Df) with (D0 * (1 - phi) + Df * phi) by ring.
  split; [apply Gassmann_eval; lra|]. split; [apply vels_eval; auto|].
  rewrite V_eval by lra. reflexivity.
Qed.
Lemma Gassmann_vels_vels f1 f2 D0 D1 D2 : 0 < f1 < K0 -> 0 < f2 < K0 -> 0 <= Gd ->
  0 < D0 * (1 - phi) + D1 * phi -> 0 < D0 * (1 - phi) + D2 * phi -> exists Vp1 Vs1 r1 Vp2 Vs2 r2,
  Fluid_vels m (Fin Kd) (Fin Gd) (Fin K0) (Fin D0) (Fin f1) (Fin D1) (Fin phi) = Ret (Fin Vp1, Fin Vs1, Fin r1) /\
  Fluid_vels m (Fin Kd) (Fin Gd) (Fin K0) (Fin D0) (Fin f2) (Fin D2) (Fin phi) = Ret (Fin Vp2, Fin Vs2, Fin r2) /\
  Fluid_Gassmann_vels m (Fin Vp1) (Fin Vs1) (Fin r1) (Fin D1) (Fin (1000000 * f1)) (Fin D2) (Fin (1000000 * f2))
    (Fin (1000000 * K0)) (Fin phi) = Ret (Fin Vp2, Fin Vs2).
Proof.
  intros H1 H2 HG Hr1 Hr2.
  do 6 eexists. split; [apply vels_eval; auto; lra|]. split; [apply vels_eval; auto; lra|].
  destruct (gK_range Kd K0 f1 phi HK ltac:(lra) Hd Hp) as (L1 & U1). destruct (gK_range Kd K0 f2 phi HK ltac:(lra) Hd Hp) as (L2 & U2).
  destruct (gK_ratio Kd K0 f1 phi HK ltac:(lra) Hd Hp ltac:(lra)) as (A1 & E1).
  destruct (gK_ratio Kd K0 f2 phi HK ltac:(lra) Hd Hp ltac:(lra)) as (A2 & E2).
  set (k1 := gK Kd K0 f1 phi) in *. set (k2 := gK Kd K0 f2 phi) in *.
  set (r1 := D0 * (1 - phi) + D1 * phi) in *. 
  assert (P1 : 0 <= (k1 + 4/3*Gd) / r1) by (apply Rmult_le_pos; [lra|left; apply Rinv_0_lt_compat; lra]).
  assert (P2 : 0 <= Gd / r1) by (apply Rmult_le_pos; [lra|left; apply Rinv_0_lt_compat; lra]).
  unfold Fluid_Gassmann_vels.
  repeat (fl1; cbv beta).
  rewrite !Rpow_mult_distr, !pow2_sqrt by assumption.
  replace (r1 * ((k1 + 4 / 3 * Gd) / r1 * 1000 ^ 2) - 4 / 3 * (r1 * (Gd / r1 * 1000 ^ 2))) with (1000000 * k1) by (field; lra).
  replace (r1 * (Gd / r1 * 1000 ^ 2)) with (1000000 * Gd) by (field; lra).
  assert (Q1 : 0 < phi * (K0 - f1)) by (apply Rmult_lt_0_compat; lra).
  assert (Q2 : 0 < phi * (K0 - f2)) by (apply Rmult_lt_0_compat; lra).
  assert (E : subA phi (1000000 * K0) (1000000 * k1) (1000000 * f1) (1000000 * f2) = rat K0 k2).
  { transitivity (rat K0 k1 - f1 / (phi * (K0 - f1)) + f2 / (phi * (K0 - f2))).
    - unfold subA, rat. field. repeat split; lra.
    - unfold rat. fold k1 in E1. fold k2 in E2. rewrite E1, E2. ring. }
  assert (EU : unrat (1000000 * K0) (rat K0 k2) = 1000000 * k2).
  { unfold unrat, rat. field. lra. }
  destruct (unrat_rat K0 ltac:(lra) k2 ltac:(lra)) as (N & _).
  rewrite Sub_eval by (first [rewrite E; exact N | lra]). rewrite E, EU. rewrite call_ret. cbv beta.
  replace (r1 - phi * D1 + phi * D2) with (D0 * (1 - phi) + D2 * phi) by (unfold r1; ring).
  set (r2 := D0 * (1 - phi) + D2 * phi) in *.
  assert (P3 : 0 <= (k2 + 4/3*Gd) / r2) by (apply Rmult_le_pos; [lra|left; apply Rinv_0_lt_compat; lra]).
  assert (P4 : 0 <= Gd / r2) by (apply Rmult_le_pos; [lra|left; apply Rinv_0_lt_compat; lra]).
  repeat (fl1; cbv beta). rewrite !fdiv_fin by lra.
  replace ((1000000 * k2 + 4 / 3 * (1000000 * Gd)) / r2) with ((k2 + 4/3*Gd) / r2 * 1000^2) by (field; lra).
  replace (1000000 * Gd / r2) with (Gd / r2 * 1000^2) by (field; lra).
  rewrite !fsqrt_fin by lra. rewrite !sqrt_mult by lra. rewrite !sqrt_pow2 by lra. fls. reflexivity.
Qed.
End SubG.

(** ** Brie *)
Section Brie.
Variables (m : mode) (Kw Kg : R).
Lemma Brie_eval S e : 0 < S -> Fluid_Brie m (Fin Kw) (Fin Kg) (Fin S) (Fin e) = Ret (Fin ((Kw - Kg) * Rpower S e + Kg)).
Proof. intros. unfold Fluid_Brie. fls. reflexivity. Qed.
Lemma Brie_zero e : 0 < e -> Fluid_Brie m (Fin Kw) (Fin Kg) (Fin 0) (Fin e) = Ret (Fin Kg).
Proof. intros. unfold Fluid_Brie. rewrite fpow_zero by auto. fls. reteq. ring. Qed.
Definition bS S e := if Rlt_dec 0 S then Rpower S e else 0.
Lemma Brie_any S e : 0 <= S -> 0 < e -> Fluid_Brie m (Fin Kw) (Fin Kg) (Fin S) (Fin e) = Ret (Fin ((Kw - Kg) * bS S e + Kg)).
Proof.
  intros H He. unfold bS. destruct (Rlt_dec 0 S).
  - apply Brie_eval; auto.
  - replace S with 0 by lra. rewrite Brie_zero by auto. reteq. ring.
Qed.
Lemma bS_1 e : bS 1 e = 1.
Proof. unfold bS. destruct (Rlt_dec 0 1); [|lra]. unfold Rpower. rewrite ln_1, Rmult_0_r. apply exp_0. Qed.
Lemma bS_id S : 0 <= S -> bS S 1 = S.
Proof. intros. unfold bS. destruct (Rlt_dec 0 S); [apply Rpower_1; auto|lra]. Qed.
Lemma bS_mono S S' e : 0 <= S -> S <= S' -> 0 < e -> bS S e <= bS S' e.
Proof.
  intros H1 H2 He. unfold bS. destruct (Rlt_dec 0 S), (Rlt_dec 0 S'); try lra.
  - apply Rle_Rpower_l; lra.
  - left. apply exp_pos.
Qed.
Lemma bS_strict S S' e : 0 <= S -> S < S' -> 0 < e -> bS S e < bS S' e.
Proof.
  intros H1 H2 He. unfold bS. destruct (Rlt_dec 0 S), (Rlt_dec 0 S'); try lra.
  - apply Rlt_Rpower_l; lra.
  - apply exp_pos.
Qed.
Lemma bS_e S e e' : 0 <= S <= 1 -> e <= e' -> bS S e' <= bS S e.
Proof.
  intros H He. unfold bS. destruct (Rlt_dec 0 S); [|lra]. unfold Rpower.
  destruct (Req_EM_T S 1) as [->|N]; [rewrite ln_1, !Rmult_0_r; lra|].
  assert (S < 1) by (destruct H as [_ [|]]; [lra|congruence]).
  assert (ln S < 0) by (rewrite <- ln_1; apply ln_increasing; lra).
  destruct He as [He | ->]; [|lra]. left. apply exp_increasing. nra.
Qed.
Lemma bS_nonneg S e : 0 <= bS S e.
Proof. unfold bS. destruct (Rlt_dec 0 S); [left; apply exp_pos|lra]. Qed.
Lemma Brie_facts e : 0 < e -> Kg <= Kw -> exists B : R -> R,
  (forall S, 0 <= S -> Fluid_Brie m (Fin Kw) (Fin Kg) (Fin S) (Fin e) = Ret (Fin (B S))) /\
  B 0 = Kg /\ B 1 = Kw /\ (forall S S', 0 <= S -> S <= S' -> B S <= B S') /\
  (Kg < Kw -> forall S S', 0 <= S -> S < S' -> B S < B S') /\
  (forall S, 0 <= S <= 1 -> Kg <= B S <= Kw) /\ (e = 1 -> forall S, 0 <= S -> B S = S * Kw + (1 - S) * Kg) /\
  (1 <= e -> forall S, 0 <= S <= 1 -> B S <= S * Kw + (1 - S) * Kg) /\
  (Kg < Kw -> forall S, 0 < S -> ln ((B S - Kg) / (Kw - Kg)) = e * ln S).
Proof.
  intros He HK. exists (fun S => (Kw - Kg) * bS S e + Kg).
  split; [intros; apply Brie_any; auto|].
  split; [unfold bS; destruct (Rlt_dec 0 0); [lra|ring]|].
  split; [rewrite bS_1; ring|].
  split. { intros S S' A B. assert (X := bS_mono S S' e A B He). nra. }
  split. { intros HL S S' A B. assert (X := bS_strict S S' e A B He). nra. }
  split. { intros S HS. assert (X := bS_mono S 1 e ltac:(lra) ltac:(lra) He). rewrite bS_1 in X. assert (Y := bS_nonneg S e). split; nra. }
  split. { intros -> S HS. rewrite bS_id by auto. ring. }
  split. { intros H1 S HS. assert (X := bS_e S 1 e HS H1). rewrite bS_id in X by lra. nra. }
  intros HL S HS. replace (((Kw - Kg) * bS S e + Kg - Kg) / (Kw - Kg)) with (bS S e) by (field; lra).
  unfold bS. destruct (Rlt_dec 0 S); [|lra]. unfold Rpower. apply ln_exp.
Qed.
End Brie.
